(** C70: seeds, reseeding and reproducible faults. *)
From Coq Require Import String Ascii List ZArith QArith Bool Arith Lia Lqa Permutation.
From Verif Require Import Base BaseFacts Frame Pipeline SpecWorkflow P_Stages P_Focus Seed.
Import ListNotations.
Open Scope nat_scope.
Open Scope string_scope.
Open Scope list_scope.

(** ** Specification *)

(** What numpy promises: as many numbers as asked for, within the bounds. *)
Definition legal_generator {R} (rg : generator R) : Prop :=
  (forall s q n, length (snd (r_flags rg s q n)) = n) /\
  (forall s a b n, n = 0 \/ (a < b)%Z ->
     length (snd (r_ints rg s a b n)) = n /\ forall x, In x (snd (r_ints rg s a b n)) -> (a <= x < b)%Z).

(** The faults [d] are those numpy draws for [n] rows from the state [s]: a 0 or 1 for each row,
    then as many begins as there are 1, then as many durations. *)
Definition drawn_from {R} (rg : generator R) (freq : Q) (dmin dmax : Z) (n : nat) (s : R) (d : draw) : Prop :=
  exists s1 s2 s3 k, r_flags rg s freq n = (s1, d_flags d) /\
    k = length (filter (fun b => b) (d_flags d)) /\
    r_ints rg s1 0 (Z.of_nat n) k = (s2, d_begin d) /\ r_ints rg s2 dmin dmax k = (s3, d_duration d).

(** Every Fault of the pipeline has a seed other than 0. *)
Definition all_seeded (sts : list sstage) : Prop :=
  forall st loss freq dmin dmax, In st sts -> st_body (ss_stage st) = BFault loss freq dmin dmax ->
    exists z, ss_seed st = Some z /\ z <> 0%Z.

(** ** The state before *)
Lemma call_before {R} (rg : generator R) strict h st e i s s' fh a :
  seeded_call rg strict h st e i s fh a = seeded_call rg strict h st e i s' fh a.
Proof. reflexivity. Qed.

Lemma loop_before {R} (rg : generator R) strict h sts e i s s' fh a :
  snd (seeded_loop rg strict h sts e i s fh a) = snd (seeded_loop rg strict h sts e i s' fh a) /\
  (sts <> [] -> seeded_loop rg strict h sts e i s fh a = seeded_loop rg strict h sts e i s' fh a).
Proof.
  destruct sts as [| st more]; [split; [reflexivity | congruence] |].
  cbn [seeded_loop]. rewrite (call_before rg strict h st (e i) i s s'). split; reflexivity.
Qed.

(** Seeding the generator before the call changes nothing: each stage seeds it again from the
    entropy of the system. Nor does the seed of the user last after the call. *)
Theorem C70_before_is_lost {R} (rg : generator R) strict h p sts e s s' fh a :
  snd (seeded_run rg strict h p sts e s fh a) = snd (seeded_run rg strict h p sts e s' fh a) /\
  (sts <> [] -> snd (snd (seeded_run rg strict h p sts e s fh a)) <> PipelineRefused ->
   fst (seeded_run rg strict h p sts e s fh a) = fst (seeded_run rg strict h p sts e s' fh a)).
Proof.
  unfold seeded_run. destruct (computable h p (get_names (standardize (fget fh a)))); simpl; [| split; [reflexivity | congruence]].
  destruct (loop_before rg strict h sts e 0 s s' (upd_nth a (fun _ => AMulti (standardize (fget fh a))) fh) a) as (E1 & E2).
  split; [exact E1 |]. intros N _. rewrite (E2 N). reflexivity.
Qed.

(** ** With a seed *)
Lemma draw_seeded {R} (rg : generator R) z freq dmin dmax n s s' : z <> 0%Z ->
  draw_scenario rg (Some z) freq dmin dmax n s = draw_scenario rg (Some z) freq dmin dmax n s'.
Proof. intros N. unfold draw_scenario, truthy. apply Z.eqb_neq in N. rewrite N. reflexivity. Qed.

Lemma draws_seeded {R} (rg : generator R) z freq dmin dmax n scns s s' : z <> 0%Z ->
  snd (draw_scenarios rg (Some z) freq dmin dmax n scns s) = snd (draw_scenarios rg (Some z) freq dmin dmax n scns s').
Proof.
  intros N. destruct scns as [| scn more]; [reflexivity |]. cbn [draw_scenarios].
  rewrite (draw_seeded rg z freq dmin dmax n s s' N). reflexivity.
Qed.

Lemma process_seeded {R} (rg : generator R) strict h st s s' f : all_seeded [st] ->
  snd (seeded_process rg strict h st s f) = snd (seeded_process rg strict h st s' f).
Proof.
  intros H. unfold seeded_process. destruct (st_body (ss_stage st)) as [| | | | loss freq dmin dmax | |] eqn:B; try reflexivity.
  destruct (H st _ _ _ _ (or_introl eq_refl) B) as (z & Ez & Nz). rewrite Ez.
  pose proof (draws_seeded rg z freq dmin dmax (length (f_index f)) (get_scenarios f) s s' Nz) as E.
  destruct (draw_scenarios rg (Some z) freq dmin dmax (length (f_index f)) (get_scenarios f) s) as [x d].
  destruct (draw_scenarios rg (Some z) freq dmin dmax (length (f_index f)) (get_scenarios f) s') as [x' d'].
  simpl in E. subst d'. simpl. destruct (z =? 0)%Z; [reflexivity |]. destruct (seed_ok z); reflexivity.
Qed.

Lemma call_seeded {R} (rg : generator R) strict h st e e' i s s' fh a : all_seeded [st] ->
  snd (seeded_call rg strict h st e i s fh a) = snd (seeded_call rg strict h st e' i s' fh a).
Proof.
  intros H. unfold seeded_call. destruct (computable h (st_plug (ss_stage st)) (get_names (standardize (fget fh a)))); [| reflexivity].
  simpl. pose proof (process_seeded rg strict h st (r_seed rg e) (r_seed rg e') (standardize (fget fh a)) H) as E.
  destruct (seeded_process rg strict h st (r_seed rg e) (standardize (fget fh a))) as [x [f1 r1]].
  destruct (seeded_process rg strict h st (r_seed rg e') (standardize (fget fh a))) as [y [f2 r2]].
  simpl in E. injection E as -> ->. reflexivity.
Qed.

Lemma loop_seeded {R} (rg : generator R) strict h sts e e' : all_seeded sts -> forall i s s' fh a,
  snd (seeded_loop rg strict h sts e i s fh a) = snd (seeded_loop rg strict h sts e' i s' fh a).
Proof.
  induction sts as [| st more IH]; intros H i s s' fh a; [reflexivity |]. cbn [seeded_loop].
  assert (H1 : all_seeded [st]) by (intros x l q m n [<- | []]; apply H; left; reflexivity).
  assert (H2 : all_seeded more) by (intros x l q m n J; apply H; right; exact J).
  pose proof (call_seeded rg strict h st (e i) (e' i) i s s' (fh ++ [fget fh a]) (length fh) H1) as E.
  destruct (seeded_call rg strict h st (e i) i s (fh ++ [fget fh a]) (length fh)) as [x [fh1 o1]].
  destruct (seeded_call rg strict h st (e' i) i s' (fh ++ [fget fh a]) (length fh)) as [y [fh2 o2]].
  simpl in E. injection E as -> ->. destruct o2; try reflexivity. apply IH. exact H2.
Qed.

(** C70 for seeds other than 0: the same frames and the same outcome, whatever the entropy of
    the system and whatever was drawn before. *)
Theorem C70_reproducible_partial {R} (rg : generator R) strict h p sts e e' s s' fh a : all_seeded sts ->
  snd (seeded_run rg strict h p sts e s fh a) = snd (seeded_run rg strict h p sts e' s' fh a).
Proof.
  intros H. unfold seeded_run. destruct (computable h p (get_names (standardize (fget fh a)))); [| reflexivity].
  apply loop_seeded. exact H.
Qed.

(** ** The runs of Pipeline.v *)
Definition seeds_ok (sts : list sstage) : Prop :=
  forall st z, In st sts -> ss_seed st = Some z -> (0 <= z < 4294967296)%Z.

Lemma call_is_call {R} (rg : generator R) strict h st e i s fh a : seeds_ok [st] ->
  exists d, snd (seeded_call rg strict h st e i s fh a) = stage_call strict h (ss_stage st) d i fh a.
Proof.
  intros H. set (f := standardize (fget fh a)).
  assert (exists d, snd (seeded_process rg strict h st (r_seed rg e) f) = process strict h (ss_stage st) d f) as (d & Ed).
  { unfold seeded_process. destruct (st_body (ss_stage st)) as [| | | | loss freq dmin dmax | |]; try (exists (fun _ => Draw [] [] []); reflexivity).
    destruct (draw_scenarios rg (ss_seed st) freq dmin dmax (length (f_index f)) (get_scenarios f) (r_seed rg e)) as [x d].
    exists d. assert (match truthy (ss_seed st) with Some z => seed_ok z | None => true end = true) as ->; [| reflexivity].
    destruct (ss_seed st) as [z |] eqn:Ez; [| reflexivity]. simpl. destruct (z =? 0)%Z; [reflexivity |].
    pose proof (H st z (or_introl eq_refl) Ez). unfold seed_ok. apply andb_true_iff. rewrite Z.leb_le, Z.ltb_lt. exact H0. }
  exists d. unfold seeded_call, stage_call. fold f. destruct (computable h (st_plug (ss_stage st)) (get_names f)); [| reflexivity].
  simpl. rewrite <- Ed. destruct (seeded_process rg strict h st (r_seed rg e) f) as [x [f' r]]. reflexivity.
Qed.

Lemma loop_is_loop {R} (rg : generator R) strict h sts e : seeds_ok sts -> forall i s fh a,
  exists d, snd (seeded_loop rg strict h sts e i s fh a) = stage_loop strict h (map ss_stage sts) d i fh a.
Proof.
  induction sts as [| st more IH]; intros H i s fh a; [exists (fun _ _ => Draw [] [] []); reflexivity |].
  assert (H1 : seeds_ok [st]) by (intros x z [<- | []]; apply H; left; reflexivity).
  assert (H2 : seeds_ok more) by (intros x z J; apply H; right; exact J).
  destruct (call_is_call rg strict h st (e i) i s (fh ++ [fget fh a]) (length fh) H1) as (d & Ed).
  cbn [seeded_loop map stage_loop].
  destruct (seeded_call rg strict h st (e i) i s (fh ++ [fget fh a]) (length fh)) as [s' [fh' o]] eqn:Ec. simpl in Ed.
  assert (Ext : forall (d1 d2 : nat -> label -> draw) l j x y, (forall k, j <= k -> d1 k = d2 k) -> stage_loop strict h l d1 j x y = stage_loop strict h l d2 j x y).
  { intros d1 d2 l. induction l as [| t m IHl]; intros j x y Hd; [reflexivity |]. cbn [stage_loop]. rewrite (Hd j) by lia.
    destruct (stage_call strict h t (d2 j) j (x ++ [fget x y]) (length x)) as [u [v | | |]]; try reflexivity. apply IHl. intros k Hk. apply Hd. lia. }
  destruct o as [a' | | |].
  - destruct (IH H2 (S i) s' fh' a') as (d' & Ed'). exists (fun k => if Nat.eqb k i then d else d' k).
    rewrite Nat.eqb_refl, <- Ed, Ed'. apply Ext. intros k Hk. destruct (Nat.eqb_spec k i); [lia | reflexivity].
  - exists (fun _ => d). rewrite <- Ed. reflexivity.
  - exists (fun _ => d). rewrite <- Ed. reflexivity.
  - exists (fun _ => d). rewrite <- Ed. reflexivity.
Qed.

(** With seeds numpy accepts, a run is one of those of Pipeline.v: what is proved there for all
    draws holds for it. *)
Theorem C70_run_is_a_run {R} (rg : generator R) strict h p sts e s fh a : seeds_ok sts ->
  exists d, snd (seeded_run rg strict h p sts e s fh a) = call_plug strict h p (map ss_stage sts) d fh a.
Proof.
  intros H. unfold seeded_run, call_plug. destruct (computable h p (get_names (standardize (fget fh a)))); simpl.
  - apply loop_is_loop. exact H.
  - exists (fun _ _ => Draw [] [] []). reflexivity.
Qed.

(** ** The faults *)
Lemma draw_legal {R} (rg : generator R) seed freq dmin dmax n s : legal_generator rg -> (dmin < dmax)%Z ->
  legal_draw n dmin dmax (snd (draw_scenario rg seed freq dmin dmax n s)).
Proof.
  intros (L1 & L2) D. unfold draw_scenario.
  set (s0 := match truthy seed with Some z => r_seed rg z | None => s end).
  pose proof (L1 s0 freq n) as A1. destruct (r_flags rg s0 freq n) as [s1 fl]. simpl in A1.
  assert (count_true fl <= n) by (unfold count_true; rewrite <- A1; clear; induction fl as [| [] l IH]; simpl; lia).
  destruct (L2 s1 0%Z (Z.of_nat n) (count_true fl) ltac:(lia)) as (B1 & B2).
  destruct (r_ints rg s1 0 (Z.of_nat n) (count_true fl)) as [s2 bs]. simpl in B1, B2.
  destruct (L2 s2 dmin dmax (count_true fl) (or_intror D)) as (C1 & C2).
  destruct (r_ints rg s2 dmin dmax (count_true fl)) as [s3 ds]. simpl in C1, C2. simpl.
  split; [exact A1 |]. split; [exact B1 |]. split; [exact C1 |]. split; [exact B2 | exact C2].
Qed.

Lemma draw_drawn {R} (rg : generator R) seed freq dmin dmax n s :
  drawn_from rg freq dmin dmax n (match truthy seed with Some z => r_seed rg z | None => s end) (snd (draw_scenario rg seed freq dmin dmax n s)).
Proof.
  unfold draw_scenario, drawn_from. set (s0 := match truthy seed with Some z => r_seed rg z | None => s end).
  destruct (r_flags rg s0 freq n) as [s1 fl]. destruct (r_ints rg s1 0 (Z.of_nat n) (count_true fl)) as [s2 bs] eqn:E2.
  destruct (r_ints rg s2 dmin dmax (count_true fl)) as [s3 ds] eqn:E3. simpl.
  exists s1, s2, s3, (count_true fl). auto.
Qed.

Lemma draws_drawn {R} (rg : generator R) seed freq dmin dmax n scns : forall s scn, In scn scns ->
  exists s0, drawn_from rg freq dmin dmax n s0 (snd (draw_scenarios rg seed freq dmin dmax n scns s) scn).
Proof.
  induction scns as [| x more IH]; intros s scn J; [contradiction |]. cbn [draw_scenarios].
  pose proof (draw_drawn rg seed freq dmin dmax n s) as G.
  destruct (draw_scenario rg seed freq dmin dmax n s) as [s1 d]. specialize (IH s1).
  destruct (draw_scenarios rg seed freq dmin dmax n more s1) as [s2 ds]. simpl in G, IH |- *.
  destruct (label_eqb scn x) eqn:E; [eexists; exact G |]. apply IH. destruct J as [-> | J]; [| exact J].
  rewrite (proj2 (label_eqb_eq scn scn) eq_refl) in E. discriminate.
Qed.

Lemma draws_legal {R} (rg : generator R) seed freq dmin dmax n scns : legal_generator rg -> (dmin < dmax)%Z -> forall s scn, In scn scns ->
  legal_draw n dmin dmax (snd (draw_scenarios rg seed freq dmin dmax n scns s) scn).
Proof.
  intros L D. induction scns as [| x more IH]; intros s scn J; [contradiction |]. cbn [draw_scenarios].
  pose proof (draw_legal rg seed freq dmin dmax n s L D) as G.
  destruct (draw_scenario rg seed freq dmin dmax n s) as [s1 d]. specialize (IH s1).
  destruct (draw_scenarios rg seed freq dmin dmax n more s1) as [s2 ds]. simpl in G, IH |- *.
  destruct (label_eqb scn x) eqn:E; [exact G |]. apply IH. destruct J as [-> | J]; [| exact J].
  rewrite (proj2 (label_eqb_eq scn scn) eq_refl) in E. discriminate.
Qed.

Lemma draws_same {R} (rg : generator R) z freq dmin dmax n scns d0 : z <> 0%Z -> (forall s, snd (draw_scenario rg (Some z) freq dmin dmax n s) = d0) ->
  forall s scn, In scn scns -> snd (draw_scenarios rg (Some z) freq dmin dmax n scns s) scn = d0.
Proof.
  intros N H0. induction scns as [| x more IH]; intros s scn J; [contradiction |]. cbn [draw_scenarios].
  specialize (H0 s). destruct (draw_scenario rg (Some z) freq dmin dmax n s) as [s1 d]. specialize (IH s1).
  destruct (draw_scenarios rg (Some z) freq dmin dmax n more s1) as [s2 ds]. simpl in H0, IH |- *.
  destruct (label_eqb scn x) eqn:E; [exact H0 |]. apply IH. destruct J as [-> | J]; [| exact J].
  rewrite (proj2 (label_eqb_eq scn scn) eq_refl) in E. discriminate.
Qed.

(** The frames on which C52 says what Fault does. *)
Definition fault_frame (outs : list string) (f : frame) : Prop :=
  plain_rows f /\ frame_ok f /\ NoDup (keys f) /\
  forall scn m, In (scn, m) (keys f) -> forall n, In (scn, n) (keys f) <-> In n outs.

(** With a seed other than 0, one draw serves all scenarios, all frames with as many rows, all
    losses and all calls: the scenarios do not get faults of their own. *)
Theorem C70_same_faults_everywhere {R} (rg : generator R) z freq dmin dmax n :
  legal_generator rg -> (0 < z < 4294967296)%Z -> (0 <= freq)%Q -> (freq <= 1)%Q -> (0 <= dmin)%Z -> (dmin < dmax)%Z ->
  exists d0, legal_draw n dmin dmax d0 /\ drawn_from rg freq dmin dmax n (r_seed rg z) d0 /\
    forall strict h st f s loss, ss_seed st = Some z -> st_body (ss_stage st) = BFault loss freq dmin dmax ->
      let outs := lget h (p_out (st_plug (ss_stage st))) in
      NoDup outs -> In "quantity" outs -> fault_frame outs f -> length (f_index f) = n ->
      exists g, snd (snd (seeded_process rg strict h st s f)) = Ok (Some (AMulti g)) /\
        f_index g = f_index f /\ NoDup (keys g) /\ Permutation (keys g) (keys f) /\
        forall scn o c, In ((scn, o), c) (f_cols f) ->
          exists c', In ((scn, o), c') (f_cols g) /\
            (o <> "quantity" -> c' = c) /\ (o = "quantity" -> faulted loss d0 c c').
Proof.
  intros L Z0 F0 F1 D0 D1. assert (Nz : z <> 0%Z) by lia.
  set (d0 := snd (draw_scenario rg (Some z) freq dmin dmax n (r_seed rg 0))).
  exists d0. split; [apply draw_legal; assumption |].
  split.
  { pose proof (draw_drawn rg (Some z) freq dmin dmax n (r_seed rg 0)) as H. simpl truthy in H. rewrite (proj2 (Z.eqb_neq z 0) Nz) in H. exact H. }
  intros strict h st f s loss Es B outs No Iq (P1 & P2 & P3 & P4) Hn.
  unfold seeded_process. rewrite B, Es, Hn.
  assert (Hd : forall scn, In scn (get_scenarios f) -> snd (draw_scenarios rg (Some z) freq dmin dmax n (get_scenarios f) s) scn = d0).
  { intros scn J. apply draws_same; auto. intros s'. unfold d0. f_equal. apply draw_seeded. exact Nz. }
  destruct (draw_scenarios rg (Some z) freq dmin dmax n (get_scenarios f) s) as [x d]. simpl in Hd. simpl truthy.
  rewrite (proj2 (Z.eqb_neq z 0) Nz).
  assert (seed_ok z = true) as -> by (unfold seed_ok; apply andb_true_iff; rewrite Z.leb_le, Z.ltb_lt; lia).
  cbn [snd].
  destruct (C52_fault_partial strict h (ss_stage st) d f loss freq dmin dmax B F0 F1 D0 D1 No Iq P1 P2 P3 P4) as (g & G1 & G2 & G3 & G4 & G5).
  { intros scn J. rewrite Hn, (Hd scn J). apply draw_legal; assumption. }
  exists g. split; [exact G1 |]. split; [exact G2 |]. split; [exact G3 |]. split; [exact G4 |].
  intros scn o c J. destruct (G5 scn o c J) as (c' & K1 & K2 & K3). exists c'. split; [exact K1 |]. split; [exact K2 |].
  intros Eo. rewrite <- (Hd scn); [exact (K3 Eo) |]. apply In_get_scenarios. exists o. unfold keys. apply (in_map fst) in J. exact J.
Qed.

(** Whatever the seed, every scenario gets legal faults. *)
Theorem C70_faults {R} (rg : generator R) strict h st s f loss freq dmin dmax :
  legal_generator rg -> (0 <= freq)%Q -> (freq <= 1)%Q -> (0 <= dmin)%Z -> (dmin < dmax)%Z ->
  st_body (ss_stage st) = BFault loss freq dmin dmax -> seeds_ok [st] ->
  let outs := lget h (p_out (st_plug (ss_stage st))) in
  NoDup outs -> In "quantity" outs -> fault_frame outs f ->
  exists g, snd (snd (seeded_process rg strict h st s f)) = Ok (Some (AMulti g)) /\
    f_index g = f_index f /\ NoDup (keys g) /\ Permutation (keys g) (keys f) /\
    forall scn, In scn (get_scenarios f) -> exists d0, legal_draw (length (f_index f)) dmin dmax d0 /\
      (exists s0, drawn_from rg freq dmin dmax (length (f_index f)) s0 d0) /\
      forall o c, In ((scn, o), c) (f_cols f) ->
        exists c', In ((scn, o), c') (f_cols g) /\
          (o <> "quantity" -> c' = c) /\ (o = "quantity" -> faulted loss d0 c c').
Proof.
  intros L F0 F1 D0 D1 B Ok' outs No Iq (P1 & P2 & P3 & P4). unfold seeded_process. rewrite B.
  pose proof (draws_legal rg (ss_seed st) freq dmin dmax (length (f_index f)) (get_scenarios f) L D1 s) as Hd.
  pose proof (draws_drawn rg (ss_seed st) freq dmin dmax (length (f_index f)) (get_scenarios f) s) as Hr.
  destruct (draw_scenarios rg (ss_seed st) freq dmin dmax (length (f_index f)) (get_scenarios f) s) as [x d]. simpl in Hd, Hr.
  assert (match truthy (ss_seed st) with Some z => seed_ok z | None => true end = true) as ->.
  { destruct (ss_seed st) as [z |] eqn:Ez; [| reflexivity]. simpl. destruct (z =? 0)%Z; [reflexivity |].
    pose proof (Ok' st z (or_introl eq_refl) Ez). unfold seed_ok. apply andb_true_iff. rewrite Z.leb_le, Z.ltb_lt. exact H. }
  cbn [snd].
  destruct (C52_fault_partial strict h (ss_stage st) d f loss freq dmin dmax B F0 F1 D0 D1 No Iq P1 P2 P3 P4) as (g & G1 & G2 & G3 & G4 & G5).
  { intros scn J. apply Hd. exact J. }
  exists g. split; [exact G1 |]. split; [exact G2 |]. split; [exact G3 |]. split; [exact G4 |].
  intros scn J. exists (d scn). split; [apply Hd; exact J |]. split; [apply Hr; exact J |]. intros o c K. apply G5. exact K.
Qed.

(** ** A generator counting its calls *)
Definition counting : generator Z :=
  Generator (fun z => z)
    (fun s _ n => ((s + 1)%Z, map (fun k => Z.even (s + Z.of_nat k)) (seq 0 n)))
    (fun s a b n => ((s + 1)%Z, map (fun k => (a + (s + Z.of_nat k) mod (b - a))%Z) (seq 0 n))).
Lemma counting_legal : legal_generator counting.
Proof.
  split.
  - intros s q n. simpl. rewrite map_length, seq_length. reflexivity.
  - intros s a b n H. simpl. split; [rewrite map_length, seq_length; reflexivity |].
    intros x J. apply in_map_iff in J. destruct J as (k & <- & J). apply in_seq in J. destruct H as [-> | H]; [lia |].
    pose proof (Z.mod_pos_bound (s + Z.of_nat k) (b - a)). lia.
Qed.

Definition twins : frame :=
  Frame (range 4) [((LInt 0, "quantity"), [Some 100%Q; Some 100%Q; Some 100%Q; Some 100%Q]);
                   ((LInt 1, "quantity"), [Some 100%Q; Some 100%Q; Some 100%Q; Some 100%Q])].
Definition fault_stage (seed : option Z) : sstage := SStage (Stage (Plug false 0 1) (BFault 20 (1 # 10) 2 6)) seed.
Definition q_lists : lheap := [["quantity"]; ["quantity"]].

Lemma twins_frame : fault_frame (lget q_lists 1) twins.
Proof.
  split; [reflexivity |].
  split; [intros kc J; simpl in J; destruct J as [<- | [<- | []]]; reflexivity |].
  split; [repeat constructor; simpl; intuition discriminate |].
  intros scn m J n. simpl in J |- *. destruct J as [[= <- <-] | [[= <- <-] | []]]; split; intros K; intuition (try congruence); subst; auto.
Qed.

Definition cells (g : anyframe) : list (list (option Q)) :=
  match g with AMulti g => map (fun kc => map (option_map Qred) (snd kc)) (f_cols g) | AFlat _ => [] end.
Definition outcome_cells {R} (r : R * (fheap * outcome)) : list (list (option Q)) :=
  match snd (snd r) with Returned a => cells (fget (fst (snd r)) a) | _ => [] end.


Example C70_example :
  legal_generator counting /\ fault_frame (lget q_lists 1) twins /\ all_seeded [fault_stage (Some 7%Z)] /\ seeds_ok [fault_stage (Some 7%Z)] /\
  (forall e, outcome_cells (seeded_run counting true q_lists (Plug false 0 1) [fault_stage (Some 7%Z)] e 3%Z [AMulti twins] 0) =
     [[Some 80%Q; Some 60%Q; Some 60%Q; Some 80%Q]; [Some 80%Q; Some 60%Q; Some 60%Q; Some 80%Q]]) /\
  (forall e, outcome_cells (seeded_run counting true q_lists (Plug false 0 1) [fault_stage (Some 7%Z); fault_stage (Some 7%Z)] e 3%Z [AMulti twins] 0) =
     [[Some 60%Q; Some 20%Q; Some 20%Q; Some 60%Q]; [Some 60%Q; Some 20%Q; Some 20%Q; Some 60%Q]]).
Proof.
  split; [exact counting_legal |]. split; [exact twins_frame |].
  split; [intros st l q m n [<- | []] _; exists 7%Z; split; [reflexivity | discriminate] |].
  split; [intros st z [<- | []] [= <-]; lia |].
  split; intros e; vm_compute; reflexivity.
Qed.

(** C70 is false for the seed 0, which is taken for no seed: another entropy, other faults. *)
Theorem C70_seed_zero_refuted :
  exists (rg : generator Z) strict h p st e e' s fh a, legal_generator rg /\ ss_seed st = Some 0%Z /\
    (forall i, (0 <= e i < 4294967296)%Z /\ (0 <= e' i < 4294967296)%Z) /\
    outcome_cells (seeded_run rg strict h p [st] e s fh a) = [[Some 80%Q; Some 60%Q; Some 60%Q; Some 80%Q]; [Some 80%Q; Some 80%Q; Some 80%Q; Some 80%Q]] /\
    outcome_cells (seeded_run rg strict h p [st] e' s fh a) <> outcome_cells (seeded_run rg strict h p [st] e s fh a).
Proof.
  exists counting, true, q_lists, (Plug false 0 1), (fault_stage (Some 0%Z)), (fun _ => 7%Z), (fun _ => 8%Z), 3%Z, [AMulti twins], 0.
  split; [exact counting_legal |]. split; [reflexivity |]. split; [intros; lia |].
  split; [vm_compute; reflexivity |]. vm_compute. discriminate.
Qed.

(** The faults of the scenarios are not drawn one after the other when there is a seed: two
    equal scenarios stay equal, where without seed the same generator tells them apart. *)
Theorem C70_own_faults_refuted :
  exists (rg : generator Z) strict h p st e s fh a, legal_generator rg /\ ss_seed st = None /\
    (exists x y, outcome_cells (seeded_run rg strict h p [st] e s fh a) = [x; y] /\ x <> y) /\
    exists x, outcome_cells (seeded_run rg strict h p [SStage (ss_stage st) (Some 7%Z)] e s fh a) = [x; x].
Proof.
  exists counting, true, q_lists, (Plug false 0 1), (fault_stage None), (fun _ => 7%Z), 3%Z, [AMulti twins], 0.
  split; [exact counting_legal |]. split; [reflexivity |].
  split; [do 2 eexists; split; [vm_compute; reflexivity | discriminate] |].
  eexists. vm_compute. reflexivity.
Qed.

(** A negative seed, or one of more than 32 bits, is found out only when the stage runs. *)
Theorem C70_seed_out_of_range {R} (rg : generator R) strict h st s f z loss freq dmin dmax :
  ss_seed st = Some z -> ~ (0 <= z < 4294967296)%Z -> st_body (ss_stage st) = BFault loss freq dmin dmax ->
  f_cols f <> [] -> snd (snd (seeded_process rg strict h st s f)) = Err ValueError.
Proof.
  intros Ez Nz B Nf. unfold seeded_process. rewrite B, Ez.
  destruct (draw_scenarios rg (Some z) freq dmin dmax (length (f_index f)) (get_scenarios f) s) as [x d].
  simpl truthy. destruct (Z.eqb_spec z 0) as [-> | _]; [exfalso; lia |].
  assert (seed_ok z = false) as ->.
  { unfold seed_ok. destruct (Z.leb_spec 0 z), (Z.ltb_spec z 4294967296); try reflexivity. exfalso. lia. }
  cbn [snd process st_body]. unfold returns, focus.
  destruct (get_scenarios f) as [| scn more] eqn:G; [| reflexivity].
  exfalso. destruct (f_cols f) as [| [[scn n] c] r] eqn:C; [congruence |].
  assert (J : In scn (get_scenarios f)) by (apply In_get_scenarios; exists n; unfold keys; rewrite C; simpl; auto).
  rewrite G in J. exact J.
Qed.

Example C70_seed_out_of_range_example :
  f_cols twins <> [] /\ snd (snd (seeded_process counting true q_lists (fault_stage (Some (-1)%Z)) 3%Z twins)) = Err ValueError.
Proof. split; [discriminate | vm_compute; reflexivity]. Qed.

Print Assumptions C70_reproducible_partial.
Print Assumptions C70_before_is_lost.
Print Assumptions C70_same_faults_everywhere.
Print Assumptions C70_faults.
Print Assumptions C70_run_is_a_run.
Print Assumptions C70_seed_out_of_range.
Print Assumptions C70_seed_zero_refuted.
Print Assumptions C70_own_faults_refuted.
