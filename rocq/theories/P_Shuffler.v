(** C54, C55: the shuffler. *)
From Coq Require Import String Ascii List ZArith QArith Bool Arith Lia Lqa Permutation.
From Verif Require QueryFacts.
From Verif Require Import Base BaseFacts Frame Pipeline SpecWorkflow P_Plugs P_Stages P_Focus P_Run Shuffler SpecShuffler.
Import ListNotations.
Open Scope nat_scope.
Open Scope string_scope.
Open Scope list_scope.

(** ** One timeline *)
Lemma pick_In data z r : pick data z = Ok r -> In r data.
Proof.
  unfold pick. set (k := if (z <? 0)%Z then (z + Z.of_nat (length data))%Z else z).
  destruct (k <? 0)%Z; [discriminate |]. destruct (nth_error data (Z.to_nat k)) as [x |] eqn:E; [| discriminate].
  intros [= <-]. eapply nth_error_In. exact E.
Qed.
Lemma pick_ok data z : (0 <= z < Z.of_nat (length data))%Z -> exists r, pick data z = Ok r.
Proof.
  intros L. unfold pick. destruct (Z.ltb_spec z 0) as [K | _]; [lia |]. destruct (Z.ltb_spec z 0) as [K | _]; [lia |].
  destruct (nth_error data (Z.to_nat z)) as [x |] eqn:E; [exists x; reflexivity |]. apply nth_error_None in E. lia.
Qed.

Lemma sample_spec {R} (smp : sampler R) g data nb rows : snd (sample smp g data nb) = Got rows ->
  exists l, data = Got l /\ (forall r, In r rows -> In r l) /\ (legal_sampler smp -> l <> [] -> length rows = nb).
Proof.
  unfold sample. destruct data as [l | f]; [| discriminate]. destruct (smp g (length l) nb) as [g' [ix | e]] eqn:S; [| discriminate].
  destruct (mapM (pick l) ix) as [m | e] eqn:M; [| discriminate]. intros [= <-]. exists l. split; [reflexivity |]. split.
  - intros r I. destruct (mapM_In _ _ _ _ M I) as (z & _ & P). eapply pick_In. exact P.
  - intros Lg NE. destruct (Lg g (length l) nb) as (g2 & ix2 & E & L & _); [destruct l; simpl; [congruence | lia] |].
    rewrite S in E. injection E as <- <-. apply mapM_ok_length in M. congruence.
Qed.

Lemma sample_legal {R} (smp : sampler R) g l nb : legal_sampler smp -> l <> [] -> exists rows, snd (sample smp g (Got l) nb) = Got rows.
Proof.
  intros Lg NE. destruct (Lg g (length l) nb) as (g2 & ix & E & L & B); [destruct l; simpl; [congruence | lia] |].
  unfold sample. rewrite E.
  assert (M : exists m, mapM (pick l) ix = Ok m).
  { clear E L. induction ix as [| z ix IH]; [exists []; reflexivity |].
    destruct (pick_ok l z (B z (or_introl eq_refl))) as (r & P). destruct IH as (m & M); [intros y I; apply B; right; exact I |].
    exists (r :: m). cbn [mapM]. rewrite P. cbn [rbind]. rewrite M. reflexivity. }
  destruct M as (m & ->). exists m. reflexivity.
Qed.

(** ** Groups *)
Lemma run_group_spec {R} (smp : sampler R) data nb ts : forall g l, run_group smp g data nb ts = Got l ->
  map fst l = ts /\ forall i rows, In (i, rows) l -> exists g0, snd (sample smp g0 (data i) nb) = Got rows.
Proof.
  induction ts as [| t ts IH]; intros g l E; cbn [run_group] in E.
  - injection E as <-. split; [reflexivity | intros i rows []].
  - destruct (sample smp g (data t) nb) as [g' [rows | f]] eqn:S; [| discriminate E].
    destruct (run_group smp g' data nb ts) as [m | f] eqn:G; [| discriminate E]. injection E as <-.
    destruct (IH g' m G) as (A & B). split; [simpl; congruence |].
    intros i r [[= <- <-] | I]; [exists g; rewrite S; reflexivity | apply (B i r I)].
Qed.
Lemma run_groups_spec {R} (smp : sampler R) g data nb gs : forall l, run_groups smp g data nb gs = Got l ->
  map fst l = concat gs /\ forall i rows, In (i, rows) l -> exists g0, snd (sample smp g0 (data i) nb) = Got rows.
Proof.
  induction gs as [| ts gs IH]; intros l E; cbn [run_groups] in E.
  - injection E as <-. split; [reflexivity | intros i rows []].
  - destruct (run_group smp g data nb ts) as [a | f] eqn:G; [| discriminate E].
    destruct (run_groups smp g data nb gs) as [m | f]; [| discriminate E]. injection E as <-.
    destruct (run_group_spec _ _ _ _ _ _ G) as (A & B). destruct (IH m eq_refl) as (C & D).
    split; [rewrite map_app; simpl; congruence |].
    intros i r I. apply in_app_iff in I. destruct I as [I | I]; [apply (B i r I) | apply (D i r I)].
Qed.

Lemma run_group_ok {R} (smp : sampler R) data nb ts : (forall i g, In i ts -> exists rows, snd (sample smp g (data i) nb) = Got rows) ->
  forall g, exists l, run_group smp g data nb ts = Got l.
Proof.
  induction ts as [| t ts IH]; intros K g; [exists []; reflexivity |]. cbn [run_group].
  destruct (K t g (or_introl eq_refl)) as (rows & S). destruct (sample smp g (data t) nb) as [g' r]. cbn [snd] in S. subst r.
  destruct (IH (fun i g0 I => K i g0 (or_intror I)) g') as (m & ->). eexists. reflexivity.
Qed.
Lemma run_groups_ok {R} (smp : sampler R) g data nb gs :
  (forall i g, In i (concat gs) -> exists rows, snd (sample smp g (data i) nb) = Got rows) -> exists l, run_groups smp g data nb gs = Got l.
Proof.
  induction gs as [| ts gs IH]; intros K; [exists []; reflexivity |]. cbn [run_groups].
  destruct (run_group_ok smp data nb ts (fun i g0 I => K i g0 (proj2 (in_app_iff _ _ _) (or_introl I))) g) as (a & ->).
  destruct (IH (fun i g0 I => K i g0 (proj2 (in_app_iff _ _ _) (or_intror I)))) as (m & ->). eexists. reflexivity.
Qed.

Lemma run_groups_perm {R} (smp : sampler R) g data nb gs gs' : Permutation gs gs' ->
  forall l, run_groups smp g data nb gs = Got l -> exists l', run_groups smp g data nb gs' = Got l' /\ Permutation l l'.
Proof.
  induction 1 as [| ts gs gs' P IH | t1 t2 gs | g1 g2 g3 P1 IH1 P2 IH2]; intros l E.
  - exists l. auto.
  - cbn [run_groups] in E |- *. destruct (run_group smp g data nb ts) as [a | f]; [| discriminate E].
    destruct (run_groups smp g data nb gs) as [m | f]; [| discriminate E]. injection E as <-.
    destruct (IH m eq_refl) as (m' & -> & Pm). eexists. split; [reflexivity |]. apply Permutation_app_head. exact Pm.
  - cbn [run_groups] in E |- *. destruct (run_group smp g data nb t2) as [a | f]; [| discriminate E].
    destruct (run_group smp g data nb t1) as [b | f]; [| discriminate E].
    destruct (run_groups smp g data nb gs) as [m | f]; [| discriminate E]. injection E as <-.
    eexists. split; [reflexivity |]. rewrite !app_assoc. apply Permutation_app_tail. apply Permutation_app_comm.
  - destruct (IH1 l E) as (l1 & E1 & Q1). destruct (IH2 l1 E1) as (l2 & E2 & Q2). exists l2. split; [exact E2 |].
    eapply perm_trans; eauto.
Qed.

(** ** The dictionary *)
Definition assemble (sh : shuffler) (l : dict nat (list (list cell))) : list (string * list (list cell)) :=
  flat_map (fun i => match nth_error sh i, dget i l with
                     | Some nt, Some rows => [(fst nt, rows)]
                     | _, _ => []
                     end) (seq 0 (length sh)).

Lemma assemble_map sh l : (forall i, i < length sh -> exists rows, dget i l = Some rows) ->
  assemble sh l = map (fun i => (fst (nth i sh ("", Raw [])), match dget i l with Some r => r | None => [] end)) (seq 0 (length sh)).
Proof.
  intros K. unfold assemble.
  assert (X : forall ixs, (forall i, In i ixs -> i < length sh) ->
    flat_map (fun i => match nth_error sh i, dget i l with Some nt, Some rows => [(fst nt, rows)] | _, _ => [] end) ixs =
    map (fun i => (fst (nth i sh ("", Raw [])), match dget i l with Some r => r | None => [] end)) ixs).
  { induction ixs as [| i ixs IH]; intros B; [reflexivity |]. cbn [flat_map map].
    rewrite (nth_error_nth' sh ("", Raw []) (B i (or_introl eq_refl))).
    destruct (K i (B i (or_introl eq_refl))) as (rows & ->). simpl. f_equal. apply IH. intros j I. apply B. right. exact I. }
  apply X. intros i I. apply in_seq in I. lia.
Qed.

Lemma map_nth_seq {A B} (f : A -> B) (l : list A) d : map (fun i => f (nth i l d)) (seq 0 (length l)) = map f l.
Proof.
  apply nth_error_ext. intros n. rewrite !nth_error_map. destruct (lt_dec n (length l)) as [L | L].
  - rewrite (nth_error_nth' (seq 0 (length l)) 0) by (rewrite seq_length; exact L). rewrite seq_nth by exact L. simpl.
    rewrite (nth_error_nth' l d L). reflexivity.
  - rewrite (proj2 (nth_error_None (seq 0 (length l)) n)) by (rewrite seq_length; lia).
    rewrite (proj2 (nth_error_None l n)) by lia. reflexivity.
Qed.

Lemma assemble_keys sh l : (forall i, i < length sh -> exists rows, dget i l = Some rows) -> map fst (assemble sh l) = dkeys sh.
Proof. intros K. rewrite (assemble_map sh l K), map_map. cbn [fst]. apply (map_nth_seq fst sh). Qed.

Lemma all_once_dget {R} (smp : sampler R) g data nb gs n l : all_once n gs -> run_groups smp g data nb gs = Got l ->
  NoDup (map fst l) /\ (forall i, i < n -> exists rows, dget i l = Some rows) /\ (forall i rows, In (i, rows) l -> i < n).
Proof.
  intros A E. destruct (run_groups_spec _ _ _ _ _ _ E) as (K & _).
  assert (P : Permutation (map fst l) (seq 0 n)) by (rewrite K; exact A).
  split; [eapply Permutation_NoDup; [apply Permutation_sym; exact P | apply seq_NoDup] |]. split.
  - intros i L. apply In_keys_dget. apply (Permutation_in _ (Permutation_sym P)). apply in_seq. lia.
  - intros i rows I. apply (in_map fst) in I. apply (Permutation_in _ P) in I. apply in_seq in I. simpl in I. lia.
Qed.

Definition task_data (strict : bool) (w : world) (fh : fheap) (d : nat -> nat -> label -> draw) (sh : shuffler) (i : nat) : got (list (list cell)) :=
  match nth_error sh i with
  | Some nt => compute strict w (d i) fh (snd nt)
  | None => Failed (FExn IndexError)
  end.

Lemma shuffle_eq {R} strict w fh (smp : sampler R) g d sh nb groups :
  shuffle strict w fh smp g d sh nb groups =
  match run_groups smp g (task_data strict w fh d sh) nb groups with
  | Failed f => Failed f
  | Got l => Got (dict_of (assemble sh l))
  end.
Proof. reflexivity. Qed.

(** C54, what is returned, for every sampler, every draw, every distribution among processes:
    the timelines in order, under each name rows of its own data, as many as asked if the
    sampler answers as many positions as it is asked for. *)
Theorem C54_samples_partial {R} strict w fh (smp : sampler R) g d sh nb groups t :
  NoDup (dkeys sh) -> all_once (length sh) groups ->
  shuffle strict w fh smp g d sh nb groups = Got t ->
  dkeys t = dkeys sh /\
  forall i name tl, nth_error sh i = Some (name, tl) ->
    exists data rows, compute strict w (d i) fh tl = Got data /\ dget name t = Some rows /\
      (forall r, In r rows -> In r data) /\ (legal_sampler smp -> data <> [] -> length rows = nb).
Proof.
  intros Nd A E. rewrite shuffle_eq in E. set (data := task_data strict w fh d sh) in *.
  destruct (run_groups smp g data nb groups) as [l | f] eqn:G; [| discriminate E]. injection E as <-.
  destruct (all_once_dget _ _ _ _ _ _ _ A G) as (Nl & K & _). destruct (run_groups_spec _ _ _ _ _ _ G) as (_ & S).
  pose proof (assemble_keys sh l K) as Ka. rewrite dict_of_NoDup by (rewrite Ka; exact Nd).
  split; [exact Ka |]. intros i name tl I.
  assert (L : i < length sh) by (apply nth_error_Some; congruence).
  destruct (K i L) as (rows & Di). pose proof (dget_In _ _ _ Di) as Il. destruct (S i rows Il) as (g0 & Sm).
  destruct (sample_spec _ _ _ _ _ Sm) as (dt & D1 & D2 & D3).
  exists dt, rows. split; [unfold data, task_data in D1; rewrite I in D1; exact D1 |]. split.
  - apply In_dget; [unfold dkeys; rewrite Ka; exact Nd |]. rewrite (assemble_map sh l K). apply in_map_iff. exists i. split.
    + rewrite Di. f_equal. rewrite (nth_error_nth sh i ("", Raw []) I). reflexivity.
    + apply in_seq. lia.
  - split; [exact D2 | exact D3].
Qed.

(** Which rows: those at the positions the sampler answers, the sampler being asked for
    positions below the number of scenarios of the data; in each group the generator goes on
    from one timeline to the next. *)
Lemma pick_at data z r : pick data z = Ok r ->
  (- Z.of_nat (length data) <= z < Z.of_nat (length data))%Z /\
  nth_error data (Z.to_nat (z mod Z.of_nat (length data))) = Some r.
Proof.
  unfold pick. set (n := Z.of_nat (length data)).
  destruct (Z.ltb_spec z 0) as [N | N].
  - destruct (Z.ltb_spec (z + n) 0) as [K | K]; [discriminate |].
    destruct (nth_error data (Z.to_nat (z + n))) as [x |] eqn:X; [| discriminate]. intros [= <-].
    split; [lia |]. rewrite <- X. f_equal. f_equal. symmetry. apply (Z.mod_unique_pos z n (-1)%Z); lia.
  - destruct (Z.ltb_spec z 0) as [K | K]; [lia |].
    destruct (nth_error data (Z.to_nat z)) as [x |] eqn:X; [| discriminate]. intros [= <-].
    assert (L : (z < n)%Z). { assert (Y : Z.to_nat z < length data) by (apply nth_error_Some; congruence). lia. }
    split; [lia |]. rewrite Z.mod_small by lia. exact X.
Qed.
Lemma picks_at data ix rows : mapM (pick data) ix = Ok rows -> rows_at data ix rows.
Proof.
  revert rows. induction ix as [| z ix IH]; intros rows M; cbn [mapM] in M; [injection M as <-; constructor |].
  destruct (pick data z) as [r | e] eqn:P; [| discriminate M]. cbn [rbind] in M.
  destruct (mapM (pick data) ix) as [m | e] eqn:Q; [| discriminate M]. cbn [rbind] in M. injection M as <-.
  constructor; [apply pick_at; exact P | apply IH; reflexivity].
Qed.
Lemma run_group_stream {R} (smp : sampler R) data nb ts : forall g l, run_group smp g data nb ts = Got l ->
  forall want : nat -> list (list cell) -> list (list cell) -> Prop,
  (forall i rows dt, In (i, rows) l -> data i = Got dt -> want i dt rows) -> stream smp nb want g ts.
Proof.
  induction ts as [| t ts IH]; intros g l E want W; [constructor |]. cbn [run_group] in E.
  unfold sample in E. destruct (data t) as [dt | f] eqn:D; [| discriminate E].
  destruct (smp g (length dt) nb) as [g' [ix | e]] eqn:P; [| discriminate E].
  destruct (mapM (pick dt) ix) as [rows | e] eqn:M; [| discriminate E].
  destruct (run_group smp g' data nb ts) as [m | f] eqn:G; [| discriminate E]. injection E as <-.
  apply (stream_next smp nb want g g' t ts dt ix rows).
  - apply W; [left; reflexivity | exact D].
  - exact P.
  - apply picks_at. exact M.
  - apply (IH g' m G want). intros i r x I. apply W. right. exact I.
Qed.
Lemma run_groups_each {R} (smp : sampler R) g data nb gs : forall l, run_groups smp g data nb gs = Got l ->
  forall ts, In ts gs -> exists m, run_group smp g data nb ts = Got m /\ incl m l.
Proof.
  induction gs as [| t gs IH]; intros l E ts I; [contradiction I |]. cbn [run_groups] in E.
  destruct (run_group smp g data nb t) as [a | f] eqn:G; [| discriminate E].
  destruct (run_groups smp g data nb gs) as [m | f]; [| discriminate E]. injection E as <-.
  destruct I as [<- | I].
  - exists a. split; [exact G | apply incl_appl; apply incl_refl].
  - destruct (IH m eq_refl ts I) as (b & Gb & Ib). exists b. split; [exact Gb | apply incl_appr; exact Ib].
Qed.
Theorem C54_positions {R} strict w fh (smp : sampler R) g d sh nb groups t :
  NoDup (dkeys sh) -> all_once (length sh) groups ->
  shuffle strict w fh smp g d sh nb groups = Got t ->
  forall ts, In ts groups ->
    stream smp nb (fun i data rows => exists name tl, nth_error sh i = Some (name, tl) /\
                     compute strict w (d i) fh tl = Got data /\ dget name t = Some rows) g ts.
Proof.
  intros Nd A E ts It. pose proof (C54_samples_partial strict w fh smp g d sh nb groups t Nd A E) as (_ & Sa).
  rewrite shuffle_eq in E. set (data := task_data strict w fh d sh) in *.
  destruct (run_groups smp g data nb groups) as [l | f] eqn:G; [| discriminate E]. injection E as <-.
  destruct (all_once_dget _ _ _ _ _ _ _ A G) as (Nl & K & B).
  destruct (run_groups_each _ _ _ _ _ _ G ts It) as (m & Gm & Im).
  apply (run_group_stream smp data nb ts g m Gm). intros i rows dt I D.
  pose proof (Im _ I) as Il. pose proof (B i rows Il) as Li.
  unfold data, task_data in D. destruct (nth_error sh i) as [[name tl] |] eqn:Ni; [| discriminate D].
  exists name, tl. split; [reflexivity |]. split; [exact D |].
  pose proof (assemble_keys sh l K) as Ka. rewrite dict_of_NoDup by (rewrite Ka; exact Nd).
  apply In_dget; [unfold dkeys; rewrite Ka; exact Nd |]. rewrite (assemble_map sh l K). apply in_map_iff. exists i. split.
  - rewrite (In_dget _ _ _ Nl Il). f_equal. rewrite (nth_error_nth sh i ("", Raw []) Ni). reflexivity.
  - apply in_seq. lia.
Qed.

(** It does return, when the data of every timeline can be computed and is not empty. *)
Theorem C54_returns {R} strict w fh (smp : sampler R) g d sh nb groups :
  all_once (length sh) groups -> legal_sampler smp ->
  (forall i name tl, nth_error sh i = Some (name, tl) -> exists data, compute strict w (d i) fh tl = Got data /\ data <> []) ->
  exists t, shuffle strict w fh smp g d sh nb groups = Got t.
Proof.
  intros A Lg K. rewrite shuffle_eq.
  destruct (run_groups_ok smp g (task_data strict w fh d sh) nb groups) as (l & ->); [| eexists; reflexivity].
  intros i g0 I. apply (Permutation_in _ A) in I. apply in_seq in I.
  unfold task_data. destruct (nth_error sh i) as [[name tl] |] eqn:E; [| apply nth_error_None in E; lia].
  destruct (K i name tl E) as (data & C & NE). cbn [snd]. rewrite C. apply sample_legal; auto.
Qed.

(** The order in which groups are finished does not matter. *)
Theorem C54_completion_order {R} strict w fh (smp : sampler R) g d sh nb groups groups' t :
  all_once (length sh) groups -> Permutation groups groups' ->
  shuffle strict w fh smp g d sh nb groups = Got t -> shuffle strict w fh smp g d sh nb groups' = Got t.
Proof.
  intros A P E. rewrite shuffle_eq in *. set (data := task_data strict w fh d sh) in *.
  destruct (run_groups smp g data nb groups) as [l | f] eqn:G; [| discriminate E]. injection E as <-.
  destruct (run_groups_perm smp g data nb groups groups' P l G) as (l' & -> & Pl).
  destruct (all_once_dget _ _ _ _ _ _ _ A G) as (Nl & K & _).
  f_equal. f_equal. unfold assemble. apply flat_map_ext. intros i.
  assert (X : dget i l' = dget i l); [| rewrite X; reflexivity].
  assert (Nl' : NoDup (map fst l')) by (eapply Permutation_NoDup; [apply Permutation_map; exact Pl | exact Nl]).
  destruct (dget i l) as [rows |] eqn:D.
  - apply In_dget; [exact Nl' |]. apply (Permutation_in _ Pl). apply dget_In. exact D.
  - apply dget_None. apply dget_None in D. intros I. apply D. eapply Permutation_in; [apply Permutation_map; apply Permutation_sym; exact Pl | exact I].
Qed.

(** With a sampler that does not remember, nor does the distribution. *)
Theorem C54_distribution_partial {R} strict w fh (smp : sampler R) g d sh nb groups groups' t :
  forgetful smp -> all_once (length sh) groups -> all_once (length sh) groups' ->
  shuffle strict w fh smp g d sh nb groups = Got t -> shuffle strict w fh smp g d sh nb groups' = Got t.
Proof.
  intros Fg A A' E. rewrite shuffle_eq in *. set (data := task_data strict w fh d sh) in *.
  assert (Sm : forall g1 g2 x, snd (sample smp g1 x nb) = snd (sample smp g2 x nb)).
  { intros g1 g2 [l | f]; [| reflexivity]. unfold sample. pose proof (Fg g1 g2 (length l) nb) as X.
    destruct (smp g1 (length l) nb) as [? r1], (smp g2 (length l) nb) as [? r2]. cbn [snd] in X. subst r2.
    destruct r1 as [ix | e]; [| reflexivity]. destruct (mapM (pick l) ix); reflexivity. }
  destruct (run_groups smp g data nb groups) as [l | f] eqn:G; [| discriminate E]. injection E as <-.
  destruct (all_once_dget _ _ _ _ _ _ _ A G) as (Nl & K & _). destruct (run_groups_spec _ _ _ _ _ _ G) as (_ & S).
  destruct (run_groups_ok smp g data nb groups') as (l' & G').
  { intros i g0 I. apply (Permutation_in _ A') in I. apply in_seq in I. destruct (K i ltac:(lia)) as (rows & D).
    destruct (S i rows (dget_In _ _ _ D)) as (g1 & X). exists rows. rewrite (Sm g0 g1). exact X. }
  rewrite G'. destruct (all_once_dget _ _ _ _ _ _ _ A' G') as (Nl' & K' & _). destruct (run_groups_spec _ _ _ _ _ _ G') as (_ & S').
  f_equal. f_equal. rewrite (assemble_map sh l K), (assemble_map sh l' K'). apply map_ext_in. intros i I. apply in_seq in I.
  destruct (K i ltac:(lia)) as (rows & D). destruct (K' i ltac:(lia)) as (rows' & D'). rewrite D, D'.
  destruct (S i rows (dget_In _ _ _ D)) as (g1 & X). destruct (S' i rows' (dget_In _ _ _ D')) as (g2 & X').
  rewrite (Sm g2 g1), X in X'. injection X' as ->. reflexivity.
Qed.

(** The data of a timeline with a pipeline: the columns the shuffler reads, one per scenario,
    when no column is named by the empty text. *)
Theorem C54_pipeline_data_partial g : ~ In "" (map snd (keys g)) ->
  shuffler_rows (AMulti g) = if mem "to_shuffler" (map snd (keys g)) then Got (read_columns g) else Failed FNoColumn.
Proof.
  intros Ne. unfold shuffler_rows.
  assert (M : mem to_shuffler (get_names g) = mem "to_shuffler" (map snd (keys g))).
  { unfold get_names. destruct (mem "to_shuffler" (map snd (keys g))) eqn:X.
    - apply mem_In. apply (proj2 (QueryFacts.unique_spec _)). apply mem_In. exact X.
    - apply mem_nIn. intros I. apply (proj1 (proj2 (QueryFacts.unique_spec _) _)) in I. apply mem_nIn in X. exact (X I). }
  rewrite M. destruct (mem "to_shuffler" (map snd (keys g))) eqn:Y; cbn [negb]; [| reflexivity].
  set (dc := filter (fun n => negb (String.eqb n to_shuffler)) (get_names g)).
  assert (Dc : forall n, In n dc <-> In n (map snd (keys g)) /\ n <> "to_shuffler").
  { intros n. unfold dc. rewrite filter_In. unfold get_names. rewrite (proj2 (QueryFacts.unique_spec _) n), negb_true_iff, String.eqb_neq. reflexivity. }
  assert (In_k : forall kc, In kc (f_cols g) -> In (snd (fst kc)) (map snd (keys g))).
  { intros kc I. apply in_map. apply (in_map fst) in I. exact I. }
  destruct (existsb (fun n => negb (String.eqb n "")) dc) eqn:Ex.
  - unfold drop_names.
    assert (Fe : filter (fun kc : (label * string) * list cell => negb (mem (snd (fst kc)) dc)) (f_cols g) =
                 filter (fun kc => String.eqb (snd (fst kc)) "to_shuffler") (f_cols g)).
    { apply filter_ext_in. intros kc I. destruct (String.eqb_spec (snd (fst kc)) "to_shuffler") as [E | N].
      - apply negb_true_iff. apply mem_nIn. rewrite Dc. intros (_ & X). contradiction.
      - apply negb_false_iff. apply mem_In. apply Dc. split; [apply In_k; exact I | exact N]. }
    rewrite Fe. destruct (Nat.eqb_spec (length (filter (fun kc : (label * string) * list cell => String.eqb (snd (fst kc)) "to_shuffler") (f_cols g))) (length (f_cols g))) as [L | _]; [| reflexivity].
    exfalso. apply existsb_exists in Ex. destruct Ex as (n & I & _). apply Dc in I. destruct I as (I & N).
    unfold keys in I. rewrite map_map in I. apply in_map_iff in I. destruct I as (kc & E & I).
    pose proof (filter_length_all _ _ L kc I) as X. cbn beta in X. apply String.eqb_eq in X. congruence.
  - f_equal. unfold read_columns. f_equal. symmetry. apply QueryFacts.filter_all. intros kc I.
    destruct (String.eqb_spec (snd (fst kc)) "to_shuffler") as [E | N]; [reflexivity | exfalso].
    assert (X : In (snd (fst kc)) dc) by (apply Dc; split; [apply In_k; exact I | exact N]).
    assert (T : existsb (fun n => negb (String.eqb n "")) dc = true); [| congruence].
    apply existsb_exists. exists (snd (fst kc)). split; [exact X |]. apply negb_true_iff. apply String.eqb_neq. intros Z.
    apply Ne. rewrite <- Z. apply In_k. exact I.
Qed.

(** Two timelines of raw data, one of a pipeline, a sampler going round. *)
Definition round_sampler : sampler nat := fun g n nb => (g + nb, Ok (map (fun i => Z.of_nat ((g + i) mod n)) (seq 0 nb))).
Lemma round_legal : legal_sampler round_sampler.
Proof.
  intros g n nb L. eexists. eexists. split; [reflexivity |]. rewrite map_length, seq_length. split; [reflexivity |].
  intros z I. apply in_map_iff in I. destruct I as (i & <- & _). pose proof (Nat.mod_upper_bound (g + i) n). lia.
Qed.
Definition two_rows : list (list cell) := [[Some 1%Q]; [Some 2%Q]].

Definition shuffled : op := rename_op [("a", "to_shuffler")].
Definition sample_world : world := fst (chain (run nothing [shuffled; clip_op]) 0 1 []).
Definition sample_frames : fheap := [AMulti (Frame (range 1) [((LInt 0, "a"), [Some 3%Q]); ((LInt 0, "b"), [Some 8%Q]); ((LInt 1, "a"), [Some 4%Q])])].

Example C54_example :
  let sh := add_data (add_data [("p", FromPipe 0 0)] "x" two_rows) "y" two_rows in
  NoDup (dkeys sh) /\ all_once (length sh) [[2]; [0; 1]] /\ legal_sampler round_sampler /\
  shuffle true sample_world sample_frames round_sampler 0 (fun _ _ _ => Draw [] [] []) sh 3 [[2]; [0; 1]] =
    Got [("p", [[Some 3%Q]; [Some 4%Q]; [Some 3%Q]]);
         ("x", [[Some 2%Q]; [Some 1%Q]; [Some 2%Q]]);
         ("y", [[Some 1%Q]; [Some 2%Q]; [Some 1%Q]])].
Proof.
  split; [vm_compute; repeat constructor; simpl; intuition discriminate |].
  split; [unfold all_once; simpl; apply perm_trans with [0; 2; 1]; constructor; constructor |].
  split; [exact round_legal | reflexivity].
Qed.

(** [forgetful] is met by a sampler that always answers the first position. *)
Example C54_forgetful_example :
  let smp : sampler nat := fun g n nb => (S g, if Nat.eqb n 0 then Err ValueError else Ok (repeat 0%Z nb)) in
  forgetful smp /\ legal_sampler smp.
Proof.
  split; [intros g g' n nb; reflexivity |]. intros g n nb L. eexists. eexists.
  destruct n as [| n]; [lia |]. cbn [Nat.eqb]. split; [reflexivity |]. rewrite repeat_length. split; [reflexivity |].
  intros z I. apply repeat_spec in I. lia.
Qed.

(** With a generator, timelines handled together and apart are sampled differently. *)
Theorem C54_distribution_refuted :
  exists (smp : sampler nat) sh g1 g2 t1 t2, legal_sampler smp /\ NoDup (dkeys sh) /\
    all_once (length sh) g1 /\ all_once (length sh) g2 /\
    (forall strict w fh d, shuffle strict w fh smp 0 d sh 1 g1 = Got t1 /\ shuffle strict w fh smp 0 d sh 1 g2 = Got t2) /\ t1 <> t2.
Proof.
  exists round_sampler, [("x", Raw two_rows); ("y", Raw two_rows)], [[0; 1]], [[0]; [1]],
    [("x", [[Some 1%Q]]); ("y", [[Some 2%Q]])], [("x", [[Some 1%Q]]); ("y", [[Some 1%Q]])].
  split; [exact round_legal |]. split; [repeat constructor; simpl; intuition discriminate |].
  split; [apply Permutation_refl |]. split; [apply Permutation_refl |]. split; [intros; split; reflexivity | discriminate].
Qed.

(** A column without name is kept, and sampled as if it were a scenario. *)
Theorem C54_unnamed_refuted :
  exists w fh sh t g, (exists a, fget (fst (pipeline_call true w 0 (fun _ _ => Draw [] [] []) fh 0)) a = AMulti g /\
                                snd (pipeline_call true w 0 (fun _ _ => Draw [] [] []) fh 0) = Returned a) /\
    shuffle true w fh round_sampler 1 (fun _ _ _ => Draw [] [] []) sh 1 [[0]] = Got t /\ sh = [("p", FromPipe 0 0)] /\
    t = [("p", [[Some 8%Q]])] /\ ~ In [Some 8%Q] (read_columns g).
Proof.
  exists sample_world, [AMulti (Frame (range 1) [((LInt 0, "a"), [Some 3%Q]); ((LInt 0, ""), [Some 8%Q])])], [("p", FromPipe 0 0)].
  eexists. eexists. split; [eexists; split; [| vm_compute; reflexivity]; vm_compute; reflexivity |].
  split; [vm_compute; reflexivity |]. split; [reflexivity |]. split; [reflexivity |].
  vm_compute. intuition discriminate.
Qed.

(** ** C55 *)
Lemma computable_somewhere h p f : computable h p (get_names f) = true <-> forall n, In n (lget h (p_in p)) -> somewhere f n.
Proof.
  unfold computable. rewrite forallb_forall. split.
  - intros K n I. specialize (K n I). apply mem_In in K. apply In_get_names in K. exact K.
  - intros K n I. apply mem_In. apply In_get_names. apply (K n I).
Qed.

(** Exactly when a pipeline is accepted, and what is recorded. *)
Theorem C55_acceptance w fh sh name a p fh' sh' r : a < length fh ->
  add_pipeline w fh sh name a p = (fh', sh', r) ->
  let pl := pl_plug (pipe_at w p) in
  (r = Ok tt <-> (forall n, In n (lget (lists w) (p_in pl)) -> somewhere (standardize (fget fh a)) n) /\ In "to_shuffler" (lget (lists w) (p_out pl))) /\
  (r = Ok tt -> dget name sh' = Some (FromPipe a p) /\ forall other, other <> name -> dget other sh' = dget other sh) /\
  (r <> Ok tt -> sh' = sh) /\
  fget fh' a = AMulti (standardize (fget fh a)) /\ (forall b, b <> a -> fget fh' b = fget fh b).
Proof.
  intros L E. cbn zeta. unfold add_pipeline in E. set (pl := pl_plug (pipe_at w p)) in *. set (f := standardize (fget fh a)) in *.
  set (fh1 := upd_nth a (fun _ => AMulti f) fh) in *.
  assert (Hp : fget fh1 a = AMulti f /\ (forall b, b <> a -> fget fh1 b = fget fh b)).
  { split; [unfold fh1; rewrite fget_upd by exact L; rewrite Nat.eqb_refl; reflexivity |].
    intros b N. unfold fh1. rewrite fget_upd by exact L. apply Nat.eqb_neq in N. rewrite N. reflexivity. }
  destruct (computable (lists w) pl (get_names f)) eqn:C; cbn [negb] in E.
  - destruct (assert_to_shuffler (lists w) pl) eqn:T; cbn [negb] in E; injection E as <- <- <-.
    + split.
      { split; [intros _ | reflexivity]. split; [apply computable_somewhere; exact C |].
        unfold assert_to_shuffler in T. apply mem_In in T. exact T. }
      split; [intros _; split; [apply dget_dset_eq | intros o N; apply dget_dset_neq; exact N] |].
      split; [congruence | exact Hp].
    + split.
      { split; [discriminate |]. intros (_ & I). unfold assert_to_shuffler in T. apply mem_nIn in T. contradiction. }
      split; [discriminate |]. split; [reflexivity | exact Hp].
  - injection E as <- <- <-. split.
    { split; [discriminate |]. intros (K & _). apply (proj2 (computable_somewhere (lists w) pl f)) in K. congruence. }
    split; [discriminate |]. split; [reflexivity | exact Hp].
Qed.

(** An accepted pipeline, under the conditions of C45 and with every scenario of the data
    having the same columns: computing the data never fails for want of a column, whatever
    is drawn, as long as neither the frame nor the stages are changed. Missing: the
    conditions of C45, changes after acceptance (below). *)
Theorem C55_sampling_partial strict w a b rest w' p fh sh name ad fh' sh' d fh2 :
  own_lists w (a :: b :: rest) -> chain w a b rest = (w', Ok p) ->
  (forall x, In x (a :: b :: rest) -> honours strict (lists w') (lget (lists w) (p_out (plug_of w x))) (stage_at w x)) ->
  ad < length fh ->
  (forall n, somewhere (standardize (fget fh ad)) n -> every (standardize (fget fh ad)) n) ->
  add_pipeline w' fh sh name ad p = (fh', sh', Ok tt) ->
  ad < length fh2 -> fget fh2 ad = fget fh' ad ->
  match compute strict w' d fh2 (FromPipe ad p) with
  | Got _ => True
  | Failed f => ~ missing_column f
  end.
Proof.
  intros Own C Hon La Ev Ad L2 F2. destruct (C55_acceptance _ _ _ _ _ _ _ _ _ La Ad) as (Ac & _ & _ & Fa & _).
  destruct (proj1 Ac eq_refl) as (Ask & Sh). set (f := standardize (fget fh ad)) in *.
  assert (Hf : forall n, In n (lget (lists w') (p_in (pl_plug (pipe_at w' p)))) -> every (standardize (fget fh2 ad)) n).
  { intros n I. rewrite F2, Fa. cbn [standardize]. apply Ev. apply Ask. exact I. }
  pose proof (C45_accepted_runs_partial strict w a b rest w' p d fh2 ad Own C Hon L2 Hf) as W.
  unfold compute. destruct (pipeline_call strict w' p d fh2 ad) as [fh3 o]. cbn [fst snd] in W.
  destruct o as [x | | i | i e]; cbn [well_ended] in W; try contradiction.
  - destruct (fget fh3 x) as [s | g]; [simpl; discriminate |]. specialize (W "to_shuffler" Sh). cbn [standardize] in W.
    unfold shuffler_rows. destruct W as ((s & I) & _).
    assert (M : mem to_shuffler (get_names g) = true) by (apply mem_In; apply In_get_names; exists s; exact I).
    rewrite M. cbn [negb]. destruct (existsb _ _) eqn:Ex; [| exact Logic.I].
    unfold drop_names. destruct (Nat.eqb_spec (length (filter (fun kc : (label * string) * list cell => negb (mem (snd (fst kc)) (filter (fun n => negb (String.eqb n to_shuffler)) (get_names g)))) (f_cols g))) (length (f_cols g))) as [L | _]; [| exact Logic.I].
    exfalso. apply existsb_exists in Ex. destruct Ex as (n & J & _). pose proof J as J'. apply filter_In in J'. destruct J' as (J1 & _).
    apply In_get_names in J1. destruct J1 as (s' & J1). unfold keys in J1. apply in_map_iff in J1. destruct J1 as (kc & E & J1).
    pose proof (filter_length_all _ _ L kc J1) as X. cbn beta in X. apply negb_true_iff in X. apply mem_nIn in X. apply X.
    rewrite E. exact J.
  - simpl. exact W.
Qed.

Example C55_example :
  let w := run nothing [shuffled; clip_op] in
  exists fh', own_lists w [0; 1] /\ chain w 0 1 [] = (sample_world, Ok 0) /\
    (forall x, In x [0; 1] -> honours true (lists sample_world) (lget (lists w) (p_out (plug_of w x))) (stage_at w x)) /\
    add_pipeline sample_world [flat_data] [] "p" 0 0 = (fh', [("p", FromPipe 0 0)], Ok tt) /\
    (forall n, somewhere (standardize flat_data) n -> every (standardize flat_data) n) /\
    compute true sample_world (fun _ _ => Draw [] [] []) fh' (FromPipe 0 0) = Got [[Some 5%Q; Some 6%Q]] /\
    snd (add_pipeline sample_world [AFlat (SFrame [] [])] [] "p" 0 0) = Err ValueError.
Proof.
  eexists. split.
  { split; [split |].
    - vm_compute. repeat constructor; simpl; intuition discriminate.
    - intros x y I J. simpl in I, J. destruct I as [<- | [<- | []]]; destruct J as [<- | [<- | []]]; vm_compute; discriminate.
    - split; intros x I; simpl in I; destruct I as [<- | [<- | []]]; try (vm_compute; split; lia); try discriminate; split; reflexivity. }
  split; [reflexivity |].
  split.
  { intros x I; simpl in I; destruct I as [<- | [<- | []]]; apply C45_library_stages; vm_compute; auto; repeat split;
      try (repeat constructor; simpl; intuition discriminate). }
  split; [reflexivity |]. split.
  { intros n (s & I). vm_compute in I. destruct I as [[= <- <-] | [[= <- <-] | []]]; (split; [exists (LInt 0); vm_compute; tauto |]);
      intros s m J; vm_compute in J; destruct J as [[= <- <-] | [[= <- <-] | []]]; vm_compute; tauto. }
  split; reflexivity.
Qed.

(** An accepted pipeline to which a stage is added afterwards: the shuffler holds the pipeline
    that [+] changes, and sampling finds no column. *)
Theorem C55_changed_refuted :
  exists w w2 w3 p fh fh' sh', chain w 0 1 [] = (w2, Ok p) /\
    add_pipeline w2 fh [] "p" 0 p = (fh', sh', Ok tt) /\ sh' = [("p", FromPipe 0 p)] /\
    step w2 (Add (OPipe p) (OStage 2)) = (w3, Ok p) /\
    forall strict d, compute strict w3 d fh' (FromPipe 0 p) = Failed FNoColumn.
Proof.
  exists (run nothing [shuffled; clip_op; rename_op [("to_shuffler", "z")]]). eexists. eexists. eexists.
  exists [flat_data]. eexists. eexists. split; [vm_compute; reflexivity |]. split; [vm_compute; reflexivity |].
  split; [reflexivity |]. split; [vm_compute; reflexivity |]. intros strict d. reflexivity.
Qed.

(** A pipeline accepted with a stage that was linked elsewhere before, and one accepted for
    data whose scenarios differ. *)
Theorem C55_reuse_refuted :
  exists w w' p fh fh' sh', (exists ops, ops_ok nothing ops /\ w = run nothing ops) /\ chain w 2 1 [3] = (w', Ok p) /\
    add_pipeline w' fh [] "p" 0 p = (fh', sh', Ok tt) /\
    forall strict d, compute strict w' d fh' (FromPipe 0 p) = Failed (FPipeline (StageRefused 2)).
Proof.
  set (ops := [rename_op [("a", "b"); ("c", "x")]; rename_op [("b", "d")]; Add (OStage 0) (OStage 1);
               rename_op [("a", "b")]; rename_op [("x", "to_shuffler")]]).
  exists (run nothing ops). eexists. eexists. exists [AMulti (Frame (range 1) [((LInt 0, "a"), [Some 1%Q])])]. eexists. eexists.
  split; [exists ops; split; [vm_compute; repeat split; lia | reflexivity] |].
  split; [vm_compute; reflexivity |]. split; [vm_compute; reflexivity |]. intros strict d. reflexivity.
Qed.

Theorem C55_uneven_refuted :
  exists w w' p fh fh' sh', chain w 0 1 [2] = (w', Ok p) /\
    add_pipeline w' fh [] "p" 0 p = (fh', sh', Ok tt) /\
    forall strict, compute strict w' (fun _ _ => Draw [false] [] []) fh' (FromPipe 0 p) = Failed (FPipeline (Raised 1 KeyError)).
Proof.
  exists (run nothing [clip_op; fault_op; rename_op [("quantity", "to_shuffler")]]). eexists. eexists.
  exists [AMulti (Frame (range 1) [((LInt 1, "other"), [Some 1%Q]); ((LInt 0, "quantity"), [Some 1%Q])])]. eexists. eexists.
  split; [vm_compute; reflexivity |]. split; [vm_compute; reflexivity |]. intros [|]; reflexivity.
Qed.

Print Assumptions C54_samples_partial.
Print Assumptions C54_returns.
Print Assumptions C54_completion_order.
Print Assumptions C54_distribution_partial.
Print Assumptions C54_pipeline_data_partial.
Print Assumptions C54_distribution_refuted.
Print Assumptions C54_unnamed_refuted.
Print Assumptions C55_acceptance.
Print Assumptions C55_sampling_partial.
Print Assumptions C55_changed_refuted.
Print Assumptions C55_reuse_refuted.
Print Assumptions C55_uneven_refuted.

(** ** C66: the declarations of a shuffler *)
Section Declarations.
  Variables (w : world) (fh0 : fheap).

  Lemma accepted_dec o : {sop_accepted w fh0 o} + {~ sop_accepted w fh0 o}.
  Proof.
    destruct o as [n d | n a p]; [left; exact Logic.I |]. cbn [sop_accepted].
    destruct (computable (lists w) (pl_plug (pipe_at w p)) (get_names (standardize (fget fh0 a)))) eqn:C.
    - destruct (mem "to_shuffler" (lget (lists w) (p_out (pl_plug (pipe_at w p))))) eqn:M.
      + left. split; [apply computable_somewhere; exact C | apply mem_In; exact M].
      + right. intros (_ & X). apply mem_nIn in M. exact (M X).
    - right. intros (X & _). apply (proj2 (computable_somewhere (lists w) _ _)) in X. congruence.
  Qed.

  Lemma snoc_cons {X} (b : list X) x a ops o : ops ++ [o] = b ++ x :: a ->
    (a = [] /\ x = o /\ b = ops) \/ (exists a', a = a' ++ [o] /\ ops = b ++ x :: a').
  Proof.
    intros K. destruct (exists_last (l := x :: a)) as (pre & y & Ey); [discriminate |].
    rewrite Ey, app_assoc in K. apply app_inj_tail in K. destruct K as (K & <-).
    destruct pre as [| x' pre]; [left; simpl in Ey; injection Ey as -> ->; rewrite app_nil_r in K; auto |].
    right. simpl in Ey. injection Ey as <- ->. exists pre. auto.
  Qed.

  Lemma stands_no ops o name tl : ~ sop_accepted w fh0 o -> (stands w fh0 (ops ++ [o]) name tl <-> stands w fh0 ops name tl).
  Proof.
    intros No. split.
    - intros (b & x & a & K & N & T & Ac & L). apply snoc_cons in K. destruct K as [(-> & -> & ->) | (a' & -> & ->)]; [contradiction |].
      exists b, x, a'. split; [reflexivity |]. split; [exact N |]. split; [exact T |]. split; [exact Ac |].
      intros o' J. apply L. apply in_app_iff. left. exact J.
    - intros (b & x & a & -> & N & T & Ac & L). exists b, x, (a ++ [o]).
      split; [rewrite <- app_assoc; reflexivity |]. split; [exact N |]. split; [exact T |]. split; [exact Ac |].
      intros o' J. apply in_app_iff in J. destruct J as [J | [<- | []]]; [apply L; exact J | intros _; exact No].
  Qed.
  Lemma stands_yes ops o name tl : sop_accepted w fh0 o ->
    (stands w fh0 (ops ++ [o]) name tl <-> (if String.eqb name (sop_name o) then tl = sop_timeline o else stands w fh0 ops name tl)).
  Proof.
    intros Yes. split.
    - intros (b & x & a & K & N & T & Ac & L). apply snoc_cons in K. destruct K as [(-> & -> & ->) | (a' & -> & ->)].
      + rewrite <- N, String.eqb_refl. auto.
      + destruct (String.eqb_spec name (sop_name o)) as [En | Nn].
        * exfalso. apply (L o); [apply in_app_iff; right; left; reflexivity | symmetry; exact En | exact Yes].
        * exists b, x, a'. split; [reflexivity |]. split; [exact N |]. split; [exact T |]. split; [exact Ac |].
          intros o' J. apply L. apply in_app_iff. left. exact J.
    - destruct (String.eqb_spec name (sop_name o)) as [En | Nn].
      + intros ->. exists ops, o, []. split; [reflexivity |]. split; [symmetry; exact En |]. split; [reflexivity |]. split; [exact Yes |]. intros o' [].
      + intros (b & x & a & -> & N & T & Ac & L). exists b, x, (a ++ [o]).
        split; [rewrite <- app_assoc; reflexivity |]. split; [exact N |]. split; [exact T |]. split; [exact Ac |].
        intros o' J. apply in_app_iff in J. destruct J as [J | [<- | []]]; [apply L; exact J | intros X; congruence].
  Qed.
  Lemma some_stands ops o : In o ops -> sop_accepted w fh0 o -> exists tl, stands w fh0 ops (sop_name o) tl.
  Proof.
    intros J Ac. induction ops as [| y ops IH] using rev_ind; [contradiction J |].
    destruct (accepted_dec y) as [Y | Y].
    - destruct (String.eqb_spec (sop_name o) (sop_name y)) as [En | Nn].
      + exists (sop_timeline y). apply stands_yes; [exact Y |]. rewrite En, String.eqb_refl. reflexivity.
      + apply in_app_iff in J. destruct J as [J | [-> | []]]; [| congruence]. destruct (IH J) as (tl & X). exists tl.
        apply stands_yes; [exact Y |]. apply String.eqb_neq in Nn. rewrite Nn. exact X.
    - apply in_app_iff in J. destruct J as [J | [-> | []]]; [| contradiction]. destruct (IH J) as (tl & X). exists tl.
      apply stands_no; [exact Y | exact X].
  Qed.
  Lemma declared_more ops o a b : declared_before w fh0 ops a b -> declared_before w fh0 (ops ++ [o]) a b.
  Proof.
    intros (pre & x & post & -> & N & Ac & L & Ne & o' & J & N' & Ac'). exists pre, x, (post ++ [o]).
    split; [rewrite <- app_assoc; reflexivity |]. split; [exact N |]. split; [exact Ac |]. split; [exact L |]. split; [exact Ne |].
    exists o'. split; [apply in_app_iff; left; exact J | auto].
  Qed.
  Lemma declared_last ops o a : a <> sop_name o -> sop_accepted w fh0 o ->
    (exists tl, stands w fh0 ops a tl) -> ~ (exists tl, stands w fh0 ops (sop_name o) tl) -> declared_before w fh0 (ops ++ [o]) a (sop_name o).
  Proof.
    intros Ne Ac (tl & pre & x & post & K & Nx & T & Acx & L) Nb. exists pre, x, (post ++ [o]).
    split; [rewrite K, <- app_assoc; reflexivity |]. split; [exact Nx |]. split; [exact Acx |]. split; [| split; [exact Ne |]].
    - intros o' J N' Ac'. apply Nb. rewrite <- N'. apply (some_stands ops o'); [rewrite K; apply in_app_iff; left; exact J | exact Ac'].
    - exists o. split; [apply in_app_iff; right; left; reflexivity | auto].
  Qed.

  (** What a history leaves. *)
  Definition left_by (ops : list sop) (st : fheap * shuffler) : Prop :=
    length (fst st) = length fh0 /\
    (forall a, standardize (fget (fst st) a) = standardize (fget fh0 a)) /\
    NoDup (dkeys (snd st)) /\
    (forall name tl, dget name (snd st) = Some tl <-> stands w fh0 ops name tl) /\
    (forall i j a b, i < j -> nth_error (dkeys (snd st)) i = Some a -> nth_error (dkeys (snd st)) j = Some b ->
       declared_before w fh0 ops a b).

  Lemma left_declared ops fh fh' sh o :
    left_by ops (fh, sh) -> length fh' = length fh -> (forall a, standardize (fget fh' a) = standardize (fget fh a)) ->
    sop_accepted w fh0 o -> left_by (ops ++ [o]) (fh', dset (sop_name o) (sop_timeline o) sh).
  Proof.
    intros (Lf & Sf & Nd & St & Or) Lf' Sf' Ac. cbn [fst snd] in *. split; [cbn [fst]; congruence |].
    split; [cbn [fst]; intros a; rewrite Sf'; apply Sf |]. cbn [fst snd]. split; [apply NoDup_dset; exact Nd |]. split.
    - intros name tl. rewrite (stands_yes ops o name tl Ac). destruct (String.eqb_spec name (sop_name o)) as [-> | N].
      + rewrite dget_dset_eq. split; [intros [= <-]; reflexivity | intros ->; reflexivity].
      + rewrite dget_dset_neq by exact N. apply St.
    - intros i j a b Lij Ni Nj. rewrite dkeys_dset in Ni, Nj. destruct (dmem (sop_name o) sh) eqn:M.
      + apply declared_more. apply (Or i j a b Lij Ni Nj).
      + assert (Li : i < length (dkeys sh)).
        { assert (X : j < length (dkeys sh ++ [sop_name o])) by (apply nth_error_Some; congruence). rewrite app_length in X. simpl in X. lia. }
        rewrite nth_error_app1 in Ni by exact Li.
        destruct (lt_dec j (length (dkeys sh))) as [Lj | Lj].
        * rewrite nth_error_app1 in Nj by exact Lj. apply declared_more. apply (Or i j a b Lij Ni Nj).
        * rewrite nth_error_app2 in Nj by lia.
          assert (Hb : b = sop_name o).
          { destruct (j - length (dkeys sh)) as [| [| k]]; simpl in Nj; congruence. }
          subst b. apply nth_error_In in Ni. destruct (In_keys_dget _ _ Ni) as (tl & D).
          assert (Nm : ~ In (sop_name o) (dkeys sh)). { intros X. apply dmem_In in X. congruence. }
          apply declared_last; [intros ->; contradiction | exact Ac | exists tl; apply St; exact D |].
          intros (tl' & X). apply St in X. apply Nm. eapply dget_In_keys. exact X.
  Qed.
  Lemma left_refused ops fh fh' sh o :
    left_by ops (fh, sh) -> length fh' = length fh -> (forall a, standardize (fget fh' a) = standardize (fget fh a)) ->
    ~ sop_accepted w fh0 o -> left_by (ops ++ [o]) (fh', sh).
  Proof.
    intros (Lf & Sf & Nd & St & Or) Lf' Sf' Ac. cbn [fst snd] in *. split; [cbn [fst]; congruence |].
    split; [cbn [fst]; intros a; rewrite Sf'; apply Sf |]. cbn [fst snd]. split; [exact Nd |]. split.
    - intros name tl. rewrite (stands_no ops o name tl Ac). apply St.
    - intros i j a b Lij Ni Nj. apply declared_more. apply (Or i j a b Lij Ni Nj).
  Qed.

  Lemma srun_left ops : (forall o, In o ops -> sop_frame fh0 o) -> left_by ops (srun w fh0 ops).
  Proof.
    unfold srun. induction ops as [| o ops IH] using rev_ind; intros Fr.
    - split; [reflexivity |]. split; [reflexivity |]. split; [constructor |]. split.
      + intros name tl. split; [discriminate |]. intros (b & x & a & K & _). destruct b; discriminate K.
      + intros i j a b _ K. destruct i; discriminate K.
    - rewrite fold_left_app. cbn [fold_left]. specialize (IH (fun o' J => Fr o' (proj2 (in_app_iff _ _ _) (or_introl J)))).
      destruct (fold_left (sstep w) ops (fh0, [])) as [fh sh].
      assert (Fo : sop_frame fh0 o) by (apply Fr; apply in_app_iff; right; left; reflexivity).
      destruct o as [n d | n a p].
      + apply (left_declared ops fh fh sh (SData n d)); auto.
      + cbn [sstep fst snd]. destruct (add_pipeline w fh sh n a p) as [[fh' sh'] r] eqn:K. cbn [fst].
        cbn [sop_frame] in Fo. pose proof IH as (Lf & Sf & _). cbn [fst] in Lf, Sf.
        assert (La : a < length fh) by lia.
        destruct (C55_acceptance _ _ _ _ _ _ _ _ _ La K) as (Ac & _ & _ & Fa & Fb). cbn zeta in Ac.
        assert (Sf' : forall b, standardize (fget fh' b) = standardize (fget fh b)).
        { intros b. destruct (Nat.eq_dec b a) as [-> | N]; [rewrite Fa; reflexivity | rewrite (Fb b N); reflexivity]. }
        assert (Ll : length fh' = length fh /\ (r = Ok tt -> sh' = dset n (FromPipe a p) sh) /\ (r <> Ok tt -> sh' = sh)).
        { unfold add_pipeline in K. destruct (negb (computable _ _ _)); [injection K as <- <- <- | destruct (negb (assert_to_shuffler _ _)); injection K as <- <- <-];
            (split; [apply length_upd_nth |]); split; congruence. }
        destruct Ll as (Ll & Ky & Kn). rewrite Sf in Ac.
        destruct (accepted_dec (SPipe n a p)) as [Y | Y].
        * rewrite (Ky (proj2 Ac Y)). apply (left_declared ops fh fh' sh (SPipe n a p)); auto.
        * assert (Nr : r <> Ok tt) by (intros X; apply Y; apply (proj1 Ac X)). rewrite (Kn Nr).
          apply (left_refused ops fh fh' sh (SPipe n a p)); auto.
  Qed.
End Declarations.

(** For every history of a shuffler: under each name stands what the last accepted call gave,
    names are in the order of their first accepted call, and frames are at most relabelled. *)
Theorem C66_declarations w fh ops : (forall o, In o ops -> sop_frame fh o) ->
  let fh' := fst (srun w fh ops) in let sh := snd (srun w fh ops) in
  (forall a, fget fh' a = fget fh a \/ fget fh' a = AMulti (standardize (fget fh a))) /\
  NoDup (dkeys sh) /\
  (forall name tl, dget name sh = Some tl <-> stands w fh ops name tl) /\
  (forall i j a b, i < j -> nth_error (dkeys sh) i = Some a -> nth_error (dkeys sh) j = Some b -> declared_before w fh ops a b).
Proof.
  intros Fr. cbn zeta. destruct (srun_left w fh ops Fr) as (Lf & Sf & Nd & St & Or). split; [| auto].
  clear -Fr. unfold srun.
  assert (G : forall ops st, length (fst st) = length fh -> (forall o, In o ops -> sop_frame fh o) ->
    (forall a, fget (fst st) a = fget fh a \/ fget (fst st) a = AMulti (standardize (fget fh a))) ->
    forall a, fget (fst (fold_left (sstep w) ops st)) a = fget fh a \/ fget (fst (fold_left (sstep w) ops st)) a = AMulti (standardize (fget fh a))).
  { clear. induction ops as [| o ops IH]; intros [f sh] L Fr K; [exact K |]. cbn [fold_left].
    assert (Fo : sop_frame fh o) by (apply Fr; left; reflexivity).
    apply IH; [| intros o' J; apply Fr; right; exact J |]; destruct o as [n d | n a p]; cbn [sstep fst snd]; try assumption;
      cbn [fst] in L, K; cbn [sop_frame] in Fo; destruct (add_pipeline w f sh n a p) as [[f' sh'] r] eqn:E; cbn [fst].
    - unfold add_pipeline in E. destruct (negb (computable _ _ _)); [injection E as <- <- <- | destruct (negb (assert_to_shuffler _ _)); injection E as <- <- <-];
        rewrite length_upd_nth; exact L.
    - intros b. destruct (C55_acceptance _ _ _ _ _ _ _ _ _ (eq_ind_r (fun n => a < n) Fo L) E) as (_ & _ & _ & Fa & Fb).
      destruct (Nat.eq_dec b a) as [-> | N].
      + right. rewrite Fa. destruct (K a) as [X | X]; rewrite X; reflexivity.
      + rewrite (Fb b N). apply K. }
  apply (G ops (fh, [])); [reflexivity | exact Fr | left; reflexivity].
Qed.

(** Sampling after a history: rows of what stands under each name. *)
Theorem C66_samples {R} strict w fh ops (smp : sampler R) g d nb groups t : (forall o, In o ops -> sop_frame fh o) ->
  let fh' := fst (srun w fh ops) in let sh := snd (srun w fh ops) in
  all_once (length sh) groups -> shuffle strict w fh' smp g d sh nb groups = Got t ->
  (forall name, In name (dkeys t) <-> exists tl, stands w fh ops name tl) /\
  (forall name rows, dget name t = Some rows -> exists tl di data, stands w fh ops name tl /\ compute strict w di fh' tl = Got data /\ incl rows data).
Proof.
  intros Fr fh' sh A K. destruct (C66_declarations w fh ops Fr) as (_ & Nd & St & _). fold sh in Nd, St.
  destruct (C54_samples_partial strict w fh' smp g d sh nb groups t Nd A K) as (Kt & S). split.
  - intros name. rewrite Kt. split.
    + intros J. destruct (In_keys_dget _ _ J) as (tl & D). exists tl. apply St. exact D.
    + intros (tl & X). apply St in X. eapply dget_In_keys. exact X.
  - intros name rows D.
    assert (J : In name (dkeys sh)) by (rewrite <- Kt; eapply dget_In_keys; exact D).
    destruct (In_keys_dget _ _ J) as (tl & Dt). pose proof (dget_In _ _ _ Dt) as Jt. apply In_nth_error in Jt. destruct Jt as (i & Ni).
    destruct (S i name tl Ni) as (data & rows' & C & Dr & Ic & _). rewrite D in Dr. injection Dr as <-.
    exists tl, (d i), data. split; [apply St; exact Dt |]. split; [exact C | exact Ic].
Qed.

Example C66_example :
  let ops := [SData "x" two_rows; SPipe "p" 0 0; SData "x" [[Some 7%Q]]; SPipe "p" 1 0; SPipe "x" 1 0] in
  let fh := sample_frames ++ [AFlat (SFrame [] [])] in
  (forall o, In o ops -> sop_frame fh o) /\
  snd (srun sample_world fh ops) = [("x", Raw [[Some 7%Q]]); ("p", FromPipe 0 0)] /\
  all_once 2 [[1]; [0]] /\
  shuffle true sample_world (fst (srun sample_world fh ops)) round_sampler 1 (fun _ _ _ => Draw [] [] []) (snd (srun sample_world fh ops)) 2 [[1]; [0]] =
    Got [("x", [[Some 7%Q]; [Some 7%Q]]); ("p", [[Some 4%Q]; [Some 3%Q]])].
Proof.
  cbn zeta. split.
  { intros o J. repeat (destruct J as [<- | J]; [simpl; try exact Logic.I; lia |]). contradiction J. }
  split; [reflexivity |]. split; [apply perm_swap |]. reflexivity.
Qed.

Print Assumptions C54_positions.
Print Assumptions C66_declarations.
Print Assumptions C66_samples.
