(** Properties C19, C27, C29: exactly what the names of networks and nodes decide when
    a study with converters is solved. The worker sends the flow at a source under the
    text "network::node"; the result is filled under the pair read from that text. *)
From Coq Require Import String Ascii List ZArith QArith Bool Arith Lia Lqa Permutation.
From Verif Require Import Base BaseFacts Numeric Study Fluent SpecStudy StudyFacts Output Json SpecJson JsonFacts P_Json
  LP SpecLP LPFacts LPBuild LPSat LPResult LPSolve LPReady LPWeak P_LP Remote SpecRemote P_Remote P_Plain P_Read.
Import ListNotations.
Open Scope nat_scope.
Open Scope string_scope.
Open Scope list_scope.

(** ** What is claimed *)

(** The text of a source. *)
Definition text_of (k : string * string) : string := (fst k ++ "::" ++ snd k)%string.

(** The text of every source is the text of a source with plain names. *)
Definition sources_named (v : converter) : Prop := forall k, In k (dkeys (v_src v)) ->
  exists k', In k' (dkeys (v_src v)) /\ plain_key k' /\ text_of k' = text_of k.
Definition all_sources_named (s : study) : Prop := forall name v, conv_at s name = Some v -> sources_named v.

(** [k'] is the last source whose text is that of [k]; its ratio is [q]. *)
Definition last_alike (v : converter) (k k' : string * string) (q : numval) : Prop := exists pre post,
  v_src v = pre ++ (k', q) :: post /\ text_of k' = text_of k /\ forall k2, In k2 (dkeys post) -> text_of k2 <> text_of k.

(** ** Dictionaries *)
Lemma dict_of_has {K V} `{EqB K} (l : list (K * V)) k : In k (map fst l) -> In k (dkeys (dict_of l)).
Proof.
  induction l as [|[k2 v2] l IH] using rev_ind; [intros []|]. rewrite map_app, dict_of_snoc, in_app_iff. intros D.
  destruct (dget k (dset k2 v2 (dict_of l))) as [w|] eqn:E; [now apply dget_In_keys in E|]. exfalso. rewrite dget_dset in E.
  destruct (eqb k k2) eqn:Q; [discriminate|]. destruct D as [D|[D|[]]].
  - apply dget_None in E. apply E. now apply IH.
  - cbn in D. subst k2. rewrite eqb_refl in Q. discriminate.
Qed.

Lemma dict_of_last {K V} `{EqB K} (pre post : list (K * V)) k v : ~ In k (map fst post) -> dget k (dict_of (pre ++ (k, v) :: post)) = Some v.
Proof.
  induction post as [|[k2 v2] post IH] using rev_ind; intros N.
  - rewrite dict_of_snoc, dget_dset, eqb_refl. reflexivity.
  - rewrite map_app, in_app_iff in N. cbn in N. change ((k, v) :: post ++ [(k2, v2)]) with (((k, v) :: post) ++ [(k2, v2)]).
    rewrite app_assoc, dict_of_snoc, dget_dset. destruct (eqb k k2) eqn:Q.
    + apply eqb_eq in Q. subst. tauto.
    + apply IH. tauto.
Qed.

(** A dictionary whose keys are renamed, for a new key that comes from one key only. *)
Lemma dict_of_renamed {K L V} `{EqB K} `{EqB L} (f : K -> L) (d : dict K V) k : NoDup (dkeys d) ->
  (forall k2, f k2 = f k -> k2 = k) -> dget (f k) (dict_of (map (fun kv => (f (fst kv), snd kv)) d)) = dget k d.
Proof.
  intros ND U. destruct (dget (f k) _) as [q|] eqn:E.
  - apply dget_In, In_dict_of in E. apply in_map_iff in E as ([k2 q2] & E & I). cbn [fst snd] in E. inversion E as [[E1 E2]]. apply U in E1. subst.
    symmetry. now apply In_dget.
  - destruct (dget k d) as [q|] eqn:D; auto. apply dget_None in E. exfalso. apply E, dict_of_has. rewrite map_map. cbn [fst].
    apply in_map_iff. exists (k, q). split; auto. now apply dget_In.
Qed.

(** ** Texts *)
Lemma split_pair t a b : split_cc t = [a; b] <-> t = text_of (a, b) /\ plain_key (a, b).
Proof.
  change (text_of (a, b)) with (join_cc (a, b)). rewrite <- key_of_iff. unfold key_of.
  destruct (split_cc t) as [|p [|q [|]]]; split; intros E; inversion E; subst; auto.
Qed.

Section Names.
Variable s : study.
Variable bench : benchmark.
Hypothesis Hs : ready s.

Definition posted (x : var -> Q) (name : string) (t scn : nat) (v : converter) : dict (list string) Q :=
  av_src (conv_answer x (pconv name t scn v)).
Definition by_text (x : var -> Q) (name : string) (t : nat) (v : converter) : list (string * Q) :=
  map (fun kq => (join_cc (fst kq), x (vsrc name t (fst kq)))) (v_src v).

Lemma sent_eq x name t scn v : posted x name t scn v = dict_of (map (fun kx => (split_cc (fst kx), snd kx)) (dict_of (by_text x name t v))).
Proof. unfold posted, conv_answer, pconv, by_text. cbn [av_src lv_src]. rewrite map_map. reflexivity. Qed.

(** The flow written for the source [k]. *)
Lemma cell_plain x name v scn t k k' q : plain_key k -> last_alike v k k' q -> src_cell x name v scn t k = x (vsrc name t k').
Proof.
  intros P (pre & post & E & TX & L). unfold src_cell. fold (posted x name t scn v). rewrite sent_eq.
  assert (K : [fst k; snd k] = split_cc (text_of k)) by (symmetry; apply split_pair; destruct k; auto). rewrite K.
  rewrite (dict_of_renamed split_cc).
  - unfold by_text. rewrite E, map_app. cbn [map fst]. change (join_cc k') with (text_of k'). rewrite TX.
    rewrite dict_of_last; auto. rewrite map_map. cbn [fst]. intros I. apply in_map_iff in I as ([k2 q2] & E2 & I). cbn [fst] in E2.
    apply (L k2); [apply in_map_iff; exists (k2, q2); auto | exact E2].
  - apply NoDup_dict_of.
  - intros t2 E2. rewrite <- K in E2. apply split_pair in E2 as [-> _]. destruct k; auto.
Qed.

Lemma cell_odd x name v scn t k : ~ plain_key k -> src_cell x name v scn t k = 0%Q.
Proof.
  intros P. unfold src_cell. fold (posted x name t scn v). rewrite sent_eq. destruct (dget _ _) as [q|] eqn:E; auto. exfalso.
  apply dget_In, In_dict_of in E. apply in_map_iff in E as ([t2 q2] & E & _). cbn [fst snd] in E. inversion E as [[E1 E2]].
  apply split_pair in E1 as [_ H]. destruct k. contradiction.
Qed.

(** ** Which answers can be written *)
Definition known (v : converter) (ls : list string) : Prop := exists k, ls = [fst k; snd k] /\ In k (dkeys (v_src v)).

Lemma known_dec v ls : {known v ls} + {~ known v ls}.
Proof.
  destruct ls as [|a [|b [|c ls]]]; try (right; intros ([x y] & E & _); discriminate).
  destruct (in_dec (fun p q => match Base.eqb p q as b return Base.eqb p q = b -> {p = q} + {p <> q} with
     true => fun H => left (proj1 (eqb_eq p q) H) | false => fun H => right (proj1 (eqb_neq p q) H) end eq_refl) (a, b) (dkeys (v_src v))) as [I|N].
  - left. now exists (a, b).
  - right. intros ([x y] & E & I). cbn in E. inversion E; subst. contradiction.
Qed.

Lemma named_iff x name t scn v : Forall (known v) (dkeys (posted x name t scn v)) <-> sources_named v.
Proof.
  rewrite sent_eq, Forall_forall. split.
  - intros H k I. destruct (H (split_cc (text_of k))) as ([a b] & E & I2).
    + apply dict_of_has. rewrite map_map. cbn [fst].
      assert (J : In (text_of k) (dkeys (dict_of (by_text x name t v)))).
      { apply dict_of_has. unfold by_text. rewrite map_map. cbn [fst]. apply in_map_iff in I as ([k2 q] & <- & I). apply in_map_iff. exists (k2, q). auto. }
      apply in_map_iff in J as ([t2 q] & E & J). cbn [fst] in E. subst. apply in_map_iff. exists (text_of k, q). auto.
    + cbn [fst snd] in E. apply split_pair in E as [E P]. exists (a, b). auto.
  - intros H ls I. apply in_map_iff in I as ([ls2 q] & <- & I). cbn [fst]. apply In_dict_of in I. apply in_map_iff in I as ([t2 q2] & E & I).
    cbn [fst snd] in E. inversion E; subst. apply In_dict_of in I. unfold by_text in I. apply in_map_iff in I as ([k q3] & E2 & I). inversion E2; subst. cbn [fst].
    destruct (H k) as ([a b] & I2 & P & T2); [apply in_map_iff; exists (k, q3); auto|]. exists (a, b). split; auto.
    apply split_pair. split; auto. 
Qed.

Lemma src_loop_any v t scn vals : scn < st_nb_scn s -> t < st_horizon s -> forall d, src_like s (v_src v) d ->
  (Forall (known v) (dkeys vals) -> exists d', foldM (set_src t scn) vals d = Ok d') /\
  (~ Forall (known v) (dkeys vals) -> foldM (set_src t scn) vals d = Err KeyError).
Proof.
  intros S T. induction vals as [|[ls q] vals IH]; intros d L; cbn [dkeys map fst foldM].
  - split; [eauto|]. intros N. exfalso. apply N. constructor.
  - destruct (known_dec v ls) as [([a b] & E & I)|N].
    + cbn [fst snd] in E. subst ls. unfold set_src at 1 3. cbn [fst snd]. unfold dlook.
      pose proof (Forall2_dget (fun _ _ x => has_dims s x) (v_src v) d (a, b) L) as FD.
      apply in_map_iff in I as ([k r] & E & I). cbn [fst] in E. subst k.
      destruct (dget (a, b) (v_src v)) as [r2|] eqn:DV.
      2:{ exfalso. apply dget_None in DV. apply DV. apply in_map_iff. now exists ((a, b), r). }
      destruct (dget (a, b) d) as [arr|] eqn:D; [|contradiction]. cbn [rbind].
      destruct (entry_set s arr scn t q FD S T) as (arr' & EA & D' & _ & _). rewrite EA. cbn [rbind].
      assert (L1 : src_like s (v_src v) (dset (a, b) arr' d)) by (eapply (Forall2_dset (fun _ _ x => has_dims s x)); eauto).
      destruct (IH _ L1) as [H1 H2]. split.
      * intros F. inversion F; subst. auto.
      * intros F. apply H2. intros G. apply F. constructor; auto. exists (a, b). split; auto. apply in_map_iff. now exists ((a, b), r).
    + assert (E : set_src t scn d (ls, q) = Err KeyError).
      { unfold set_src. cbn [fst snd]. destruct ls as [|a [|b [|c ls]]]; auto. unfold dlook. destruct (dget (a, b) d) as [arr|] eqn:D; auto.
        exfalso. apply N. exists (a, b). split; auto. rewrite <- (src_keys s _ _ L). now apply dget_In_keys in D. }
      rewrite E. cbn [rbind]. split; auto. intros F. inversion F; subst. contradiction.
Qed.

Lemma conv_any X o D E scn t name v : inv s bench X o D (fun _ _ _ => False) -> winv s bench X o E ->
  scn < st_nb_scn s -> t < st_horizon s -> conv_at s name = Some v ->
  (sources_named v -> exists o', set_converter_var o name t scn (conv_answer (X scn) (pconv name t scn v)) = Ok o') /\
  (~ sources_named v -> set_converter_var o name t scn (conv_answer (X scn) (pconv name t scn v)) = Err KeyError).
Proof.
  intros [M N _] W S T HV.
  destruct (mirror_conv_l s _ M name v HV) as (rv & HR & (Ln & Ld & Ls)).
  unfold set_converter_var, dlook. unfold rconv_at, res_of in HR. cbn [r_converters] in HR. rewrite HR. cbn [rbind].
  destruct (src_loop_any v t scn (av_src (conv_answer (X scn) (pconv name t scn v))) S T (ov_src rv) Ls) as [A B].
  fold (posted (X scn) name t scn v) in *. rewrite named_iff in A, B. split.
  - intros H. destruct (A H) as (d & ->). cbn [rbind].
    destruct (entry_set s (ov_dest rv) scn t (av_dest (conv_answer (X scn) (pconv name t scn v))) Ld S T) as (a & -> & _). cbn [rbind]. eauto.
  - intros H. rewrite (B H). reflexivity.
Qed.

Lemma named_dec v : {sources_named v} + {~ sources_named v}.
Proof.
  destruct (Forall_dec (known v) (known_dec v) (dkeys (posted (fun _ => 0%Q) "" 0 0 v))) as [H|H].
  - left. now apply named_iff in H.
  - right. intros G. apply H. now apply named_iff.
Qed.

Lemma foldM_verdict {A St} (f : St -> A -> res St) (P : A -> Prop) (I : list A -> St -> Prop) (dec : forall a, {P a} + {~ P a}) l : forall pre st,
  I pre st -> (forall pre2 a post st, pre ++ l = pre2 ++ a :: post -> I pre2 st ->
     (P a -> exists st', f st a = Ok st' /\ I (pre2 ++ [a]) st') /\ (~ P a -> f st a = Err KeyError)) ->
  (Forall P l -> exists st', foldM f l st = Ok st' /\ I (pre ++ l) st') /\ (~ Forall P l -> foldM f l st = Err KeyError).
Proof.
  induction l as [|a l IH]; intros pre st I0 H; cbn [foldM].
  - rewrite app_nil_r. split; [eauto|]. intros N. exfalso. apply N. constructor.
  - destruct (H pre a l st eq_refl I0) as [H1 H2]. destruct (dec a) as [p|p].
    + destruct (H1 p) as (st' & E & I1). rewrite E. cbn [rbind].
      destruct (IH (pre ++ [a]) st' I1) as [G1 G2].
      { intros pre2 b post st2 EQ. apply (H pre2 b post st2). now rewrite <- EQ, <- app_assoc. }
      rewrite <- app_assoc in G1. cbn in G1. split.
      * intros F. inversion F; subst. auto.
      * intros F. apply G2. intros G. apply F. now constructor.
    + rewrite (H2 p). cbn [rbind]. split; auto. intros F. inversion F; subst. contradiction.
Qed.

Lemma step_any X o D E scn t vs : inv s bench X o D (fun _ _ _ => False) -> winv s bench X o E ->
  scn < st_nb_scn s -> t < st_horizon s -> nth_error vs t = Some (step_answer (X scn) (pstep s scn t)) ->
  (Forall (fun kv => sources_named (snd kv)) (st_converters s) -> exists o', write_step s scn t vs o = Ok o') /\
  (~ Forall (fun kv => sources_named (snd kv)) (st_converters s) -> write_step s scn t vs o = Err KeyError).
Proof.
  intros I W S T HV. unfold write_step, lnth. rewrite HV. cbn [rbind].
  destruct (foldM_ind (fun o kn => foldM (fun o kd =>
        let* ns := dlook (fst kn) (at_networks (step_answer (X scn) (pstep s scn t))) in
        let* n := dlook (fst kd) ns in
        set_node_var o (fst kn) (fst kd) t scn n) (snd kn) o)
     (fun pre o => inv s bench X o D (fun _ _ _ => False) /\ winv s bench X o E) (st_networks s) o)
    as (o1 & E1 & I1 & W1).
  { auto. }
  { intros pre [net ns] post o0 EQ I0. cbn [fst snd].
    assert (InN : In (net, ns) (st_networks s)) by (rewrite EQ; apply in_or_app; simpl; auto).
    assert (DN : dget net (st_networks s) = Some ns) by (apply In_dget; auto; apply wf_networks; apply rd_wf; auto).
    apply (foldM_ind (fun o kd =>
        let* ns := dlook net (at_networks (step_answer (X scn) (pstep s scn t))) in
        let* n := dlook (fst kd) ns in
        set_node_var o net (fst kd) t scn n)
      (fun pre' o => inv s bench X o D (fun _ _ _ => False) /\ winv s bench X o E) ns o0); auto.
    intros pre' [nd n] post' o2 EQ' [I2 W2]. cbn [fst snd].
    assert (InD : In (nd, n) ns) by (rewrite EQ'; apply in_or_app; simpl; auto).
    assert (HN : node_at s net nd = Some n) by (eapply node_at_In; eauto).
    unfold dlook. unfold step_answer. cbn [at_networks]. rewrite dget_dmap. unfold pstep. cbn [lt_networks].
    rewrite (dget_mapk (fun k (ns : network) => map (fun kd => (fst kd, pnode k (fst kd) t scn (snd kd))) ns)).
    rewrite DN. cbn [option_map rbind]. rewrite dget_dmap.
    rewrite (dget_mapk (fun k n => pnode net k t scn n)).
    pose proof HN as HN2. unfold node_at in HN. rewrite DN in HN. rewrite HN. cbn [option_map rbind].
    destruct (inv_node s bench X o2 _ _ scn t net nd n I2 S T HN2) as (o3 & E3 & I3).
    exists o3. split; [exact E3|].
    destruct (w_node s bench X o2 o3 D E scn t net nd n I2 W2 S T HN2 E3) as [I4 W4]. split; auto.
    eapply inv_weaken; [exact I4 | cbn beta; tauto | tauto]. }
  rewrite E1. cbn [rbind].
  destruct (foldM_verdict (fun o kv =>
      let* v := dlook (fst kv) (at_converters (step_answer (X scn) (pstep s scn t))) in
      set_converter_var o (fst kv) t scn v) (fun kv => sources_named (snd kv))
     (fun pre o => inv s bench X o D (fun _ _ _ => False) /\ winv s bench X o E) (fun kv => named_dec (snd kv)) (st_converters s) [] o1)
    as [A B]; auto.
  { intros pre [name v] post o0 EQ [I0 W0]. cbn [fst snd]. cbn [app] in EQ.
    assert (InV : In (name, v) (st_converters s)) by (rewrite EQ; apply in_or_app; simpl; auto).
    assert (HVc : conv_at s name = Some v) by (apply conv_at_In; auto; apply Hs).
    unfold dlook, step_answer. cbn [at_converters]. rewrite dget_dmap. unfold pstep. cbn [lt_converters].
    rewrite (dget_mapk (fun k v => pconv k t scn v)). pose proof HVc as HV2. unfold conv_at in HVc. rewrite HVc. cbn [option_map rbind].
    destruct (conv_any X o0 D E scn t name v I0 W0 S T HV2) as [G1 G2]. split; auto.
    intros H. destruct (G1 H) as (o3 & E3). exists o3. split; [exact E3|].
    destruct (w_conv s bench Hs X o0 o3 D E scn t name v I0 W0 S T HV2 E3) as [I3 W3]. split; auto.
    eapply winv_weaken; [exact W3|]. cbn beta. tauto. }
  split; auto. intros H. destruct (A H) as (o2 & E2 & _). eauto.
Qed.

Theorem solve_any answer sched : Permutation sched (seq 0 (st_nb_scn s)) -> 0 < st_horizon s -> 0 < st_nb_scn s ->
  (Forall (fun kv => sources_named (snd kv)) (st_converters s) -> exists r, solve_lp answer sched bench s = Ok r) /\
  (~ Forall (fun kv => sources_named (snd kv)) (st_converters s) -> solve_lp answer sched bench s = Err KeyError).
Proof.
  intros P Hh Hn. unfold solve_lp.
  set (X := fun scn => answer scn (program_of s scn)).
  destruct (pool_map_ok (fun scn => solve_batch (answer scn) s scn)
     (fun scn => map (step_answer (X scn)) (map (pstep s scn) (seq 0 (st_horizon s)))) (st_nb_scn s) sched) as (l & EL & HL); auto.
  { intros i Hi. unfold solve_batch, X, program_of. destruct (build_ok s i Hi Hs) as (p & -> & _). reflexivity. }
  rewrite EL. cbn [rbind].
  set (ST := fun o : ostate => inv s bench X o (fun _ _ _ _ => False) (fun _ _ _ => False) /\ winv s bench X o (fun _ _ _ => False)).
  assert (I0 : ST (out_init s)) by (split; [apply inv_init | apply winv_init]).
  assert (NT : forall scn t, t < st_horizon s -> nth_error (map (step_answer (X scn)) (map (pstep s scn) (seq 0 (st_horizon s)))) t = Some (step_answer (X scn) (pstep s scn t))).
  { intros scn t T. rewrite !nth_error_map. rewrite (nth_error_nth' _ 0) by (now rewrite seq_length). rewrite seq_nth by auto. reflexivity. }
  split.
  - intros NM.
    destruct (foldM_ind (write_scn s l) (fun _ o => ST o) (seq 0 (st_nb_scn s)) (out_init s) I0) as (o & -> & _).
    + intros pre scn post o EQ I1.
      assert (S : scn < st_nb_scn s).
      { assert (H : In scn (seq 0 (st_nb_scn s))) by (rewrite EQ; apply in_or_app; simpl; auto). apply in_seq in H. lia. }
      unfold write_scn, lnth. rewrite HL by auto. cbn [rbind]. apply (foldM_ind _ (fun _ o => ST o)); auto.
      intros pre' t post' o2 EQ' [I2 W2].
      assert (T : t < st_horizon s).
      { assert (H : In t (seq 0 (st_horizon s))) by (rewrite EQ'; apply in_or_app; simpl; auto). apply in_seq in H. lia. }
      destruct (step_any X o2 _ _ scn t _ I2 W2 S T (NT scn t T)) as [G _]. destruct (G NM) as (o3 & E3). exists o3. split; [exact E3|].
      destruct (write_step_weak s bench Hs X o2 o3 _ _ scn t _ I2 W2 S T (NT scn t T) E3) as [I3 W3].
      split; [eapply inv_weaken; [exact I3 | |]; cbn beta; tauto | eapply winv_weaken; [exact W3|]; cbn beta; tauto].
    + cbn [rbind]. eauto.
  - intros NM. destruct I0 as [I0 W0]. destruct (st_nb_scn s) as [|n] eqn:EN; [lia|]. cbn [seq foldM].
    unfold write_scn at 1, lnth. rewrite HL by lia. cbn [rbind].
    destruct (step_any X (out_init s) _ _ 0 0 _ I0 W0 ltac:(lia) Hh (NT 0 0 Hh)) as [_ G].
    destruct (st_horizon s) as [|h] eqn:EH; [lia|]. cbn [seq foldM]. cbn [seq] in G. rewrite (G NM). reflexivity.
Qed.
End Names.

Lemma all_named_Forall s : study_wf s -> (all_sources_named s <-> Forall (fun kv => sources_named (snd kv)) (st_converters s)).
Proof.
  intros W. rewrite Forall_forall. split.
  - intros H [name v] I. cbn [snd]. apply (H name). apply In_dget; auto. now apply wf_convs.
  - intros H name v V. unfold conv_at in V. apply dget_In in V. exact (H _ V).
Qed.

(** ** C29 Solving depends on names exactly so *)
Theorem C29_exact : forall answer s sched bench,
  api_study s -> usable_converters s -> Permutation sched (seq 0 (st_nb_scn s)) ->
  (all_sources_named s -> exists r, solve_lp answer sched bench s = Ok r) /\
  (~ all_sources_named s -> solve_lp answer sched bench s = Err KeyError).
Proof.
  intros answer s sched bench A U P. destruct (api_facts s A) as (W & C & Hh & Hn). pose proof (api_ready s A U) as R.
  rewrite (all_named_Forall s W). now apply solve_any.
Qed.

(** Which studies are answered with a result. *)
Theorem C29_solved_iff : forall answer s sched bench, api_study s -> Permutation sched (seq 0 (st_nb_scn s)) ->
  ((exists r, solve_lp answer sched bench s = Ok r) <-> usable_converters s /\ all_sources_named s).
Proof.
  intros answer s sched bench A P. destruct (api_facts s A) as (W & C & Hh & Hn). split.
  - intros [r E]. assert (U : usable_converters s) by (eapply solved_usable; eauto; exists sched, bench; eauto). split; auto.
    apply (all_named_Forall s W). destruct (C29_exact answer s sched bench A U P) as [_ G]. rewrite (all_named_Forall s W) in G.
    destruct (Forall_dec _ (fun kv => named_dec (snd kv)) (st_converters s)) as [H|H]; auto. rewrite (G H) in E. discriminate.
  - intros [U N]. now apply (C29_exact answer s sched bench A U P).
Qed.

(** ** C27 The flows at sources, whatever the names *)
Theorem C27_exact : forall answer s r, api_study s -> solved answer s r ->
  forall scn t name v rv k a, scn < st_nb_scn s -> t < st_horizon s ->
    conv_at s name = Some v -> rconv_at r name = Some rv -> In (k, a) (ov_src rv) ->
  (plain_key k -> forall k' q, last_alike v k k' q -> entry a scn t = answer scn (program_of s scn) (VSrc name (fst k') (snd k') t)) /\
  (~ plain_key k -> entry a scn t = 0%Q).
Proof.
  intros answer s r A SV scn t name v rv k a S T V RV I. destruct (solved_weak _ _ _ A SV) as (R & M & C). destruct (C scn S) as (_ & _ & CS).
  rewrite (CS name v rv k a V RV I t T). split.
  - intros P k' q L. apply (cell_plain _ name v scn t k k' q P L).
  - apply cell_odd.
Qed.

(** The last source alike exists. *)
Lemma last_alike_ex v k : In k (dkeys (v_src v)) -> exists k' q, last_alike v k k' q.
Proof.
  intros I. unfold last_alike. induction (v_src v) as [|[k2 q2] d IH] using rev_ind; [destruct I|].
  destruct (string_dec (text_of k2) (text_of k)) as [E|N].
  - exists k2, q2, d, []. split; [reflexivity|]. split; [exact E|]. intros ? [].
  - unfold dkeys in I. rewrite map_app, in_app_iff in I. destruct I as [I|[I|[]]]; [|cbn in I; subst; congruence].
    destruct (IH I) as (k' & q & pre & post & E & T & L). exists k', q, pre, (post ++ [(k2, q2)]). rewrite E, <- app_assoc. split; auto. split; auto.
    intros k3 I3. unfold dkeys in I3. rewrite map_app, in_app_iff in I3. destruct I3 as [I3|[I3|[]]]; [auto | cbn in I3; now subst].
Qed.

Lemma last_alike_plain v k k' q : plain_key k -> (forall k2, In k2 (dkeys (v_src v)) -> plain_key k2) -> last_alike v k k' q -> k' = k.
Proof.
  intros P PK (pre & post & E & T & _). apply join_cc_inj; auto. apply PK. unfold dkeys. rewrite E, map_app. apply in_or_app. right. now left.
Qed.

(** Every solve tells the flows of the solver exactly when all source names are plain. *)
Theorem C27_plain_exact : forall s, api_study s -> usable_converters s ->
  (plain_sources s <->
   forall answer sched bench, Permutation sched (seq 0 (st_nb_scn s)) -> exists r, solve_lp answer sched bench s = Ok r /\
     forall scn, scn < st_nb_scn s -> carries_answer s r scn (answer scn (program_of s scn))).
Proof.
  intros s A U. destruct (api_facts s A) as (W & C & Hh & Hn). pose proof (api_ready s A U) as R. split.
  - intros K answer sched bench P. destruct (solve_lp_ok s bench R K answer sched P) as (r & E & _ & _ & CA). eauto.
  - intros H name v k V I.
    destruct (H (fun _ _ _ => 1%Q) (seq 0 (st_nb_scn s)) (Bench [] [] 0 0) (Permutation_refl _)) as (r & E & CA).
    assert (SV : solved (fun _ _ _ => 1%Q) s r) by (exists (seq 0 (st_nb_scn s)), (Bench [] [] 0 0); auto).
    destruct (solved_weak _ _ _ A SV) as (_ & M & _). destruct (mirror_conv_l s _ M name v V) as (rv & RV & (_ & _ & L)).
    assert (I2 : In k (dkeys (ov_src rv))) by (now rewrite (src_keys s _ _ L)). apply in_map_iff in I2 as ([k2 a] & E2 & I2). cbn in E2. subst k2.
    destruct (C27_exact _ s r A SV 0 0 name v rv k a Hn Hh V RV I2) as [_ Z].
    pose proof (ca_src _ _ _ _ (CA 0 Hn) name v rv (fst k) (snd k) a 0 Hh V RV) as Y. rewrite <- surjective_pairing in Y. specialize (Y I2). cbn in Y.
    destruct (has_cc (fst k)) eqn:B1; [|destruct (ends_c (fst k)) eqn:B2; [|destruct (has_cc (snd k)) eqn:B3; [|now apply plain_dec]]];
      exfalso; rewrite Z in Y; try (vm_compute in Y; discriminate); unfold plain_key; rewrite !ncc, nec; intros (? & ? & ?); congruence.
Qed.

(** ** C19 The converter law, whatever the names *)

(** With the ratio of the last source alike, the law holds for every source with plain names. *)
Theorem C19_any_names : forall answer s r scn,
  api_study s -> solved answer s r -> scn < st_nb_scn s -> feasible_answer answer s scn ->
  forall name v rv k a t k' q, conv_at s name = Some v -> rconv_at r name = Some rv -> t < st_horizon s -> In (k, a) (ov_src rv) ->
    plain_key k -> last_alike v k k' q -> (value q scn t * entry a scn t == entry (ov_dest rv) scn t)%Q.
Proof.
  intros answer s r scn A SV S F name v rv k a t k' q V RV T I P L.
  destruct (C27_exact answer s r A SV scn t name v rv k a S T V RV I) as [Z _]. rewrite (Z P k' q L).
  destruct (solved_weak _ _ _ A SV) as (R & M & C). destruct (C scn S) as ((vs & B) & CA & _).
  pose proof (proj1 (sat_iff s scn S R _ vs _ B) F) as XO. rewrite (ca_dest _ _ _ _ CA name v rv t T V RV). cbn [x_read].
  destruct L as (pre & post & E & _). apply (xo_mix _ _ _ XO t name v T V k' q). rewrite E. apply in_or_app. right. now left.
Qed.

(** The law holds as stated exactly where the ratio of the last source alike is the
    same and the names are plain, or nothing is delivered. *)
Theorem C19_exact : forall answer s r scn,
  api_study s -> solved answer s r -> scn < st_nb_scn s -> feasible_answer answer s scn ->
  (converters_convert s r scn <->
   forall name v rv k q t, conv_at s name = Some v -> rconv_at r name = Some rv -> t < st_horizon s -> In (k, q) (v_src v) ->
     (entry (ov_dest rv) scn t == 0)%Q \/
     (plain_key k /\ forall k' q', last_alike v k k' q' -> (value q' scn t == value q scn t)%Q)).
Proof.
  intros answer s r scn A SV S F. destruct (solved_weak _ _ _ A SV) as (R & M & C). destruct (C scn S) as ((vs & B) & CA & CS).
  destruct (api_facts s A) as (W & Cn & Hh & Hn).
  assert (U : usable_converters s) by (eapply solved_usable; eauto).
  assert (DEC : forall k, plain_key k \/ ~ plain_key k).
  { intros k. destruct (has_cc (fst k)) eqn:B1; [|destruct (ends_c (fst k)) eqn:B2; [|destruct (has_cc (snd k)) eqn:B3; [|left; now apply plain_dec]]];
      right; unfold plain_key; rewrite !ncc, nec; intros (? & ? & ?); congruence. }
  assert (LIKE : forall name v rv, conv_at s name = Some v -> rconv_at r name = Some rv -> src_like s (v_src v) (ov_src rv)).
  { intros name v rv V RV. destruct (mirror_conv_l s _ M name v V) as (rv' & RV' & (_ & _ & L)). rewrite RV in RV'. inversion RV'; subst. exact L. }
  split.
  - intros H name v rv k q t V RV T I. specialize (H name v rv t V RV T).
    pose proof (LIKE name v rv V RV) as L. unfold src_like in L. apply In_nth_error in I as [i I].
    destruct (Forall2_get _ _ _ _ _ L I) as ([k2 a] & J & EK & _). cbn [fst snd] in EK. subst k2.
    destruct (Forall2_get _ _ _ _ _ H I) as ([k2 a2] & J2 & EQ). rewrite J in J2. inversion J2; subst. cbn [fst snd] in EQ.
    apply nth_error_In in J.
    destruct (DEC k2) as [P|P].
    + destruct (Qeq_dec (entry (ov_dest rv) scn t) 0) as [Z|NZ]; auto. right. split; auto. intros k' q' LA.
      pose proof (C19_any_names answer s r scn A SV S F name v rv k2 a2 t k' q' V RV T J P LA) as E.
      destruct (Qeq_dec (entry a2 scn t) 0) as [Y|Y]; [exfalso; apply NZ; rewrite <- EQ, Y; ring|].
      apply (Qmult_inj_r _ _ (entry a2 scn t)); auto. now rewrite EQ.
    + left. destruct (C27_exact answer s r A SV scn t name v rv k2 a2 S T V RV J) as [_ Z]. rewrite <- EQ, (Z P). ring.
  - intros H name v rv t V RV T. pose proof (LIKE name v rv V RV) as L. unfold src_like in L. apply Forall2_In in L.
    eapply Forall2_imp; [|exact L]. intros [k q] [k2 a] (I & J & EK & _). cbn [fst snd] in *. subst k2.
    assert (IK : In k (dkeys (v_src v))) by (apply in_map_iff; now exists (k, q)).
    destruct (last_alike_ex v k IK) as (k' & q' & LA).
    destruct (H name v rv k q t V RV T I) as [Z|[P E]].
    + destruct (DEC k) as [P|P].
      * pose proof (C19_any_names answer s r scn A SV S F name v rv k a t k' q' V RV T J P LA) as E. rewrite Z in *.
        assert (NZ : ~ (value q' scn t == 0)%Q).
        { destruct LA as (pre & post & EV & _). apply (proj2 (proj2 (U name v V)) k' q' scn t); auto. rewrite EV. apply in_or_app. right. now left. }
        apply Qmult_integral in E as [E|E]; [contradiction|]. rewrite E. ring.
      * destruct (C27_exact answer s r A SV scn t name v rv k a S T V RV J) as [_ Y]. rewrite (Y P), Z. ring.
    + rewrite <- (E k' q' LA). now apply (C19_any_names answer s r scn A SV S F name v rv k a t k' q').
Qed.

(** ** C16 The balance of a node, whatever the names *)

(** What the solver's answer takes from node [nd] of [net] for converters. *)
Definition taken (s : study) (x : var -> Q) (net nd : string) (t : nat) : Q :=
  total (fun kv => total (fun kr : (string * string) * numval => if pair_eqb (fst kr) (net, nd) then x (VSrc (fst kv) net nd t) else 0%Q)
                         (v_src (snd kv))) (st_converters s).

(** The flow of every source at the node is written under its own name. *)
Definition told_apart (s : study) (net nd : string) : Prop := forall name v,
  conv_at s name = Some v -> In (net, nd) (dkeys (v_src v)) ->
  plain_key (net, nd) /\ forall k q, last_alike v (net, nd) k q -> k = (net, nd).

Lemma taken_conv s scn x r net nd t : study_wf s -> mirrors s r -> t < st_horizon s ->
  (forall name v rv, conv_at s name = Some v -> rconv_at r name = Some rv -> (entry (ov_dest rv) scn t == x (VDest name t))%Q) ->
  (qsum (map (fun kv => xconv x t net nd (fst kv) (snd kv)) (st_converters s)) == received s r scn net nd t - taken s x net nd t)%Q.
Proof.
  intros W M T D. unfold taken, total.
  assert (E : (qsum (map (fun kv => xconv x t net nd (fst kv) (snd kv)) (st_converters s)) ==
    qsum (map (fun kv => if goes_to s (fst kv) net nd then x (VDest (fst kv) t) else 0%Q) (st_converters s)) -
    qsum (map (fun kv => qsum (map (fun kr : (string * string) * numval => if pair_eqb (fst kr) (net, nd) then x (VSrc (fst kv) net nd t) else 0%Q) (v_src (snd kv)))) (st_converters s)))%Q).
  { rewrite <- qsum_map_sub. apply qsum_map_ext. intros [name v] I. cbn [fst snd]. unfold xconv, goes_to.
    rewrite (In_dget _ _ _ (wf_convs _ W) I : conv_at s name = Some v).
    assert (E : (qsum (map (fun kr : (string * string) * numval => if pair_eqb (fst kr) (net, nd) then x (vsrc name t (fst kr)) else 0) (v_src v)) ==
                 qsum (map (fun kr : (string * string) * numval => if pair_eqb (fst kr) (net, nd) then x (VSrc name net nd t) else 0) (v_src v)))%Q).
    { apply qsum_map_ext. intros [[a b] q] _. cbn [fst snd]. destruct (pair_eqb (a, b) (net, nd)) eqn:Q; [|reflexivity].
      change (pair_eqb (a, b) (net, nd)) with (Base.eqb (a, b) (net, nd)) in Q. apply eqb_eq in Q. inversion Q; subst. reflexivity. }
    rewrite E. reflexivity. }
  rewrite E. clear E. assert (E : (qsum (map (fun kv => if goes_to s (fst kv) net nd then x (VDest (fst kv) t) else 0%Q) (st_converters s)) == received s r scn net nd t)%Q).
  { unfold received, total. apply qsum_pair. pose proof (Forall2_In _ _ _ (mr_convs _ _ M)) as F. eapply Forall2_imp; [|exact F].
    intros [a v] [b rv] (I & J & E & _). cbn [fst snd] in *. subst b. destruct (goes_to s a net nd); [|reflexivity].
    symmetry. assert (V : conv_at s a = Some v) by (apply (In_dget _ _ _ (wf_convs _ W) I)).
    apply (D a v rv V). destruct (mirror_conv_l s r M a v V) as (rv' & R & _). apply In_dget; [|exact J].
    rewrite (Forall2_keys (fun k v rv => conv_like s k v rv) _ _ (mr_convs _ _ M)). apply W. }
  rewrite E. reflexivity.
Qed.

(** The balance with what was taken. *)
Theorem C16_any_names : forall answer s r scn,
  api_study s -> solved answer s r -> scn < st_nb_scn s -> feasible_answer answer s scn ->
  forall t net nd rn, t < st_horizon s -> rnode_at r net nd = Some rn ->
    (served scn rn t + exported scn rn t + stored scn rn t + taken s (answer scn (program_of s scn)) net nd t ==
     produced scn rn t + imported r scn net nd t + withdrawn scn rn t + received s r scn net nd t + looped scn nd rn t)%Q.
Proof.
  intros answer s r scn A SV S F t net nd rn T RN. destruct (solved_weak _ _ _ A SV) as (R & M & C). destruct (C scn S) as ((vs & B) & CA & CS).
  pose proof (proj1 (sat_iff s scn S R _ vs _ B) F) as XO. set (x := answer scn (program_of s scn)) in *.
  destruct (mirror_node_r s r M net nd rn RN) as (n & N & NL).
  pose proof (xo_balance _ _ _ XO t net nd n T N) as XB. unfold xbalance in XB.
  rewrite (taken_conv s scn x r net nd t (rd_wf _ R) M T) in XB.
  2:{ intros name v rv V RV. rewrite (ca_dest _ _ _ _ CA name v rv t T V RV). reflexivity. }
  rewrite (served_eq s r M scn (x_read s x r scn) CA t T net nd n rn N RN), (produced_eq s r M scn (x_read s x r scn) CA t T net nd n rn N RN),
    (stored_eq s r M scn (x_read s x r scn) CA t T net nd n rn N RN), (withdrawn_eq s r M scn (x_read s x r scn) CA t T net nd n rn N RN),
    (exported_eq s r M scn (x_read s x r scn) CA t T net nd n rn N RN), (looped_eq s r M scn (x_read s x r scn) CA t T net nd n rn N RN),
    (imported_eq s r R M scn (x_read s x r scn) CA t T net nd).
  change (ximport s (x_read s x r scn) t net nd) with (ximport s x t net nd).
  change (xself (x_read s x r scn) t net nd n) with (xself x t net nd n). cbn [x_read]. unfold xnode in XB.
  assert (E1 : (sumi (fun i c => value (c_qty c) scn t - x (VLol net nd i t)) (n_cons n) ==
                qsum (map (fun c => value (c_qty c) scn t) (n_cons n)) - sumi (fun i _ => x (VLol net nd i t)) (n_cons n))%Q).
  { rewrite (sumi_ext _ (fun i c => value (c_qty c) scn t + - x (VLol net nd i t))%Q) by (intros; lra).
    rewrite (sumi_add (fun _ c => value (c_qty c) scn t) (fun i _ => - x (VLol net nd i t))%Q).
    rewrite (sumi_opp (fun i _ => x (VLol net nd i t))), sumi_map. lra. }
  assert (E2 : (sumi (fun i (_ : storage) => - x (VIn net nd i t) + x (VOut net nd i t)) (n_stors n) ==
                - sumi (fun i _ => x (VIn net nd i t)) (n_stors n) + sumi (fun i _ => x (VOut net nd i t)) (n_stors n))%Q).
  { rewrite (sumi_add (fun i _ => - x (VIn net nd i t))%Q (fun i _ => x (VOut net nd i t))).
    rewrite (sumi_opp (fun i _ => x (VIn net nd i t))). lra. }
  rewrite E2 in XB. rewrite E1. lra.
Qed.

(** So the balance of the result is right, up to loops, exactly where the result tells
    what was taken, in particular at every node whose sources are told apart. *)
Theorem C16_exact : forall answer s r scn,
  api_study s -> solved answer s r -> scn < st_nb_scn s -> feasible_answer answer s scn ->
  forall t net nd rn, t < st_horizon s -> rnode_at r net nd = Some rn ->
    ((served scn rn t + exported scn rn t + stored scn rn t + sent r scn net nd t ==
      produced scn rn t + imported r scn net nd t + withdrawn scn rn t + received s r scn net nd t)%Q <->
     (sent r scn net nd t + looped scn nd rn t == taken s (answer scn (program_of s scn)) net nd t)%Q) /\
    (told_apart s net nd -> (sent r scn net nd t == taken s (answer scn (program_of s scn)) net nd t)%Q).
Proof.
  intros answer s r scn A SV S F t net nd rn T RN.
  pose proof (C16_any_names answer s r scn A SV S F t net nd rn T RN) as L. split; [split; intros; lra|].
  intros TA. destruct (solved_weak _ _ _ A SV) as (R & M & C). destruct (C scn S) as (_ & _ & CS).
  unfold sent, taken, total. symmetry. apply qsum_pair. pose proof (Forall2_In _ _ _ (mr_convs _ _ M)) as FI. eapply Forall2_imp; [|exact FI].
  intros [a v] [b rv] (I & J & E & (_ & _ & LK)). cbn [fst snd] in *. subst b.
  assert (V : conv_at s a = Some v) by (apply (In_dget _ _ _ (wf_convs _ (rd_wf _ R)) I)).
  assert (RV : rconv_at r a = Some rv).
  { apply In_dget; [|exact J]. rewrite (Forall2_keys (fun k v rv => conv_like s k v rv) _ _ (mr_convs _ _ M)). apply R. }
  apply qsum_pair. apply Forall2_In in LK. eapply Forall2_imp; [|exact LK]. intros [k q] [k2 ar] (I2 & J2 & E2 & _). cbn [fst snd] in *. subst k2.
  destruct (pair_eqb k (net, nd)) eqn:Q; [|reflexivity].
  change (pair_eqb k (net, nd)) with (Base.eqb k (net, nd)) in Q. apply eqb_eq in Q. subst k.
  assert (IK : In (net, nd) (dkeys (v_src v))) by (apply in_map_iff; now exists ((net, nd), q)).
  destruct (TA a v V IK) as [P U]. destruct (last_alike_ex v (net, nd) IK) as (k' & q' & LA).
  destruct (C27_exact answer s r A SV scn t a v rv (net, nd) ar S T V RV J2) as [Z _]. rewrite (Z P k' q' LA).
  rewrite (U k' q' LA). reflexivity.
Qed.

Example C16_exact_example : api_study clash /\ solved clash_answer clash clash_result /\ feasible_answer clash_answer clash 0 /\
  told_apart clash "a" ":b" /\ ~ told_apart clash "a:" "b" /\
  (taken clash (clash_answer 0 (program_of clash 0)) "a" ":b" 0 == 10)%Q /\ (sent clash_result 0 "a:" "b" 0 == 0)%Q.
Proof.
  split; [apply clash_api|]. split; [apply clash_solved|]. split; [apply clash_feasible|]. split.
  { intros name v V _. split; [apply plain_dec; reflexivity|]. destruct (String.eqb name "cv") eqn:E.
    - apply String.eqb_eq in E. subst. cbn in V. inversion V; subst. intros k q (pre & post & EV & TX & L). cbn [v_src] in EV.
      destruct pre as [|x [|y pre]]; cbn in EV; inversion EV; subst; auto.
      + exfalso. apply (L ("a", ":b")); [left; reflexivity | reflexivity].
      + destruct pre; discriminate.
    - unfold conv_at in V. cbn in V. rewrite E in V. discriminate. }
  split; [|split; vm_compute; reflexivity].
  intros H. destruct (H "cv" _ eq_refl ltac:(left; reflexivity)) as [(_ & P & _) _]. apply P. now exists "a".
Qed.

(** ** Examples *)

(** The names of [clash] collide: it is solved, and the flow of ("a:", "b") is lost. *)
Example C29_exact_example : api_study clash /\ usable_converters clash /\ all_sources_named clash /\ ~ plain_sources clash /\
  api_study colon /\ usable_converters colon /\ ~ all_sources_named colon.
Proof.
  assert (NP : ~ plain_key ("a:", "b")) by (intros (_ & H & _); apply H; now exists "a").
  split; [apply clash_api|]. split; [apply usableb_ok; vm_compute; reflexivity|]. split.
  { intros name v V. destruct (String.eqb name "cv") eqn:E.
    - apply String.eqb_eq in E. subst. cbn in V. inversion V; subst. intros k I. exists ("a", ":b").
      split; [right; left; reflexivity|]. split; [apply plain_dec; reflexivity|]. destruct I as [<-|[<-|[]]]; reflexivity.
    - unfold conv_at in V. cbn in V. rewrite E in V. discriminate. }
  split.
  { intros H. apply NP. apply (H "cv" _ ("a:", "b") eq_refl). left. reflexivity. }
  split. { exists 1, 1, None, colon_calls. split; [lia|]. split; [lia|]. split; [plain_tac | vm_compute; reflexivity]. }
  split; [apply usableb_ok; vm_compute; reflexivity|].
  intros H. destruct (H "cv" _ eq_refl ("net", "x::y")) as (k & I & P & _); [left; reflexivity|].
  destruct I as [<-|[]]. destruct P as (_ & _ & P). apply P. exists "x", "y". reflexivity.
Qed.

Example C27_exact_example : api_study clash /\ solved clash_answer clash clash_result /\ feasible_answer clash_answer clash 0 /\
  exists v rv a b, conv_at clash "cv" = Some v /\ rconv_at clash_result "cv" = Some rv /\
    ov_src rv = [(("a:", "b"), a); (("a", ":b"), b)] /\ ~ plain_key ("a:", "b") /\ entry a 0 0 = 0%Q /\
    plain_key ("a", ":b") /\ (exists q, last_alike v ("a", ":b") ("a", ":b") q) /\ entry b 0 0 = 10%Q /\ ~ (entry (ov_dest rv) 0 0 == 0)%Q.
Proof.
  split; [apply clash_api|]. split; [apply clash_solved|]. split; [apply clash_feasible|].
  do 4 eexists. split; [reflexivity|]. split; [reflexivity|]. split; [reflexivity|].
  split. { intros (_ & H & _). apply H. now exists "a". }
  split; [reflexivity|]. split; [apply plain_dec; reflexivity|]. split.
  { eexists. eexists [_], []. split; [reflexivity|]. split; [reflexivity|]. intros ? []. }
  split; [reflexivity|]. vm_compute. discriminate.
Qed.

Print Assumptions C29_exact.
Print Assumptions C29_solved_iff.
Print Assumptions C27_exact.
Print Assumptions C27_plain_exact.
Print Assumptions C19_any_names.
Print Assumptions C19_exact.
Print Assumptions C16_any_names.
Print Assumptions C16_exact.
