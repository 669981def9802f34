(** Studies built by the API: when they can be solved. *)
From Coq Require Import String List ZArith QArith Bool Arith Lia Lqa Permutation.
From Verif Require Import Base BaseFacts Numeric NumericFacts Study Fluent SpecStudy StudyFacts FluentFacts Output Json SpecJson JsonFacts
  LP SpecLP LPFacts LPBuild LPResult LPSolve.
Import ListNotations.
Open Scope nat_scope.

(** ** Values can be read *)
Lemma canon_ok h n v : nv_canon h n v -> nv_ok h n v.
Proof.
  destruct v; simpl; auto; intros [E W]; pose proof (create_arr_ok _ _ _ _ E W) as H; simpl in H; auto.
Qed.

Lemma canon_readable s v : nv_canon (st_horizon s) (st_nb_scn s) v -> readable s v.
Proof.
  intros C scn t S T. destruct (getn_nth _ _ _ scn t (canon_ok _ _ _ C) S T) as (q & E & _).
  unfold value. now rewrite E.
Qed.

Lemma api_facts s : api_study s -> study_wf s /\ study_canon s /\ 0 < st_horizon s /\ 0 < st_nb_scn s.
Proof.
  intros (h & n & version & cs & Hh & Hn & P & ->).
  assert (R : reachable (run (start h n version) cs)) by (exists h, n, version, cs; auto).
  pose proof (reachable_inv _ R) as I.
  pose proof (run_canon cs (start h n version) P (start_canon h n version)) as C.
  pose proof (run_dims h n version cs) as (D1 & D2 & D3).
  split; [apply I|]. split; auto. rewrite D1, D2. auto.
Qed.

Theorem api_ready s : api_study s -> usable_converters s -> ready s.
Proof.
  intros A U. destruct (api_facts s A) as (W & C & Hh & Hn). constructor; auto.
  - intros net nd n N. destruct (sc_node _ C _ _ _ N) as [C1 C2 C3 C4]. constructor.
    + intros c I. destruct (C1 c I). split; now apply canon_readable.
    + intros c I. destruct (C2 c I). split; now apply canon_readable.
    + intros c I. destruct (C3 c I) as (? & ? & ? & ? & ?). repeat split; now apply canon_readable.
    + intros c I. destruct (C4 c I). split; now apply canon_readable.
  - intros name v V. destruct (sc_conv _ C _ _ V) as [C1 C2 C3]. destruct (U name v V) as (U0 & U1 & U2).
    destruct (wf_dest _ _ _ (wf_conv _ W _ _ V)) as [(_ & _ & _ & E)|D]; [congruence|].
    constructor; auto.
    + destruct (v_cost v) as [c|]; [|congruence]. exists c. split; auto. now apply canon_readable.
    + destruct (v_max v) as [c|]; [|congruence]. exists c. split; auto. now apply canon_readable.
    + intros k q I. split; [now apply canon_readable, (C1 k)|]. intros scn t. now apply (U2 k).
Qed.

(** ** What a successful solve tells *)
Lemma sbind_inv {St A C} (m : ST St A) (f : A -> ST St C) st st' c : sbind m f st = (st', Ok c) ->
  exists st1 a, m st = (st1, Ok a) /\ f a st1 = (st', Ok c).
Proof. unfold sbind. destruct (m st) as [st1 [a|e]]; intros H; [eauto | discriminate]. Qed.

Lemma smapi_inv {St A C} (f : nat -> A -> ST St C) l : forall i st st' ys, smapi f i l st = (st', Ok ys) ->
  forall x, In x l -> exists j st1 st2 y, f j x st1 = (st2, Ok y).
Proof.
  induction l as [|a l IH]; simpl; intros i st st' ys H x I; [tauto|].
  apply sbind_inv in H as (st1 & y & E & H). apply sbind_inv in H as (st2 & ys' & E2 & _).
  destruct I as [<-|I]; [exists i, st, st1, y; auto|]. eapply IH; eauto.
Qed.

Lemma foldM_inv {A St} (f : St -> A -> res St) l : forall s0 s1, foldM f l s0 = Ok s1 ->
  forall a, In a l -> exists s2 s3, f s2 a = Ok s3.
Proof.
  induction l as [|b l IH]; simpl; intros s0 s1 H a I; [tauto|]. destruct (f s0 b) as [s2|e] eqn:E; [|discriminate].
  simpl in H. destruct I as [<-|I]; eauto.
Qed.

Lemma dmapM_inv {K V W} (f : V -> res W) (d : dict K V) d' : dmapM f d = Ok d' ->
  forall k v, In (k, v) d -> exists w, f v = Ok w /\ In (k, w) d'.
Proof.
  revert d'. induction d as [|[k0 v0] d IH]; simpl; intros d' H k v I; [tauto|].
  unfold dmapM in H. simpl in H. destruct (f v0) as [w0|] eqn:E; [|discriminate]. simpl in H.
  fold (dmapM f d) in H.
  destruct (dmapM f d) as [r|] eqn:E2; [|discriminate]. simpl in H. inversion H; subst.
  destruct I as [I|I]; [inversion I; subst; exists w0; simpl; auto|].
  destruct (IH r eq_refl k v I) as (w & Hw & Iw). exists w. simpl. auto.
Qed.

Lemma built_conv s scn p name v t : study_wf s -> build s scn = Ok p -> t < st_horizon s -> conv_at s name = Some v ->
  v_cost v <> None /\ v_max v <> None /\
  forall k q, In (k, q) (v_src v) -> exists r, getn q scn t = Ok r /\ ~ (r == 0)%Q.
Proof.
  intros W B T V. unfold build in B. destruct (build_batch s scn b_init) as [b [vs|e]] eqn:E; [|discriminate].
  unfold build_batch in E. apply sbind_inv in E as (b1 & vs1 & E & _).
  destruct (smapi_inv _ _ _ _ _ _ E t) as (j & b2 & b3 & y & E2); [apply in_seq; lia|].
  unfold batch_step in E2. apply sbind_inv in E2 as (b4 & nets & _ & E2). apply sbind_inv in E2 as (b5 & convs & E2 & _).
  apply dget_In in V as I. destruct (smapi_inv _ _ _ _ _ _ E2 (name, v) I) as (j2 & b6 & b7 & y2 & E3). cbn [fst] in E3.
  apply sbind_inv in E3 as (b8 & lv & E3 & _). unfold batch_conv in E3. apply sbind_inv in E3 as (b9 & lv2 & E3 & _).
  unfold get_conv_var in E3. apply sbind_inv in E3 as (b10 & v' & E4 & E3). unfold slift, dlook in E4.
  unfold conv_at in V. rewrite V in E4. injection E4 as <- <-.
  apply sbind_inv in E3 as (b11 & ra & E5 & E3). unfold slift in E5. injection E5 as <- H0.
  apply sbind_inv in E3 as (b12 & co & E6 & E3). unfold slift in E6. injection E6 as <- H1.
  apply sbind_inv in E3 as (b13 & mx & E7 & E3). unfold slift in E7. injection E7 as <- H2.
  apply sbind_inv in E3 as (b14 & sr & E8 & E3).
  split; [intros X; rewrite X in H1; discriminate|]. split; [intros X; rewrite X in H2; discriminate|].
  intros k q Ik. destruct (dmapM_inv _ _ _ H0 k q Ik) as (r & R & Ir).
  exists r. split; auto. intros Z.
  destruct (smapi_inv _ _ _ _ _ _ E8 (k, r) Ir) as (j3 & b15 & b16 & y3 & E9). cbn [fst snd] in E9.
  apply sbind_inv in E9 as (b17 & ub & E9 & _). unfold slift, pydiv in E9.
  rewrite (proj2 (Qeq_bool_iff r 0) Z) in E9. discriminate.
Qed.

Theorem solved_usable s answer r : study_wf s -> 0 < st_horizon s -> 0 < st_nb_scn s ->
  solved answer s r -> usable_converters s.
Proof.
  intros W Hh Hn (sched & bench & P & E). unfold solve_lp in E.
  destruct (pool_map (fun scn => solve_batch (answer scn) s scn) (st_nb_scn s) sched) as [a|] eqn:EP; [|discriminate].
  assert (BI : forall scn, scn < st_nb_scn s -> exists p, build s scn = Ok p).
  { intros scn S. assert (I : In scn sched) by (apply (Permutation_in _ (Permutation_sym P)); apply in_seq; lia).
    unfold pool_map in EP. destruct (foldM_inv _ _ _ _ EP scn I) as (s2 & s3 & EJ).
    unfold solve_batch in EJ. destruct (build s scn) as [p|]; [eauto | discriminate]. }
  intros name v V. destruct (BI 0 Hn) as (p0 & B0). destruct (built_conv s 0 p0 name v 0 W B0 Hh V) as (V1 & V2 & _).
  repeat split; auto. intros k q scn t I S T. destruct (BI scn S) as (p & B).
  destruct (built_conv s scn p name v t W B T V) as (_ & _ & R). destruct (R k q I) as (x & G & NZ).
  unfold value. now rewrite G.
Qed.

(** A solved study of the API: everything the later theorems need. *)
Theorem solved_facts s answer r : api_study s -> plain_sources s -> solved answer s r ->
  ready s /\ mirrors s r /\
  forall scn, scn < st_nb_scn s -> exists vs, build s scn = Ok (program_of s scn, vs) /\
     carries_answer s r scn (answer scn (program_of s scn)).
Proof.
  intros A K SV. destruct (api_facts s A) as (W & C & Hh & Hn).
  assert (R : ready s) by (apply api_ready; auto; eapply solved_usable; eauto).
  destruct SV as (sched & bench & P & E).
  destruct (solve_lp_ok s bench R K answer sched P) as (r' & E' & _ & M & CA). rewrite E in E'. inversion E'; subst r'.
  split; auto. split; auto. intros scn S. destruct (build_ok s scn S R) as (p & B & _).
  eexists. split; [|auto]. unfold program_of. rewrite B. reflexivity.
Qed.
