(** Property C108: solving checks the places that reading does not. *)
From Coq Require Import String List ZArith QArith Bool Arith Lia Lqa Permutation.
From Verif Require Import Base BaseFacts Numeric NumericFacts Study Fluent SpecStudy StudyFacts Output Json SpecJson SpecReach SpecRead JsonFacts P_Json
  LP SpecLP LPFacts LPBuild LPSat LPResult LPSolve LPReady LPWeak P_Read P_LP P_Opt P_Law P_Mean SpecWhere.
Import ListNotations.
Open Scope nat_scope.
Open Scope string_scope.
Open Scope list_scope.

Lemma dset_keeps {K V} `{EqB K} (k k' : K) (v : V) d : dget k d <> None -> dget k (dset k' v d) <> None.
Proof. intros D. destruct (eqb k k') eqn:E; [apply eqb_eq in E; subst; rewrite dget_dset_eq; discriminate | rewrite dget_dset_neq; auto; intros ->; now rewrite eqb_refl in E]. Qed.
Lemma dset_one {K V} `{EqB K} (k k' : K) (v : V) d : dget k (dset k' v d) <> None -> k = k' \/ dget k d <> None.
Proof. intros D. destruct (eqb k k') eqn:E; [left; now apply eqb_eq | right; rewrite dget_dset_neq in D; auto; intros ->; now rewrite eqb_refl in E]. Qed.
Lemma In_has {K V} `{EqB K} (k : K) (v : V) d : In (k, v) d -> dget k d <> None.
Proof.
  induction d as [|[k' v'] d IH]; intros J; [destruct J |]. cbn [dget]. destruct (eqb k k') eqn:E; [discriminate |]. destruct J as [J|J]; [inversion J; subst; now rewrite eqb_refl in E | auto].
Qed.
Lemma smapi_in {St A C} (f : nat -> A -> ST St C) l : forall i st st' ys, smapi f i l st = (st', Ok ys) ->
  forall x, In x l -> exists j st1 st2 y, f j x st1 = (st2, Ok y) /\ In y ys.
Proof.
  induction l as [|a l IH]; cbn [smapi]; intros i st st' ys H x J; [destruct J|].
  apply sbind_inv in H as (st1 & y & E & H). apply sbind_inv in H as (st2 & ys' & E2 & H). inversion H; subst.
  destruct J as [<-|J]; [exists i, st, st1, y; cbn; auto|]. destruct (IH _ _ _ _ E2 x J) as (j & a1 & a2 & z & F & Z). exists j, a1, a2, z. cbn. auto.
Qed.

(** ** What is built has its places *)
Section Sound.
Variable s : study.
Definition at_place (k : akey) : Prop := exists m, node_at s (snd (fst k)) (snd k) = Some m.
Definition known (b : bstate) : Prop := forall k, dget k (b_adq b) <> None -> at_place k.
Definition grows (b b' : bstate) : Prop := forall k, dget k (b_imp b) <> None -> dget k (b_imp b') <> None.
Definition keeps {A} (m : B A) (P : A -> bstate -> Prop) : Prop := forall b b' a, m b = (b', Ok a) -> known b -> known b' /\ grows b b' /\ P a b'.
Definition lasts {A} (P : A -> bstate -> Prop) : Prop := forall a b b', grows b b' -> P a b -> P a b'.
Definition any {A} (_ : A) (_ : bstate) : Prop := True.
Lemma grows_refl b : grows b b. Proof. intros k H; exact H. Qed.
Lemma grows_trans a b c : grows a b -> grows b c -> grows a c. Proof. unfold grows. auto. Qed.
Lemma keeps_weak {A} (m : B A) (P P' : A -> bstate -> Prop) : keeps m P -> (forall a b, P a b -> P' a b) -> keeps m P'.
Proof. intros H I b b' a E K. destruct (H b b' a E K) as (K' & G & X). auto. Qed.
Lemma keeps_bind {A C} (m : B A) (f : A -> B C) (P : A -> bstate -> Prop) (P' : C -> bstate -> Prop) : lasts P -> keeps m P -> (forall a, keeps (f a) P') -> keeps (sbind m f) (fun c b => (exists a, P a b) /\ P' c b).
Proof.
  intros L H F b b' c E K. apply sbind_inv in E as (b1 & a & E1 & E2). destruct (H _ _ _ E1 K) as (K1 & G1 & X1). destruct (F a _ _ _ E2 K1) as (K2 & G2 & X2).
  split; auto. split; [eapply grows_trans; eauto |]. split; eauto.
Qed.
Lemma keeps_then {A C} (m : B A) (f : A -> B C) P : keeps m any -> (forall a, keeps (f a) P) -> keeps (sbind m f) P.
Proof. intros H F. eapply keeps_weak; [apply (keeps_bind m f any P); auto; intros ? ? ? _ _; exact Logic.I |]. intros c b [_ X]. exact X. Qed.
Lemma keeps_ret {A} (a : A) : keeps (sret a) any.
Proof. intros b b' c E K. inversion E; subst. split; auto. split; [apply grows_refl | exact Logic.I]. Qed.
Lemma keeps_lift {A} (r : res A) : keeps (slift r) any.
Proof. intros b b' c E K. inversion E; subst. split; auto. split; [apply grows_refl | exact Logic.I]. Qed.
Lemma keeps_get : keeps sget any.
Proof. intros b b' c E K. inversion E; subst. split; auto. split; [apply grows_refl | exact Logic.I]. Qed.
Lemma keeps_solver f : keeps (set_solver f) any.
Proof. intros b b' c E K. inversion E; subst. split; [exact K |]. split; [exact (grows_refl _) | exact Logic.I]. Qed.
Lemma keeps_num v lb ub : keeps (num_var v lb ub) any.
Proof. apply keeps_then; [apply keeps_solver | intros; apply keeps_ret]. Qed.
Lemma keeps_new lb ub : keeps (new_constraint lb ub) any.
Proof. intros b b' c E K. inversion E; subst. split; [exact K |]. split; [exact (grows_refl _) | exact Logic.I]. Qed.
Lemma keeps_coef h v c : keeps (set_coef h v c) any. Proof. apply keeps_solver. Qed.
Lemma keeps_obj v c : keeps (obj_coef v c) any. Proof. apply keeps_solver. Qed.
Lemma keeps_cap k v : keeps (set_cap k v) any.
Proof. intros b b' c E K. inversion E; subst. split; [exact K |]. split; [exact (grows_refl _) | exact Logic.I]. Qed.
Lemma keeps_imp k v : keeps (set_imp k v) (fun _ b => dget k (b_imp b) <> None).
Proof.
  intros b b' c E K. inversion E; subst. split; [exact K |]. split; [intros k' D; apply dset_keeps; exact D |]. cbn. rewrite dget_dset_eq. discriminate.
Qed.
Lemma keeps_adq k h : at_place k -> keeps (set_adq k h) any.
Proof.
  intros AP b b' c E K. inversion E; subst. split; [| split; [exact (grows_refl _) | exact Logic.I]]. intros k' D. cbn in D. apply dset_one in D as [->|D]; auto.
Qed.
Lemma keeps_adq_coef k v c : keeps (adq_coef k v c) (fun _ _ => at_place k).
Proof.
  intros b b' u E K. unfold adq_coef in E. apply sbind_inv in E as (b1 & b2 & E1 & E). inversion E1; subst b1 b2. apply sbind_inv in E as (b1 & h & E1' & E).
  unfold slift, dlook in E1'. destruct (dget k (b_adq b)) as [h'|] eqn:D; [| discriminate]. inversion E1'; subst b1 h'.
  destruct (keeps_coef h v c _ _ _ E K) as (K' & G & _). split; auto. split; auto. apply K. congruence.
Qed.
Lemma keeps_sfor {A} (f : A -> B unit) (P : A -> bstate -> Prop) l : lasts P -> (forall x, In x l -> keeps (f x) (fun _ => P x)) -> keeps (sfor f l) (fun _ b => forall x, In x l -> P x b).
Proof.
  intros L. induction l as [|x l IH]; intros H b b' u E K; cbn [sfor] in E.
  - destruct (keeps_ret tt _ _ _ E K) as (K' & G & _). split; auto. split; auto. intros y [].
  - apply sbind_inv in E as (b1 & u1 & E1 & E2). destruct (H x (or_introl eq_refl) _ _ _ E1 K) as (K1 & G1 & X1).
    destruct (IH (fun y J => H y (or_intror J)) _ _ _ E2 K1) as (K2 & G2 & X2). split; auto. split; [eapply grows_trans; eauto |].
    intros y [<-|J]; [eapply L; eauto | auto].
Qed.
Lemma keeps_smapi {A C} (f : nat -> A -> B C) (P : A -> bstate -> Prop) l : lasts P -> (forall i x, In x l -> keeps (f i x) (fun _ => P x)) -> forall i, keeps (smapi f i l) (fun _ b => forall x, In x l -> P x b).
Proof.
  intros L. induction l as [|x l IH]; intros H i b b' u E K; cbn [smapi] in E.
  - destruct (keeps_ret _ _ _ _ E K) as (K' & G & _). split; auto. split; auto. intros y [].
  - apply sbind_inv in E as (b1 & u1 & E1 & E2). apply sbind_inv in E2 as (b2 & u2 & E2 & E3). inversion E3; subst. destruct (H i x (or_introl eq_refl) _ _ _ E1 K) as (K1 & G1 & X1).
    destruct (IH (fun j y J => H j y (or_intror J)) _ _ _ _ E2 K1) as (K2 & G2 & X2). split; auto. split; [eapply grows_trans; eauto |].
    intros y [<-|J]; [eapply L; eauto | auto].
Qed.
Lemma keeps_for {A} (f : A -> B unit) l : (forall x, keeps (f x) any) -> keeps (sfor f l) any.
Proof.
  intros H. eapply keeps_weak; [apply (keeps_sfor f any); [intros ? ? ? _ _; exact Logic.I | intros x _; eapply keeps_weak; [apply H | intros; exact Logic.I]] |]. intros; exact Logic.I.
Qed.
Lemma keeps_map {A C} (f : nat -> A -> B C) l i : (forall i x, keeps (f i x) any) -> keeps (smapi f i l) any.
Proof.
  intros H. eapply keeps_weak; [apply (keeps_smapi f any); [intros ? ? ? _ _; exact Logic.I | intros j x _; eapply keeps_weak; [apply H | intros; exact Logic.I]] |]. intros; exact Logic.I.
Qed.
Lemma keeps_any {A} (m : B A) P : keeps m P -> keeps m any.
Proof. intros H. eapply keeps_weak; [exact H | intros; exact Logic.I]. Qed.
Ltac kp := repeat first
  [ apply keeps_ret | apply keeps_lift | apply keeps_get | apply keeps_num | apply keeps_new | apply keeps_coef | apply keeps_obj | apply keeps_cap
  | (eapply keeps_any; apply keeps_adq_coef) | (eapply keeps_any; apply keeps_imp)
  | (apply keeps_for; intros) | (apply keeps_map; intros) | (apply keeps_then; [| intros]) ].

Lemma keeps_node net nd t scn : keeps (get_node_var s net nd t scn) (fun n _ => exists n0, node_at s net nd = Some n0 /\
  forall l, In l (n_links n0) -> exists l', In l' (ln_links n) /\ ll_src l' = nd /\ ll_dest l' = l_dest l).
Proof.
  intros b b' n E K. assert (K1 : keeps (get_node_var s net nd t scn) any) by (unfold get_node_var; kp). destruct (K1 _ _ _ E K) as (K2 & G & _). split; auto. split; auto.
  unfold get_node_var in E. apply sbind_inv in E as (b1 & ns & E1 & E). apply sbind_inv in E as (b2 & n0 & E2 & E).
  unfold slift, dlook in E1, E2. destruct (dget net (st_networks s)) as [ns'|] eqn:D1; inversion E1; subst. destruct (dget nd ns) as [n0'|] eqn:D2; inversion E2; subst.
  apply sbind_inv in E as (b3 & cs & E3 & E). apply sbind_inv in E as (b4 & ps & E4 & E). apply sbind_inv in E as (b5 & ss & E5 & E). apply sbind_inv in E as (b6 & ls & E6 & E).
  inversion E; subst. exists n0. split; [unfold node_at; now rewrite D1 |]. intros l J. cbn [ln_links].
  destruct (smapi_in _ _ _ _ _ _ E6 l J) as (j & c1 & c2 & l' & F & J'). exists l'. split; auto.
  apply sbind_inv in F as (? & co & _ & F). apply sbind_inv in F as (? & q & _ & F). apply sbind_inv in F as (? & v & _ & F). inversion F; subst. auto.
Qed.
Lemma keeps_batch_node scn t net nd n0 : node_at s net nd = Some n0 -> keeps (batch_node s scn t net nd) (fun _ b => forall l, In l (n_links n0) -> dget (t, net, nd, l_dest l) (b_imp b) <> None).
Proof.
  intros N b b' n E K. unfold batch_node in E. apply sbind_inv in E as (b1 & n1 & E1 & E). destruct (keeps_node _ _ _ _ _ _ _ E1 K) as (K1 & G1 & n0' & N' & LK).
  rewrite N in N'. inversion N'; subst n0'. apply sbind_inv in E as (b2 & u & E2 & E).
  assert (K2' : keeps (adq_add_node net nd n1 t) (fun _ b => forall l, In l (ln_links n1) -> dget (t, net, ll_src l, ll_dest l) (b_imp b) <> None)).
  { unfold adq_add_node. apply keeps_then; [kp | intros]. apply keeps_then; [apply keeps_adq; exists n0; exact N | intros]. do 3 (apply keeps_then; [kp | intros]).
    apply (keeps_sfor _ (fun l b => dget (t, net, ll_src l, ll_dest l) (b_imp b) <> None)); [intros l c c' G; apply G |]. intros l _. apply keeps_then; [kp | intros]. apply keeps_imp. }
  destruct (K2' _ _ _ E2 K1) as (K2 & G2 & X).
  assert (K3' : keeps (stor_add_node net nd n1 t;; obj_add_node n1;; sret n1) any).
  { apply keeps_then; [| intros; unfold obj_add_node; kp]. unfold stor_add_node. destruct (ln_stors n1); [kp |]. apply keeps_then; [kp | intros]. destruct t; kp. }
  destruct (K3' _ _ _ E K2) as (K3 & G3 & _). split; auto. split; [eapply grows_trans; [exact G1 | eapply grows_trans; eauto] |].
  intros l J. apply G3. destruct (LK l J) as (l' & J' & <- & <-). now apply X.
Qed.
Definition conv_fine (scn t : nat) (v : converter) : Prop :=
  (exists m, node_at s (v_dnet v) (v_dnode v) = Some m) /\ (forall net nd q, In ((net, nd), q) (v_src v) -> exists m, node_at s net nd = Some m) /\
  v_cost v <> None /\ v_max v <> None /\ forall k q, In (k, q) (v_src v) -> ~ (value q scn t == 0)%Q.
Lemma keeps_batch_conv scn t name v : conv_at s name = Some v -> keeps (batch_conv s scn t name) (fun _ _ => conv_fine scn t v).
Proof.
  intros V b b' lv E K. assert (K0 : keeps (batch_conv s scn t name) any) by (unfold batch_conv, get_conv_var, adq_add_converter, mix_add_converter, obj_add_converter; kp).
  destruct (K0 _ _ _ E K) as (K' & G & _). split; auto. split; auto.
  unfold batch_conv in E. apply sbind_inv in E as (b1 & lv1 & E1 & E). apply sbind_inv in E as (b2 & u & E2 & _).
  assert (K1' : keeps (get_conv_var s name t scn) any) by (unfold get_conv_var; kp). destruct (K1' _ _ _ E1 K) as (K1 & _).
  unfold get_conv_var in E1. apply sbind_inv in E1 as (c1 & v' & F1 & E1). unfold slift, dlook in F1. unfold conv_at in V. rewrite V in F1. inversion F1; subst c1 v'.
  apply sbind_inv in E1 as (c2 & ra & F2 & E1). unfold slift in F2. inversion F2 as [[X1 H0]]. subst c2.
  apply sbind_inv in E1 as (c3 & co & F3 & E1). unfold slift in F3. inversion F3 as [[X2 H1]]. subst c3.
  apply sbind_inv in E1 as (c4 & mx & F4 & E1). unfold slift in F4. inversion F4 as [[X3 H2]]. subst c4.
  apply sbind_inv in E1 as (c5 & sr & F5 & E1). apply sbind_inv in E1 as (c6 & d & F6 & E1). inversion E1; subst.
  unfold adq_add_converter in E2. apply sbind_inv in E2 as (c7 & u7 & E7 & E8). destruct (keeps_adq_coef _ _ _ _ _ _ E7 K1) as (K7 & _ & AP).
  cbn [lv_dnet lv_dnode lv_src] in *. split; [exact AP |].
  assert (SR : forall k q, In (k, q) (v_src v) -> exists r x, getn q scn t = Ok r /\ ~ (r == 0)%Q /\ In (k, x) sr).
  { intros k q J. destruct (dmapM_inv _ _ _ H0 k q J) as (r & R & Jr). destruct (smapi_in _ _ _ _ _ _ F5 (k, r) Jr) as (j & d1 & d2 & y & Y & Jy). cbn [fst snd] in Y.
    apply sbind_inv in Y as (e1 & ub & Y1 & Y). apply sbind_inv in Y as (e2 & x & _ & Y). inversion Y; subst. exists r, x. split; auto. split; auto.
    intros Z. unfold slift, pydiv in Y1. rewrite (proj2 (Qeq_bool_iff r 0) Z) in Y1. discriminate. }
  split.
  - intros net nd q J. destruct (SR _ _ J) as (r & x & _ & _ & Jx).
    assert (KF : keeps (sfor (fun kx : string * string * var => adq_coef (t, fst (fst kx), snd (fst kx)) (snd kx) (-1)) sr) (fun _ _ => forall kx, In kx sr -> at_place (t, fst (fst kx), snd (fst kx)))).
    { apply (keeps_sfor _ (fun kx _ => at_place (t, fst (fst kx), snd (fst kx)))); [intros ? ? ? _ P; exact P |]. intros kx _. apply keeps_adq_coef. }
    destruct (KF _ _ _ E8 K7) as (_ & _ & P). exact (P _ Jx).
  - split; [intros X; rewrite X in H1; discriminate |]. split; [intros X; rewrite X in H2; discriminate |].
    intros k q J. destruct (SR _ _ J) as (r & x & R & NZ & _). unfold value. now rewrite R.
Qed.
Theorem built_places scn p : build s scn = Ok p -> 0 < st_horizon s -> joins_places s /\ forall t name v, t < st_horizon s -> conv_at s name = Some v -> conv_fine scn t v.
Proof.
  intros E H. unfold build in E. destruct (build_batch s scn b_init) as [b [vs|e]] eqn:F; [| discriminate]. clear E.
  unfold build_batch in F. apply sbind_inv in F as (b1 & vs1 & E1 & F). apply sbind_inv in F as (b2 & u & E2 & _).
  assert (K0 : known b_init) by (intros k D; now cbn in D).
  set (P := fun (t : nat) (b : bstate) => (forall net nd n l, node_at s net nd = Some n -> In l (n_links n) -> dget (t, net, nd, l_dest l) (b_imp b) <> None) /\
    forall name v, conv_at s name = Some v -> conv_fine scn t v).
  assert (LP : lasts P) by (intros t c c' G [X Y]; split; [intros; eapply G, X; eauto | exact Y]).
  assert (KS : keeps (smapi (fun _ t => batch_step s scn t) 0 (seq 0 (st_horizon s))) (fun _ b => forall t, In t (seq 0 (st_horizon s)) -> P t b)).
  { apply keeps_smapi; [exact LP |]. intros _ t _. unfold batch_step.
    eapply keeps_weak; [eapply keeps_bind |].
    2:{ apply (keeps_smapi _ (fun kn b => In kn (st_networks s) -> forall kd, In kd (snd kn) -> forall n, node_at s (fst kn) (fst kd) = Some n ->
               forall l, In l (n_links n) -> dget (t, fst kn, fst kd, l_dest l) (b_imp b) <> None)).
        - intros kn c c' G X J kd Jd n N l Jl. eapply G, X; eauto.
        - intros i kn Jn. apply (keeps_weak _ (fun _ b => forall kd, In kd (snd kn) -> forall n, node_at s (fst kn) (fst kd) = Some n ->
               forall l, In l (n_links n) -> dget (t, fst kn, fst kd, l_dest l) (b_imp b) <> None)); [| auto].
          eapply keeps_weak; [eapply keeps_bind; [| apply (keeps_smapi _ (fun kd b => forall n, node_at s (fst kn) (fst kd) = Some n ->
               forall l, In l (n_links n) -> dget (t, fst kn, fst kd, l_dest l) (b_imp b) <> None)) |] |].
          + intros a c c' G X kd Jd n N l Jl. eapply G, X; eauto.
          + intros kd c c' G X n N l Jl. eapply G, X; eauto.
          + intros j kd Jd. intros c c' u' E K. assert (N' : exists n0, node_at s (fst kn) (fst kd) = Some n0).
            { apply sbind_inv in E as (? & ? & E & _). unfold batch_node in E. apply sbind_inv in E as (? & ? & E & _). destruct (keeps_node _ _ _ _ _ _ _ E K) as (_ & _ & n0 & N & _). eauto. }
            destruct N' as (n0 & N0). apply sbind_inv in E as (c1 & n1 & E & R). inversion R; subst. destruct (keeps_batch_node scn t _ _ _ N0 _ _ _ E K) as (K' & G & X).
            split; auto. split; auto. intros n N. rewrite N0 in N. inversion N; subst n. exact X.
          + intros a. apply keeps_ret.
          + intros a c [(? & X) _]. exact X. }
    - intros a c c' G X kn Jn J kd Jd n N l Jl. eapply G, X; eauto.
    - intros nets. eapply keeps_bind; [| apply (keeps_smapi _ (fun kv _ => forall v, conv_at s (fst kv) = Some v -> conv_fine scn t v)) |].
      + intros a c c' _ X. exact X.
      + intros a c c' _ X. exact X.
      + intros j kv _. intros c c' u' E K. apply sbind_inv in E as (c1 & n1 & E & R). inversion R; subst.
        assert (KB : keeps (batch_conv s scn t (fst kv)) any) by (unfold batch_conv, get_conv_var, adq_add_converter, mix_add_converter, obj_add_converter; kp).
        destruct (KB _ _ _ E K) as (K' & G & _). split; auto. split; auto. intros v V. exact (proj2 (proj2 (keeps_batch_conv scn t _ _ V _ _ _ E K))).
      + intros a. apply keeps_ret.
    - intros a c [(? & X) [(? & Y) _]]. split.
      + intros net nd n l N J. pose proof N as N'. unfold node_at in N'. destruct (dget net (st_networks s)) as [ns|] eqn:D; [| discriminate]. apply dget_In in D, N'.
        apply (X (net, ns) D D (nd, n) N' n N l J).
      + intros name v V. pose proof V as V'. unfold conv_at in V'. apply dget_In in V'. exact (Y (name, v) V' v V). }
  destruct (KS _ _ _ E1 K0) as (K1 & _ & X). assert (X0 : P 0 b1) by (apply X, in_seq; lia). split.
  - constructor.
    + intros net nd n l N J. destruct X0 as [X0 _]. specialize (X0 net nd n l N J). unfold adq_build in E2. apply sbind_inv in E2 as (b3 & b4 & E3 & E4). inversion E3; subst b3 b4.
      destruct (dget (0, net, nd, l_dest l) (b_imp b1)) as [v|] eqn:D; [| congruence]. apply dget_In in D.
      assert (KF : keeps (sfor (fun kv : ikey * var => match fst kv with (t, net, _, dest) => adq_coef (t, net, dest) (snd kv) 1 end) (b_imp b1))
        (fun _ _ => forall kv, In kv (b_imp b1) -> match fst kv with (t, net, _, dest) => at_place (t, net, dest) end)).
      { apply (keeps_sfor _ (fun kv _ => match fst kv with (t, net, _, dest) => at_place (t, net, dest) end)); [intros ? ? ? _ P'; exact P' |].
        intros [[[[t' net'] src'] dst'] v'] _. cbn [fst snd]. apply keeps_adq_coef. }
      destruct (KF _ _ _ E4 K1) as (_ & _ & Y). exact (Y _ D).
    + intros name v V. apply (proj2 X0 name v V).
    + intros name v net nd q V. apply (proj2 X0 name v V).
  - intros t name v T V. assert (J : In t (seq 0 (st_horizon s))) by (apply in_seq; lia). apply (proj2 (X t J) name v V).
Qed.
End Sound.

Theorem C108_solved_places : forall answer s r, 0 < st_horizon s -> 0 < st_nb_scn s -> solved answer s r -> joins_places s /\ usable_converters s.
Proof.
  intros answer s r Hh Hn (sched & bench & P & E). unfold solve_lp in E.
  destruct (pool_map (fun scn => solve_batch (answer scn) s scn) (st_nb_scn s) sched) as [a|] eqn:EP; [|discriminate].
  assert (BI : forall scn, scn < st_nb_scn s -> exists p, build s scn = Ok p).
  { intros scn S. assert (J : In scn sched) by (apply (Permutation_in _ (Permutation_sym P)); apply in_seq; lia).
    unfold pool_map in EP. destruct (foldM_inv _ _ _ _ EP scn J) as (s2 & s3 & EJ).
    unfold solve_batch in EJ. destruct (build s scn) as [p|]; [eauto | discriminate]. }
  split.
  - destruct (BI 0 Hn) as (p & B). apply (built_places s 0 p B Hh).
  - intros name v V. destruct (BI 0 Hn) as (p & B). destruct (proj2 (built_places s 0 p B Hh) 0 name v Hh V) as (_ & _ & C & M & _). split; auto. split; auto.
    intros k q scn t J S T. destruct (BI scn S) as (p' & B'). destruct (proj2 (built_places s scn p' B' Hh) t name v T V) as (_ & _ & _ & _ & R). exact (R k q J).
Qed.

(** ** What has its places is built *)
Lemma fits_read h n v scn t : fits h n v -> scn < n -> t < h -> exists q, getn v scn t = Ok q.
Proof.
  intros F S T. assert (O : nv_ok h n v) by (destruct v; cbn in *; tauto). destruct (getn_nth _ _ _ _ _ O S T) as (q & E & _). eauto.
Qed.
Section Complete.
Variables (s : study) (scn : nat).
Hypothesis SC : scn < st_nb_scn s.
Hypothesis RD : SpecRead.readable s.
Hypothesis KO : keys_once s.
Hypothesis JP : joins_places s.
Hypothesis NZ : forall name v k q t, conv_at s name = Some v -> In (k, q) (v_src v) -> t < st_horizon s -> ~ (value q scn t == 0)%Q.
Local Notation place net nd := (exists m, node_at s net nd = Some m).
Definition ext (b b' : bstate) : Prop :=
  (forall k, dget k (b_adq b) <> None -> dget k (b_adq b') <> None) /\ (forall k, dget k (b_cap b) <> None -> dget k (b_cap b') <> None).
Definition impok (b : bstate) : Prop := forall t net src dst, dget (t, net, src, dst) (b_imp b) <> None -> t < st_horizon s /\ place net dst.
Definition runs {A} (pre : bstate -> Prop) (m : B A) (post : A -> bstate -> Prop) : Prop :=
  forall b, pre b -> impok b -> exists b' a, m b = (b', Ok a) /\ ext b b' /\ impok b' /\ post a b'.
Definition firm (pre : bstate -> Prop) : Prop := forall b b', ext b b' -> pre b -> pre b'.
Lemma ext_refl b : ext b b. Proof. split; auto. Qed.
Lemma ext_trans a b c : ext a b -> ext b c -> ext a c. Proof. intros [A1 A2] [B1 B2]. split; auto. Qed.
Lemma runs_weak {A} pre (m : B A) (P P' : A -> bstate -> Prop) : runs pre m P -> (forall a b, P a b -> P' a b) -> runs pre m P'.
Proof. intros H W b Pr IM. destruct (H b Pr IM) as (b' & a & E & X & I' & Q). exists b', a. auto. Qed.
Lemma runs_bind {A C} (pre : bstate -> Prop) (m : B A) (f : A -> B C) (P : A -> bstate -> Prop) (P' : C -> bstate -> Prop) :
  firm pre -> runs pre m P -> (forall a, runs (fun b => pre b /\ P a b) (f a) P') -> runs pre (sbind m f) P'.
Proof.
  intros FM H F b Pr IM. destruct (H b Pr IM) as (b1 & a & E & X & I1 & Q). destruct (F a b1) as (b2 & c & E2 & X2 & I2 & Q2); [split; [eapply FM; eauto | exact Q] | exact I1 |].
  exists b2, c. split; [unfold sbind; now rewrite E |]. split; [eapply ext_trans; eauto | auto].
Qed.
Lemma runs_then {A C} (pre : bstate -> Prop) (m : B A) (f : A -> B C) (P' : C -> bstate -> Prop) :
  firm pre -> runs pre m (fun _ _ => True) -> (forall a, runs pre (f a) P') -> runs pre (sbind m f) P'.
Proof. intros FM H F. eapply runs_bind; eauto. intros a b [Pr _]. now apply F. Qed.
Lemma runs_ret {A} pre (a : A) : runs pre (sret a) (fun c _ => c = a).
Proof. intros b Pr IM. exists b, a. split; [reflexivity |]. split; [apply ext_refl | auto]. Qed.
Lemma runs_done {A} pre (a : A) : runs pre (sret a) (fun _ _ => True).
Proof. eapply runs_weak; [apply runs_ret | auto]. Qed.
Lemma runs_lift {A} pre (r : res A) a : r = Ok a -> runs pre (slift r) (fun c _ => c = a).
Proof. intros ->. apply runs_ret. Qed.
Lemma runs_lift' {A} pre (r : res A) : (exists a, r = Ok a) -> runs pre (slift r) (fun _ _ => True).
Proof. intros (a & ->). apply runs_done. Qed.
Lemma runs_solver pre f : runs pre (set_solver f) (fun _ _ => True).
Proof. intros b Pr IM. eexists. eexists. split; [reflexivity |]. split; [split; auto | split; [exact IM | auto]]. Qed.
Lemma runs_num pre v lb ub : firm pre -> runs pre (num_var v lb ub) (fun _ _ => True).
Proof. intros FM. apply runs_then; auto; [apply runs_solver | intros; apply runs_done]. Qed.
Lemma runs_new pre lb ub : runs pre (new_constraint lb ub) (fun _ _ => True).
Proof. intros b Pr IM. eexists. eexists. split; [reflexivity |]. split; [split; auto | split; [exact IM | auto]]. Qed.
Lemma runs_coef pre h v c : runs pre (set_coef h v c) (fun _ _ => True). Proof. apply runs_solver. Qed.
Lemma runs_obj pre v c : runs pre (obj_coef v c) (fun _ _ => True). Proof. apply runs_solver. Qed.
Lemma runs_adq pre k h : runs pre (set_adq k h) (fun _ b => dget k (b_adq b) <> None).
Proof.
  intros b Pr IM. eexists. eexists. split; [reflexivity |]. split; [split; [intros k' D; apply dset_keeps; exact D | auto] |]. split; [exact IM |]. cbn. rewrite dget_dset_eq. discriminate.
Qed.
Lemma runs_cap pre k v : runs pre (set_cap k v) (fun _ b => dget k (b_cap b) <> None).
Proof.
  intros b Pr IM. eexists. eexists. split; [reflexivity |]. split; [split; [auto | intros k' D; apply dset_keeps; exact D] |]. split; [exact IM |]. cbn. rewrite dget_dset_eq. discriminate.
Qed.
Lemma runs_imp pre t net src dst v : t < st_horizon s -> place net dst -> runs pre (set_imp (t, net, src, dst) v) (fun _ _ => True).
Proof.
  intros T PL b Pr IM. eexists. eexists. split; [reflexivity |]. split; [split; auto |]. split; auto.
  intros t' net' src' dst' D. cbn in D. apply dset_one in D as [D|D]; [inversion D; subst; auto | eapply IM; eauto].
Qed.
Lemma runs_adq_coef (pre : bstate -> Prop) k v c : firm pre -> (forall b, pre b -> dget k (b_adq b) <> None) -> runs pre (adq_coef k v c) (fun _ _ => True).
Proof.
  intros FM H b Pr IM. specialize (H b Pr). destruct (dget k (b_adq b)) as [h|] eqn:D; [| congruence].
  destruct (runs_coef pre h v c b Pr IM) as (b' & a & E & X & I' & _). exists b', a. split; auto. unfold adq_coef, sbind, sget, slift, dlook. now rewrite D.
Qed.
Lemma runs_sfor {A} (pre : bstate -> Prop) (f : A -> B unit) l : firm pre -> (forall x, In x l -> runs pre (f x) (fun _ _ => True)) -> runs pre (sfor f l) (fun _ _ => True).
Proof.
  intros FM. induction l as [|x l IH]; intros H; cbn [sfor]; [apply runs_done |]. apply runs_then; auto; [apply H; now left |]. intros _. apply IH. intros y J. apply H. now right.
Qed.
Lemma runs_smapi {A C} (pre : bstate -> Prop) (f : nat -> A -> B C) (R : A -> C -> Prop) (P : A -> bstate -> Prop) l : firm pre -> (forall x, firm (P x)) ->
  (forall i x, In x l -> runs pre (f i x) (fun y b => R x y /\ P x b)) -> forall i, runs pre (smapi f i l) (fun ys b => Forall2 R l ys /\ forall x, In x l -> P x b).
Proof.
  intros FM FP. induction l as [|x l IH]; intros H i; cbn [smapi].
  - eapply runs_weak; [apply runs_ret |]. intros ? ? ->. split; [constructor | intros y []].
  - eapply runs_bind; [exact FM | apply H; now left |]. intros y. cbv beta.
    eapply runs_bind; [intros b b' X (Pr & r & p); split; [eapply FM; eauto | split; [exact r | eapply FP; eauto]] | |].
    + intros b (Pr & _) IM. apply (IH (fun j z J => H j z (or_intror J)) (S i) b Pr IM).
    + intros ys b ((Pr & r & p) & F & Q) IM. exists b, (y :: ys). split; [reflexivity |]. split; [apply ext_refl |]. split; auto.
      split; [constructor; auto |]. intros z [<-|J]; auto.
Qed.
Lemma firm_true : firm (fun _ => True). Proof. intros b b' _ _. exact Logic.I. Qed.
Lemma firm_and p q : firm p -> firm q -> firm (fun b => p b /\ q b). Proof. intros P Q b b' X [Y Z]. split; eauto. Qed.
Lemma firm_pure (p : Prop) : firm (fun _ => p). Proof. intros b b' _ H. exact H. Qed.
Lemma firm_adq k : firm (fun b => dget k (b_adq b) <> None). Proof. intros b b' [X _]. apply X. Qed.
Lemma firm_cap k : firm (fun b => dget k (b_cap b) <> None). Proof. intros b b' [_ X]. apply X. Qed.
Lemma runs_pre {A} (pre pre' : bstate -> Prop) (m : B A) P : (forall b, pre b -> pre' b) -> runs pre' m P -> runs pre m P.
Proof. intros W H b Pr IM. apply H; auto. Qed.

Lemma runs_val {A C} pre (r : res A) a (f : A -> B C) P : r = Ok a -> runs pre (f a) P -> runs pre (sbind (slift r) f) P.
Proof. intros -> H. exact H. Qed.
Lemma runs_fact {A} (pre : bstate -> Prop) (Q : Prop) (m : B A) P : (Q -> runs pre m P) -> runs (fun b => pre b /\ Q) m P.
Proof. intros H b [Pr q] IM. exact (H q b Pr IM). Qed.

Ltac vals F := match goal with |- runs _ (slift (getn ?v scn ?t)) _ => apply runs_lift', (fits_read (st_horizon s) (st_nb_scn s)); auto; apply F end.
Lemma runs_node net nd t n0 : t < st_horizon s -> node_at s net nd = Some n0 -> runs (fun _ => True) (get_node_var s net nd t scn) (fun n _ =>
  Forall2 (fun y y' => ls_name y' = s_name y) (n_stors n0) (ln_stors n) /\ Forall2 (fun l l' => ll_src l' = nd /\ ll_dest l' = l_dest l) (n_links n0) (ln_links n)).
Proof.
  intros T N. pose proof N as N'. unfold node_at in N'. destruct (dget net (st_networks s)) as [ns|] eqn:D; [| discriminate].
  pose proof (rs_node _ RD _ _ _ _ (dget_In _ _ _ D) (dget_In _ _ _ N')) as [SN1 SN2 SN3 SN4]. rewrite Forall_forall in SN1, SN2, SN3, SN4.
  pose proof firm_true as FT. unfold get_node_var.
  eapply runs_val; [unfold dlook; rewrite D; reflexivity |]. eapply runs_val; [unfold dlook; rewrite N'; reflexivity |].
  eapply runs_then; [exact FT | |].
  { eapply runs_weak; [apply (runs_smapi _ _ (fun _ _ => True) (fun _ _ => True)) |]; auto. intros i c J. destruct (SN1 c J) as [F1 F2].
    eapply runs_weak; [| intros a b X; split; exact X]. apply runs_then; auto; [vals F1 | intros]. apply runs_then; auto; [vals F2 | intros]. apply runs_then; auto; [now apply runs_num | intros; apply runs_done]. }
  intros cs. eapply runs_then; [exact FT | |].
  { eapply runs_weak; [apply (runs_smapi _ _ (fun _ _ => True) (fun _ _ => True)) |]; auto. intros i c J. destruct (SN2 c J) as [F1 F2].
    eapply runs_weak; [| intros a b X; split; exact X]. apply runs_then; auto; [vals F1 | intros]. apply runs_then; auto; [vals F2 | intros]. apply runs_then; auto; [now apply runs_num | intros; apply runs_done]. }
  intros ps. eapply runs_bind; [exact FT | |].
  { apply (runs_smapi _ _ (fun y y' => ls_name y' = s_name y) (fun _ _ => True)); auto. intros i c J. destruct (SN3 c J) as (F1 & F2 & F3 & F4 & F5).
    apply runs_then; auto; [vals F2 | intros]. apply runs_then; auto; [vals F3 | intros]. apply runs_then; auto; [vals F5 | intros]. apply runs_then; auto; [vals F1 | intros].
    apply runs_then; auto; [vals F4 | intros]. do 3 (apply runs_then; auto; [now apply runs_num | intros]). eapply runs_weak; [apply runs_ret |]. intros ? ? ->. auto. }
  intros ss. eapply (runs_pre _ (fun _ => True /\ _)); [intros b [X [Y _]]; split; [exact X | exact Y] |]. apply runs_fact. intros F3.
  eapply runs_bind; [exact FT | |].
  { apply (runs_smapi _ _ (fun l l' => ll_src l' = nd /\ ll_dest l' = l_dest l) (fun _ _ => True)); auto. intros i c J. destruct (SN4 c J) as [F1 F2].
    apply runs_then; auto; [vals F1 | intros]. apply runs_then; auto; [vals F2 | intros]. apply runs_then; auto; [now apply runs_num | intros]. eapply runs_weak; [apply runs_ret |]. intros ? ? ->. auto. }
  intros ls. intros b [_ [F4 _]] IM. exists b, (LPNode cs ps ss ls). split; [reflexivity |]. split; [apply ext_refl |]. split; auto.
Qed.
Lemma F2_In_r {A C} (R : A -> C -> Prop) l l' y : Forall2 R l l' -> In y l' -> exists x, In x l /\ R x y.
Proof. induction 1; intros []; [subst; eauto using in_eq |]. destruct IHForall2 as (z & ? & ?); auto. exists z. split; auto. now right. Qed.
Lemma runs_adq_node net nd n0 n t : t < st_horizon s -> node_at s net nd = Some n0 -> Forall2 (fun l l' => ll_src l' = nd /\ ll_dest l' = l_dest l) (n_links n0) (ln_links n) ->
  runs (fun _ => True) (adq_add_node net nd n t) (fun _ b => dget (t, net, nd) (b_adq b) <> None).
Proof.
  intros T N F. unfold adq_add_node. apply runs_then; [apply firm_true | apply runs_new |]. intros h. eapply runs_bind; [apply firm_true | apply runs_adq |]. intros u.
  apply (runs_pre _ (fun b => dget (t, net, nd) (b_adq b) <> None)); [intros b [_ X]; exact X |]. pose proof (firm_adq (t, net, nd)) as FA.
  assert (AC : forall v c, runs (fun b => dget (t, net, nd) (b_adq b) <> None) (adq_coef (t, net, nd) v c) (fun _ _ => True)) by (intros; apply runs_adq_coef; auto).
  apply runs_then; auto. { apply runs_sfor; auto. } intros _. apply runs_then; auto. { apply runs_sfor; auto. } intros _.
  apply runs_then; auto. { apply runs_sfor; auto. intros x _. apply runs_then; auto. } intros _.
  intros b Pr IM. assert (W : runs (fun b => dget (t, net, nd) (b_adq b) <> None) (sfor (fun l => adq_coef (t, net, ll_src l) (ll_var l) (-1);; set_imp (t, net, ll_src l, ll_dest l) (ll_var l)) (ln_links n)) (fun _ _ => True)).
  { apply runs_sfor; auto. intros l J. destruct (F2_In_r _ _ _ _ F J) as (l0 & J0 & -> & ->). apply runs_then; auto. intros _. apply runs_imp; auto. apply (jp_links _ JP _ _ _ _ N J0). }
  destruct (W b Pr IM) as (b' & a & E & X & I' & _). exists b', a. split; [exact E |]. split; auto. split; auto. eapply FA; eauto.
Qed.
(** The content of the first storages of the time before is known. *)
Definition caps (t : nat) (b : bstate) : Prop := forall net nd n0 y ys, node_at s net nd = Some n0 -> n_stors n0 = y :: ys -> dget (t, net, nd, s_name y) (b_cap b) <> None.
Definition before (t : nat) (b : bstate) : Prop := match t with 0 => True | S t' => caps t' b end.
Lemma firm_caps t : firm (caps t). Proof. intros b b' [_ X] H net nd n0 y ys N E. eapply X, H; eauto. Qed.
Lemma firm_before t : firm (before t). Proof. destruct t; [apply firm_true | apply firm_caps]. Qed.
Lemma runs_get pre : runs pre sget (fun a b => a = b).
Proof. intros b Pr IM. exists b, b. split; [reflexivity |]. split; [apply ext_refl |]. auto. Qed.
Lemma runs_stor_node net nd n0 n t : node_at s net nd = Some n0 -> Forall2 (fun y y' => ls_name y' = s_name y) (n_stors n0) (ln_stors n) ->
  runs (before t) (stor_add_node net nd n t) (fun _ b => forall y ys, n_stors n0 = y :: ys -> dget (t, net, nd, s_name y) (b_cap b) <> None).
Proof.
  intros N F. unfold stor_add_node. remember (n_stors n0) as st eqn:EN. destruct F as [|y y' ys ys' E F]. { eapply runs_weak; [apply runs_ret |]. intros; discriminate. }
  pose proof (firm_before t) as FB. rewrite E. eapply runs_bind; [exact FB | apply runs_cap |]. intros u.
  assert (FC : firm (fun b => before t b /\ dget (t, net, nd, s_name y) (b_cap b) <> None)) by (apply firm_and; [exact FB | apply firm_cap]).
  assert (W : forall m : B unit, runs (fun b => before t b /\ dget (t, net, nd, s_name y) (b_cap b) <> None) m (fun _ _ => True) ->
    runs (fun b => before t b /\ dget (t, net, nd, s_name y) (b_cap b) <> None) m (fun _ b => forall z zs, y :: ys = z :: zs -> dget (t, net, nd, s_name z) (b_cap b) <> None)).
  { intros m H b Pr IM. destruct (H b Pr IM) as (b' & a & E' & X & I' & _). exists b', a. split; auto. split; auto. split; auto. intros z zs Z. inversion Z; subst. eapply firm_cap; eauto. apply Pr. }
  destruct t as [|t']; apply W.
  - apply runs_then; auto; [apply runs_new | intros]. apply runs_then; auto; [apply runs_coef | intros]. apply runs_then; auto; [apply runs_coef | intros]. apply runs_coef.
  - apply runs_then; auto; [apply runs_new | intros]. apply runs_then; auto; [apply runs_coef | intros]. apply runs_then; auto; [apply runs_coef | intros].
    intros b Pr IM. unfold sbind at 1, sget at 1. pose proof Pr as [PB _]. cbn [before] in PB.
    destruct (dget (t', net, nd, s_name y) (b_cap b)) as [pv|] eqn:D.
    + revert b Pr IM PB D. assert (Z : forall pv, runs (fun b => before (S t') b /\ dget (S t', net, nd, s_name y) (b_cap b) <> None) (set_coef a pv (-1);; set_coef a (ls_vcap y') 1) (fun _ _ => True)).
      { intros pv0. apply runs_then; auto; [apply runs_coef | intros; apply runs_coef]. }
      intros b Pr IM _ D. unfold sbind at 1, slift, dlook. rewrite D. exact (Z pv b Pr IM).
    + exfalso. apply (PB net nd n0 y ys N); auto.
Qed.
Lemma runs_obj_node pre n : firm pre -> runs pre (obj_add_node n) (fun _ _ => True).
Proof. intros FM. unfold obj_add_node. repeat (apply runs_then; [exact FM | apply runs_sfor; [exact FM | intros; apply runs_obj] | intros]). apply runs_sfor; [exact FM | intros; apply runs_obj]. Qed.

Definition marked (t : nat) (net nd : string) (b : bstate) : Prop :=
  dget (t, net, nd) (b_adq b) <> None /\ forall n0 y ys, node_at s net nd = Some n0 -> n_stors n0 = y :: ys -> dget (t, net, nd, s_name y) (b_cap b) <> None.
Lemma firm_marked t net nd : firm (marked t net nd).
Proof. intros b b' [X1 X2] [H1 H2]. split; auto. intros n0 y ys N E. eapply X2, H2; eauto. Qed.
Lemma runs_batch_node net nd n0 t : t < st_horizon s -> node_at s net nd = Some n0 -> runs (before t) (batch_node s scn t net nd) (fun _ b => marked t net nd b).
Proof.
  intros T N. pose proof (firm_before t) as FB. unfold batch_node. eapply runs_bind; [exact FB | |].
  { apply (runs_pre _ (fun _ => True)); [auto |]. apply runs_node; eauto. }
  intros n. cbv beta. apply runs_fact. intros [F1 F2]. eapply runs_bind; [exact FB | |].
  { apply (runs_pre _ (fun _ => True)); [auto |]. eapply runs_adq_node; eauto. }
  intros u. cbv beta. assert (FB2 : firm (fun b => before t b /\ dget (t, net, nd) (b_adq b) <> None)) by (apply firm_and; [exact FB | apply firm_adq]).
  eapply runs_bind; [exact FB2 | |]. { apply (runs_pre _ (before t)); [tauto |]. eapply runs_stor_node; eauto. }
  intros u2. cbv beta. assert (FB3 : firm (fun b => (before t b /\ dget (t, net, nd) (b_adq b) <> None) /\ (forall y ys, n_stors n0 = y :: ys -> dget (t, net, nd, s_name y) (b_cap b) <> None))).
  { apply firm_and; auto. intros b b' X H y ys E. eapply X, H; eauto. }
  apply runs_then; [exact FB3 | apply runs_obj_node; exact FB3 |]. intros _. intros b [[_ X1] X2] IM. exists b, n. split; [reflexivity |]. split; [apply ext_refl |]. split; auto.
  split; auto. intros n1 y ys N1 E. rewrite N in N1. injection N1 as <-. eauto.
Qed.

Lemma node_at_In net ns nd n : In (net, ns) (st_networks s) -> In (nd, n) ns -> node_at s net nd = Some n.
Proof. intros I1 I2. unfold node_at. rewrite (In_dget _ _ _ (ko_networks _ KO) I1). apply In_dget; auto. apply (ko_nodes _ KO _ _ I1). Qed.
Lemma In_node_at net nd n : node_at s net nd = Some n -> exists ns, In (net, ns) (st_networks s) /\ In (nd, n) ns.
Proof. unfold node_at. destruct (dget net (st_networks s)) as [ns|] eqn:D; [| discriminate]. intros N. exists ns. split; eapply dget_In; eauto. Qed.

Definition adqs (t : nat) (b : bstate) : Prop := forall net nd, place net nd -> dget (t, net, nd) (b_adq b) <> None.
Lemma firm_adqs t : firm (adqs t). Proof. intros b b' [X _] H net nd P. apply X, H, P. Qed.

Lemma dmapM_ok {K V W} (f : V -> res W) (d : dict K V) : (forall k v, In (k, v) d -> exists w, f v = Ok w) -> exists d', dmapM f d = Ok d'.
Proof.
  unfold dmapM. induction d as [|[k v] d IH]; intros H; cbn [mapM]; [eauto |]. destruct (H k v (or_introl eq_refl)) as (w & E). cbn [snd fst]. rewrite E. cbn [rbind].
  destruct IH as (d' & E'); [intros k' v' I'; apply (H k' v'); now right |]. rewrite E'. cbn. eauto.
Qed.
Lemma dmapM_back {K V W} (f : V -> res W) (d : dict K V) d' : dmapM f d = Ok d' -> dkeys d' = dkeys d /\ forall k w, In (k, w) d' -> exists v, In (k, v) d /\ f v = Ok w.
Proof.
  revert d'. unfold dmapM, dkeys. induction d as [|[k0 v0] d IH]; cbn [mapM]; intros d' H.
  - injection H as <-. split; [reflexivity | intros k w []].
  - cbn [snd fst] in H. destruct (f v0) as [w0|] eqn:E; [| discriminate]. cbn [rbind] in H. destruct (mapM _ d) as [r|] eqn:E2; [| discriminate]. cbn in H. injection H as <-.
    destruct (IH r eq_refl) as [K1 K2]. split; [cbn; now rewrite K1 |]. intros k w [X|X]; [injection X as <- <-; exists v0; split; [now left | exact E] |].
    destruct (K2 k w X) as (v & J & E3). exists v. split; [now right | exact E3].
Qed.
Lemma runs_conv name v0 t : t < st_horizon s -> conv_at s name = Some v0 -> runs (fun _ => True) (get_conv_var s name t scn) (fun v _ =>
  lv_dnet v = v_dnet v0 /\ lv_dnode v = v_dnode v0 /\ dkeys (lv_src v) = dkeys (v_src v0) /\ dkeys (lv_ratios v) = dkeys (v_src v0)).
Proof.
  intros T V. pose proof (rs_conv _ RD _ _ (dget_In _ _ _ V)) as [(co0 & EC & FC) (mx0 & EM & FX) SO SS]. rewrite Forall_forall in SS.
  unfold get_conv_var. eapply runs_val. { unfold dlook. unfold conv_at in V. rewrite V. reflexivity. }
  destruct (dmapM_ok (fun r => getn r scn t) (v_src v0)) as (ra & ER). { intros k q J. apply (fits_read (st_horizon s) (st_nb_scn s)); auto. apply (SS _ J). }
  eapply runs_val; [exact ER |]. destruct (dmapM_back _ _ _ ER) as [K1 K2].
  destruct (fits_read _ _ _ scn t FC SC T) as (co & Eco). destruct (fits_read _ _ _ scn t FX SC T) as (mx & Emx).
  eapply runs_val. { unfold ogetn. rewrite EC. exact Eco. } eapply runs_val. { unfold ogetn. rewrite EM. exact Emx. }
  pose proof firm_true as FT. eapply runs_bind; [exact FT | |].
  { apply (runs_smapi _ _ (fun kr kx => fst kx = fst kr) (fun _ _ => True)); auto. intros i [k r] J. destruct (K2 _ _ J) as (q & Jq & Eq). cbn [fst snd].
    eapply runs_val. { unfold pydiv. replace (Qeq_bool r 0) with false; [reflexivity |]. symmetry. apply Bool.not_true_iff_false. intros Z. apply Qeq_bool_iff in Z.
      apply (NZ _ _ _ _ _ V Jq T). unfold value. rewrite Eq. exact Z. }
    apply runs_then; auto; [apply runs_num; auto |]. intros x. eapply runs_weak; [apply runs_ret |]. intros ? ? ->. auto. }
  intros srcs. cbv beta. intros b [_ [F _]] IM. revert b IM.
  assert (KK : dkeys srcs = dkeys ra). { clear - F. unfold dkeys. induction F as [|x y l l' E F IH]; [reflexivity |]. cbn. now rewrite E, IH. }
  intros b IM. assert (W : runs (fun _ => True) (do d <- num_var (VDest name t) 0 mx; sret (LPConv (v_name v0) ra srcs (v_dnet v0) (v_dnode v0) d co mx)) (fun v _ => lv_dnet v = v_dnet v0 /\ lv_dnode v = v_dnode v0 /\ dkeys (lv_src v) = dkeys (v_src v0) /\ dkeys (lv_ratios v) = dkeys (v_src v0))).
  { apply runs_then; auto; [apply runs_num; auto |]. intros d. eapply runs_weak; [apply runs_ret |]. intros ? ? ->. cbn. split; auto. split; auto. split; [exact (eq_trans KK K1) | exact K1]. }
  apply W; auto.
Qed.
Lemma runs_batch_conv name v0 t : t < st_horizon s -> conv_at s name = Some v0 -> runs (adqs t) (batch_conv s scn t name) (fun _ _ => True).
Proof.
  intros T V. pose proof (firm_adqs t) as FA. unfold batch_conv. eapply runs_bind; [exact FA | |]. { apply (runs_pre _ (fun _ => True)); [auto |]. eapply runs_conv; eauto. }
  intros v. cbv beta. apply runs_fact. intros (E1 & E2 & E3 & E4).
  assert (AC : forall net nd x c, place net nd -> runs (adqs t) (adq_coef (t, net, nd) x c) (fun _ _ => True)) by (intros net nd x c P; apply runs_adq_coef; auto).
  apply runs_then; auto.
  { unfold adq_add_converter. apply runs_then; auto. { apply AC. rewrite E1, E2. eapply jp_dest; eauto. } intros _. apply runs_sfor; auto.
    intros [[net nd] x] J. cbn [fst snd]. apply AC. apply (in_map fst) in J. cbn in J. fold (dkeys (lv_src v)) in J. change (In (net, nd) (dkeys (lv_src v))) in J. rewrite E3 in J. unfold dkeys in J. apply in_map_iff in J as ([k q] & Ek & J). cbn in Ek. subst k.
    eapply jp_sources; eauto. }
  intros _. apply runs_then; auto.
  { unfold mix_add_converter. apply runs_sfor; auto. intros [k r] J. cbn [fst snd]. apply runs_then; auto.
    { apply runs_lift'. unfold dlook. destruct (dget k (lv_src v)) as [x|] eqn:D; [eauto |]. exfalso. apply dget_None in D. apply D. rewrite E3, <- E4. unfold dkeys. apply (in_map fst) in J. exact J. }
    intros x. apply runs_then; auto; [apply runs_new | intros]. apply runs_then; auto; [apply runs_coef | intros; apply runs_coef]. }
  intros _. apply runs_then; auto; [apply runs_obj | intros; apply runs_done].
Qed.
Lemma runs_step t : t < st_horizon s -> runs (before t) (batch_step s scn t) (fun _ b => adqs t b /\ caps t b).
Proof.
  intros T. pose proof (firm_before t) as FB. unfold batch_step. eapply runs_bind; [exact FB | |].
  { apply (runs_smapi _ _ (fun _ _ => True) (fun kn b => forall nd n, In (nd, n) (snd kn) -> marked t (fst kn) nd b)); auto.
    - intros [net ns] b b' X H nd n J. eapply firm_marked; eauto.
    - intros i [net ns] J. cbn [fst snd]. eapply runs_bind; [exact FB | |].
      + apply (runs_smapi _ _ (fun _ _ => True) (fun kd b => marked t net (fst kd) b)); auto. { intros; apply firm_marked. }
        intros i' [nd n] J'. cbn [fst snd]. eapply runs_bind; [exact FB | eapply runs_batch_node; eauto using node_at_In |]. intros n'. cbv beta. intros b [_ X] IM. exists b, (nd, n'). split; [reflexivity |]. split; [apply ext_refl |]. auto.
      + intros ns'. cbv beta. intros b [_ [_ X]] IM. exists b, (net, ns'). split; [reflexivity |]. split; [apply ext_refl |]. split; auto. split; auto. intros nd n J'. apply (X (nd, n) J'). }
  intros nets. cbv beta.
  apply (runs_pre _ (fun b => adqs t b /\ caps t b)).
  { intros b [_ [_ X]]. split.
    - intros net nd (m & N). destruct (In_node_at _ _ _ N) as (ns & J1 & J2). apply (X _ J1 _ _ J2).
    - intros net nd n0 y ys N E. destruct (In_node_at _ _ _ N) as (ns & J1 & J2). destruct (X _ J1 _ _ J2) as [_ Y]. eapply Y; eauto. }
  assert (FC : firm (fun b => adqs t b /\ caps t b)) by (apply firm_and; [apply firm_adqs | apply firm_caps]).
  intros b Pr IM. assert (W : runs (fun b => adqs t b /\ caps t b) (smapi (fun _ kv => do v <- batch_conv s scn t (fst kv); sret (fst kv, v)) 0 (st_converters s)) (fun _ _ => True)).
  { eapply runs_weak; [apply (runs_smapi _ _ (fun _ _ => True) (fun _ _ => True)); auto |]. { intros; apply firm_true. }
    - intros i [name v0] J. cbn [fst]. eapply runs_bind; [exact FC | |]. { apply (runs_pre _ (adqs t)); [tauto |]. eapply runs_batch_conv; [exact T | apply In_dget; [apply (ko_convs _ KO) | exact J]]. }
      intros v. eapply runs_weak; [apply runs_ret |]. auto.
    - auto. }
  destruct (W b Pr IM) as (b' & a & E & X & I' & _). exists b', (LPStep nets a). split; [erewrite sbind_eq_ok by exact E; reflexivity |]. split; auto. split; auto. eapply FC; eauto.
Qed.
Lemma runs_times k : forall t0 i, t0 + k = st_horizon s -> runs (fun b => before t0 b /\ forall t, t < t0 -> adqs t b) (smapi (fun _ t => batch_step s scn t) i (seq t0 k)) (fun _ b => forall t, t < st_horizon s -> adqs t b).
Proof.
  induction k as [|k IH]; intros t0 i E; cbn [seq smapi].
  - intros b [_ X] IM. exists b, []. split; [reflexivity |]. split; [apply ext_refl |]. split; auto. intros t T. apply X. lia.
  - assert (FM : firm (fun b => before t0 b /\ forall t, t < t0 -> adqs t b)). { apply firm_and; [apply firm_before |]. intros b b' X H t T. eapply firm_adqs; eauto. }
    eapply runs_bind; [exact FM | |]. { apply (runs_pre _ (before t0)); [tauto |]. apply runs_step; lia. }
    intros y. cbv beta. apply (runs_pre _ (fun b => before (S t0) b /\ forall t, t < S t0 -> adqs t b)).
    { intros b [[_ X] [Y1 Y2]]. split; [exact Y2 |]. intros t T. destruct (Nat.eq_dec t t0) as [->|N]; auto. apply X. lia. }
    intros b Pr IM. destruct (IH (S t0) (S i) ltac:(lia) b Pr IM) as (b' & a & E' & X & I' & P). exists b', (y :: a). split; [erewrite sbind_eq_ok by exact E'; reflexivity | auto].
Qed.
Lemma complete_build : exists p, build s scn = Ok p.
Proof.
  assert (W : runs (fun b => before 0 b /\ forall t, t < 0 -> adqs t b) (build_batch s scn) (fun _ _ => True)).
  { unfold build_batch. intros b Pr IM. destruct (runs_times (st_horizon s) 0 0 eq_refl b Pr IM) as (b1 & vs & E1 & X1 & I1 & AQ).
    unfold sbind. rewrite E1. assert (FM : firm (fun b => forall t, t < st_horizon s -> adqs t b)). { intros b' b'' X H t T. eapply firm_adqs; eauto. }
    assert (W : runs (fun b => forall t, t < st_horizon s -> adqs t b) (sfor (fun kv => match fst kv with (t, net, _, dest) => adq_coef (t, net, dest) (snd kv) 1 end) (b_imp b1)) (fun _ _ => True)).
    { apply runs_sfor; auto. intros [[[[t net] src] dst] v] J. cbn [fst snd]. apply runs_adq_coef; auto. intros b2 H.
      destruct (I1 t net src dst) as [T P]. { intros D. apply dget_None in D. apply D. unfold dkeys. apply (in_map fst) in J. exact J. } apply H; auto. }
    destruct (W b1 AQ I1) as (b2 & u & E2 & X2 & I2 & _). unfold adq_build, sbind, sget. rewrite E2. eexists. eexists. split; [reflexivity |]. split; [eapply ext_trans; eauto | auto]. }
  destruct (W b_init) as (b & vs & E & _). { split; [exact Logic.I | lia]. } { intros t net src dst D. now cbn in D. }
  unfold build. rewrite E. eauto.
Qed.
End Complete.

(** A study read from a text is solved, job by job, exactly when the places it names are there and no ratio is null. *)
Theorem C108_read_jobs : forall j s answer, snd (study_from_json j) = Ok s -> keys_once s -> 0 < st_horizon s -> 0 < st_nb_scn s ->
  (forall scn, scn < st_nb_scn s -> exists steps, solve_batch (answer scn) s scn = Ok steps) <-> joins_places s /\ usable_converters s.
Proof.
  intros j s answer R KO Hh Hn. assert (RD : SpecRead.readable s) by (apply C95_readable; eauto). split.
  - intros H. assert (BI : forall scn, scn < st_nb_scn s -> exists p, build s scn = Ok p).
    { intros scn S. destruct (H scn S) as (steps & E). unfold solve_batch in E. destruct (build s scn) as [p|] eqn:B; [eauto | discriminate]. }
    split; [destruct (BI 0 Hn) as (p & B); apply (built_places s 0 p B Hh) |].
    intros name v V. destruct (BI 0 Hn) as (p & B). destruct (proj2 (built_places s 0 p B Hh) 0 name v Hh V) as (_ & _ & C & M & _). split; auto. split; auto.
    intros k q scn t J S T. destruct (BI scn S) as (p' & B'). destruct (proj2 (built_places s scn p' B' Hh) t name v T V) as (_ & _ & _ & _ & Z). exact (Z k q J).
  - intros [JP UC] scn S. destruct (complete_build s scn S RD KO JP) as (p & E). { intros name v k q t V J T. destruct (UC name v V) as (_ & _ & Z). eapply Z; eauto. }
    unfold solve_batch. rewrite E. cbn. eauto.
Qed.

(** ** What is kept aside *)
Definition yields {A} (m : B A) (P : A -> Prop) : Prop := forall b b' c, m b = (b', Ok c) -> P c.
Lemma yields_bind {A C} (m : B A) (f : A -> B C) (P : A -> Prop) (P' : C -> Prop) : yields m P -> (forall a, P a -> yields (f a) P') -> yields (sbind m f) P'.
Proof. intros H F b b' c E. apply LPReady.sbind_inv in E as (b1 & a & E1 & E2). eapply F; eauto. Qed.
Lemma yields_any {A C} (m : B A) (f : A -> B C) (P' : C -> Prop) : (forall a, yields (f a) P') -> yields (sbind m f) P'.
Proof. intros F. apply (yields_bind m f (fun _ => True)); [intros b b' c E; exact Logic.I | intros a _; apply F]. Qed.
Lemma yields_ret {A} (a : A) (P : A -> Prop) : P a -> yields (sret a) P.
Proof. intros H b b' c E. injection E as _ <-. exact H. Qed.
Lemma yields_num v lb ub : yields (num_var v lb ub) (fun x => x = v).
Proof. unfold num_var. apply yields_any. intros _. now apply yields_ret. Qed.
Lemma yields_lift {A C} (r : res A) (f : A -> B C) P : (forall a, r = Ok a -> yields (f a) P) -> yields (sbind (slift r) f) P.
Proof. intros F. apply (yields_bind _ _ (fun a => r = Ok a)); [intros b b' c E; injection E as _ E; exact E | exact F]. Qed.
Lemma yields_val {C} v scn t (f : Q -> B C) P : yields (f (value v scn t)) P -> yields (sbind (slift (getn v scn t)) f) P.
Proof. intros F. apply yields_lift. intros a E. unfold value in F. rewrite E in F. exact F. Qed.
Lemma yields_var {C} v lb ub (f : var -> B C) P : yields (f v) P -> yields (sbind (num_var v lb ub) f) P.
Proof. intros F. eapply yields_bind; [apply yields_num |]. intros a ->. exact F. Qed.
Lemma yields_smapi {A C} (f : nat -> A -> B C) (g : nat -> A -> C) l : (forall i x, In x l -> yields (f i x) (fun y => y = g i x)) -> forall i, yields (smapi f i l) (fun ys => ys = mapi g i l).
Proof.
  induction l as [|x l IH]; intros H i; cbn [smapi mapi]; [now apply yields_ret |]. eapply yields_bind; [apply H; now left |]. intros y ->.
  eapply yields_bind; [apply IH; intros j z J; apply H; now right |]. intros ys ->. now apply yields_ret.
Qed.
Lemma yields_node s net nd t scn n0 : node_at s net nd = Some n0 -> yields (get_node_var s net nd t scn) (fun n => n = pnode net nd t scn n0).
Proof.
  intros N. unfold node_at in N. unfold get_node_var. destruct (dget net (st_networks s)) as [ns|] eqn:D; [| discriminate].
  apply yields_lift. intros ns' E. unfold dlook in E. rewrite D in E. injection E as <-. apply yields_lift. intros n E. unfold dlook in E. rewrite N in E. injection E as <-.
  eapply yields_bind; [apply (yields_smapi _ (fun i c => LPCons (c_name c) (value (c_cost c) scn t) (value (c_qty c) scn t) (VLol net nd i t))) |].
  { intros i c _. repeat (apply yields_val || apply yields_var). now apply yields_ret. } intros cs ->.
  eapply yields_bind; [apply (yields_smapi _ (fun i p => LPProd (p_name p) (value (p_cost p) scn t) (value (p_qty p) scn t) (VProd net nd i t))) |].
  { intros i c _. repeat (apply yields_val || apply yields_var). now apply yields_ret. } intros ps ->.
  eapply yields_bind; [apply (yields_smapi _ (fun i x => LPStor (s_name x) (value (s_capacity x) scn t) (VCap net nd i t) (value (s_flow_in x) scn t) (VIn net nd i t)
      (value (s_flow_out x) scn t) (VOut net nd i t) (value (s_cost x) scn t) (s_init x) (value (s_eff x) scn t))) |].
  { intros i c _. repeat (apply yields_val || apply yields_var). now apply yields_ret. } intros ss ->.
  eapply yields_bind; [apply (yields_smapi _ (fun i l => LPLink nd (l_dest l) (value (l_qty l) scn t) (VLink net nd i t) (value (l_cost l) scn t))) |].
  { intros i c _. repeat (apply yields_val || apply yields_var). now apply yields_ret. } intros ls ->.
  now apply yields_ret.
Qed.
Lemma dmapM_vals {K} scn t (d : dict K numval) d' : dmapM (fun r => getn r scn t) d = Ok d' -> d' = dmap (fun q => value q scn t) d.
Proof.
  revert d'. unfold dmapM, dmap. induction d as [|[k q] d IH]; cbn [mapM map]; intros d' H; [now injection H as <- |].
  cbn [fst snd] in *. unfold value at 1. destruct (getn q scn t) as [w|] eqn:E; [| discriminate]. cbn [rbind] in H. destruct (mapM _ d) as [r|] eqn:E2; [| discriminate]. cbn in H. injection H as <-.
  now rewrite (IH r eq_refl).
Qed.
Lemma yields_ovalue {C} v scn t (f : Q -> B C) P : yields (f (ovalue v scn t)) P -> yields (sbind (slift (ogetn v scn t)) f) P.
Proof. destruct v as [v|]; cbn [ogetn ovalue]; [apply yields_val |]. intros _. apply yields_lift. discriminate. Qed.
Lemma yields_conv s name t scn v0 : conv_at s name = Some v0 -> yields (get_conv_var s name t scn) (fun v => v = pconv name t scn v0).
Proof.
  intros V. unfold conv_at in V. unfold get_conv_var. apply yields_lift. intros v E. unfold dlook in E. rewrite V in E. injection E as <-.
  apply yields_lift. intros ra E. apply dmapM_vals in E. subst ra. apply yields_ovalue, yields_ovalue.
  eapply yields_bind; [apply (yields_smapi _ (fun _ kr => (fst kr, vsrc name t (fst kr)))) |].
  { intros i c _. apply yields_lift. intros ub _. apply yields_var. now apply yields_ret. } intros ss ->. apply yields_var. apply yields_ret.
  unfold pconv. f_equal. rewrite mapi_map. unfold dmap. now rewrite map_map.
Qed.
Lemma yields_step s scn t : keys_once s -> yields (batch_step s scn t) (fun p => p = pstep s scn t).
Proof.
  intros KO. unfold batch_step, pstep.
  eapply yields_bind; [apply (yields_smapi _ (fun _ kn => (fst kn, map (fun kd => (fst kd, pnode (fst kn) (fst kd) t scn (snd kd))) (snd kn)))) |].
  { intros _ [net ns] J. cbn [fst snd]. eapply yields_bind; [apply (yields_smapi _ (fun _ kd => (fst kd, pnode net (fst kd) t scn (snd kd)))) |].
    - intros _ [nd n] J'. cbn [fst snd]. eapply yields_bind with (P := fun m => m = pnode net nd t scn n); [| intros m ->; now apply yields_ret].
      unfold batch_node. eapply yields_bind; [apply yields_node; exact (node_at_In s KO _ _ _ _ J J') |]. intros m ->. repeat (apply yields_any; intros _). now apply yields_ret.
    - intros ns' ->. apply yields_ret. now rewrite mapi_map. }
  intros nets ->. eapply yields_bind; [apply (yields_smapi _ (fun _ kv => (fst kv, pconv (fst kv) t scn (snd kv)))) |].
  { intros _ [name v] J. cbn [fst snd]. eapply yields_bind with (P := fun m => m = pconv name t scn v); [| intros m ->; now apply yields_ret].
    unfold batch_conv. eapply yields_bind; [apply yields_conv; apply In_dget; [apply (ko_convs _ KO) | exact J] |]. intros m ->. repeat (apply yields_any; intros _). now apply yields_ret. }
  intros convs ->. apply yields_ret. now rewrite !mapi_map.
Qed.
Lemma kept_aside s scn p : keys_once s -> build s scn = Ok p -> snd p = map (pstep s scn) (seq 0 (st_horizon s)).
Proof.
  intros KO E. unfold build in E. destruct (build_batch s scn b_init) as [b [vs|]] eqn:B; [| discriminate]. injection E as <-. cbn [snd].
  assert (Y : yields (build_batch s scn) (fun vs => vs = map (pstep s scn) (seq 0 (st_horizon s)))); [| exact (Y _ _ _ B)].
  unfold build_batch. eapply yields_bind; [apply (yields_smapi _ (fun _ t => pstep s scn t)); intros _ t _; now apply yields_step |].
  intros vs' ->. apply yields_any. intros _. apply yields_ret. apply mapi_map.
Qed.

(** The whole solve of a study read from a text. *)
Theorem C108_read_solved : forall j s answer sched bench, snd (study_from_json j) = Ok s -> keys_once s -> 0 < st_horizon s -> 0 < st_nb_scn s ->
  Permutation sched (seq 0 (st_nb_scn s)) ->
  ((exists r, solve_lp answer sched bench s = Ok r) <-> joins_places s /\ usable_converters s) /\
  forall r, solve_lp answer sched bench s = Ok r -> mirrors s r /\ forall scn, scn < st_nb_scn s -> carries_answer s r scn (answer scn (program_of s scn)).
Proof.
  intros j s answer sched bench R KO Hh Hn P. assert (RD : SpecRead.readable s) by (apply C95_readable; eauto).
  assert (OK : joins_places s /\ usable_converters s -> exists r, solve_lp answer sched bench s = Ok r /\ r_benchmark r = bench /\ mirrors s r /\
    forall scn, scn < st_nb_scn s -> carries_answer s r scn (answer scn (program_of s scn))).
  { intros [JP UC]. apply collect_ok; [apply (ko_networks _ KO) | intros net ns D; apply (ko_nodes _ KO _ _ (dget_In _ _ _ D)) | apply (ko_convs _ KO) | | | | exact P].
    - intros name v V. apply (sv_once _ _ _ (rs_conv _ RD _ _ (dget_In _ _ _ V))).
    - intros name v k V J. pose proof (sv_src _ _ _ (rs_conv _ RD _ _ (dget_In _ _ _ V))) as F. rewrite Forall_forall in F. unfold dkeys in J. apply in_map_iff in J as ([k' q] & <- & J). apply (F _ J).
    - intros scn S. destruct (complete_build s scn S RD KO JP) as ([p vs] & E). { intros name v k q t V J T. destruct (UC name v V) as (_ & _ & Z). eapply Z; eauto. }
      exists p. rewrite E. do 2 f_equal. exact (kept_aside _ _ _ KO E). }
  assert (SP : forall r, solve_lp answer sched bench s = Ok r -> joins_places s /\ usable_converters s).
  { intros r E. apply (C108_solved_places answer s r Hh Hn). exists sched, bench. auto. }
  split.
  - split; [intros (r & E); eauto |]. intros H. destruct (OK H) as (r & E & _). eauto.
  - intros r E. destruct (OK (SP r E)) as (r' & E' & _ & M). rewrite E in E'. injection E' as <-. exact M.
Qed.

Lemma hand_keys q d : keys_once (hand_study q d).
Proof.
  constructor; cbn.
  - repeat constructor; intros [].
  - intros net ns [E|[]]. injection E as <- <-. cbn. repeat constructor; cbn; intuition congruence.
  - constructor.
Qed.
(** The same text with a link to a node, and with a link to nowhere: both are read, the first one alone is solved. *)
Example C108_read_jobs_example :
  (snd (study_from_json (hand_tree 10%Q "b")) = Ok (hand_study 10%Q "b") /\ joins_places (hand_study 10%Q "b") /\ usable_converters (hand_study 10%Q "b")) /\
  (snd (study_from_json (hand_tree 10%Q "zz")) = Ok (hand_study 10%Q "zz") /\ ~ joins_places (hand_study 10%Q "zz") /\
   forall answer r, ~ solved answer (hand_study 10%Q "zz") r).
Proof.
  split.
  - assert (E : snd (study_from_json (hand_tree 10%Q "b")) = Ok (hand_study 10%Q "b")) by (vm_compute; reflexivity). split; [exact E |].
    apply (C108_read_jobs _ _ (fun _ _ _ => 0%Q) E (hand_keys _ _)); cbn; try lia. intros scn S. replace scn with 0 by lia. eexists. vm_compute. reflexivity.
  - split; [vm_compute; reflexivity |]. assert (N : ~ joins_places (hand_study 10%Q "zz")).
    { intros JP. destruct (jp_links _ JP "elec" "a" _ (Lnk "zz" (Scalar 8%Q 2 1) (Scalar 2%Q 2 1)) eq_refl (or_introl eq_refl)) as (m & D). discriminate D. }
    split; [exact N |]. intros answer r SO. apply N. eapply C108_solved_places; [| | exact SO]; cbn; lia.
Qed.

Example C108_read_solved_example : forall answer, exists r, solve_lp answer [0] no_bench (hand_study 10%Q "b") = Ok r /\ mirrors (hand_study 10%Q "b") r.
Proof.
  intros answer. destruct C108_read_jobs_example as [(E & JP & UC) _].
  destruct (C108_read_solved _ _ answer [0] no_bench E (hand_keys _ _)) as [IFF M]; [cbn; lia | cbn; lia | reflexivity |]. destruct (proj2 IFF (conj JP UC)) as (r & R). exists r. split; [exact R |]. apply (M r R).
Qed.

(** What neither reading nor solving checks: a node with two links to the same node. Both are paid for and carry energy away,
    one alone brings it. *)
Definition twin_tree : json :=
  JObj [("horizon", JNum 1); ("nb_scn", JNum 1); ("version", JNull); ("converters", JObj []);
        ("networks", JObj [("elec", JObj [("nodes", JObj
          [("a", JObj [("links", JList [JObj [("dest", JStr "b"); ("cost", JNum 0); ("quantity", JNum 5)]; JObj [("dest", JStr "b"); ("cost", JNum 0); ("quantity", JNum 5)]]);
                       ("storages", JList []); ("consumptions", JList []);
                       ("productions", JList [JObj [("cost", JNum (-1)); ("quantity", JNum 10)]])]);
           ("b", JObj [("links", JList []); ("storages", JList []); ("productions", JList []);
                       ("consumptions", JList [JObj [("quantity", JNum 10); ("cost", JNum 100)]])])])])])].
Definition twin : study :=
  let k (x : Q) := Scalar x 1 1 in
  Study hadar_version [("elec", [("a", Node [] [Prod "in" (k (-1)%Q) (k 10%Q)] [] [Lnk "b" (k 5%Q) (k 0%Q); Lnk "b" (k 5%Q) (k 0%Q)]);
                                 ("b", Node [Cons "" (k 100%Q) (k 10%Q)] [] [] [])])] [] 1 1.
Definition twin_answer : nat -> solver -> var -> Q := fun _ _ v => match v with VProd _ _ _ _ => 10%Q | VLink _ _ _ _ => 5%Q | VLol _ _ _ _ => 5%Q | _ => 0%Q end.
Definition twin_result : result :=
  Result [("elec", [("a", ONode [] [OProd "in" (ND [1; 1] [10%Q])] [] [OLnk "b" (ND [1; 1] [5%Q]); OLnk "b" (ND [1; 1] [5%Q])]);
                    ("b", ONode [OCons (ND [1; 1] [5%Q]) ""] [] [] [])])] [] no_bench.
Lemma twin_optimal : optimal_answer twin_answer twin 0.
Proof. best_tac (program_of twin 0). Qed.
Theorem C108_twice_refuted : exists j s answer r, snd (study_from_json j) = Ok s /\ keys_once s /\ joins_places s /\ usable_converters s /\
  solved answer s r /\ optimal_answer answer s 0 /\ ~ balanced s r 0 /\ (total_cost s r 0 == 490)%Q /\
  (exists n l l', node_at s "elec" "a" = Some n /\ n_links n = [l; l'] /\ l_dest l = "b" /\ l_dest l' = "b" /\ (value (l_qty l) 0%nat 0%nat + value (l_qty l') 0%nat 0%nat == 10)%Q).
Proof.
  assert (KT : keys_once twin).
  { constructor; cbn.
    - repeat constructor; intros [].
    - intros net ns [E|[]]. injection E as <- <-. cbn. repeat constructor; cbn; intuition congruence.
    - constructor. }
  assert (E : snd (study_from_json twin_tree) = Ok twin) by (vm_compute; reflexivity).
  assert (SO : solved twin_answer twin twin_result) by (exists [0], no_bench; split; [reflexivity | vm_compute; reflexivity]).
  destruct (C108_solved_places twin_answer twin twin_result Nat.lt_0_1 Nat.lt_0_1 SO) as [JP UC].
  exists twin_tree, twin, twin_answer, twin_result. split; [exact E |]. split; [exact KT |]. split; [exact JP |]. split; [exact UC |]. split; [exact SO |].
  split; [exact twin_optimal |]. split. { intros B. specialize (B 0 "elec" "b" _ Nat.lt_0_1 eq_refl). vm_compute in B. discriminate B. }
  split; [vm_compute; reflexivity |]. eexists. eexists. eexists. split; [reflexivity |]. split; [reflexivity |]. split; [reflexivity |]. split; [reflexivity |]. vm_compute. reflexivity.
Qed.

Print Assumptions C108_solved_places.
Print Assumptions C108_read_jobs.
Print Assumptions C108_read_solved.
Print Assumptions C108_twice_refuted.
