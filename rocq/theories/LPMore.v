(** More on solving: results made of an assignment, studies agreeing on a scenario,
    shedding all load, energy of a network. *)
From Coq Require Import String List ZArith QArith Bool Arith Lia Lqa Permutation.
From Verif Require Import Base BaseFacts Numeric Study Fluent SpecStudy StudyFacts Output Json SpecJson JsonFacts
  LP SpecLP LPFacts LPBuild LPSat LPResult LPSolve LPReady LPWeak.
Import ListNotations.
Open Scope nat_scope.

(** ** The result made of an assignment *)
Definition tab (n h : nat) (f : nat -> nat -> Q) : ndarray :=
  ND [n; h] (flat_map (fun i => map (f i) (seq 0 h)) (seq 0 n)).

Lemma tab_nth h (f : nat -> nat -> Q) n : forall a i j, i < n -> j < h ->
  nth_error (flat_map (fun i => map (f i) (seq 0 h)) (seq a n)) (i * h + j) = Some (f (a + i) j).
Proof.
  induction n as [|n IH]; intros a i j I J; [lia|]. cbn [seq flat_map].
  assert (L : length (map (f a) (seq 0 h)) = h) by now rewrite map_length, seq_length.
  destruct i as [|i].
  - rewrite nth_error_app1 by lia. rewrite nth_error_map. simpl. rewrite (nth_error_nth' _ 0) by (now rewrite seq_length).
    rewrite seq_nth by auto. simpl. now rewrite Nat.add_0_r.
  - rewrite nth_error_app2 by (rewrite L; simpl; lia). rewrite L. replace (S i * h + j - h) with (i * h + j) by (simpl; lia).
    rewrite IH by lia. do 2 f_equal. lia.
Qed.

Lemma tab_entry n h f i j : i < n -> j < h -> entry (tab n h f) i j = f i j.
Proof.
  intros I J. unfold entry, nd_get2, tab. cbn [shape data]. rewrite !pyindex_nat by auto. unfold lnth. now rewrite tab_nth.
Qed.
Lemma tab_dims s f : has_dims s (tab (st_nb_scn s) (st_horizon s) f).
Proof.
  split; auto. unfold nd_wf, tab. cbn [data shape size_of fold_right].
  assert (X : forall n a, length (flat_map (fun i => map (f i) (seq 0 (st_horizon s))) (seq a n)) = n * st_horizon s).
  { induction n as [|n IH]; intros a; cbn [seq flat_map]; auto. rewrite app_length, map_length, seq_length, IH. simpl. lia. }
  rewrite X. lia.
Qed.

Section Make.
Variables (s : study) (X : nat -> var -> Q).
Notation T := (tab (st_nb_scn s) (st_horizon s)).

Definition onode_of (net nd : string) (n : node) : onode :=
  ONode (mapi (fun i c => OCons (T (fun a t => value (c_qty c) a t - X a (VLol net nd i t))%Q) (c_name c)) 0 (n_cons n))
        (mapi (fun i p => OProd (p_name p) (T (fun a t => X a (VProd net nd i t)))) 0 (n_prods n))
        (mapi (fun i y => OStor (s_name y) (T (fun a t => X a (VCap net nd i t))) (T (fun a t => X a (VIn net nd i t)))
                                (T (fun a t => X a (VOut net nd i t)))) 0 (n_stors n))
        (mapi (fun i l => OLnk (l_dest l) (T (fun a t => X a (VLink net nd i t)))) 0 (n_links n)).

Definition oconv_of (name : string) (v : converter) : oconverter :=
  OConv name (map (fun kr => (fst kr, T (fun a t => X a (vsrc name t (fst kr))))) (v_src v)) (T (fun a t => X a (VDest name t))).

Definition result_of : result :=
  Result (map (fun kn => (fst kn, map (fun kd => (fst kd, onode_of (fst kn) (fst kd) (snd kd))) (snd kn))) (st_networks s))
         (map (fun kv => (fst kv, oconv_of (fst kv) (snd kv))) (st_converters s)) (Bench [] [] 0 0).

Lemma Forall2_mapi {A C} (P : A -> C -> Prop) (f : nat -> A -> C) l : forall i, (forall j a, P a (f j a)) -> Forall2 P l (mapi f i l).
Proof. induction l; simpl; intros; constructor; auto. Qed.

Lemma result_of_mirrors : mirrors s result_of.
Proof.
  constructor; cbn [result_of r_networks r_converters].
  - apply Forall2_map_r. intros [net ns] _. cbn [fst snd]. split; auto. apply Forall2_map_r. intros [nd n] _. cbn [fst snd]. split; auto.
    constructor; apply Forall2_mapi; intros; repeat split; auto; cbn [oc_qty op_qty os_capacity os_flow_in os_flow_out ol_qty]; apply tab_dims.
  - apply Forall2_map_r. intros [name v] _. cbn [fst snd]. split; auto. split; auto. split; [apply tab_dims|].
    cbn [ov_src oconv_of]. apply Forall2_map_r. intros [k q] _. cbn [fst snd]. split; auto. apply tab_dims.
Qed.

Lemma result_of_node net nd n : node_at s net nd = Some n -> rnode_at result_of net nd = Some (onode_of net nd n).
Proof.
  unfold node_at, rnode_at, result_of. cbn [r_networks].
  rewrite (dget_mapk (fun net (ns : network) => map (fun kd => (fst kd, onode_of net (fst kd) (snd kd))) ns)).
  destruct (dget net (st_networks s)) as [ns|]; [|discriminate]. cbn [option_map].
  rewrite (dget_mapk (fun nd n => onode_of net nd n)). intros ->. reflexivity.
Qed.
Lemma result_of_conv name v : conv_at s name = Some v -> rconv_at result_of name = Some (oconv_of name v).
Proof.
  unfold conv_at, rconv_at, result_of. cbn [r_converters]. rewrite (dget_mapk oconv_of). intros ->. reflexivity.
Qed.

Lemma result_of_carries scn : scn < st_nb_scn s -> carries_answer s result_of scn (X scn).
Proof.
  intros S. constructor.
  - intros net nd n rn i c o t Ht N R E O. rewrite (result_of_node net nd n N) in R. inversion R; subst rn. cbn [on_cons onode_of] in O.
    rewrite nth_error_mapi, E in O. inversion O; subst o. cbn [oc_qty]. rewrite tab_entry by auto. reflexivity.
  - intros net nd n rn i c o t Ht N R E O. rewrite (result_of_node net nd n N) in R. inversion R; subst rn. cbn [on_prods onode_of] in O.
    rewrite nth_error_mapi, E in O. inversion O; subst o. cbn [op_qty]. rewrite tab_entry by auto. reflexivity.
  - intros net nd n rn i c o t Ht N R E O. rewrite (result_of_node net nd n N) in R. inversion R; subst rn. cbn [on_stors onode_of] in O.
    rewrite nth_error_mapi, E in O. inversion O; subst o. cbn [os_capacity os_flow_in os_flow_out]. rewrite !tab_entry by auto. repeat split; reflexivity.
  - intros net nd n rn i c o t Ht N R E O. rewrite (result_of_node net nd n N) in R. inversion R; subst rn. cbn [on_links onode_of] in O.
    rewrite nth_error_mapi, E in O. inversion O; subst o. cbn [ol_qty]. rewrite tab_entry by auto. reflexivity.
  - intros name v rv net nd a t Ht V R I. rewrite (result_of_conv name v V) in R. inversion R; subst rv. cbn [ov_src oconv_of] in I.
    apply in_map_iff in I as ([k q] & E & I). inversion E; subst. rewrite tab_entry by auto. reflexivity.
  - intros name v rv t Ht V R. rewrite (result_of_conv name v V) in R. inversion R; subst rv. cbn [ov_dest oconv_of]. rewrite tab_entry by auto. reflexivity.
Qed.
End Make.

(** ** Studies that agree on a scenario have the same program *)
Lemma mapi_agree {A C D} (R : A -> C -> Prop) (f : nat -> A -> D) (g : nat -> C -> D) l m :
  Forall2 R l m -> (forall i a b, R a b -> f i a = g i b) -> forall i, mapi f i l = mapi g i m.
Proof. intros F H. induction F; intros i; simpl; auto. f_equal; auto. Qed.
Lemma map_agree {A C D} (R : A -> C -> Prop) (f : A -> D) (g : C -> D) l m :
  Forall2 R l m -> (forall a b, R a b -> f a = g b) -> map f l = map g m.
Proof. intros F H. induction F; simpl; auto. f_equal; auto. Qed.

Section AgreeFacts.
Variables (s1 s2 : study) (scn : nat).
Hypothesis Hh : st_horizon s1 = st_horizon s2.
Hypothesis Ha : agree (st_horizon s1) scn s1 s2.

Ltac same := repeat match goal with
  | H : _ /\ _ |- _ => destruct H
  | H : same_at _ _ ?a ?b |- _ => rewrite (H _ ltac:(eassumption)); clear H
  | H : osame_at _ _ ?a ?b |- _ => rewrite (H _ ltac:(eassumption)); clear H
  end; try congruence.

Lemma pnode_agree net nd t n m : t < st_horizon s1 -> node_agree (st_horizon s1) scn n m -> pnode net nd t scn n = pnode net nd t scn m.
Proof.
  intros T [C P S L]. unfold pnode. f_equal.
  - eapply mapi_agree; [exact C|]. intros i a b E. cbv beta in E. same.
  - eapply mapi_agree; [exact P|]. intros i a b E. cbv beta in E. same.
  - eapply mapi_agree; [exact S|]. intros i a b E. cbv beta in E. same.
  - eapply mapi_agree; [exact L|]. intros i a b E. cbv beta in E. same.
Qed.
Lemma node_vars_agree net nd t n m : t < st_horizon s1 -> node_agree (st_horizon s1) scn n m -> node_vars net nd t scn n = node_vars net nd t scn m.
Proof.
  intros T [C P S L]. unfold node_vars. f_equal; [|f_equal; [|f_equal]].
  - eapply mapi_agree; [exact C|]. intros i a b E. cbv beta in E. same.
  - eapply mapi_agree; [exact P|]. intros i a b E. cbv beta in E. same.
  - f_equal. eapply mapi_agree; [exact S|]. intros i a b E. cbv beta in E. same.
  - eapply mapi_agree; [exact L|]. intros i a b E. cbv beta in E. same.
Qed.
Lemma pconv_agree name t v w : t < st_horizon s1 -> conv_agree (st_horizon s1) scn v w -> pconv name t scn v = pconv name t scn w.
Proof.
  intros T [N [D1 D2] C M S]. unfold pconv. rewrite N, D1, D2, (C t T), (M t T). f_equal.
  - eapply map_agree; [exact S|]. intros a b [E F]. now rewrite E, (F t T).
  - eapply map_agree; [exact S|]. intros a b [E F]. now rewrite E.
Qed.
Lemma conv_vars_agree name t v w : t < st_horizon s1 -> conv_agree (st_horizon s1) scn v w -> conv_vars name t scn v = conv_vars name t scn w.
Proof.
  intros T [N [D1 D2] C M S]. unfold conv_vars. rewrite (M t T). f_equal.
  eapply map_agree; [exact S|]. intros a b [E F]. now rewrite E, (F t T).
Qed.

Lemma step_inc_agree t : t < st_horizon s1 -> step_inc s1 scn t = step_inc s2 scn t.
Proof.
  intros T. destruct Ha as [AN AC]. unfold step_inc, nodes_inc, convs_inc. f_equal.
  - f_equal. eapply map_agree; [exact AN|]. intros [a ns] [b ms] [E F]. unfold net_inc. cbn [fst snd] in *. subst b. f_equal.
    eapply map_agree; [exact F|]. intros [c n] [d m] [E G]. cbn [fst snd] in *. subst d. unfold node_inc.
    rewrite (pnode_agree a c t n m T G), (node_vars_agree a c t n m T G). reflexivity.
  - f_equal. eapply map_agree; [exact AC|]. intros [a v] [b w] [E G]. cbn [fst snd] in *. subst b. unfold conv_inc.
    rewrite (pconv_agree a t v w T G), (conv_vars_agree a t v w T G). reflexivity.
Qed.

Lemma program_agree : program s1 scn = program s2 scn.
Proof.
  assert (E : steps_inc s1 scn (st_horizon s1) = steps_inc s2 scn (st_horizon s2)).
  { unfold steps_inc. rewrite <- Hh. f_equal. apply map_ext_in. intros t I. apply step_inc_agree. apply in_seq in I. lia. }
  unfold program. now rewrite E.
Qed.

Hypothesis R1 : ready s1.
Hypothesis R2 : ready s2.
Hypothesis S1 : scn < st_nb_scn s1.
Hypothesis S2 : scn < st_nb_scn s2.

Theorem program_of_agree : program_of s1 scn = program_of s2 scn.
Proof.
  unfold program_of. destruct (build_ok s1 scn S1 R1) as (p & -> & A & B & C). destruct (build_ok s2 scn S2 R2) as (q & -> & D & E & F).
  rewrite program_agree in A, B, C. destruct p, q. cbn in *. congruence.
Qed.

Lemma conv_answer_agree x name t v w : t < st_horizon s1 -> conv_agree (st_horizon s1) scn v w ->
  conv_answer x (pconv name t scn v) = conv_answer x (pconv name t scn w).
Proof. intros T A. now rewrite (pconv_agree name t v w T A). Qed.

(** Three lists in a row. *)
Lemma Forall2_square {A C D E} (P : A -> C -> Prop) (R : A -> D -> Prop) (U : C -> E -> Prop) (W : D -> E -> Prop) l m l' m' :
  Forall2 R l l' -> Forall2 P l m -> Forall2 U m m' ->
  (forall i a c d e, nth_error l i = Some a -> nth_error m i = Some c -> nth_error l' i = Some d -> nth_error m' i = Some e ->
     P a c -> R a d -> U c e -> W d e) -> Forall2 W l' m'.
Proof.
  intros F. revert m m'. induction F as [|a d l l' RA F IH]; intros m m' FP FU H.
  - inversion FP; subst. inversion FU; subst. constructor.
  - inversion FP; subst. inversion FU; subst. constructor.
    + apply (H 0 a y d y0); auto.
    + eapply IH; eauto. intros i. apply (H (S i)).
Qed.

Theorem same_scenario_of answer r1 r2 :
  mirrors s1 r1 -> mirrors s2 r2 ->
  (let x := answer scn (program_of s1 scn) in carries_answer s1 r1 scn (x_read s1 x r1 scn) /\
    (forall name v rv k a, conv_at s1 name = Some v -> rconv_at r1 name = Some rv -> In (k, a) (ov_src rv) ->
       forall t, t < st_horizon s1 -> entry a scn t = src_cell x name v scn t k)) ->
  (let x := answer scn (program_of s2 scn) in carries_answer s2 r2 scn (x_read s2 x r2 scn) /\
    (forall name v rv k a, conv_at s2 name = Some v -> rconv_at r2 name = Some rv -> In (k, a) (ov_src rv) ->
       forall t, t < st_horizon s2 -> entry a scn t = src_cell x name v scn t k)) ->
  same_scenario (st_horizon s1) scn r1 r2.
Proof.
  intros M1 M2 C1 C2. rewrite <- program_of_agree, <- Hh in C2. set (x := answer scn (program_of s1 scn)) in *.
  cbv zeta in C1, C2. destruct C1 as [C1 K1], C2 as [C2 K2]. constructor.
  - eapply Forall2_square; [exact (mr_nodes _ _ M1) | exact (ag_nodes _ _ _ _ Ha) | exact (mr_nodes _ _ M2) |].
    intros i [a ns] [b ms] [c rns] [d rms] I1 I2 I3 I4 [E F] [E1 F1] [E2 F2]. cbn [fst snd] in *. subst b c d. split; auto.
    eapply Forall2_square; [exact F1 | exact F | exact F2 |].
    intros j [c n] [d m] [e rn] [f rm] J1 J2 J3 J4 [E G] [E1 L1] [E2 L2]. cbn [fst snd] in *. subst d e f. split; auto.
    apply nth_error_In in I1, I2, I3, I4, J1, J2, J3, J4.
    pose proof (node_at_In s1 R1 _ _ _ _ I1 J1) as N1. pose proof (node_at_In s2 R2 _ _ _ _ I2 J2) as N2.
    pose proof (rnode_at_In _ _ R1 M1 _ _ _ _ I3 J3) as Q1. pose proof (rnode_at_In _ _ R2 M2 _ _ _ _ I4 J4) as Q2.
    destruct L1 as [La Lb Lc Ld], L2 as [La' Lb' Lc' Ld'], G as [Ga Gb Gc Gd]. constructor.
    + eapply Forall2_square; [exact La | exact Ga | exact La' |]. intros q u v w z H1 H2 H3 H4 [A1 A2] [B1 B2] [B3 B4]. destruct A2.
      split; [congruence|]. intros t T. rewrite (ca_cons _ _ _ _ C1 _ _ _ _ q u w t T N1 Q1 H1 H3).
      rewrite (ca_cons _ _ _ _ C2 _ _ _ _ q v z t ltac:(now rewrite <- Hh) N2 Q2 H2 H4). cbn [x_read]. rewrite (H0 t T). reflexivity.
    + eapply Forall2_square; [exact Lb | exact Gb | exact Lb' |]. intros q u v w z H1 H2 H3 H4 [A1 A2] [B1 B2] [B3 B4].
      split; [congruence|]. intros t T. rewrite (ca_prods _ _ _ _ C1 _ _ _ _ q u w t T N1 Q1 H1 H3).
      rewrite (ca_prods _ _ _ _ C2 _ _ _ _ q v z t ltac:(now rewrite <- Hh) N2 Q2 H2 H4). reflexivity.
    + eapply Forall2_square; [exact Lc | exact Gc | exact Lc' |]. intros q u v w z H1 H2 H3 H4 [A1 A2] [B1 B2] [B3 B4].
      split; [congruence|]. repeat split; intros t T;
      destruct (ca_stors _ _ _ _ C1 _ _ _ _ q u w t T N1 Q1 H1 H3) as (O1 & O2 & O3);
      destruct (ca_stors _ _ _ _ C2 _ _ _ _ q v z t ltac:(now rewrite <- Hh) N2 Q2 H2 H4) as (O4 & O5 & O6); cbn [x_read] in *; lra.
    + eapply Forall2_square; [exact Ld | exact Gd | exact Ld' |]. intros q u v w z H1 H2 H3 H4 [A1 A2] [B1 B2] [B3 B4].
      split; [congruence|]. intros t T. rewrite (ca_links _ _ _ _ C1 _ _ _ _ q u w t T N1 Q1 H1 H3).
      rewrite (ca_links _ _ _ _ C2 _ _ _ _ q v z t ltac:(now rewrite <- Hh) N2 Q2 H2 H4). reflexivity.
  - eapply Forall2_square; [exact (mr_convs _ _ M1) | exact (ag_convs _ _ _ _ Ha) | exact (mr_convs _ _ M2) |].
    intros i [a v] [b w] [c rv] [d rw] I1 I2 I3 I4 [E F] [E1 F1] [E2 F2]. cbn [fst snd] in *. subst b c d. split; auto.
    apply nth_error_In in I1, I2, I3, I4.
    pose proof (conv_at_In _ R1 _ _ I1) as V1. pose proof (conv_at_In _ R2 _ _ I2) as V2.
    pose proof (rconv_at_In _ _ R1 M1 _ _ I3) as Q1. pose proof (rconv_at_In _ _ R2 M2 _ _ I4) as Q2.
    destruct F1 as (A1 & A2 & A3), F2 as (B1 & B2 & B3). split; [congruence|]. split.
    + intros t T. rewrite (ca_dest _ _ _ _ C1 _ _ _ t T V1 Q1), (ca_dest _ _ _ _ C2 _ _ _ t ltac:(now rewrite <- Hh) V2 Q2). reflexivity.
    + eapply Forall2_square; [exact A3 | exact (va_src _ _ _ _ F) | exact B3 |].
      intros q [k y] [k2 y2] [k3 z] [k4 z2] H1 H2 H3 H4 [D1 D2] [D3 D4] [D5 D6]. cbn [fst snd] in *. subst k2 k3 k4. split; auto.
      intros t T. apply nth_error_In in H3, H4.
      rewrite (K1 a v rv k z V1 Q1 H3 t T), (K2 a w rw k z2 V2 Q2 H4 t T).
      unfold src_cell. rewrite (conv_answer_agree x a t v w T F). reflexivity.
Qed.
End AgreeFacts.

(** ** Shedding all load *)
Definition shed_all (s : study) (scn : nat) (v : var) : Q :=
  match v with
  | VLol net nd i t => match node_at s net nd with
                       | Some n => match nth_error (n_cons n) i with Some c => value (c_qty c) scn t | None => 0%Q end
                       | None => 0%Q end
  | VCap net nd i t => match node_at s net nd with
                       | Some n => match nth_error (n_stors n) i with Some y => s_init y | None => 0%Q end
                       | None => 0%Q end
  | _ => 0%Q
  end.

Theorem shed_all_ok s scn : ready s -> scn < st_nb_scn s -> nonnegative s scn -> init_fits s scn -> positive_ratios s ->
  xok s scn (shed_all s scn).
Proof.
  intros R S N F P. constructor.
  - constructor.
    + intros t net nd n i c T E I. cbn [shed_all]. rewrite E, I. apply nth_error_In in I. pose proof (nn_cons _ _ N _ _ _ _ t E I T). split; lra.
    + intros t net nd n i c T E I. cbn [shed_all]. apply nth_error_In in I. pose proof (nn_prods _ _ N _ _ _ _ t E I T). split; lra.
    + intros t net nd n i c T E I. cbn [shed_all]. rewrite E, I. apply nth_error_In in I.
      destruct (nn_stors _ _ N _ _ _ _ t E I T) as (? & ? & ? & ?). pose proof (F _ _ _ _ t E I T). unfold within. repeat split; lra.
    + intros t net nd n i c T E I. cbn [shed_all]. apply nth_error_In in I. pose proof (nn_links _ _ N _ _ _ _ t E I T). split; lra.
    + intros t name v k q T E I. cbn [shed_all vsrc]. pose proof (nn_convs _ _ N _ _ t E T). pose proof (P name v k q scn t E I S T).
      split; [lra|]. apply Qle_shift_div_l; auto. lra.
    + intros t name v T E. cbn [shed_all]. pose proof (nn_convs _ _ N _ _ t E T). split; lra.
  - intros t net nd n T E. unfold xbalance, xnode, ximport, xself. cbn [shed_all]. rewrite E.
    rewrite (sumi_ext _ (fun _ c => value (c_qty c) scn t)) by (intros j c J; rewrite J; reflexivity). rewrite (sumi_map (fun c => value (c_qty c) scn t)).
    rewrite (sumi_zero _ (n_prods n)) by (intros; reflexivity). rewrite (sumi_zero _ (n_stors n)) by (intros; lra).
    rewrite !(sumi_zero _ (n_links n)) by (intros j l _; try destruct (String.eqb (l_dest l) nd); reflexivity).
    rewrite (qsum_map_zero _ (nodes_in s net)) by (intros [nd2 n2] _; apply sumi_zero; intros j l _; destruct (String.eqb (l_dest l) nd); reflexivity).
    rewrite (qsum_map_zero _ (st_converters s)); [lra|]. intros [name v] _. unfold xconv. cbn [fst snd shed_all vsrc].
    rewrite (qsum_map_zero _ (v_src v)) by (intros kr _; destruct (pair_eqb (fst kr) (net, nd)); reflexivity).
    destruct (String.eqb (v_dnet v) net && String.eqb (v_dnode v) nd); lra.
  - intros t net nd n T E. unfold xstorage. destruct (n_stors n) as [|y m] eqn:EN; auto. cbn [shed_all]. rewrite E, EN. cbn [nth_error].
    destruct t; lra.
  - intros t name v T E k q I. cbn [shed_all vsrc]. lra.
Qed.

(** ** Energy of a network *)
Lemma qsum_swap {A C} (f : A -> C -> Q) l m :
  (qsum (map (fun a => qsum (map (f a) m)) l) == qsum (map (fun c => qsum (map (fun a => f a c) l)) m))%Q.
Proof.
  induction l as [|a l IH]; cbn [map qsum fold_right].
  - rewrite qsum_map_zero; [reflexivity|]. reflexivity.
  - fold (qsum (map (fun a => qsum (map (f a) m)) l)). rewrite IH.
    rewrite <- (qsum_map_add (f a) (fun c => qsum (map (fun a => f a c) l))). apply qsum_map_ext. intros; reflexivity.
Qed.

Section Conserve.
Variables (s : study) (r : result) (scn t : nat) (net : string) (rns : onetwork).
Hypothesis Hs : study_wf s.
Hypothesis Hm : mirrors s r.
Hypothesis Hd : dget net (r_networks r) = Some rns.

Lemma rns_NoDup : NoDup (dkeys rns).
Proof.
  pose proof (mirror_net s r Hm net) as M. rewrite Hd in M. destruct (dget net (st_networks s)) as [ns|] eqn:E; [|contradiction].
  rewrite (Forall2_keys (fun (_ : string) a b => node_like s a b) ns rns); [|exact M]. eapply wf_nodes; eauto.
Qed.

Lemma rns_dest nd rn o : In (nd, rn) rns -> In o (on_links rn) -> In (ol_dest o) (dkeys rns).
Proof.
  intros I J. assert (R : rnode_at r net nd = Some rn) by (unfold rnode_at; rewrite Hd; apply In_dget; auto; apply rns_NoDup).
  destruct (mirror_node_r s r Hm net nd rn R) as (n & N & L).
  apply In_nth_error in J as [i J]. destruct (Forall2_get_r _ _ _ _ _ (nl_links _ _ _ L) J) as (l & E & -> & _).
  apply nth_error_In in E. pose proof (wf_dests _ _ _ (wf_node _ Hs _ _ _ N) l E) as H. unfold has_node in H.
  destruct (node_at s net (l_dest l)) as [m|] eqn:EM; [|congruence].
  destruct (mirror_node_l s r Hm net _ m EM) as (rm & RM & _). unfold rnode_at in RM. rewrite Hd in RM. now apply dget_In_keys in RM.
Qed.

(** What leaves by links arrives by links. *)
Lemma links_conserve : (total (fun kr => imported r scn net (fst kr) t) rns == total (fun kr => exported scn (snd kr) t) rns)%Q.
Proof.
  unfold total, imported. rewrite Hd. unfold total.
  rewrite (qsum_swap (fun kr kr2 => qsum (map (fun o => if String.eqb (ol_dest o) (fst kr) then entry (ol_qty o) scn t else 0%Q) (on_links (snd kr2))))).
  apply qsum_map_ext. intros [nd rn] I. cbn [snd]. unfold exported, total.
  rewrite (qsum_swap (fun (kr : string * onode) o => if String.eqb (ol_dest o) (fst kr) then entry (ol_qty o) scn t else 0%Q)).
  apply qsum_map_ext. intros o J. pose proof (rns_dest nd rn o I J) as D. unfold dkeys in D. apply in_map_iff in D as ([k m] & E & D). cbn [fst] in E.
  rewrite (qsum_single_key fst _ rns (k, m)); auto.
  - cbn [fst]. rewrite E, String.eqb_refl. reflexivity.
  - apply rns_NoDup.
  - intros [k2 m2] _ N. cbn [fst] in *. rewrite (proj2 (String.eqb_neq _ _)) by congruence. reflexivity.
Qed.

Theorem network_energy : t < st_horizon s -> balanced_up_to_loops s r scn ->
  (total (fun kr => produced scn (snd kr) t + withdrawn scn (snd kr) t + received s r scn net (fst kr) t) rns
   + total (fun kr => looped scn (fst kr) (snd kr) t) rns ==
   total (fun kr => served scn (snd kr) t + stored scn (snd kr) t + sent r scn net (fst kr) t) rns)%Q.
Proof.
  intros T Bal. pose proof links_conserve as LC. unfold total in *.
  assert (E : (qsum (map (fun kr => served scn (snd kr) t + stored scn (snd kr) t + sent r scn net (fst kr) t + exported scn (snd kr) t) rns) ==
     qsum (map (fun kr => produced scn (snd kr) t + withdrawn scn (snd kr) t + received s r scn net (fst kr) t + looped scn (fst kr) (snd kr) t
        + imported r scn net (fst kr) t) rns))%Q).
  { apply qsum_map_ext. intros [nd rn] I. cbn [fst snd].
    assert (R : rnode_at r net nd = Some rn) by (unfold rnode_at; rewrite Hd; apply In_dget; auto; apply rns_NoDup).
    pose proof (Bal t net nd rn T R). lra. }
  rewrite (qsum_map_add (fun kr => served scn (snd kr) t + stored scn (snd kr) t + sent r scn net (fst kr) t)%Q) in E.
  rewrite (qsum_map_add (fun kr => produced scn (snd kr) t + withdrawn scn (snd kr) t + received s r scn net (fst kr) t + looped scn (fst kr) (snd kr) t)%Q) in E.
  rewrite (qsum_map_add (fun kr => produced scn (snd kr) t + withdrawn scn (snd kr) t + received s r scn net (fst kr) t)%Q) in E. lra.
Qed.
End Conserve.
