(** Facts about [Study.v] and [Fluent.v]. *)
From Coq Require Import String List ZArith QArith Bool Arith Lia.
From Verif Require Import Base BaseFacts Numeric Study Fluent SpecStudy.
Import ListNotations.
Open Scope nat_scope.

(** ** Reading monadic code *)
Lemma sbind_ok {S A B} (m : ST S A) (k : A -> ST S B) s s' b :
  sbind m k s = (s', Ok b) -> exists s1 a, m s = (s1, Ok a) /\ k a s1 = (s', Ok b).
Proof. unfold sbind. destruct (m s) as [s1 [a|e]]; intros E; [eauto | inversion E]. Qed.

Lemma sbind_err {S A B} (m : ST S A) (k : A -> ST S B) s s' e :
  sbind m k s = (s', Err e) ->
  m s = (s', Err e) \/ exists s1 a, m s = (s1, Ok a) /\ k a s1 = (s', Err e).
Proof.
  unfold sbind. destruct (m s) as [s1 [a|e']]; intros E; [right; eauto | left]. inversion E; auto.
Qed.

Lemma sbind_eq_ok {S A B} (m : ST S A) (k : A -> ST S B) s s1 a :
  m s = (s1, Ok a) -> sbind m k s = k a s1.
Proof. unfold sbind. intros ->; auto. Qed.

Lemma sbind_eq_err {S A B} (m : ST S A) (k : A -> ST S B) s s1 e :
  m s = (s1, Err e) -> sbind m k s = (s1, Err e).
Proof. unfold sbind. intros ->; auto. Qed.

Lemma sguard_ok {S} b e (s s' : S) : sguard b e s = (s', Ok tt) -> b = false /\ s' = s.
Proof. unfold sguard. destruct b; intros E; inversion E; auto. Qed.

(** A computation that only reads. *)
Definition reads {S A} (m : ST S A) : Prop := forall s, fst (m s) = s.

Lemma reads_bind {S A B} (m : ST S A) (k : A -> ST S B) :
  reads m -> (forall a, reads (k a)) -> reads (sbind m k).
Proof.
  intros Hm Hk s. unfold sbind. specialize (Hm s).
  destruct (m s) as [s1 [a|e]]; simpl in *; subst; auto. apply Hk.
Qed.
Lemma reads_guard {S} b e : reads (@sguard S b e).
Proof. intros s; unfold sguard; destruct b; auto. Qed.
Lemma reads_lift {S A} (r : res A) : reads (@slift S A r).
Proof. intros s; auto. Qed.
Lemma reads_ret {S A} (a : A) : reads (@sret S A a).
Proof. intros s; auto. Qed.
Lemma reads_raise {S A} e : reads (@sraise S A e).
Proof. intros s; auto. Qed.
Lemma reads_mk x : reads (mk x).
Proof. intros s; auto. Qed.
Lemma reads_nodes net : reads (nodes_of net).
Proof. intros s; auto. Qed.
Lemma reads_node net nd : reads (node_of net nd).
Proof. apply reads_bind; [apply reads_nodes | intros; apply reads_lift]. Qed.
Lemma reads_conv name : reads (conv_of name).
Proof. intros s; auto. Qed.
Global Hint Resolve reads_bind reads_guard reads_lift reads_ret reads_raise reads_mk
  reads_nodes reads_node reads_conv : reads.

(** ** The two writing primitives *)
Lemma upd_node_spec net nd f s :
  match node_at s net nd with
  | Some n => exists ns, dget net (st_networks s) = Some ns /\ dget nd ns = Some n /\
      upd_node net nd f s = (set_networks s (dset net (dset nd (f n) ns) (st_networks s)), Ok tt)
  | None => upd_node net nd f s = (s, Err KeyError)
  end.
Proof.
  unfold upd_node, node_at, sbind, nodes_of, slift, dlook.
  destruct (dget net (st_networks s)) as [ns|] eqn:E; auto.
  destruct (dget nd ns) as [n|] eqn:F; auto.
  exists ns. auto.
Qed.

Lemma upd_conv_spec name f s :
  match conv_at s name with
  | Some v => upd_conv name f s = (set_converters s (dset name (f v) (st_converters s)), Ok tt)
  | None => upd_conv name f s = (s, Err KeyError)
  end.
Proof.
  unfold upd_conv, conv_at, sbind, conv_of, dlook.
  destruct (dget name (st_converters s)); auto.
Qed.

Lemma node_of_ok net nd s s' n : node_of net nd s = (s', Ok n) -> s' = s /\ node_at s net nd = Some n.
Proof.
  unfold node_of, node_at, sbind, nodes_of, slift, dlook.
  destruct (dget net (st_networks s)) as [ns|]; [destruct (dget nd ns)|]; intros E; inversion E; auto.
Qed.

Lemma mk_ok x s s' v : mk x s = (s', Ok v) -> s' = s /\ create (st_horizon s) (st_nb_scn s) x = Ok v.
Proof. unfold mk. intros E; inversion E; auto. Qed.

Ltac inv_st :=
  repeat match goal with
  | H : sbind _ _ _ = (_, Ok _) |- _ =>
      let s := fresh "s" in let a := fresh "a" in let H1 := fresh "H" in
      apply sbind_ok in H as (s & a & H1 & H)
  | H : sguard _ _ _ = (_, Ok ?u) |- _ => destruct u; apply sguard_ok in H as [? ?]; subst
  | H : node_of _ _ _ = (_, Ok _) |- _ => apply node_of_ok in H as [? ?]; subst
  | H : mk _ _ = (_, Ok _) |- _ => apply mk_ok in H as [? ?]; subst
  | H : sret _ _ = (_, Ok _) |- _ => inversion H; subst; clear H
  | H : sget _ = (_, Ok _) |- _ => inversion H; subst; clear H
  | H : slift _ _ = (_, Ok _) |- _ => inversion H; subst; clear H
  end.

(** ** Study methods: exact effect of a successful call *)
Definition updn (s : study) (net nd : string) (f : node -> node) : study :=
  match dget net (st_networks s) with
  | Some ns => match dget nd ns with
               | Some n => set_networks s (dset net (dset nd (f n) ns) (st_networks s))
               | None => s
               end
  | None => s
  end.

Lemma upd_node_ok net nd f s s' : upd_node net nd f s = (s', Ok tt) ->
  exists n, node_at s net nd = Some n /\ s' = updn s net nd f.
Proof.
  intros E. pose proof (upd_node_spec net nd f s) as U.
  destruct (node_at s net nd) as [n|] eqn:N; [|congruence].
  destruct U as (ns & G1 & G2 & U). exists n. split; auto.
  unfold updn. rewrite G1, G2. congruence.
Qed.

Lemma updn_node s net nd f n : node_at s net nd = Some n -> node_at (updn s net nd f) net nd = Some (f n).
Proof.
  unfold node_at, updn. destruct (dget net (st_networks s)) as [ns|] eqn:E; try discriminate.
  intros G. rewrite G. simpl. rewrite dget_dset_eq. now rewrite dget_dset_eq.
Qed.

Lemma updn_only s net nd f : only_node s (updn s net nd f) net nd.
Proof.
  unfold updn. destruct (dget net (st_networks s)) as [ns|] eqn:E.
  2: { constructor; auto. intros; eauto. }
  destruct (dget nd ns) as [n|] eqn:F.
  2: { constructor; auto. intros; eauto. }
  constructor; simpl; auto.
  - rewrite dkeys_dset. replace (dmem net (st_networks s)) with true; auto.
    unfold dmem. now rewrite E.
  - intros m ms G. destruct (string_dec m net) as [->|N].
    + rewrite dget_dset_eq. eexists; split; eauto. rewrite dkeys_dset.
      assert (ms = ns) by congruence; subst. unfold dmem. now rewrite F.
    + rewrite dget_dset_neq by auto. eauto.
  - intros m d N. unfold node_at; simpl. destruct (string_dec m net) as [->|NM].
    + rewrite dget_dset_eq, E. apply dget_dset_neq. congruence.
    + rewrite dget_dset_neq by auto. auto.
Qed.

(** ** Refused calls *)
Definition atomic {S A} (m : ST S A) : Prop := forall s s' e, m s = (s', Err e) -> s' = s.

Lemma atomic_bind {S A B} (m : ST S A) (k : A -> ST S B) :
  reads m -> (forall a, atomic (k a)) -> atomic (sbind m k).
Proof.
  intros R K s s' e E. apply sbind_err in E as [E | (s1 & a & E1 & E2)].
  - pose proof (R s) as X. rewrite E in X. auto.
  - pose proof (R s) as X. rewrite E1 in X. simpl in X; subst. eapply K; eauto.
Qed.

Lemma reads_atomic {S A} (m : ST S A) : reads m -> atomic m.
Proof. intros R s s' e E. pose proof (R s) as X. rewrite E in X. auto. Qed.

Lemma upd_node_atomic net nd f : atomic (upd_node net nd f).
Proof.
  intros s s' e E. pose proof (upd_node_spec net nd f s) as U.
  destruct (node_at s net nd); [destruct U as (? & ? & ? & U)|]; congruence.
Qed.
Lemma upd_conv_atomic name f : atomic (upd_conv name f).
Proof.
  intros s s' e E. pose proof (upd_conv_spec name f s) as U.
  destruct (conv_at s name); congruence.
Qed.
Global Hint Resolve upd_node_atomic upd_conv_atomic : reads.

Ltac at_step := first [apply upd_node_atomic | apply upd_conv_atomic
  | apply atomic_bind; [auto with reads | intros] | apply reads_atomic; auto with reads].

Lemma add_link_atomic net src dest c q : atomic (add_link net src dest c q).
Proof. unfold add_link. repeat at_step. Qed.
Lemma add_production_atomic net nd name c q : atomic (add_production net nd name c q).
Proof. unfold add_production. repeat at_step. Qed.
Lemma add_consumption_atomic net nd name c q : atomic (add_consumption net nd name c q).
Proof. unfold add_consumption. repeat at_step. Qed.
Lemma add_storage_atomic net nd name ca fi fo c i e : atomic (add_storage net nd name ca fi fo c i e).
Proof. unfold add_storage. repeat at_step. Qed.
Lemma add_converter_src_atomic name net nd r : atomic (add_converter_src name net nd r).
Proof. unfold add_converter_src. repeat at_step. Qed.
Lemma add_network_total net s : exists s', add_network net s = (s', Ok tt).
Proof. unfold add_network. destruct (dmem net (st_networks s)); eauto. Qed.
Lemma add_node_atomic net nd : atomic (add_node net nd).
Proof.
  unfold add_node. apply atomic_bind; [auto with reads|]. intros ns s s' e.
  destruct (dmem nd ns); unfold sret; intros E; inversion E.
Qed.
Lemma add_converter_total name s : exists s', add_converter name s = (s', Ok tt).
Proof. unfold add_converter. destruct (dmem name (st_converters s)); eauto. Qed.

(** ** Accepted calls *)
Lemma add_link_ok net src dest c q s s' : add_link net src dest c q s = (s', Ok tt) ->
  exists n vq vc, node_at s net src = Some n /\ has_node s net dest /\
    ~ In dest (map l_dest (n_links n)) /\
    create (st_horizon s) (st_nb_scn s) q = Ok vq /\ nv_lt vq 0 = false /\
    create (st_horizon s) (st_nb_scn s) c = Ok vc /\
    s' = updn s net src (push_link (Lnk dest vq vc)).
Proof.
  unfold add_link. intros H. apply sbind_ok in H as (s1 & ns & H1 & H).
  unfold nodes_of, dlook in H1.
  destruct (dget net (st_networks s)) as [ms|] eqn:E; inversion H1; subst; clear H1.
  inv_st. apply upd_node_ok in H as (n & N & ->).
  unfold has_node, node_at in *. rewrite E in *. unfold dlook in *. rewrite N in *.
  match goal with H : Ok _ = Ok _ |- _ => inversion H; subst end.
  eexists. eexists. eexists. repeat split; eauto.
  - match goal with H : negb (dmem dest _) = false |- _ => apply negb_false_iff, dmem_In, In_keys_dget in H as [x Hx] end.
    rewrite Hx; congruence.
  - apply mem_nIn; auto.
Qed.

Lemma add_production_ok net nd name c q s s' : add_production net nd name c q s = (s', Ok tt) ->
  exists n vq vc, node_at s net nd = Some n /\ ~ In name (map p_name (n_prods n)) /\
    create (st_horizon s) (st_nb_scn s) q = Ok vq /\ nv_lt vq 0 = false /\
    create (st_horizon s) (st_nb_scn s) c = Ok vc /\
    s' = updn s net nd (push_prod (Prod name vc vq)).
Proof.
  unfold add_production. intros H. inv_st. apply upd_node_ok in H as (n & N & ->).
  exists n. eexists. eexists. repeat split; eauto. apply mem_nIn. congruence.
Qed.

Lemma add_consumption_ok net nd name c q s s' : add_consumption net nd name c q s = (s', Ok tt) ->
  exists n vq vc, node_at s net nd = Some n /\ ~ In name (map c_name (n_cons n)) /\
    create (st_horizon s) (st_nb_scn s) q = Ok vq /\ nv_lt vq 0 = false /\
    create (st_horizon s) (st_nb_scn s) c = Ok vc /\
    s' = updn s net nd (push_cons (Cons name vc vq)).
Proof.
  unfold add_consumption. intros H. inv_st. apply upd_node_ok in H as (n & N & ->).
  exists n. eexists. eexists. repeat split; eauto. apply mem_nIn. congruence.
Qed.

Lemma add_storage_ok net nd name ca fi fo c i e s s' :
  add_storage net nd name ca fi fo c i e s = (s', Ok tt) ->
  exists n vca vfi vfo vc ve, node_at s net nd = Some n /\ ~ In name (map s_name (n_stors n)) /\
    create (st_horizon s) (st_nb_scn s) ca = Ok vca /\
    create (st_horizon s) (st_nb_scn s) fi = Ok vfi /\
    create (st_horizon s) (st_nb_scn s) fo = Ok vfo /\
    create (st_horizon s) (st_nb_scn s) c = Ok vc /\
    create (st_horizon s) (st_nb_scn s) e = Ok ve /\
    nv_lt vfi 0 = false /\ nv_lt vfo 0 = false /\ nv_lt vca 0 = false /\ qlt i 0 = false /\
    nv_lt ve 0 = false /\ nv_gt ve 1 = false /\
    s' = updn s net nd (push_stor (Stor name vca vfi vfo vc i ve)).
Proof.
  unfold add_storage. intros H. inv_st. apply upd_node_ok in H as (n & N & ->).
  repeat match goal with H : _ || _ = false |- _ => apply orb_false_iff in H as [? ?] end.
  exists n. do 5 eexists. repeat split; eauto. apply mem_nIn. congruence.
Qed.

Definition updc (s : study) (name : string) (f : converter -> converter) : study :=
  match conv_at s name with
  | Some v => set_converters s (dset name (f v) (st_converters s))
  | None => s
  end.

Lemma upd_conv_eq name f s v : conv_at s name = Some v -> upd_conv name f s = (updc s name f, Ok tt).
Proof. intros E. pose proof (upd_conv_spec name f s) as U. rewrite E in U. unfold updc. now rewrite E. Qed.

Lemma upd_conv_ok name f s s' : upd_conv name f s = (s', Ok tt) ->
  exists v, conv_at s name = Some v /\ s' = updc s name f.
Proof.
  intros E. pose proof (upd_conv_spec name f s) as U. unfold updc.
  destruct (conv_at s name) eqn:C; [|congruence]. eexists; split; eauto. congruence.
Qed.

Lemma updc_conv s name f v : conv_at s name = Some v -> conv_at (updc s name f) name = Some (f v).
Proof. intros E. unfold updc. rewrite E. unfold conv_at; simpl. apply dget_dset_eq. Qed.

Lemma updc_only s name f : only_conv s (updc s name f) name.
Proof.
  unfold updc. destruct (conv_at s name); constructor; simpl; auto.
  intros m N. unfold conv_at; simpl. now apply dget_dset_neq.
Qed.

Lemma updc_updc s name f g : updc (updc s name f) name g = updc s name (fun v => g (f v)).
Proof.
  unfold updc at 1. destruct (conv_at s name) as [v|] eqn:E.
  - rewrite (updc_conv _ _ _ _ E). unfold updc. rewrite E. unfold set_converters; simpl.
    now rewrite dset_dset.
  - unfold updc. rewrite E. now rewrite E.
Qed.

Lemma updc_dims s name f :
  st_horizon (updc s name f) = st_horizon s /\ st_nb_scn (updc s name f) = st_nb_scn s /\
  st_networks (updc s name f) = st_networks s.
Proof. unfold updc. destruct (conv_at s name); auto. Qed.

Lemma add_converter_src_ok name net nd r s s' : add_converter_src name net nd r s = (s', Ok tt) ->
  exists v vr, conv_at s name = Some v /\ ~ In (net, nd) (dkeys (v_src v)) /\
    create (st_horizon s) (st_nb_scn s) r = Ok vr /\
    s' = updc s name (fun v => Conv (v_name v) (dset (net, nd) vr (v_src v))
                               (v_dnet v) (v_dnode v) (v_cost v) (v_max v)).
Proof.
  unfold add_converter_src. intros H. apply sbind_ok in H as (s1 & v & H1 & H).
  unfold conv_of, dlook in H1. destruct (dget name (st_converters s)) as [v'|] eqn:E; inversion H1; subst.
  inv_st. apply upd_conv_ok in H as (v0 & V & ->).
  exists v. eexists. repeat split; eauto. now apply dmem_false.
Qed.

(** The state left by [set_converter_dest], raised or not. *)
Lemma set_converter_dest_state name net nd c m s s' r :
  set_converter_dest name net nd c m s = (s', r) ->
  (s' = s /\ exists e, r = Err e) \/
  (exists v, conv_at s name = Some v /\ has_node s net nd /\
     (v_dnet v = ""%string \/ v_dnode v = ""%string) /\
   ((exists e, r = Err e /\ s' = updc s name (fun v => Conv (v_name v) (v_src v) net nd (v_cost v) (v_max v)))
    \/ (exists e vc, r = Err e /\ create (st_horizon s) (st_nb_scn s) c = Ok vc /\
        s' = updc s name (fun v => Conv (v_name v) (v_src v) net nd (Some vc) (v_max v)))
    \/ (exists vc vm, r = Ok tt /\ create (st_horizon s) (st_nb_scn s) c = Ok vc /\
        create (st_horizon s) (st_nb_scn s) m = Ok vm /\
        s' = updc s name (fun v => Conv (v_name v) (v_src v) net nd (Some vc) (Some vm))))).
Proof.
  intros H. unfold set_converter_dest in H.
  destruct (conv_at s name) as [v|] eqn:E.
  2: { rewrite (sbind_eq_err _ _ s s KeyError) in H
         by (unfold conv_of, dlook, conv_at in *; now rewrite E).
       inversion H; subst; left; eauto. }
  rewrite (sbind_eq_ok _ _ s s v) in H by (unfold conv_of, dlook, conv_at in *; now rewrite E).
  destruct (negb (String.eqb (v_dnet v) "") && negb (String.eqb (v_dnode v) "")) eqn:G1.
  { rewrite (sbind_eq_err _ _ s s ValueError) in H by auto. inversion H; subst; left; eauto. }
  rewrite (sbind_eq_ok _ _ s s tt) in H by auto.
  rewrite (sbind_eq_ok _ _ s s s) in H by auto.
  destruct (dget net (st_networks s)) as [ns|] eqn:GN.
  2: { rewrite (sbind_eq_err _ _ s s ValueError) in H by auto. inversion H; subst; left; eauto. }
  destruct (dmem nd ns) eqn:GD.
  2: { rewrite (sbind_eq_err _ _ s s ValueError) in H by auto. inversion H; subst; left; eauto. }
  rewrite (sbind_eq_ok _ _ s s tt) in H by auto.
  assert (HN : has_node s net nd).
  { unfold has_node, node_at. rewrite GN. apply dmem_In, In_keys_dget in GD as [x X]. congruence. }
  erewrite sbind_eq_ok in H by (eapply upd_conv_eq; eauto).
  erewrite sbind_eq_ok in H by (eapply upd_conv_eq; eapply updc_conv; eauto).
  rewrite updc_updc in H. cbn [v_name v_src v_dnet v_dnode v_cost v_max] in H.
  right. exists v. split; auto. split; auto. split.
  { apply andb_false_iff in G1 as [G|G]; apply negb_false_iff, String.eqb_eq in G; auto. }
  pose proof (updc_dims s name (fun v => Conv (v_name v) (v_src v) net nd (v_cost v) (v_max v))) as (D1 & D2 & _).
  destruct (create (st_horizon s) (st_nb_scn s) c) as [vc|e] eqn:CC.
  2: { erewrite sbind_eq_err in H by (unfold mk; rewrite D1, D2, CC; reflexivity).
       inversion H; subst. left; eauto. }
  erewrite sbind_eq_ok in H by (unfold mk; rewrite D1, D2, CC; reflexivity).
  erewrite sbind_eq_ok in H by (eapply upd_conv_eq; eapply updc_conv; eauto).
  rewrite updc_updc in H. cbn [v_name v_src v_dnet v_dnode v_cost v_max] in H.
  pose proof (updc_dims s name (fun v => Conv (v_name v) (v_src v) net nd (Some vc) (v_max v))) as (D3 & D4 & _).
  destruct (create (st_horizon s) (st_nb_scn s) m) as [vm|e] eqn:CM.
  2: { erewrite sbind_eq_err in H by (unfold mk; rewrite D3, D4, CM; reflexivity).
       inversion H; subst. right; left; eauto. }
  erewrite sbind_eq_ok in H by (unfold mk; rewrite D3, D4, CM; reflexivity).
  erewrite upd_conv_eq in H by (eapply updc_conv; eauto). rewrite updc_updc in H.
  cbn [v_name v_src v_dnet v_dnode v_cost v_max] in H.
  inversion H; subst. right; right. exists vc, vm; auto.
Qed.
