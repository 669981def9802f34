(** Invariant of user programs over [Fluent.v]. *)
From Coq Require Import String List ZArith QArith Bool Arith Lia.
From Verif Require Import Base BaseFacts Numeric Study Fluent SpecStudy StudyFacts.
Import ListNotations.
Open Scope nat_scope.

(** ** Growth: building calls never remove a network or a node *)
Record grows (s s' : study) : Prop := {
  gr_node : forall net nd, has_node s net nd -> has_node s' net nd;
  gr_net : forall net, has_network s net -> has_network s' net;
  gr_conv : forall name, conv_at s name <> None -> conv_at s' name <> None;
  gr_dims : st_version s' = st_version s /\ st_horizon s' = st_horizon s /\ st_nb_scn s' = st_nb_scn s
}.

Lemma grows_refl s : grows s s.
Proof. constructor; auto. Qed.
Lemma grows_trans a b c : grows a b -> grows b c -> grows a c.
Proof. intros [? ? ? (?&?&?)] [? ? ? (?&?&?)]. constructor; auto. repeat split; congruence. Qed.

Lemma only_node_grows s s' net nd n : only_node s s' net nd -> node_at s' net nd = Some n -> grows s s'.
Proof.
  intros [K N O C R] E. constructor; auto.
  - intros m d H. destruct (string_dec m net) as [->|]; [destruct (string_dec d nd) as [->|]|].
    + unfold has_node; congruence.
    + unfold has_node in *. rewrite O; congruence.
    + unfold has_node in *. rewrite O; congruence.
  - intros m H. unfold has_network in *. destruct (dget m (st_networks s)) as [ns|] eqn:G; try congruence.
    destruct (N _ _ G) as (ns' & G' & _). congruence.
  - unfold conv_at. now rewrite C.
Qed.

Lemma only_conv_grows s s' name v : only_conv s s' name -> conv_at s' name = Some v -> grows s s'.
Proof.
  intros [N O R] E. constructor; auto.
  - intros m d H. unfold has_node, node_at in *. now rewrite N.
  - intros m H. unfold has_network in *. now rewrite N.
  - intros m H. destruct (string_dec m name) as [->|]; [congruence | now rewrite O].
Qed.

(** ** Preservation of well-formedness *)
Lemma node_wf_mono s s' net n : (forall nd, has_node s net nd -> has_node s' net nd) ->
  node_wf s net n -> node_wf s' net n.
Proof. intros M [? ? ? ? D]. constructor; auto. Qed.

Lemma conv_wf_mono s s' name v : (forall net nd, has_node s net nd -> has_node s' net nd) ->
  conv_wf s name v -> conv_wf s' name v.
Proof. intros M [? ? S D]. constructor; auto. destruct D; auto. Qed.

Lemma wf_node_update s s' net nd n n' :
  study_wf s -> only_node s s' net nd -> node_at s net nd = Some n ->
  node_at s' net nd = Some n' -> node_wf s net n' -> study_wf s'.
Proof.
  intros W O E E' WN. pose proof (only_node_grows _ _ _ _ _ O E') as G.
  destruct G as [G _ _ _]. destruct W as [W1 W2 W3 W4 W5]. pose proof O as [K N OT C R].
  constructor.
  - now rewrite K.
  - intros m ns H. destruct (dget m (st_networks s)) as [ms|] eqn:M.
    + destruct (N _ _ M) as (ns' & G' & KK). assert (ns = ns') by congruence; subst.
      rewrite KK. eauto.
    + exfalso. apply dget_None in M. apply M. rewrite <- K. eapply dget_In_keys; eauto.
  - now rewrite C.
  - intros m d x H.
    destruct (string_dec m net) as [->|]; [destruct (string_dec d nd) as [->|]|].
    + assert (x = n') by congruence; subst. apply (node_wf_mono s); eauto.
    + rewrite OT in H by congruence. apply (node_wf_mono s); eauto.
    + rewrite OT in H by congruence. apply (node_wf_mono s); eauto.
  - intros name v H. unfold conv_at in H. rewrite C in H. apply (conv_wf_mono s); eauto.
Qed.

Lemma wf_conv_update s name f v :
  study_wf s -> conv_at s name = Some v -> conv_wf s name (f v) -> study_wf (updc s name f).
Proof.
  intros [W1 W2 W3 W4 W5] E WC.
  pose proof (updc_only s name f) as [N O R].
  assert (M : forall net nd, has_node s net nd -> has_node (updc s name f) net nd).
  { intros. unfold has_node, node_at in *. now rewrite N. }
  constructor.
  - now rewrite N.
  - rewrite N; auto.
  - unfold updc. rewrite E. simpl. now apply NoDup_dset.
  - intros m d x H. unfold node_at in H. rewrite N in H. apply (node_wf_mono s); eauto.
  - intros m x H. destruct (string_dec m name) as [->|NE].
    + rewrite (updc_conv _ _ _ _ E) in H. inversion H; subst. apply (conv_wf_mono s); eauto.
    + rewrite O in H by auto. apply (conv_wf_mono s); eauto.
Qed.

Lemma NoDup_snoc {A} (l : list A) x : NoDup l -> ~ In x l -> NoDup (l ++ [x]).
Proof.
  induction 1; simpl; intros N.
  - repeat constructor; auto.
  - constructor; [|apply IHNoDup; tauto].
    rewrite in_app_iff. simpl. intuition.
Qed.

(** ** Effects of the calls on networks, nodes and converters *)
Definition add_network_eff (s : study) (net : string) : study :=
  if dmem net (st_networks s) then s else set_networks s (st_networks s ++ [(net, [])]).

Lemma add_network_eq net s : add_network net s = (add_network_eff s net, Ok tt).
Proof.
  unfold add_network, add_network_eff. destruct (dmem net (st_networks s)) eqn:E; auto.
  rewrite dset_fresh; auto. now apply dmem_false.
Qed.

Lemma dget_app {V} k (d e : dict string V) :
  dget k (d ++ e) = match dget k d with Some v => Some v | None => dget k e end.
Proof. induction d as [|[k' v'] r IH]; simpl; auto. destruct (String.eqb k k'); auto. Qed.

Lemma dkeys_app {V} (d e : dict string V) : dkeys (d ++ e) = dkeys d ++ dkeys e.
Proof. apply map_app. Qed.

Lemma add_network_wf s net : study_wf s -> study_wf (add_network_eff s net).
Proof.
  intros W. unfold add_network_eff. destruct (dmem net (st_networks s)) eqn:E; auto.
  apply dmem_false in E. destruct W as [W1 W2 W3 W4 W5].
  assert (NA : forall m d, node_at (set_networks s (st_networks s ++ [(net, [])])) m d = node_at s m d).
  { intros. unfold node_at; simpl. rewrite dget_app.
    destruct (dget m (st_networks s)) eqn:G; auto. simpl. destruct (String.eqb m net); auto. }
  assert (M : forall m d, has_node s m d -> has_node (set_networks s (st_networks s ++ [(net, [])])) m d).
  { intros m d. unfold has_node. now rewrite NA. }
  constructor; simpl; auto.
  - rewrite dkeys_app. simpl. now apply NoDup_snoc.
  - intros m ns. rewrite dget_app. destruct (dget m (st_networks s)) eqn:G.
    + intros H; inversion H; subst; eauto.
    + simpl. destruct (String.eqb m net); intros H; inversion H; subst. constructor.
  - intros m d x. rewrite NA. intros H. apply (node_wf_mono s); eauto.
  - intros m v H. apply (conv_wf_mono s); eauto.
Qed.

Lemma add_network_grows s net : grows s (add_network_eff s net).
Proof.
  unfold add_network_eff. destruct (dmem net (st_networks s)) eqn:E; [apply grows_refl|].
  constructor; simpl; auto.
  - intros m d. unfold has_node, node_at; simpl. rewrite dget_app.
    destruct (dget m (st_networks s)); auto.
  - intros m. unfold has_network; simpl. rewrite dget_app.
    destruct (dget m (st_networks s)); congruence.
Qed.

Lemma add_network_has s net : has_network (add_network_eff s net) net.
Proof.
  unfold add_network_eff, has_network. destruct (dmem net (st_networks s)) eqn:E.
  - apply dmem_In, In_keys_dget in E as [v ->]. congruence.
  - simpl. rewrite dget_app. destruct (dget net (st_networks s)); try congruence.
    simpl. rewrite String.eqb_refl. congruence.
Qed.

Definition add_node_eff (s : study) (net nd : string) : study :=
  match dget net (st_networks s) with
  | Some ns => if dmem nd ns then s
               else set_networks s (dset net (ns ++ [(nd, empty_node)]) (st_networks s))
  | None => s
  end.

Lemma add_node_eq net nd s : has_network s net -> add_node net nd s = (add_node_eff s net nd, Ok tt).
Proof.
  unfold has_network, add_node, add_node_eff, sbind, nodes_of, dlook. intros H.
  destruct (dget net (st_networks s)) as [ns|]; [|congruence].
  destruct (dmem nd ns) eqn:E; auto. rewrite (dset_fresh nd) by now apply dmem_false. auto.
Qed.

Lemma add_node_err net nd s : ~ has_network s net -> add_node net nd s = (s, Err KeyError).
Proof.
  unfold has_network, add_node, sbind, nodes_of, dlook. intros H.
  destruct (dget net (st_networks s)) as [ns|]; auto. exfalso; apply H; congruence.
Qed.

Lemma add_node_node s net nd m d :
  node_at (add_node_eff s net nd) m d =
  match node_at s m d with
  | Some n => Some n
  | None => match dget net (st_networks s) with
            | Some _ => if String.eqb m net && String.eqb d nd then Some empty_node else None
            | None => None
            end
  end.
Proof.
  unfold add_node_eff, node_at. destruct (dget net (st_networks s)) as [ns|] eqn:G.
  2: { destruct (dget m (st_networks s)) as [ms|]; auto. destruct (dget d ms); auto. }
  destruct (dmem nd ns) eqn:D.
  - destruct (dget m (st_networks s)) as [ms|] eqn:GM.
    + destruct (dget d ms) eqn:GD; auto.
      destruct (String.eqb m net) eqn:E1; auto. destruct (String.eqb d nd) eqn:E2; auto.
      apply String.eqb_eq in E1, E2; subst. assert (ms = ns) by congruence; subst.
      apply dmem_In, In_keys_dget in D as [x X]. congruence.
    + destruct (String.eqb m net) eqn:E1; auto. apply String.eqb_eq in E1; subst. congruence.
  - simpl. destruct (String.eqb m net) eqn:E1.
    + apply String.eqb_eq in E1; subst. rewrite dget_dset_eq, G, dget_app.
      destruct (dget d ns); auto.
    + apply String.eqb_neq in E1. rewrite dget_dset_neq by auto.
      destruct (dget m (st_networks s)) as [ms|]; auto. destruct (dget d ms); auto.
Qed.

Lemma add_node_grows s net nd : grows s (add_node_eff s net nd).
Proof.
  constructor.
  - intros m d H. unfold has_node in *. rewrite add_node_node. destruct (node_at s m d); congruence.
  - intros m H. unfold has_network, add_node_eff in *.
    destruct (dget net (st_networks s)) as [ns|] eqn:G; auto. destruct (dmem nd ns); auto. simpl.
    destruct (string_dec m net) as [->|N]; [rewrite dget_dset_eq | rewrite dget_dset_neq by auto]; congruence.
  - intros m H. unfold conv_at, add_node_eff in *. destruct (dget net (st_networks s)); auto. destruct (dmem nd n); auto.
  - unfold add_node_eff. destruct (dget net (st_networks s)); auto. destruct (dmem nd n); auto.
Qed.

Lemma add_node_has s net nd : has_network s net -> has_node (add_node_eff s net nd) net nd.
Proof.
  unfold has_network, has_node. rewrite add_node_node. intros H.
  destruct (node_at s net nd); try congruence.
  destruct (dget net (st_networks s)); try congruence. rewrite !String.eqb_refl. simpl. congruence.
Qed.

Lemma empty_node_wf s net : node_wf s net empty_node.
Proof. constructor; simpl; try constructor. intros l []. Qed.

Lemma add_node_wf s net nd : study_wf s -> study_wf (add_node_eff s net nd).
Proof.
  intros W. pose proof (add_node_grows s net nd) as [G _ _ _].
  destruct W as [W1 W2 W3 W4 W5]. constructor.
  - unfold add_node_eff. destruct (dget net (st_networks s)) as [ns|]; auto. destruct (dmem nd ns); auto.
    simpl. now apply NoDup_dset.
  - intros m ms. unfold add_node_eff. destruct (dget net (st_networks s)) as [ns|] eqn:E; eauto.
    destruct (dmem nd ns) eqn:D; eauto. simpl.
    destruct (string_dec m net) as [->|N].
    + rewrite dget_dset_eq. intros H; inversion H; subst. rewrite dkeys_app.
      apply NoDup_snoc; eauto. now apply dmem_false.
    + rewrite dget_dset_neq by auto. eauto.
  - unfold add_node_eff. destruct (dget net (st_networks s)) as [ns|]; auto. destruct (dmem nd ns); auto.
  - intros m d x. rewrite add_node_node. destruct (node_at s m d) eqn:E.
    + intros H; inversion H; subst. apply (node_wf_mono s); eauto.
    + destruct (dget net (st_networks s)); try discriminate.
      destruct (String.eqb m net && String.eqb d nd); try discriminate.
      intros H; inversion H; subst. apply empty_node_wf.
  - intros m v H. apply (conv_wf_mono s); eauto. apply W5.
    unfold conv_at, add_node_eff in *. destruct (dget net (st_networks s)); auto. destruct (dmem nd n); auto.
Qed.

Definition add_converter_eff (s : study) (name : string) : study :=
  if dmem name (st_converters s) then s
  else set_converters s (st_converters s ++ [(name, Conv name [] "" "" None None)]).

Lemma add_converter_eq name s : add_converter name s = (add_converter_eff s name, Ok tt).
Proof.
  unfold add_converter, add_converter_eff. destruct (dmem name (st_converters s)) eqn:E; auto.
  rewrite dset_fresh; auto. now apply dmem_false.
Qed.

Lemma add_converter_conv s name m :
  conv_at (add_converter_eff s name) m =
  match conv_at s m with
  | Some v => Some v
  | None => if String.eqb m name then Some (Conv name [] "" "" None None) else None
  end.
Proof.
  unfold add_converter_eff, conv_at. destruct (dmem name (st_converters s)) eqn:E.
  - destruct (dget m (st_converters s)) eqn:G; auto.
    destruct (String.eqb m name) eqn:Q; auto. apply String.eqb_eq in Q; subst.
    apply dmem_In, In_keys_dget in E as [x X]. congruence.
  - simpl. rewrite dget_app. destruct (dget m (st_converters s)); auto.
Qed.

Lemma add_converter_nets s name : st_networks (add_converter_eff s name) = st_networks s.
Proof. unfold add_converter_eff. destruct (dmem name (st_converters s)); auto. Qed.

Lemma add_converter_only s name : only_conv s (add_converter_eff s name) name.
Proof.
  constructor.
  - apply add_converter_nets.
  - intros m N. rewrite add_converter_conv. destruct (conv_at s m); auto.
    apply String.eqb_neq in N. now rewrite N.
  - unfold add_converter_eff. destruct (dmem name (st_converters s)); auto.
Qed.

Lemma add_converter_has s name : exists v, conv_at (add_converter_eff s name) name = Some v.
Proof. rewrite add_converter_conv. destruct (conv_at s name); eauto. rewrite String.eqb_refl; eauto. Qed.

Lemma add_converter_wf s name : study_wf s -> study_wf (add_converter_eff s name).
Proof.
  intros [W1 W2 W3 W4 W5].
  assert (M : forall net nd, has_node s net nd -> has_node (add_converter_eff s name) net nd).
  { intros. unfold has_node, node_at in *. now rewrite add_converter_nets. }
  constructor.
  - now rewrite add_converter_nets.
  - rewrite add_converter_nets; auto.
  - unfold add_converter_eff. destruct (dmem name (st_converters s)) eqn:E; auto. simpl.
    rewrite dkeys_app. apply NoDup_snoc; auto. now apply dmem_false.
  - intros m d x H. unfold node_at in H. rewrite add_converter_nets in H. apply (node_wf_mono s); eauto.
  - intros m v. rewrite add_converter_conv. destruct (conv_at s m) eqn:E.
    + intros H; inversion H; subst. apply (conv_wf_mono s); eauto.
    + destruct (String.eqb m name) eqn:Q; try discriminate. apply String.eqb_eq in Q; subst.
      intros H; inversion H; subst. constructor; simpl; auto; try constructor. tauto.
Qed.

(** ** Every study method keeps well-formedness and grows the study *)
Definition keeps {A} (m : ST study A) : Prop :=
  forall s s' r, m s = (s', r) -> study_wf s -> study_wf s' /\ grows s s'.

Lemma keeps_unchanged s : study_wf s -> study_wf s /\ grows s s.
Proof. intros; split; auto using grows_refl. Qed.

Lemma keeps_update s net nd n f :
  study_wf s -> node_at s net nd = Some n -> node_wf s net (f n) ->
  study_wf (updn s net nd f) /\ grows s (updn s net nd f).
Proof.
  intros W E N. pose proof (updn_only s net nd f) as O. pose proof (updn_node s net nd f n E) as E'.
  split; [eapply wf_node_update; eauto | eapply only_node_grows; eauto].
Qed.

Lemma add_link_keeps net src dest c q : keeps (add_link net src dest c q).
Proof.
  intros s s' [[]|e] H W.
  - apply add_link_ok in H as (n & vq & vc & N & D & F & _ & _ & _ & ->).
    eapply keeps_update; eauto. destruct W as [_ _ _ WN _]. destruct (WN _ _ _ N).
    constructor; simpl; auto.
    + rewrite map_app. now apply NoDup_snoc.
    + intros l. rewrite in_app_iff. simpl. intros [|[<-|[]]]; auto.
  - apply add_link_atomic in H; subst. now apply keeps_unchanged.
Qed.

Lemma add_production_keeps net nd name c q : keeps (add_production net nd name c q).
Proof.
  intros s s' [[]|e] H W.
  - apply add_production_ok in H as (n & vq & vc & N & F & _ & _ & _ & ->).
    eapply keeps_update; eauto. destruct W as [_ _ _ WN _]. destruct (WN _ _ _ N).
    constructor; simpl; auto. rewrite map_app. now apply NoDup_snoc.
  - apply add_production_atomic in H; subst. now apply keeps_unchanged.
Qed.

Lemma add_consumption_keeps net nd name c q : keeps (add_consumption net nd name c q).
Proof.
  intros s s' [[]|e] H W.
  - apply add_consumption_ok in H as (n & vq & vc & N & F & _ & _ & _ & ->).
    eapply keeps_update; eauto. destruct W as [_ _ _ WN _]. destruct (WN _ _ _ N).
    constructor; simpl; auto. rewrite map_app. now apply NoDup_snoc.
  - apply add_consumption_atomic in H; subst. now apply keeps_unchanged.
Qed.

Lemma add_storage_keeps net nd name ca fi fo c i e : keeps (add_storage net nd name ca fi fo c i e).
Proof.
  intros s s' [[]|x] H W.
  - apply add_storage_ok in H as (n & vca & vfi & vfo & vc & ve & N & F & _ & _ & _ & _ & _ & _ & _ & _ & _ & _ & _ & ->).
    eapply keeps_update; eauto. destruct W as [_ _ _ WN _]. destruct (WN _ _ _ N).
    constructor; simpl; auto. rewrite map_app. now apply NoDup_snoc.
  - apply add_storage_atomic in H; subst. now apply keeps_unchanged.
Qed.

Lemma add_network_keeps net : keeps (add_network net).
Proof.
  intros s s' r H W. rewrite add_network_eq in H. inversion H; subst.
  split; auto using add_network_wf, add_network_grows.
Qed.

Lemma add_node_keeps net nd : keeps (add_node net nd).
Proof.
  intros s s' r H W. destruct (dget net (st_networks s)) eqn:E.
  - rewrite add_node_eq in H by (unfold has_network; congruence). inversion H; subst.
    split; auto using add_node_wf, add_node_grows.
  - rewrite add_node_err in H by (unfold has_network; congruence). inversion H; subst.
    now apply keeps_unchanged.
Qed.

Lemma add_converter_keeps name : keeps (add_converter name).
Proof.
  intros s s' r H W. rewrite add_converter_eq in H. inversion H; subst.
  split; auto using add_converter_wf. destruct (add_converter_has s name) as [v V].
  eapply only_conv_grows; eauto using add_converter_only.
Qed.

Lemma updc_keeps s name f v : study_wf s -> conv_at s name = Some v -> conv_wf s name (f v) ->
  study_wf (updc s name f) /\ grows s (updc s name f).
Proof.
  intros W E C. split; [eapply wf_conv_update; eauto|].
  eapply only_conv_grows; [apply updc_only | eapply updc_conv; eauto].
Qed.

Lemma add_converter_src_keeps name net nd r s s' x :
  add_converter_src name net nd r s = (s', x) -> has_node s net nd -> study_wf s ->
  study_wf s' /\ grows s s'.
Proof.
  intros H N W. destruct x as [[]|e].
  - apply add_converter_src_ok in H as (v & vr & E & F & _ & ->).
    eapply updc_keeps; eauto. destruct W as [_ _ _ _ WC]. destruct (WC _ _ E).
    constructor; simpl; auto.
    + now apply NoDup_dset.
    + intros m d I. apply In_dkeys_dset in I as [I|I]; auto. inversion I; subst; auto.
  - apply add_converter_src_atomic in H; subst. now apply keeps_unchanged.
Qed.

Lemma set_converter_dest_keeps name net nd c m : keeps (set_converter_dest name net nd c m).
Proof.
  intros s s' r H W. apply set_converter_dest_state in H.
  destruct H as [[-> _] | (v & E & N & _ & H)]; [now apply keeps_unchanged|].
  pose proof W as [_ _ _ _ WC]. destruct (WC _ _ E).
  destruct H as [(e & _ & ->) | [(e & vc & _ & _ & ->) | (vc & vm & _ & _ & _ & ->)]];
    (eapply updc_keeps; eauto; constructor; simpl; auto).
Qed.

Lemma keeps_bind {A B} (m : ST study A) (k : A -> ST study B) :
  keeps m -> (forall a, keeps (k a)) -> keeps (sbind m k).
Proof.
  intros M K s s' r H W. unfold sbind in H. destruct (m s) as [s1 [a|e]] eqn:E.
  - destruct (M _ _ _ E W) as [W1 G1]. destruct (K _ _ _ _ H W1) as [W2 G2].
    split; auto. eapply grows_trans; eauto.
  - inversion H; subst. eapply M; eauto.
Qed.

Lemma do_converter_keeps name tn td mx c : keeps (do_converter name tn td mx c).
Proof. apply keeps_bind; [apply add_converter_keeps | intros; apply set_converter_dest_keeps]. Qed.

(** ** Invariant of programs *)
Definition sel_ok (s : study) (x : sel) : Prop :=
  forall net, sel_net x = Some net ->
    has_network s net /\ (forall nd, sel_node x = Some nd -> has_node s net nd).


Definition handle_ok (sels : list sel) (h : handle) : Prop :=
  match h with
  | HNet a => a < length sels
  | HNode a => exists net nd, nth_error sels a = Some (Sel (Some net) (Some nd))
  end.

Record fs_inv (fs : fstate) : Prop := {
  fi_wf : study_wf (f_study fs);
  fi_sels : forall a x, nth_error (f_sels fs) a = Some x -> sel_ok (f_study fs) x
}.

Record inv (w : world) : Prop := {
  iv_fs : fs_inv (w_fs w);
  iv_handles : forall h, In h (w_handles w) -> handle_ok (f_sels (w_fs w)) h
}.

Lemma sel_ok_grows s s' x : grows s s' -> sel_ok s x -> sel_ok s' x.
Proof. intros [G1 G2 _ _] H net E. destruct (H net E). auto. Qed.

(** How selector dictionaries evolve: none disappears, a network key never
    changes, a node key stays present. *)
Definition sels_evolve (l l' : list sel) : Prop :=
  length l <= length l' /\
  forall a x, nth_error l a = Some x -> exists x', nth_error l' a = Some x' /\
    sel_net x' = sel_net x /\ (sel_node x <> None -> sel_node x' <> None).

Lemma sels_evolve_refl l : sels_evolve l l.
Proof. split; auto. intros; eauto. Qed.

Lemma sels_evolve_trans a b c : sels_evolve a b -> sels_evolve b c -> sels_evolve a c.
Proof.
  intros [L1 H1] [L2 H2]. split; [lia|]. intros i x E.
  destruct (H1 _ _ E) as (y & E1 & N1 & D1). destruct (H2 _ _ E1) as (z & E2 & N2 & D2).
  exists z. repeat split; auto; congruence.
Qed.

Lemma sels_evolve_snoc l x : sels_evolve l (l ++ [x]).
Proof.
  split; [rewrite app_length; lia|]. intros a y E. exists y. repeat split; auto.
  rewrite nth_error_app1; auto. apply nth_error_Some. congruence.
Qed.

Lemma sels_evolve_setnode l a name :
  sels_evolve l (upd_nth a (fun x => Sel (sel_net x) (Some name)) l).
Proof.
  split; [rewrite length_upd_nth; auto|]. intros i x E.
  rewrite nth_error_upd_nth, E. destruct (a =? i); simpl; eexists; (split; [reflexivity|]); simpl; split; auto.
  discriminate.
Qed.

Lemma handle_ok_evolve l l' h : sels_evolve l l' -> handle_ok l h -> handle_ok l' h.
Proof.
  intros [L H]. destruct h; simpl; [lia|].
  intros (net & nd & E). destruct (H _ _ E) as ([n d] & E' & N & D). simpl in *. subst.
  destruct d; [|exfalso; apply D; congruence]. eauto.
Qed.

(** What one method call does to the selector heap and the returned handle. *)
Record call_inv (fs fs' : fstate) (r : res handle) : Prop := {
  ci_fs : fs_inv fs';
  ci_sels : sels_evolve (f_sels fs) (f_sels fs');
  ci_grows : grows (f_study fs) (f_study fs');
  ci_handle : forall h, r = Ok h -> handle_ok (f_sels fs') h
}.

Lemma onstudy_inv {A} (m : ST study A) fs fs' r : keeps m -> onstudy m fs = (fs', r) -> fs_inv fs ->
  fs_inv fs' /\ f_sels fs' = f_sels fs /\ grows (f_study fs) (f_study fs').
Proof.
  intros K H [W S]. unfold onstudy in H. destruct (m (f_study fs)) as [s' r'] eqn:E. inversion H; subst; simpl.
  destruct (K _ _ _ E W) as [W' G]. split; [constructor; simpl; auto|auto].
  intros a x N. eapply sel_ok_grows; eauto.
Qed.

Lemma key_network_eq a fs : key_network a fs =
  (fs, match nth_error (f_sels fs) a with
       | Some x => match sel_net x with Some n => Ok n | None => Err KeyError end
       | None => Err KeyError end).
Proof.
  unfold key_network, sbind, sel_at. destruct (nth_error (f_sels fs) a) as [x|]; auto.
  destruct (sel_net x); auto.
Qed.
Lemma key_node_eq a fs : key_node a fs =
  (fs, match nth_error (f_sels fs) a with
       | Some x => match sel_node x with Some n => Ok n | None => Err KeyError end
       | None => Err KeyError end).
Proof.
  unfold key_node, sbind, sel_at. destruct (nth_error (f_sels fs) a) as [x|]; auto.
  destruct (sel_node x); auto.
Qed.

Lemma fs_inv_snoc fs x : fs_inv fs -> sel_ok (f_study fs) x -> fs_inv (FS (f_study fs) (f_sels fs ++ [x])).
Proof.
  intros [W S] O. constructor; simpl; auto. intros a y E.
  destruct (Nat.lt_ge_cases a (length (f_sels fs))).
  - rewrite nth_error_app1 in E by auto. eauto.
  - rewrite nth_error_app2 in E by auto. destruct (a - length (f_sels fs)) as [|k]; simpl in E.
    + inversion E; subst; auto.
    + destruct k; discriminate.
Qed.

Lemma fl_network_inv name fs fs' r : fs_inv fs -> fl_network name fs = (fs', r) -> call_inv fs fs' r.
Proof.
  intros I H. unfold fl_network in H.
  rewrite (sbind_eq_ok _ _ fs (FS (add_network_eff (f_study fs) name) (f_sels fs)) tt) in H
    by (unfold onstudy; now rewrite add_network_eq).
  unfold sbind, new_sel, sret in H. simpl in H. inversion H; subst; clear H.
  destruct (onstudy_inv (add_network name) fs (FS (add_network_eff (f_study fs) name) (f_sels fs)) (Ok tt))
    as (I' & _ & G); auto using add_network_keeps.
  { unfold onstudy. now rewrite add_network_eq. }
  constructor; simpl; auto.
  - apply (fs_inv_snoc (FS (add_network_eff (f_study fs) name) (f_sels fs))); auto.
    intros net E; simpl in E; inversion E; subst. split; [apply add_network_has | simpl; discriminate].
  - apply sels_evolve_snoc.
  - intros h E; inversion E; subst. simpl. rewrite app_length; simpl; lia.
Qed.

Lemma fl_node_inv a name fs fs' r : fs_inv fs -> a < length (f_sels fs) -> fl_node a name fs = (fs', r) ->
  call_inv fs fs' r.
Proof.
  intros I L H. unfold fl_node in H.
  erewrite sbind_eq_ok in H by reflexivity.
  set (fs1 := FS (f_study fs) (upd_nth a (fun x => Sel (sel_net x) (Some name)) (f_sels fs))) in *.
  destruct (nth_error (f_sels fs) a) as [x|] eqn:E; [|apply nth_error_None in E; lia].
  assert (E1 : nth_error (f_sels fs1) a = Some (Sel (sel_net x) (Some name))).
  { simpl. rewrite nth_error_upd_nth, E, Nat.eqb_refl. auto. }
  destruct (sel_net x) as [net|] eqn:SN.
  - erewrite sbind_eq_ok in H by (rewrite key_network_eq, E1; reflexivity).
    destruct I as [W S]. destruct (S _ _ E _ SN) as [HN _].
    erewrite sbind_eq_ok in H by (unfold onstudy; simpl; rewrite add_node_eq by auto; reflexivity).
    inversion H; subst; clear H. constructor; simpl.
    + constructor; simpl; [now apply add_node_wf|].
      intros b y. rewrite nth_error_upd_nth. destruct (a =? b) eqn:BA.
      * apply Nat.eqb_eq in BA; subst b. rewrite E. simpl. intros Y; inversion Y; subst; clear Y.
        rewrite SN. intros m M; inversion M; subst. split.
        { apply (gr_net _ _ (add_node_grows (f_study fs) m name)); auto. }
        intros nd D; inversion D; subst. now apply add_node_has.
      * intros Y. eapply sel_ok_grows; [apply add_node_grows | eauto].
    + apply sels_evolve_setnode.
    + apply add_node_grows.
    + intros h Hh; inversion Hh; subst. simpl. eauto.
  - erewrite sbind_eq_err in H by (rewrite key_network_eq, E1; reflexivity).
    inversion H; subst; clear H. destruct I as [W S]. constructor; simpl.
    + constructor; simpl; auto. intros b y. rewrite nth_error_upd_nth. destruct (a =? b) eqn:BA; eauto.
      apply Nat.eqb_eq in BA; subst b. rewrite E. simpl. intros Y; inversion Y; subst.
      intros m M. simpl in M. congruence.
    + apply sels_evolve_setnode.
    + apply grows_refl.
    + discriminate.
Qed.

(** Calls that read keys then run one study method and return a given handle. *)
Lemma call_inv_refl fs e : fs_inv fs -> call_inv fs fs (Err e).
Proof. intros I. constructor; auto using sels_evolve_refl, grows_refl. discriminate. Qed.

Lemma call_inv_study {A} (m : ST study A) h0 fs fs' r :
  fs_inv fs -> keeps m -> handle_ok (f_sels fs) h0 ->
  (onstudy m;; sret h0) fs = (fs', r) -> call_inv fs fs' r.
Proof.
  intros I K HO H. unfold sbind in H. destruct (onstudy m fs) as [fs1 [a|e]] eqn:E.
  - destruct (onstudy_inv _ _ _ _ K E I) as (I' & S & G). inversion H; subst.
    constructor; auto; rewrite S; auto using sels_evolve_refl.
    intros h Hh; inversion Hh; subst; auto.
  - destruct (onstudy_inv _ _ _ _ K E I) as (I' & S & G). inversion H; subst.
    constructor; auto; rewrite S; auto using sels_evolve_refl. discriminate.
Qed.

Lemma keys_bind {A} a (k : string -> string -> ST fstate A) fs net nd :
  nth_error (f_sels fs) a = Some (Sel (Some net) (Some nd)) ->
  (do n <- key_network a; do d <- key_node a; k n d) fs = k net nd fs.
Proof.
  intros E. erewrite sbind_eq_ok by (rewrite key_network_eq, E; reflexivity).
  erewrite sbind_eq_ok by (rewrite key_node_eq, E; reflexivity). auto.
Qed.

Lemma fl_converter_inv name tn td mx c fs fs' r : fs_inv fs ->
  fl_converter name tn td mx c fs = (fs', r) -> call_inv fs fs' r.
Proof.
  intros I H. unfold fl_converter, sbind at 1 in H.
  destruct (onstudy (do_converter name tn td mx c) fs) as [fs1 [u|e]] eqn:E.
  - destruct (onstudy_inv _ _ _ _ (do_converter_keeps name tn td mx c) E I) as (I' & S & G).
    unfold sbind, new_sel, sret in H. inversion H; subst. constructor; simpl; auto.
    + apply fs_inv_snoc; auto. intros net N; discriminate.
    + rewrite <- S. apply sels_evolve_snoc.
    + intros h Hh; inversion Hh; subst. simpl. rewrite app_length; simpl; lia.
  - destruct (onstudy_inv _ _ _ _ (do_converter_keeps name tn td mx c) E I) as (I' & S & G).
    inversion H; subst. constructor; auto; try (rewrite S; apply sels_evolve_refl). discriminate.
Qed.

Lemma fl_to_converter_inv a name ratio fs fs' r : fs_inv fs -> handle_ok (f_sels fs) (HNode a) ->
  fl_to_converter a name ratio fs = (fs', r) -> call_inv fs fs' r.
Proof.
  intros I HO H. pose proof HO as (net & nd & E). unfold fl_to_converter in H.
  rewrite (sbind_eq_ok _ _ fs (FS (add_converter_eff (f_study fs) name) (f_sels fs)) tt) in H
    by (unfold onstudy; now rewrite add_converter_eq).
  destruct (onstudy_inv (add_converter name) fs (FS (add_converter_eff (f_study fs) name) (f_sels fs)) (Ok tt))
    as (I' & _ & G); auto using add_converter_keeps.
  { unfold onstudy. now rewrite add_converter_eq. }
  rewrite (keys_bind a (fun n d => onstudy (add_converter_src name n d ratio);; sret (HNode a)) _ net nd) in H by auto.
  unfold sbind, onstudy in H. simpl in H.
  destruct (add_converter_src name net nd ratio (add_converter_eff (f_study fs) name)) as [s' x] eqn:X.
  assert (HN : has_node (add_converter_eff (f_study fs) name) net nd).
  { destruct I' as [_ S']. simpl in S'. eapply (proj2 (S' _ _ E net eq_refl)). auto. }
  destruct (add_converter_src_keeps _ _ _ _ _ _ _ X HN (fi_wf _ I')) as [W' G'].
  assert (FI : fs_inv (FS s' (f_sels fs))).
  { constructor; simpl; auto. intros b y Y. eapply sel_ok_grows; [exact G'|]. eapply (fi_sels _ I'); eauto. }
  destruct x as [u|e]; inversion H; subst; constructor; simpl; auto using sels_evolve_refl;
    try (eapply grows_trans; eauto); try discriminate.
  intros h Hh; inversion Hh; subst; auto.
Qed.

Lemma fl_call_inv h m fs fs' r : fs_inv fs -> handle_ok (f_sels fs) h -> fl_call h m fs = (fs', r) ->
  call_inv fs fs' r.
Proof.
  intros I HO H.
  assert (L : addr h < length (f_sels fs)).
  { destruct h as [a|a]; simpl in *; auto. destruct HO as (? & ? & E). apply nth_error_Some; congruence. }
  assert (EL : forall (k : string -> string -> ST study unit) a, h = HNode a ->
     (forall n d, keeps (k n d)) ->
     (do n <- key_network a; do d <- key_node a; onstudy (k n d);; sret (HNode a)) fs = (fs', r) ->
     call_inv fs fs' r).
  { intros k a -> K H'. pose proof HO as (net & nd & E).
    rewrite (keys_bind a (fun n d => onstudy (k n d);; sret (HNode a)) fs net nd E) in H'.
    eapply call_inv_study; eauto. }
  assert (LK : forall src dest c q a, addr h = a -> fl_link a src dest c q fs = (fs', r) -> call_inv fs fs' r).
  { intros src dest c q a A H'. unfold fl_link, sbind at 1 in H'. rewrite key_network_eq in H'.
    destruct (nth_error (f_sels fs) a) as [x|] eqn:E; [|inversion H'; subst; now apply call_inv_refl].
    destruct (sel_net x); [|inversion H'; subst; now apply call_inv_refl].
    eapply call_inv_study; [auto | | | exact H']; [apply add_link_keeps | simpl; lia]. }
  destruct m, h as [a|a]; cbn [fl_call] in H;
    try (inversion H; subst; now apply call_inv_refl);
    try (eapply fl_network_inv; eauto; fail);
    try (eapply fl_node_inv; eauto; fail);
    try (eapply LK; eauto; reflexivity);
    try (eapply fl_converter_inv; eauto; fail);
    try (eapply fl_to_converter_inv; eauto; fail).
  - eapply (EL (fun n d => add_consumption n d name cost quantity)); eauto using add_consumption_keeps.
  - eapply (EL (fun n d => add_production n d name cost quantity)); eauto using add_production_keeps.
  - eapply (EL (fun n d => add_storage n d name capacity flow_in flow_out cost init eff)); eauto using add_storage_keeps.
Qed.

(** One step of a program. *)
Record step_inv (w w' : world) : Prop := {
  si_inv : inv w';
  si_sels : sels_evolve (f_sels (w_fs w)) (f_sels (w_fs w'));
  si_grows : grows (w_study w) (w_study w');
  si_handles : exists hs, w_handles w' = w_handles w ++ hs
}.

Lemma push_inv w fs' r w' x : inv w -> call_inv (w_fs w) fs' r -> push_handle w (fs', r) = (w', x) -> step_inv w w'.
Proof.
  intros [I H] [C1 C2 C3 C4] E. unfold push_handle in E. destruct r as [h|e]; inversion E; subst; constructor; simpl; auto.
  - constructor; simpl; auto. intros h'. rewrite in_app_iff. simpl. intros [K|[<-|[]]].
    + eapply handle_ok_evolve; eauto.
    + apply C4; auto.
  - eauto.
  - constructor; simpl; auto. intros h' K. eapply handle_ok_evolve; eauto.
  - exists []. now rewrite app_nil_r.
Qed.

Lemma no_handle_inv {w} m w' x : keeps m -> inv w -> no_handle w (onstudy m (w_fs w)) = (w', x) -> step_inv w w'.
Proof.
  intros K [I H] E. unfold no_handle in E. destruct (onstudy m (w_fs w)) as [fs' r] eqn:O.
  destruct (onstudy_inv _ _ _ _ K O I) as (I' & S & G). inversion E; subst; simpl. constructor; simpl; auto.
  - constructor; simpl; auto. rewrite S; auto.
  - rewrite S. apply sels_evolve_refl.
  - exists []. now rewrite app_nil_r.
Qed.

Lemma step_inv_refl w : inv w -> step_inv w w.
Proof.
  intros I. constructor; auto using sels_evolve_refl, grows_refl. exists []. now rewrite app_nil_r.
Qed.

Lemma step_ok w c w' r : inv w -> step w c = (w', r) -> step_inv w w'.
Proof.
  intros I E. destruct c; simpl in E.
  - destruct (fl_network name (w_fs w)) as [fs' x] eqn:F. eapply push_inv; eauto.
    eapply fl_network_inv; eauto. apply I.
  - eapply no_handle_inv; eauto using add_link_keeps.
  - eapply no_handle_inv; eauto using add_network_keeps.
  - eapply no_handle_inv; eauto using add_node_keeps.
  - destruct (nth_error (w_handles w) i) as [h|] eqn:N.
    2: { inversion E; subst. now apply step_inv_refl. }
    destruct (fl_call h m (w_fs w)) as [fs' x] eqn:F. eapply push_inv; eauto.
    destruct I as [I HH]. eapply fl_call_inv; eauto. apply HH. eapply nth_error_In; eauto.
Qed.

Lemma step_inv_trans a b c : step_inv a b -> step_inv b c -> step_inv a c.
Proof.
  intros [I1 S1 G1 [h1 H1]] [I2 S2 G2 [h2 H2]]. constructor; auto.
  - eapply sels_evolve_trans; eauto.
  - eapply grows_trans; eauto.
  - exists (h1 ++ h2). rewrite H2, H1. now rewrite app_assoc.
Qed.

Lemma run_ok cs : forall w, inv w -> step_inv w (run w cs).
Proof.
  induction cs as [|c cs IH]; simpl; intros w I.
  - now apply step_inv_refl.
  - destruct (step w c) as [w' r] eqn:E. pose proof (step_ok _ _ _ _ I E) as S.
    eapply step_inv_trans; eauto. apply IH. apply S.
Qed.

Lemma start_inv h n v : inv (start h n v).
Proof.
  constructor; simpl.
  - constructor; simpl.
    + constructor; simpl; try constructor; try discriminate.
    + intros a x. destruct a; discriminate.
  - tauto.
Qed.

Lemma reachable_inv w : reachable w -> inv w.
Proof. intros (h & n & v & cs & ->). apply run_ok. apply start_inv. Qed.

Lemma run_app w a b : run w (a ++ b) = run (run w a) b.
Proof. unfold run. apply fold_left_app. Qed.

Lemma reachable_run w cs : reachable w -> reachable (run w cs).
Proof. intros (h & n & v & ds & ->). exists h, n, v, (ds ++ cs). now rewrite run_app. Qed.

Lemma reachable_step w c : reachable w -> reachable (fst (step w c)).
Proof. intros R. apply (reachable_run w [c] R). Qed.
