(** Property C73: which calls on a study are accepted. *)
From Coq Require Import String Ascii List ZArith QArith Bool Arith Lia Lqa.
From Verif Require Import Base BaseFacts Numeric Study Fluent SpecNumeric SpecStudy NumericFacts StudyFacts FluentFacts P_Study.
Import ListNotations.
Open Scope nat_scope.
Open Scope string_scope.
Open Scope list_scope.

(** ** Specification *)

(** The argument is a number, a series or a table that fits the study. *)
Definition fits (s : study) (x : pyval) : Prop := exists v, becomes s x v.
(** ... with an entry at least [q], at most [q]. *)
Definition reaches (s : study) (q : Q) (x : pyval) : Prop := exists v e, becomes s x v /\ In e (entries v) /\ (q <= e)%Q.
Definition stays (s : study) (q : Q) (x : pyval) : Prop := exists v e, becomes s x v /\ In e (entries v) /\ (e <= q)%Q.

Definition valid_link (s : study) (net src dest : string) (cost quantity : pyval) : Prop :=
  exists n, node_at s net src = Some n /\ has_node s net dest /\ ~ In dest (map l_dest (n_links n)) /\
    fits s cost /\ reaches s 0 quantity.

Definition valid_element (s : study) (n : node) (m : meth) : Prop :=
  match m with
  | MConsumption name c q => ~ In name (map c_name (n_cons n)) /\ fits s c /\ reaches s 0 q
  | MProduction name c q => ~ In name (map p_name (n_prods n)) /\ fits s c /\ reaches s 0 q
  | MStorage name ca fi fo c i e => ~ In name (map s_name (n_stors n)) /\ fits s c /\
      reaches s 0 ca /\ reaches s 0 fi /\ reaches s 0 fo /\ (0 <= i)%Q /\ reaches s 0 e /\ stays s 1 e
  | _ => False
  end.

(** Selector number [i] exists; it is a node selector; its dictionary has a network. *)
Definition is_selector (w : world) (i : nat) : Prop := exists h, nth_error (w_handles w) i = Some h.
Definition is_node_selector (w : world) (i : nat) : Prop := exists a, nth_error (w_handles w) i = Some (HNode a).
Definition in_network (w : world) (i : nat) (net : string) : Prop := exists x, selector_keys w i = Some x /\ sel_net x = Some net.

Definition valid_call (w : world) (c : call) : Prop :=
  let s := w_study w in
  match c with
  | OnStudy_network _ | OnStudy_add_network _ => True
  | OnStudy_add_node net _ => has_network s net
  | OnStudy_add_link net src dest co q => valid_link s net src dest co q
  | OnSel i m =>
      match m with
      | MNetwork _ => is_selector w i
      | MNode _ => exists net, in_network w i net /\ has_network s net
      | MLink src dest co q => exists net, in_network w i net /\ valid_link s net src dest co q
      | MConverter name net nd mx co => is_selector w i /\ has_node s net nd /\ fits s mx /\ fits s co /\
          forall v, conv_at s name = Some v -> v_dnet v = "" \/ v_dnode v = ""
      | MToConverter name r => is_node_selector w i /\ exists net nd, selects w i net nd /\ fits s r /\
          forall v, conv_at s name = Some v -> ~ In (net, nd) (dkeys (v_src v))
      | _ => is_node_selector w i /\ exists net nd n, selects w i net nd /\ node_at s net nd = Some n /\ valid_element s n m
      end
  end.

(** ** Proofs *)
Definition okm {St A} (m : ST St A) (s : St) : Prop := exists s' a, m s = (s', Ok a).

Lemma okm_bind {St A B} (m : ST St A) (k : A -> ST St B) s : okm (sbind m k) s <-> exists s1 a, m s = (s1, Ok a) /\ okm (k a) s1.
Proof.
  split.
  - intros (s' & b & H). apply sbind_ok in H as (s1 & a & H1 & H2). exists s1, a. split; auto. now exists s', b.
  - intros (s1 & a & H1 & s' & b & H2). exists s', b. now rewrite (sbind_eq_ok _ _ _ _ _ H1).
Qed.
Lemma okm_lift {St A B} (r : res A) (k : A -> ST St B) s : okm (sbind (slift r) k) s <-> exists a, r = Ok a /\ okm (k a) s.
Proof.
  rewrite okm_bind. unfold slift. split.
  - intros (s1 & a & H & K). inversion H; subst. eauto.
  - intros (a & -> & K). eauto.
Qed.
Lemma okm_mk {B} x (k : numval -> ST study B) s : okm (sbind (mk x) k) s <-> exists v, becomes s x v /\ okm (k v) s.
Proof.
  rewrite okm_bind. unfold mk, becomes. split.
  - intros (s1 & a & H & K). inversion H; subst. eauto.
  - intros (a & H & K). rewrite H. eauto.
Qed.
Lemma okm_guard {St B} b e (k : unit -> ST St B) s : okm (sbind (sguard b e) k) s <-> b = false /\ okm (k tt) s.
Proof.
  rewrite okm_bind. unfold sguard. split.
  - intros (s1 & a & H & K). destruct b; inversion H; subst; auto.
  - intros (-> & K). exists s, tt. auto.
Qed.
Lemma okm_node {B} net nd (k : node -> ST study B) s : okm (sbind (node_of net nd) k) s <-> exists n, node_at s net nd = Some n /\ okm (k n) s.
Proof.
  rewrite okm_bind. split.
  - intros (s1 & a & H & K). apply node_of_ok in H as [-> H]. eauto.
  - intros (n & H & K). exists s, n. split; auto. unfold node_of, node_at, sbind, nodes_of, slift, dlook in *.
    destruct (dget net (st_networks s)); [| discriminate]. now rewrite H.
Qed.
Lemma okm_nodes {B} net (k : network -> ST study B) s : okm (sbind (nodes_of net) k) s <-> exists ns, dget net (st_networks s) = Some ns /\ okm (k ns) s.
Proof.
  rewrite okm_bind. unfold nodes_of, dlook. split.
  - intros (s1 & a & H & K). destruct (dget net (st_networks s)); inversion H; subst; eauto.
  - intros (n & H & K). rewrite H. eauto.
Qed.
Lemma okm_upd_node net nd f s : okm (upd_node net nd f) s <-> has_node s net nd.
Proof.
  pose proof (upd_node_spec net nd f s) as U. unfold has_node. destruct (node_at s net nd).
  - destruct U as (ns & _ & _ & U). split; [discriminate |]. intros _. eexists; eauto.
  - split; [| congruence]. intros (s' & a & H). congruence.
Qed.
Lemma okm_onstudy {A B} (m : ST study A) (k : A -> ST fstate B) fs : (forall a fs', okm (k a) fs') -> (okm (sbind (onstudy m) k) fs <-> okm m (f_study fs)).
Proof.
  intros K. rewrite okm_bind. unfold onstudy. split.
  - intros (s1 & a & H & _). destruct (m (f_study fs)) as [s' r] eqn:E. inversion H; subst. exists s', a. exact E.
  - intros (s' & a & E). rewrite E. eauto.
Qed.
Lemma okm_ret {St A} (a : A) (s : St) : okm (sret a) s.
Proof. now exists s, a. Qed.

Lemma nv_lt_iff v q : nv_lt v q = false <-> exists e, In e (entries v) /\ (q <= e)%Q.
Proof.
  split; [apply nv_lt_false |]. intros (e & I & L).
  assert (F : forall l, In e l -> forallb (fun x => qlt x q) l = false).
  { induction l as [| x l IH]; [easy |]. cbn. intros [->| J]; [| rewrite (IH J); apply andb_false_r].
    apply andb_false_iff. left. now apply qlt_false. }
  destruct v; cbn in *; try now apply F. destruct I as [->|[]]. now apply qlt_false.
Qed.
Lemma nv_gt_iff v q : nv_gt v q = false <-> exists e, In e (entries v) /\ (e <= q)%Q.
Proof.
  split; [apply nv_gt_false |]. intros (e & I & L).
  assert (F : forall l, In e l -> forallb (fun x => qlt q x) l = false).
  { induction l as [| x l IH]; [easy |]. cbn. intros [->| J]; [| rewrite (IH J); apply andb_false_r].
    apply andb_false_iff. left. now apply qlt_false. }
  destruct v; cbn in *; try now apply F. destruct I as [->|[]]. now apply qlt_false.
Qed.
Lemma mem_false_iff x l : mem x l = false <-> ~ In (x : string) l.
Proof.
  unfold mem. split.
  - intros H I. assert (T : existsb (eqb x) l = true) by (apply existsb_exists; exists x; split; auto; now apply eqb_eq). congruence.
  - intros N. destruct (existsb (eqb x) l) eqn:X; auto. apply existsb_exists in X as (y & I & Y). apply eqb_eq in Y. now subst.
Qed.
Lemma reaches_iff s q x : reaches s q x <-> exists v, becomes s x v /\ nv_lt v q = false.
Proof.
  split.
  - intros (v & e & B & I & L). exists v. split; auto. apply nv_lt_iff. eauto.
  - intros (v & B & N). apply nv_lt_iff in N as (e & I & L). now exists v, e.
Qed.
Lemma stays_iff s q x : stays s q x <-> exists v, becomes s x v /\ nv_gt v q = false.
Proof.
  split.
  - intros (v & e & B & I & L). exists v. split; auto. apply nv_gt_iff. eauto.
  - intros (v & B & N). apply nv_gt_iff in N as (e & I & L). now exists v, e.
Qed.
Lemma becomes_fun s x v v' : becomes s x v -> becomes s x v' -> v = v'.
Proof. unfold becomes. congruence. Qed.
Lemma has_node_iff s net nd : has_node s net nd <-> exists n, node_at s net nd = Some n.
Proof. unfold has_node. destruct (node_at s net nd); split; eauto; try discriminate; [easy | intros [n H]; discriminate]. Qed.

Lemma link_accepted net src dest co q s : okm (add_link net src dest co q) s <-> valid_link s net src dest co q.
Proof.
  unfold add_link, valid_link. rewrite okm_nodes. setoid_rewrite okm_guard. setoid_rewrite okm_guard. setoid_rewrite okm_lift.
  setoid_rewrite okm_guard. setoid_rewrite okm_mk. setoid_rewrite okm_guard. setoid_rewrite okm_mk. setoid_rewrite okm_upd_node. split.
  - intros (ns & G & S & D & n & L & M & vq & Q & N & vc & C & H). exists n.
    unfold dlook in L. destruct (dget src ns) eqn:GS; inversion L; subst. unfold node_at, has_node, node_at. rewrite G. split; auto.
    apply negb_false_iff in D. unfold dmem in D. destruct (dget dest ns); [| discriminate]. split; [discriminate |].
    apply mem_false_iff in M. split; auto. split; [now exists vc |]. apply reaches_iff. now exists vq.
  - intros (n & A & D & M & (vc & C) & Q). apply reaches_iff in Q as (vq & Q & N). pose proof A as A'. unfold node_at in A, D. unfold has_node, node_at in D.
    destruct (dget net (st_networks s)) as [ns|] eqn:G; [| discriminate]. exists ns. split; auto. unfold dmem, dlook. rewrite A.
    destruct (dget dest ns); [| easy]. split; auto. split; auto. exists n. split; auto. split; [now apply mem_false_iff |].
    exists vq. split; auto. split; auto. exists vc. split; auto. unfold has_node. congruence.
Qed.

Lemma element_accepted s net nd m : is_element m ->
  forall n, node_at s net nd = Some n ->
  (match m with
   | MConsumption name c q => okm (add_consumption net nd name c q) s
   | MProduction name c q => okm (add_production net nd name c q) s
   | MStorage name ca fi fo c i e => okm (add_storage net nd name ca fi fo c i e) s
   | _ => False
   end <-> valid_element s n m).
Proof.
  intros IM n A. assert (HN : has_node s net nd) by (unfold has_node; congruence). destruct m; try easy; cbn [valid_element].
  - unfold add_consumption. rewrite okm_node. setoid_rewrite okm_guard. setoid_rewrite okm_mk. setoid_rewrite okm_guard. setoid_rewrite okm_mk.
    setoid_rewrite okm_upd_node. split.
    + intros (n' & A' & M & vq & Q & N & vc & C & _). assert (n' = n) by congruence; subst n'. apply mem_false_iff in M. split; auto.
      split; [now exists vc | apply reaches_iff; now exists vq].
    + intros (M & (vc & C) & Q). apply reaches_iff in Q as (vq & Q & N). exists n. split; auto. split; [now apply mem_false_iff |].
      exists vq. split; auto. split; auto. now exists vc.
  - unfold add_production. rewrite okm_node. setoid_rewrite okm_guard. setoid_rewrite okm_mk. setoid_rewrite okm_guard. setoid_rewrite okm_mk.
    setoid_rewrite okm_upd_node. split.
    + intros (n' & A' & M & vq & Q & N & vc & C & _). assert (n' = n) by congruence; subst n'. apply mem_false_iff in M. split; auto.
      split; [now exists vc | apply reaches_iff; now exists vq].
    + intros (M & (vc & C) & Q). apply reaches_iff in Q as (vq & Q & N). exists n. split; auto. split; [now apply mem_false_iff |].
      exists vq. split; auto. split; auto. now exists vc.
  - unfold add_storage. rewrite okm_node. setoid_rewrite okm_guard. setoid_rewrite okm_mk. setoid_rewrite okm_mk. setoid_rewrite okm_guard.
    setoid_rewrite okm_mk. setoid_rewrite okm_guard. setoid_rewrite okm_mk. setoid_rewrite okm_guard. setoid_rewrite okm_mk. setoid_rewrite okm_upd_node. split.
    + intros (n' & A' & M & vi & BI & vo & BO & G1 & vca & BC & G2 & ve & BE & G3 & vc & C & _). assert (n' = n) by congruence; subst n'.
      apply mem_false_iff in M. apply orb_false_iff in G1 as [N1 N2], G2 as [N3 N4], G3 as [N5 N6]. split; auto. split; [now exists vc |].
      rewrite !reaches_iff, stays_iff. split; [eauto |]. split; [eauto |]. split; [eauto |]. split; [now apply qlt_false |]. split; eauto.
    + intros (M & (vc & C) & CA & FI & FO & IN & EF & ST). apply reaches_iff in CA as (vca & BC & N3), FI as (vi & BI & N1), FO as (vo & BO & N2), EF as (ve & BE & N5).
      apply stays_iff in ST as (ve' & BE' & N6). rewrite (becomes_fun _ _ _ _ BE' BE) in N6. exists n. split; auto. split; [now apply mem_false_iff |].
      exists vi. split; auto. exists vo. split; auto. rewrite N1, N2. split; auto. exists vca. split; auto.
      rewrite N3. apply qlt_false in IN. rewrite IN. split; auto. exists ve. split; auto. rewrite N5, N6. split; auto. now exists vc.
Qed.

Lemma source_accepted name net nd r s v : conv_at s name = Some v ->
  (okm (add_converter_src name net nd r) s <-> fits s r /\ ~ In (net, nd) (dkeys (v_src v))).
Proof.
  intros V. unfold add_converter_src. rewrite okm_bind. setoid_rewrite okm_guard. setoid_rewrite okm_mk. split.
  - intros (s1 & v' & C & D & vr & B & _). unfold conv_of, dlook in C. unfold conv_at in V. rewrite V in C. inversion C; subst. split; [now exists vr |]. now apply dmem_false.
  - intros ((vr & B) & N). exists s, v. split; [unfold conv_of, dlook, conv_at in *; now rewrite V |]. split; [now apply dmem_false |]. exists vr. split; auto.
    eexists. exists tt. now apply (upd_conv_eq name _ s v).
Qed.
Lemma dest_accepted name net nd co mx s v : conv_at s name = Some v ->
  (okm (set_converter_dest name net nd co mx) s <-> has_node s net nd /\ fits s mx /\ fits s co /\ (v_dnet v = "" \/ v_dnode v = "")).
Proof.
  intros V. split.
  - intros (s' & u & H). destruct (set_converter_dest_state _ _ _ _ _ _ _ _ H) as [(_ & e & X) | (v' & V' & HN & D & [(e & X & _) | [(e & vc & X & _) | (vc & vm & _ & BC & BM & _)]])];
      try discriminate. assert (v' = v) by congruence; subst v'. split; auto. split; [now exists vm |]. split; [now exists vc | exact D].
  - intros (HN & (vm & BM) & (vc & BC) & D). unfold set_converter_dest. apply okm_bind. exists s, v. split; [unfold conv_of, dlook, conv_at in *; now rewrite V |].
    apply okm_guard. split; [destruct D as [D|D]; rewrite D; cbn; auto; apply andb_false_r |]. apply okm_bind. exists s, s. split; auto.
    apply okm_guard. split. { unfold has_node, node_at in HN. destruct (dget net (st_networks s)) as [ns|]; [| easy]. unfold dmem. destruct (dget nd ns); auto; easy. }
    apply okm_bind. eexists. exists tt. split; [apply (upd_conv_eq name _ s v); auto |].
    apply okm_bind. eexists. exists tt. split; [eapply upd_conv_eq; apply updc_conv; eauto |]. rewrite updc_updc.
    apply okm_mk. exists vc. split.
    { unfold becomes in *. match goal with |- context [updc s name ?f] => destruct (updc_dims s name f) as (-> & -> & _) end. exact BC. }
    apply okm_bind. eexists. exists tt. split; [eapply upd_conv_eq; apply updc_conv; eauto |]. rewrite updc_updc.
    apply okm_mk. exists vm. split.
    { unfold becomes in *. match goal with |- context [updc s name ?f] => destruct (updc_dims s name f) as (-> & -> & _) end. exact BM. }
    eexists. exists tt. eapply upd_conv_eq. apply updc_conv; eauto.
Qed.

Lemma push_okm w r : snd (push_handle w r) = Ok tt <-> exists h, snd r = Ok h.
Proof. destruct r as [fs [h|e]]; cbn; split; eauto; try discriminate. intros [h H]; discriminate. Qed.
Lemma okm_snd {St A} (m : ST St A) s : okm m s <-> exists a, snd (m s) = Ok a.
Proof.
  unfold okm. destruct (m s) as [s' r]. cbn. split.
  - intros (s1 & a & H). inversion H; subst. eauto.
  - intros (a & ->). eauto.
Qed.
Lemma no_handle_okm {w} (m : ST study unit) : snd (no_handle w (onstudy m (w_fs w))) = Ok tt <-> okm m (w_study w).
Proof.
  unfold no_handle, onstudy, w_study. rewrite okm_snd. destruct (m (f_study (w_fs w))) as [s' r]. cbn. split; [eauto |]. intros ([] & H). exact H.
Qed.
Lemma okm_key_network {B} a (k : string -> ST fstate B) fs :
  okm (sbind (key_network a) k) fs <-> exists x net, nth_error (f_sels fs) a = Some x /\ sel_net x = Some net /\ okm (k net) fs.
Proof.
  rewrite okm_bind. split.
  - intros (s1 & net & H & K). apply key_network_ok in H as (-> & x & X & N). eauto.
  - intros (x & net & X & N & K). exists fs, net. split; auto. rewrite key_network_eq, X, N. reflexivity.
Qed.
Lemma okm_key_node {B} a (k : string -> ST fstate B) fs :
  okm (sbind (key_node a) k) fs <-> exists x nd, nth_error (f_sels fs) a = Some x /\ sel_node x = Some nd /\ okm (k nd) fs.
Proof.
  rewrite okm_bind. split.
  - intros (s1 & net & H & K). apply key_node_ok in H as (-> & x & X & N). eauto.
  - intros (x & net & X & N & K). exists fs, net. split; auto. rewrite key_node_eq, X, N. reflexivity.
Qed.
Lemma okm_keys {B} a (k : string -> string -> ST fstate B) fs :
  okm (do net <- key_network a; do nd <- key_node a; k net nd) fs <->
  exists net nd, nth_error (f_sels fs) a = Some (Sel (Some net) (Some nd)) /\ okm (k net nd) fs.
Proof.
  rewrite okm_key_network. setoid_rewrite okm_key_node. split.
  - intros (x & net & X & N & y & nd & Y & D & K). assert (x = y) by congruence; subst y. exists net, nd. split; auto.
    rewrite X. destruct x; cbn in *; congruence.
  - intros (net & nd & X & K). exists (Sel (Some net) (Some nd)), net. split; auto. split; auto. exists (Sel (Some net) (Some nd)), nd. auto.
Qed.
Lemma okm_new_sel {B} x (k : nat -> ST fstate B) fs : (forall a fs', okm (k a) fs') -> okm (sbind (new_sel x) k) fs.
Proof. intros K. apply okm_bind. unfold new_sel. eauto. Qed.
Lemma fits_same s s' x : st_horizon s' = st_horizon s -> st_nb_scn s' = st_nb_scn s -> (fits s' x <-> fits s x).
Proof. intros H N. unfold fits, becomes. now rewrite H, N. Qed.
Lemma has_node_same s s' net nd : st_networks s' = st_networks s -> (has_node s' net nd <-> has_node s net nd).
Proof. intros H. unfold has_node, node_at. now rewrite H. Qed.
Lemma nth_error_upd_same {A} n (f : A -> A) l x : nth_error l n = Some x -> nth_error (upd_nth n f l) n = Some (f x).
Proof. intros H. rewrite nth_error_upd_nth, Nat.eqb_refl, H. reflexivity. Qed.
Lemma network_okm name fs : okm (fl_network name) fs.
Proof.
  unfold fl_network. apply okm_onstudy; [| exists (add_network_eff (f_study fs) name), tt; apply add_network_eq].
  intros a fs'. apply okm_new_sel. intros. apply okm_ret.
Qed.

(** A call is accepted exactly when it is valid. *)
Theorem C73_accepted_iff : forall w c, snd (step w c) = Ok tt <-> valid_call w c.
Proof.
  intros w c. destruct c as [name | net src dest co q | net | net nd | i m]; cbn [step valid_call].
  - rewrite push_okm, <- okm_snd. split; auto. intros _. apply network_okm.
  - rewrite no_handle_okm. apply link_accepted.
  - rewrite no_handle_okm. split; auto. intros _. exists (add_network_eff (w_study w) net), tt. apply add_network_eq.
  - rewrite no_handle_okm. split.
    + intros (s' & u & H). intros N. rewrite add_node_err in H; [discriminate | unfold has_network; congruence].
    + intros H. exists (add_node_eff (w_study w) net nd), tt. now apply add_node_eq.
  - unfold is_selector, is_node_selector, in_network, selects, selector_keys, selector_dict. destruct (nth_error (w_handles w) i) as [h|] eqn:H; cbn [option_map].
    2: { split; [discriminate |]. destruct m; cbn; intros V; repeat match goal with H : exists _, _ |- _ => destruct H | H : _ /\ _ |- _ => destruct H end; discriminate. }
    rewrite push_okm, <- okm_snd. unfold w_study. destruct m as [name | name | src dest co q | name net nd mx co | name co q | name co q | name ca fi fo co ini e | name r].
    + split; [eauto |]. intros _. destruct h; apply network_okm.
    + assert (EQ : fl_call h (MNode name) = fl_node (addr h) name) by (destruct h; reflexivity). rewrite EQ. unfold fl_node. rewrite okm_bind. setoid_rewrite okm_key_network. split.
      * intros (fs1 & u & S & x & net & X & N & K). unfold set_node_key in S. inversion S; subst fs1; clear S. cbn [f_sels f_study] in *.
        apply okm_onstudy in K; [| intros; apply okm_ret]. destruct K as (s' & u' & K). cbn [f_study] in K. exists net.
        destruct (nth_error (f_sels (w_fs w)) (addr h)) as [y|] eqn:Y.
        -- rewrite (nth_error_upd_same _ _ _ _ Y) in X. inversion X; subst x. cbn in N. split; [eauto |].
           intros Z. rewrite add_node_err in K; [discriminate | unfold has_network; congruence].
        -- exfalso. assert (Z : nth_error (upd_nth (addr h) (fun x => Sel (sel_net x) (Some name)) (f_sels (w_fs w))) (addr h) <> None) by congruence.
           apply nth_error_Some in Z. rewrite length_upd_nth in Z. apply nth_error_None in Y. lia.
      * intros (net & (x & X & N) & HN). eexists. eexists. split; [unfold set_node_key; reflexivity |].
        exists (Sel (sel_net x) (Some name)), net. cbn [f_sels]. split; [apply (nth_error_upd_same (addr h) (fun x => Sel (sel_net x) (Some name)) _ _ X) |]. split; [exact N |].
        apply okm_onstudy; [intros; apply okm_ret |]. cbn [f_study]. eexists; eexists. now apply add_node_eq.
    + assert (EQ : fl_call h (MLink src dest co q) = fl_link (addr h) src dest co q) by (destruct h; reflexivity). rewrite EQ. unfold fl_link. rewrite okm_key_network. split.
      * intros (x & net & X & N & K). apply okm_onstudy in K; [| intros; apply okm_ret]. apply link_accepted in K. eauto.
      * intros (net & (x & X & N) & K). exists x, net. split; auto. split; auto. apply okm_onstudy; [intros; apply okm_ret |]. now apply link_accepted.
    + assert (EQ : fl_call h (MConverter name net nd mx co) = fl_converter name net nd mx co) by (destruct h; reflexivity). rewrite EQ. unfold fl_converter.
      rewrite okm_onstudy by (intros; apply okm_new_sel; intros; apply okm_ret). unfold do_converter. rewrite okm_bind.
      destruct (add_converter_has (f_study (w_fs w)) name) as (v & V).
      pose proof (add_converter_nets (f_study (w_fs w)) name) as NE. destruct (add_converter_only (f_study (w_fs w)) name) as [_ _ (_ & HE & SE)].
      assert (D : okm (set_converter_dest name net nd co mx) (add_converter_eff (f_study (w_fs w)) name) <->
        has_node (f_study (w_fs w)) net nd /\ fits (f_study (w_fs w)) mx /\ fits (f_study (w_fs w)) co /\ (v_dnet v = "" \/ v_dnode v = "")).
      { rewrite (dest_accepted _ _ _ _ _ _ _ V). rewrite (has_node_same _ _ _ _ NE), !(fits_same _ _ _ HE SE). reflexivity. }
      assert (Q : (v_dnet v = "" \/ v_dnode v = "") <-> forall v, conv_at (f_study (w_fs w)) name = Some v -> v_dnet v = "" \/ v_dnode v = "").
      { rewrite add_converter_conv in V. destruct (conv_at (f_study (w_fs w)) name) as [v0|].
        - inversion V; subst. split; [intros Z v' Y; inversion Y; now subst | intros Z; now apply Z].
        - rewrite String.eqb_refl in V. inversion V; subst. cbn. split; [discriminate | auto]. }
      rewrite <- Q. split.
      * intros (s1 & u & A & K). rewrite add_converter_eq in A. inversion A; subst s1. apply D in K. split; [eauto | exact K].
      * intros (_ & K). exists (add_converter_eff (f_study (w_fs w)) name), tt. split; [apply add_converter_eq | now apply D].
    + destruct h as [a|a]; cbn [fl_call addr].
      { split; [intros (s' & x & K); discriminate | intros ((b & K) & _); discriminate]. }
      unfold fl_consumption. rewrite (okm_keys a (fun net nd => do _ <- onstudy (add_consumption net nd name co q); sret (HNode a))). split.
      * intros (net & nd & X & K). split; [eauto |]. apply okm_onstudy in K; [| intros; apply okm_ret].
        assert (NA : exists n, node_at (f_study (w_fs w)) net nd = Some n). { unfold add_consumption in K. apply okm_node in K as (n & N & _). eauto. }
        destruct NA as (n & NA). exists net, nd, n. split; auto. split; auto. now apply (element_accepted _ net nd (MConsumption name co q) Logic.I n NA).
      * intros (_ & net & nd & n & X & NA & V). exists net, nd. split; auto. apply okm_onstudy; [intros; apply okm_ret |].
        now apply (element_accepted _ net nd (MConsumption name co q) Logic.I n NA).
    + destruct h as [a|a]; cbn [fl_call addr].
      { split; [intros (s' & x & K); discriminate | intros ((b & K) & _); discriminate]. }
      unfold fl_production. rewrite (okm_keys a (fun net nd => do _ <- onstudy (add_production net nd name co q); sret (HNode a))). split.
      * intros (net & nd & X & K). split; [eauto |]. apply okm_onstudy in K; [| intros; apply okm_ret].
        assert (NA : exists n, node_at (f_study (w_fs w)) net nd = Some n). { unfold add_production in K. apply okm_node in K as (n & N & _). eauto. }
        destruct NA as (n & NA). exists net, nd, n. split; auto. split; auto. now apply (element_accepted _ net nd (MProduction name co q) Logic.I n NA).
      * intros (_ & net & nd & n & X & NA & V). exists net, nd. split; auto. apply okm_onstudy; [intros; apply okm_ret |].
        now apply (element_accepted _ net nd (MProduction name co q) Logic.I n NA).
    + destruct h as [a|a]; cbn [fl_call addr].
      { split; [intros (s' & x & K); discriminate | intros ((b & K) & _); discriminate]. }
      unfold fl_storage. rewrite (okm_keys a (fun net nd => do _ <- onstudy (add_storage net nd name ca fi fo co ini e); sret (HNode a))). split.
      * intros (net & nd & X & K). split; [eauto |]. apply okm_onstudy in K; [| intros; apply okm_ret].
        assert (NA : exists n, node_at (f_study (w_fs w)) net nd = Some n). { unfold add_storage in K. apply okm_node in K as (n & N & _). eauto. }
        destruct NA as (n & NA). exists net, nd, n. split; auto. split; auto. now apply (element_accepted _ net nd (MStorage name ca fi fo co ini e) Logic.I n NA).
      * intros (_ & net & nd & n & X & NA & V). exists net, nd. split; auto. apply okm_onstudy; [intros; apply okm_ret |].
        now apply (element_accepted _ net nd (MStorage name ca fi fo co ini e) Logic.I n NA).
    + destruct h as [a|a]; cbn [fl_call addr].
      { split; [intros (s' & x & K); discriminate | intros ((b & K) & _); discriminate]. }
      unfold fl_to_converter. rewrite okm_bind.
      destruct (add_converter_has (f_study (w_fs w)) name) as (v & V).
      destruct (add_converter_only (f_study (w_fs w)) name) as [_ _ (_ & HE & SE)].
      assert (D : forall net nd, okm (add_converter_src name net nd r) (add_converter_eff (f_study (w_fs w)) name) <->
        fits (f_study (w_fs w)) r /\ forall v, conv_at (f_study (w_fs w)) name = Some v -> ~ In (net, nd) (dkeys (v_src v))).
      { intros net nd. rewrite (source_accepted _ _ _ _ _ _ V), (fits_same _ _ _ HE SE). rewrite add_converter_conv in V. destruct (conv_at (f_study (w_fs w)) name) as [v0|].
        - inversion V; subst. split; intros [F Z]; split; auto. intros v' Y. inversion Y; now subst.
        - rewrite String.eqb_refl in V. inversion V; subst. cbn. split; intros [F Z]; split; auto. discriminate. }
      assert (E0 : onstudy (add_converter name) (w_fs w) = (FS (add_converter_eff (f_study (w_fs w)) name) (f_sels (w_fs w)), Ok tt)).
      { unfold onstudy. now rewrite add_converter_eq. }
      split.
      * intros (s1 & u & A & K). rewrite E0 in A. inversion A; subst s1.
        apply (okm_keys a (fun net nd => do _ <- onstudy (add_converter_src name net nd r); sret (HNode a))) in K as (net & nd & X & K). cbn [f_sels] in X.
        apply okm_onstudy in K; [| intros; apply okm_ret]. cbn [f_study] in K. apply D in K. split; [eauto |]. exists net, nd. auto.
      * intros (_ & net & nd & X & K). eexists. exists tt. split; [exact E0 |].
        apply (okm_keys a (fun net nd => do _ <- onstudy (add_converter_src name net nd r); sret (HNode a))). exists net, nd. split; auto.
        apply okm_onstudy; [intros; apply okm_ret |]. cbn [f_study]. now apply D.
Qed.

(** *** What users rely on *)
Lemma number_fits s q x : given_number q x -> becomes s x (Scalar q (st_horizon s) (st_nb_scn s)).
Proof. intros G. unfold becomes. inversion G; subst; simpl; auto. now rewrite H. Qed.
Lemma number_reaches s q x z : given_number q x -> (z <= q)%Q -> reaches s z x.
Proof. intros G L. eexists. exists q. split; [apply number_fits; exact G |]. split; [now left | exact L]. Qed.
Lemma number_stays s q x z : given_number q x -> (q <= z)%Q -> stays s z x.
Proof. intros G L. eexists. exists q. split; [apply number_fits; exact G |]. split; [now left | exact L]. Qed.

(** Numbers a user may give for an element. *)
Definition proper_numbers (m : meth) : Prop :=
  match m with
  | MConsumption _ c q | MProduction _ c q => (exists a, given_number a c) /\ exists a, given_number a q /\ (0 <= a)%Q
  | MStorage _ ca fi fo c i e => (exists a, given_number a c) /\ (exists a, given_number a ca /\ (0 <= a)%Q) /\
      (exists a, given_number a fi /\ (0 <= a)%Q) /\ (exists a, given_number a fo /\ (0 <= a)%Q) /\ (0 <= i)%Q /\
      exists a, given_number a e /\ (0 <= a <= 1)%Q
  | _ => False
  end.
Definition fresh_name (n : node) (m : meth) : Prop :=
  match m with
  | MConsumption name _ _ => ~ In name (map c_name (n_cons n))
  | MProduction name _ _ => ~ In name (map p_name (n_prods n))
  | MStorage name _ _ _ _ _ _ => ~ In name (map s_name (n_stors n))
  | _ => False
  end.

(** A node selector accepts every new element described by proper numbers. *)
Theorem C73_proper_element : forall w i, reachable w -> is_node_selector w i ->
  exists net nd n, selects w i net nd /\ node_at (w_study w) net nd = Some n /\
    forall m, proper_numbers m -> fresh_name n m -> snd (step w (OnSel i m)) = Ok tt.
Proof.
  intros w i R (a & H). pose proof (reachable_inv _ R) as IV.
  assert (HO : handle_ok (f_sels (w_fs w)) (HNode a)) by (apply IV; eapply nth_error_In; eauto). destruct HO as (net & nd & X).
  assert (S : selects w i net nd) by (unfold selects, selector_keys, selector_dict; rewrite H; exact X).
  assert (HN : has_node (w_study w) net nd) by (destruct (fi_sels _ (iv_fs _ IV) _ _ X net eq_refl); auto). apply has_node_iff in HN as (n & N).
  exists net, nd, n. split; auto. split; auto. intros m P F. apply C73_accepted_iff.
  assert (V : valid_element (w_study w) n m).
  { destruct m; try easy; cbn [proper_numbers fresh_name valid_element] in *.
    - destruct P as ((x & GX) & y & Y & L). split; auto. split; [eexists; eapply number_fits; eauto | eapply number_reaches; eauto].
    - destruct P as ((x & GX) & y & Y & L). split; auto. split; [eexists; eapply number_fits; eauto | eapply number_reaches; eauto].
    - destruct P as ((x & GX) & (a1 & A1 & L1) & (a2 & A2 & L2) & (a3 & A3 & L3) & L4 & a5 & A5 & L5 & L6). split; auto. split; [eexists; eapply number_fits; eauto |].
      split; [eapply number_reaches; eauto |]. split; [eapply number_reaches; eauto |]. split; [eapply number_reaches; eauto |]. split; auto.
      split; [eapply number_reaches; eauto | eapply number_stays; eauto]. }
  destruct m; try easy; cbn [valid_call]; (split; [now exists a |]); exists net, nd, n; auto.
Qed.

(** The signs of the maximum, of the cost and of a ratio of a converter are free. *)
Theorem C73_converter_signs : forall w i name net nd a b x y,
  is_selector w i -> has_node (w_study w) net nd -> conv_at (w_study w) name = None ->
  given_number a x -> given_number b y -> snd (step w (OnSel i (MConverter name net nd x y))) = Ok tt.
Proof.
  intros w i name net nd a b x y S HN C X Y. apply C73_accepted_iff. cbn [valid_call]. split; auto. split; auto.
  split; [eexists; eapply number_fits; eauto |]. split; [eexists; eapply number_fits; eauto |]. intros v V. congruence.
Qed.

(** A destination with a name cannot be replaced ... *)
Theorem C73_destination_once_partial : forall w i name net nd x y v,
  conv_at (w_study w) name = Some v -> v_dnet v <> "" -> v_dnode v <> "" ->
  snd (step w (OnSel i (MConverter name net nd x y))) <> Ok tt.
Proof.
  intros w i name net nd x y v C D1 D2 H. apply C73_accepted_iff in H. cbn [valid_call] in H. destruct H as (_ & _ & _ & _ & H).
  destruct (H v C); contradiction.
Qed.

(** ... but one in a network named by the empty string can. *)
Definition nameless_calls : list call :=
  [ OnStudy_network ""; OnSel 0 (MNode "a"); OnSel 1 (MConverter "cv" "" "a" (PJson (JNum 10)) (PJson (JNum 1)));
    OnStudy_network "net"; OnSel 3 (MNode "b") ].
Definition nameless : world := Eval vm_compute in run (start 1 1 None) nameless_calls.
Theorem C73_destination_once_refuted : exists w i name net nd x y v w',
  reachable w /\ conv_at (w_study w) name = Some v /\ v_max v <> None /\ has_node (w_study w) (v_dnet v) (v_dnode v) /\
  step w (OnSel i (MConverter name net nd x y)) = (w', Ok tt) /\
  exists v', conv_at (w_study w') name = Some v' /\ (v_dnet v', v_dnode v') <> (v_dnet v, v_dnode v).
Proof.
  exists nameless, 3, "cv", "net", "b", (PJson (JNum 5)), (PJson (JNum 2)). eexists. eexists.
  split; [exists 1, 1, None, nameless_calls; vm_compute; reflexivity |]. split; [vm_compute; reflexivity |]. split; [discriminate |].
  split; [vm_compute; discriminate |]. split; [vm_compute; reflexivity |]. eexists. split; [vm_compute; reflexivity |]. vm_compute. discriminate.
Qed.

(** Calls on the demonstration study: six accepted, six refused. *)
Example C73_example :
  valid_call demo_world (OnSel 3 (MProduction "wind" (PJson (JNum 0)) (PJson (JNum 3)))) /\
  valid_call demo_world (OnSel 3 (MStorage "bat" (PJson (JNum 5)) (PJson (JNum 1)) (PJson (JList [JNum (-1); JNum 2])) (PJson (JNum 0)) 2 (PJson (JNum 1)))) /\
  valid_call demo_world (OnSel 0 (MLink "a" "b" (PJson (JNum 1)) (PJson (JNum 1)))) /\
  valid_call demo_world (OnSel 3 (MToConverter "cv" (PJson (JNum (-2))))) /\
  valid_call demo_world (OnSel 0 (MConverter "cv" "elec" "a" (PJson (JNum (-2))) (PJson (JNum 0)))) /\
  valid_call demo_world (OnSel 3 (MNode "new")) /\
  ~ valid_call demo_world (OnSel 3 (MProduction "gas" (PJson (JNum 0)) (PJson (JNum 3)))) /\
  ~ valid_call demo_world (OnSel 0 (MProduction "wind" (PJson (JNum 0)) (PJson (JNum 3)))) /\
  ~ valid_call demo_world (OnSel 3 (MProduction "wind" (PJson (JNum 0)) (PJson (JList [JNum 1; JNum 2; JNum 3])))) /\
  ~ valid_call demo_world (OnSel 3 (MStorage "bat" (PJson (JNum 5)) (PJson (JNum 1)) (PJson (JNum 1)) (PJson (JNum 0)) 2 (PJson (JNum 2)))) /\
  ~ valid_call demo_world (OnSel 0 (MLink "b" "a" (PJson (JNum 1)) (PJson (JNum 1)))) /\
  ~ valid_call demo_world (OnSel 0 (MConverter "cv" "elec" "c" (PJson (JNum 2)) (PJson (JNum 0)))).
Proof.
  rewrite <- !C73_accepted_iff. repeat split; try (vm_compute; reflexivity); vm_compute; discriminate.
Qed.

Print Assumptions C73_accepted_iff.
Print Assumptions C73_proper_element.
Print Assumptions C73_converter_signs.
Print Assumptions C73_destination_once_partial.
Print Assumptions C73_destination_once_refuted.
