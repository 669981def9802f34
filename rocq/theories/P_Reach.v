(** Property C94: the studies that can be built with the API are exactly the valid ones. *)
From Coq Require Import String Ascii List ZArith QArith Bool Arith Lia Lqa.
From Verif Require Import Base BaseFacts Numeric Study Fluent SpecNumeric SpecStudy StudyFacts FluentFacts Output SpecJson Json JsonFacts
  LP SpecLP LPFacts P_LP SpecReach.
Import ListNotations.
Open Scope nat_scope.
Open Scope string_scope.
Open Scope list_scope.

(** ** Values *)
Definition arg_of (v : numval) : pyval :=
  match v with Scalar q _ _ => PJson (JNum q) | Row a _ _ | Column a _ _ | Matrix a _ _ => PArr a end.

Lemma arg_plain h n v : fits h n v -> plain_arg (arg_of v).
Proof.
  intros F. split; [destruct v; intros w; discriminate|]. destruct v; simpl in *; auto; unfold nd_wf.
  - destruct F as (_ & _ & _ & -> & ->). simpl. lia.
  - destruct F as (_ & _ & -> & ->). simpl. lia.
  - destruct F as (_ & _ & -> & ->). simpl. lia.
Qed.
Lemma arg_value h n v : fits h n v -> create h n (arg_of v) = Ok v.
Proof.
  intros F. destruct v; simpl in *.
  - destruct F; subst; reflexivity.
  - destruct F as (-> & -> & H & S & _). unfold create_arr. rewrite S. cbn [list_eqb]. rewrite andb_false_r, Nat.eqb_refl.
    apply Nat.eqb_neq in H. rewrite H, Nat.eqb_refl. reflexivity.
  - destruct F as (-> & -> & S & _). unfold create_arr. rewrite S, list_eqb_nat_refl. reflexivity.
  - destruct F as (-> & -> & S & _). unfold create_arr. rewrite S. cbn [list_eqb]. rewrite andb_false_r, Nat.eqb_refl. reflexivity.
Qed.
Lemma plain_other : plain_arg POther.
Proof. split; [intros v; discriminate | exact I]. Qed.

Lemma canon_fits h n v : nv_canon h n v -> fits h n v.
Proof.
  destruct v as [q h' n'|a h' n'|a h' n'|a h' n']; simpl; auto; intros [E W]; unfold create_arr in E; unfold nd_wf in W;
    destruct (list_eqb Nat.eqb (shape a) [h]) eqn:E1; [| destruct (list_eqb Nat.eqb (shape a) [n; 1]) eqn:E2; [| destruct (list_eqb Nat.eqb (shape a) [n; h]) eqn:E3] | | destruct (list_eqb Nat.eqb (shape a) [n; 1]) eqn:E2; [| destruct (list_eqb Nat.eqb (shape a) [n; h]) eqn:E3] | | destruct (list_eqb Nat.eqb (shape a) [n; 1]) eqn:E2; [| destruct (list_eqb Nat.eqb (shape a) [n; h]) eqn:E3]];
    try (destruct (shape a); discriminate); try discriminate; inversion E; subst.
  - apply list_eqb_nat in E3. repeat split; auto; rewrite E3 in *; [|simpl in W; lia].
    intros ->. simpl in E2. rewrite Nat.eqb_refl in E2. discriminate.
  - apply list_eqb_nat in E1. repeat split; auto. rewrite W, E1. simpl. lia.
  - apply list_eqb_nat in E2. repeat split; auto. rewrite W, E2. simpl. lia.
Qed.
Lemma below_lt v q : nv_lt v q = false <-> not_below q v.
Proof.
  unfold not_below. destruct v as [x h n|a h n|a h n|a h n]; simpl.
  - rewrite qlt_false. split; [intros H; exists x; auto | intros (y & [<-|[]] & H); auto].
  - split.
    + intros H. induction (data a) as [|y l IH]; simpl in H; [discriminate|]. apply andb_false_iff in H as [H|H].
      * exists y. split; [now left | now apply qlt_false].
      * destruct (IH H) as (z & I & Z). exists z. split; [now right | auto].
    + intros (y & I & H). apply not_true_is_false. intros T. rewrite forallb_forall in T. specialize (T _ I). apply qlt_lt in T. lra.
  - split.
    + intros H. induction (data a) as [|y l IH]; simpl in H; [discriminate|]. apply andb_false_iff in H as [H|H].
      * exists y. split; [now left | now apply qlt_false].
      * destruct (IH H) as (z & I & Z). exists z. split; [now right | auto].
    + intros (y & I & H). apply not_true_is_false. intros T. rewrite forallb_forall in T. specialize (T _ I). apply qlt_lt in T. lra.
  - split.
    + intros H. induction (data a) as [|y l IH]; simpl in H; [discriminate|]. apply andb_false_iff in H as [H|H].
      * exists y. split; [now left | now apply qlt_false].
      * destruct (IH H) as (z & I & Z). exists z. split; [now right | auto].
    + intros (y & I & H). apply not_true_is_false. intros T. rewrite forallb_forall in T. specialize (T _ I). apply qlt_lt in T. lra.
Qed.
Lemma above_gt v q : nv_gt v q = false <-> not_above q v.
Proof.
  assert (F : forall l, forallb (fun x => qlt q x) l = false <-> exists x, In x l /\ (x <= q)%Q).
  { intros l. split.
    - intros H. induction l as [|y l IH]; simpl in H; [discriminate|]. apply andb_false_iff in H as [H|H].
      + exists y. split; [now left | now apply qlt_false].
      + destruct (IH H) as (z & I & Z). exists z. split; [now right | auto].
    - intros (y & I & H). apply not_true_is_false. intros T. rewrite forallb_forall in T. specialize (T _ I). apply qlt_lt in T. lra. }
  unfold not_above. destruct v as [x h n|a h n|a h n|a h n]; simpl; auto.
  rewrite qlt_false. split; [intros H; exists x; auto | intros (y & [<-|[]] & H); auto].
Qed.

(** ** What a program can reach *)
Definition reach (s s' : study) : Prop := forall w, w_study w = s -> exists cs, plain_program cs /\ w_study (run w cs) = s'.

Lemma reach_refl s : reach s s.
Proof. intros w H. exists []. split; [intros c x []|exact H]. Qed.
Lemma plain_app a b : plain_program a -> plain_program b -> plain_program (a ++ b).
Proof. intros P Q c x I. apply in_app_or in I as [I|I]; [apply (P c x I) | apply (Q c x I)]. Qed.
Lemma reach_trans a b c : reach a b -> reach b c -> reach a c.
Proof.
  intros X Y w H. destruct (X w H) as (cs & P & E). destruct (Y _ E) as (ds & Q & F).
  exists (cs ++ ds). split; [now apply plain_app | now rewrite run_app].
Qed.
Lemma plain_one c : (forall x, In x (call_args c) -> plain_arg x) -> plain_program [c].
Proof. intros H d x [<-|[]]. apply H. Qed.
Lemma reach_one s s' c : (forall x, In x (call_args c) -> plain_arg x) ->
  (forall w, w_study w = s -> w_study (fst (step w c)) = s') -> reach s s'.
Proof. intros P H w E. exists [c]. split; [now apply plain_one | exact (H w E)]. Qed.

(** A selector on a node. *)
Lemma select w net nd : has_node (w_study w) net nd -> exists cs k a, plain_program cs /\ w_study (run w cs) = w_study w /\
  nth_error (w_handles (run w cs)) k = Some (HNode a) /\ nth_error (f_sels (w_fs (run w cs))) a = Some (Sel (Some net) (Some nd)).
Proof.
  intros H. destruct w as [[s sels] hs]. unfold w_study in *. simpl in H.
  exists [OnStudy_network net; OnSel (List.length hs) (MNode nd)], (S (List.length hs)), (List.length sels).
  split; [intros c x [<-|[<-|[]]] [] |].
  unfold has_node, node_at in H. destruct (dget net (st_networks s)) as [ns|] eqn:G; [|congruence].
  destruct (dget nd ns) as [x|] eqn:N; [|congruence].
  assert (E1 : add_network net s = (s, Ok tt)) by (unfold add_network, dmem; now rewrite G).
  assert (E2 : add_node net nd s = (s, Ok tt)) by (unfold add_node, sbind, nodes_of, dlook, dmem; rewrite G, N; reflexivity).
  unfold run. cbn [fold_left].
  assert (S1 : step (World (FS s sels) hs) (OnStudy_network net) = (World (FS s (sels ++ [Sel (Some net) None])) (hs ++ [HNet (List.length sels)]), Ok tt)).
  { unfold step. unfold fl_network, onstudy. cbn [f_study f_sels w_fs]. unfold sbind. cbn [f_study f_sels]. rewrite E1. reflexivity. }
  rewrite S1. cbn [fst].
  assert (S2 : step (World (FS s (sels ++ [Sel (Some net) None])) (hs ++ [HNet (List.length sels)])) (OnSel (List.length hs) (MNode nd))
    = (World (FS s (sels ++ [Sel (Some net) (Some nd)])) ((hs ++ [HNet (List.length sels)]) ++ [HNode (List.length sels)]), Ok tt)).
  { unfold step. cbn [w_handles w_fs]. rewrite nth_error_app2 by lia. rewrite Nat.sub_diag. cbn [nth_error fl_call].
    assert (U : upd_nth (List.length sels) (fun x => Sel (sel_net x) (Some nd)) (sels ++ [Sel (Some net) None]) = sels ++ [Sel (Some net) (Some nd)]).
    { clear. induction sels as [|y l IH]; simpl; [reflexivity | now f_equal]. }
    unfold fl_node, set_node_key. unfold sbind at 1. cbn [f_study f_sels]. rewrite U.
    unfold sbind at 1. rewrite key_network_eq. cbn [f_sels]. rewrite nth_error_app2 by lia. rewrite Nat.sub_diag. cbn [nth_error sel_net].
    unfold sbind, onstudy. cbn [f_study f_sels]. rewrite E2. reflexivity. }
  rewrite S2. cbn [fst w_fs f_study w_handles f_sels]. split; [reflexivity|]. split.
  - assert (L : forall (l : list handle) x k, k = List.length l -> nth_error (l ++ [x]) k = Some x).
    { clear. intros l x k ->. induction l; simpl; auto. }
    apply L. rewrite app_length. simpl. lia.
  - rewrite nth_error_app2 by lia. now rewrite Nat.sub_diag.
Qed.

(** A call made on a selector of a node. *)
Lemma reach_sel s s' net nd m : has_node s net nd -> (forall x, In x (meth_args m) -> plain_arg x) ->
  (forall fs a, f_study fs = s -> nth_error (f_sels fs) a = Some (Sel (Some net) (Some nd)) -> f_study (fst (fl_call (HNode a) m fs)) = s') ->
  reach s s'.
Proof.
  intros H P C w E. rewrite <- E in H. destruct (select w net nd H) as (cs & k & a & Pc & S1 & Hk & Ha).
  exists (cs ++ [OnSel k m]). split; [apply plain_app; [exact Pc | apply plain_one; exact P]|].
  rewrite run_app. set (w1 := run w cs) in *. unfold run. cbn [fold_left]. unfold step. rewrite Hk.
  specialize (C (w_fs w1) a). rewrite <- E, <- S1 in C. specialize (C eq_refl Ha).
  unfold push_handle. destruct (fl_call (HNode a) m (w_fs w1)) as [fs [h|e]]; simpl in *; unfold w_study; simpl; exact C.
Qed.
(** A call made on a selector of a network. *)
Lemma reach_net s s' net m : has_network s net -> (forall x, In x (meth_args m) -> plain_arg x) ->
  (forall fs a, f_study fs = s -> f_study (fst (fl_call (HNet a) m fs)) = s') -> reach s s'.
Proof.
  intros H P C w E. destruct w as [[s0 sels] hs]. unfold w_study in E. simpl in E. subst s0.
  exists [OnStudy_network net; OnSel (List.length hs) m]. split; [intros c x [<-|[<-|[]]]; [intros [] | apply P]|].
  assert (E1 : add_network net s = (s, Ok tt)).
  { unfold add_network, dmem. unfold has_network in H. destruct (dget net (st_networks s)); [reflexivity | congruence]. }
  unfold run. cbn [fold_left].
  assert (S1 : step (World (FS s sels) hs) (OnStudy_network net) = (World (FS s (sels ++ [Sel (Some net) None])) (hs ++ [HNet (List.length sels)]), Ok tt)).
  { unfold step. unfold fl_network, onstudy. cbn [f_study f_sels w_fs]. unfold sbind. cbn [f_study f_sels]. rewrite E1. reflexivity. }
  rewrite S1. cbn [fst]. unfold step. cbn [w_handles w_fs]. rewrite nth_error_app2 by lia. rewrite Nat.sub_diag. cbn [nth_error].
  specialize (C (FS s (sels ++ [Sel (Some net) None])) (List.length sels) eq_refl).
  unfold push_handle. destruct (fl_call _ m _) as [fs [h|e]]; simpl in *; unfold w_study; simpl; exact C.
Qed.

(** ** Nodes *)
Lemma updn_updn s net nd f g : updn (updn s net nd f) net nd g = updn s net nd (fun y => g (f y)).
Proof.
  unfold updn at 2 3. destruct (dget net (st_networks s)) as [ns|] eqn:G; [|unfold updn; now rewrite G].
  destruct (dget nd ns) as [x|] eqn:N; [|unfold updn; now rewrite G, N].
  unfold updn. simpl. rewrite dget_dset_eq, dget_dset_eq. unfold set_networks. simpl. now rewrite !dset_dset.
Qed.
Lemma updn_ext s net nd f g : (forall y, node_at s net nd = Some y -> f y = g y) -> updn s net nd f = updn s net nd g.
Proof.
  unfold updn, node_at. destruct (dget net (st_networks s)) as [ns|]; auto. destruct (dget nd ns) as [x|]; auto.
  intros H. now rewrite (H x eq_refl).
Qed.
Lemma updn_id s net nd f : (forall y, node_at s net nd = Some y -> f y = y) -> updn s net nd f = s.
Proof.
  unfold updn, node_at. destruct (dget net (st_networks s)) as [ns|] eqn:G; auto. destruct (dget nd ns) as [x|] eqn:N; auto.
  intros H. rewrite (H x eq_refl).
  assert (X : forall (V : Type) (k : string) (v : V) d, dget k d = Some v -> dset k v d = d).
  { clear. intros V k v d. induction d as [|[k' v'] r IH]; simpl; [discriminate|]. destruct (String.eqb k k') eqn:E.
    - intros X. inversion X; subst. reflexivity.
    - intros X. now rewrite IH. }
  rewrite (X node nd x ns N). pose proof (X network net ns (st_networks s) G) as Y. unfold set_networks. destruct s. simpl in *. f_equal. exact Y.
Qed.
Lemma updn_has s net nd f m d : has_node s m d -> has_node (updn s net nd f) m d.
Proof.
  intros H. destruct (updn_only s net nd f) as [_ ON _ _ _]. unfold has_node, node_at in *.
  destruct (dget m (st_networks s)) as [ns|] eqn:G; [|congruence]. destruct (ON _ _ G) as (ns' & -> & K).
  destruct (dget d ns) as [x|] eqn:N; [|congruence]. assert (I : In d (dkeys ns')) by (rewrite K; apply dget_In in N; apply in_map_iff; exists (d, x); auto).
  apply In_keys_dget in I as [y ->]. congruence.
Qed.
Lemma updn_dims s net nd f : st_horizon (updn s net nd f) = st_horizon s /\ st_nb_scn (updn s net nd f) = st_nb_scn s.
Proof. destruct (updn_only s net nd f) as [_ _ _ _ (A & B & C)]. auto. Qed.

Ltac nod := match goal with |- context [mem ?x ?l] => replace (mem x l) with false by (symmetry; apply mem_nIn; assumption) end.

Section Add.
  Variables (s : study) (net nd : string) (y : node).
  Hypothesis N : node_at s net nd = Some y.

  Lemma node_of_at : node_of net nd s = (s, Ok y).
  Proof.
    unfold node_of, sbind, nodes_of, slift, dlook. unfold node_at in N. destruct (dget net (st_networks s)); [|discriminate].
    now rewrite N.
  Qed.
  Lemma upd_node_at f : upd_node net nd f s = (updn s net nd f, Ok tt).
  Proof.
    pose proof (upd_node_spec net nd f s) as U. rewrite N in U. destruct U as (ns & G1 & G2 & ->). unfold updn. now rewrite G1, G2.
  Qed.
  Lemma here : has_node s net nd.
  Proof. unfold has_node. congruence. Qed.

  Lemma reach_cons c : good_cons (st_horizon s) (st_nb_scn s) c -> ~ In (c_name c) (map c_name (n_cons y)) -> reach s (updn s net nd (push_cons c)).
  Proof.
    intros (F1 & F2 & B) Nn. apply (reach_sel s _ net nd (MConsumption (c_name c) (arg_of (c_cost c)) (arg_of (c_qty c))) here).
    { intros x [<-|[<-|[]]]; eapply arg_plain; eauto. }
    intros fs a E S. cbn [fl_call]. unfold fl_consumption. rewrite (keys_bind a _ fs net nd S).
    unfold sbind at 1, onstudy. rewrite E.
    assert (X : add_consumption net nd (c_name c) (arg_of (c_cost c)) (arg_of (c_qty c)) s = (updn s net nd (push_cons c), Ok tt)).
    { unfold add_consumption. erewrite sbind_eq_ok by apply node_of_at. erewrite sbind_eq_ok by (unfold sguard; nod; reflexivity).
      erewrite sbind_eq_ok by (unfold mk; rewrite (arg_value _ _ _ F2); reflexivity).
      apply below_lt in B. erewrite sbind_eq_ok by (unfold sguard; rewrite B; reflexivity).
      erewrite sbind_eq_ok by (unfold mk; rewrite (arg_value _ _ _ F1); reflexivity).
      rewrite upd_node_at. destruct c; reflexivity. }
    rewrite X. reflexivity.
  Qed.
  Lemma reach_prod c : good_prod (st_horizon s) (st_nb_scn s) c -> ~ In (p_name c) (map p_name (n_prods y)) -> reach s (updn s net nd (push_prod c)).
  Proof.
    intros (F1 & F2 & B) Nn. apply (reach_sel s _ net nd (MProduction (p_name c) (arg_of (p_cost c)) (arg_of (p_qty c))) here).
    { intros x [<-|[<-|[]]]; eapply arg_plain; eauto. }
    intros fs a E S. cbn [fl_call]. unfold fl_production. rewrite (keys_bind a _ fs net nd S).
    unfold sbind at 1, onstudy. rewrite E.
    assert (X : add_production net nd (p_name c) (arg_of (p_cost c)) (arg_of (p_qty c)) s = (updn s net nd (push_prod c), Ok tt)).
    { unfold add_production. erewrite sbind_eq_ok by apply node_of_at. erewrite sbind_eq_ok by (unfold sguard; nod; reflexivity).
      erewrite sbind_eq_ok by (unfold mk; rewrite (arg_value _ _ _ F2); reflexivity).
      apply below_lt in B. erewrite sbind_eq_ok by (unfold sguard; rewrite B; reflexivity).
      erewrite sbind_eq_ok by (unfold mk; rewrite (arg_value _ _ _ F1); reflexivity).
      rewrite upd_node_at. destruct c; reflexivity. }
    rewrite X. reflexivity.
  Qed.
  Lemma reach_stor c : good_stor (st_horizon s) (st_nb_scn s) c -> ~ In (s_name c) (map s_name (n_stors y)) -> reach s (updn s net nd (push_stor c)).
  Proof.
    intros [(F1 & F2 & F3 & F4 & F5) (B1 & B2 & B3 & B4) B5 B6] Nn.
    apply (reach_sel s _ net nd (MStorage (s_name c) (arg_of (s_capacity c)) (arg_of (s_flow_in c)) (arg_of (s_flow_out c)) (arg_of (s_cost c)) (s_init c) (arg_of (s_eff c))) here).
    { intros x [<-|[<-|[<-|[<-|[<-|[]]]]]]; eapply arg_plain; eauto. }
    intros fs a E S. cbn [fl_call]. unfold fl_storage. rewrite (keys_bind a _ fs net nd S).
    unfold sbind at 1, onstudy. rewrite E.
    assert (X : add_storage net nd (s_name c) (arg_of (s_capacity c)) (arg_of (s_flow_in c)) (arg_of (s_flow_out c)) (arg_of (s_cost c)) (s_init c) (arg_of (s_eff c)) s = (updn s net nd (push_stor c), Ok tt)).
    { apply below_lt in B1, B2, B3, B4. apply above_gt in B5. apply qlt_false in B6.
      unfold add_storage. erewrite sbind_eq_ok by apply node_of_at. erewrite sbind_eq_ok by (unfold sguard; nod; reflexivity).
      erewrite sbind_eq_ok by (unfold mk; rewrite (arg_value _ _ _ F2); reflexivity).
      erewrite sbind_eq_ok by (unfold mk; rewrite (arg_value _ _ _ F3); reflexivity).
      erewrite sbind_eq_ok by (unfold sguard; rewrite B2, B3; reflexivity).
      erewrite sbind_eq_ok by (unfold mk; rewrite (arg_value _ _ _ F1); reflexivity).
      erewrite sbind_eq_ok by (unfold sguard; rewrite B1, B6; reflexivity).
      erewrite sbind_eq_ok by (unfold mk; rewrite (arg_value _ _ _ F5); reflexivity).
      erewrite sbind_eq_ok by (unfold sguard; rewrite B4, B5; reflexivity).
      erewrite sbind_eq_ok by (unfold mk; rewrite (arg_value _ _ _ F4); reflexivity).
      rewrite upd_node_at. destruct c; reflexivity. }
    rewrite X. reflexivity.
  Qed.
  Lemma reach_link c : good_link (st_horizon s) (st_nb_scn s) c -> has_node s net (l_dest c) -> ~ In (l_dest c) (map l_dest (n_links y)) -> reach s (updn s net nd (push_link c)).
  Proof.
    intros (F1 & F2 & B) D Nn. apply (reach_one s _ (OnStudy_add_link net nd (l_dest c) (arg_of (l_cost c)) (arg_of (l_qty c)))).
    { intros x [<-|[<-|[]]]; eapply arg_plain; eauto. }
    intros w E. unfold step, no_handle, w_study, onstudy. cbn [fst w_fs]. fold (w_study w). rewrite E.
    assert (X : add_link net nd (l_dest c) (arg_of (l_cost c)) (arg_of (l_qty c)) s = (updn s net nd (push_link c), Ok tt)).
    { pose proof N as N0. unfold add_link. unfold has_node in D. unfold node_at in D, N0. destruct (dget net (st_networks s)) as [ns|] eqn:G; [|discriminate].
      erewrite sbind_eq_ok by (unfold nodes_of, dlook; rewrite G; reflexivity).
      erewrite sbind_eq_ok by (unfold sguard, dmem; rewrite N0; reflexivity).
      destruct (dget (l_dest c) ns) as [z|] eqn:GD; [|congruence]. erewrite sbind_eq_ok by (unfold sguard, dmem; rewrite GD; reflexivity).
      erewrite sbind_eq_ok by (unfold slift, dlook; rewrite N0; reflexivity). erewrite sbind_eq_ok by (unfold sguard; nod; reflexivity).
      erewrite sbind_eq_ok by (unfold mk; rewrite (arg_value _ _ _ F2); reflexivity).
      apply below_lt in B. erewrite sbind_eq_ok by (unfold sguard; rewrite B; reflexivity).
      erewrite sbind_eq_ok by (unfold mk; rewrite (arg_value _ _ _ F1); reflexivity).
      rewrite upd_node_at. destruct c; reflexivity. }
    rewrite X. reflexivity.
  Qed.
End Add.

(** ** Filling a node *)
Ltac same_end H := match type of H with reach _ ?t => match goal with |- reach _ ?u => replace u with t; [exact H|] end end.
Lemma fill_cons l : forall s net nd y, node_at s net nd = Some y -> NoDup (map c_name (n_cons y ++ l)) ->
  Forall (good_cons (st_horizon s) (st_nb_scn s)) l ->
  reach s (updn s net nd (fun y => Node (n_cons y ++ l) (n_prods y) (n_stors y) (n_links y))).
Proof.
  induction l as [|c l IH]; intros s net nd y N D G.
  - rewrite updn_id; [apply reach_refl|]. intros z _. rewrite app_nil_r. destruct z; reflexivity.
  - inversion G as [|? ? G1 G2]; subst. eapply reach_trans; [apply (reach_cons s net nd y N c G1)|].
    + rewrite map_app in D. simpl in D. intros I. apply NoDup_remove_2 in D. apply D. apply in_or_app. now left.
    + destruct (updn_dims s net nd (push_cons c)) as [E1 E2].
      pose proof (IH (updn s net nd (push_cons c)) net nd (push_cons c y) (updn_node _ _ _ _ _ N)) as H.
      rewrite E1, E2, updn_updn in H. simpl in H. rewrite <- app_assoc in H. specialize (H D G2).
      same_end H. apply updn_ext. intros z _. simpl. now rewrite <- app_assoc.
Qed.
Lemma fill_prods l : forall s net nd y, node_at s net nd = Some y -> NoDup (map p_name (n_prods y ++ l)) ->
  Forall (good_prod (st_horizon s) (st_nb_scn s)) l ->
  reach s (updn s net nd (fun y => Node (n_cons y) (n_prods y ++ l) (n_stors y) (n_links y))).
Proof.
  induction l as [|c l IH]; intros s net nd y N D G.
  - rewrite updn_id; [apply reach_refl|]. intros z _. rewrite app_nil_r. destruct z; reflexivity.
  - inversion G as [|? ? G1 G2]; subst. eapply reach_trans; [apply (reach_prod s net nd y N c G1)|].
    + rewrite map_app in D. simpl in D. intros I. apply NoDup_remove_2 in D. apply D. apply in_or_app. now left.
    + destruct (updn_dims s net nd (push_prod c)) as [E1 E2].
      pose proof (IH (updn s net nd (push_prod c)) net nd (push_prod c y) (updn_node _ _ _ _ _ N)) as H.
      rewrite E1, E2, updn_updn in H. simpl in H. rewrite <- app_assoc in H. specialize (H D G2).
      same_end H. apply updn_ext. intros z _. simpl. now rewrite <- app_assoc.
Qed.
Lemma fill_stors l : forall s net nd y, node_at s net nd = Some y -> NoDup (map s_name (n_stors y ++ l)) ->
  Forall (good_stor (st_horizon s) (st_nb_scn s)) l ->
  reach s (updn s net nd (fun y => Node (n_cons y) (n_prods y) (n_stors y ++ l) (n_links y))).
Proof.
  induction l as [|c l IH]; intros s net nd y N D G.
  - rewrite updn_id; [apply reach_refl|]. intros z _. rewrite app_nil_r. destruct z; reflexivity.
  - inversion G as [|? ? G1 G2]; subst. eapply reach_trans; [apply (reach_stor s net nd y N c G1)|].
    + rewrite map_app in D. simpl in D. intros I. apply NoDup_remove_2 in D. apply D. apply in_or_app. now left.
    + destruct (updn_dims s net nd (push_stor c)) as [E1 E2].
      pose proof (IH (updn s net nd (push_stor c)) net nd (push_stor c y) (updn_node _ _ _ _ _ N)) as H.
      rewrite E1, E2, updn_updn in H. simpl in H. rewrite <- app_assoc in H. specialize (H D G2).
      same_end H. apply updn_ext. intros z _. simpl. now rewrite <- app_assoc.
Qed.
Lemma fill_links l : forall s net nd y, node_at s net nd = Some y -> NoDup (map l_dest (n_links y ++ l)) ->
  Forall (good_link (st_horizon s) (st_nb_scn s)) l -> (forall c, In c l -> has_node s net (l_dest c)) ->
  reach s (updn s net nd (fun y => Node (n_cons y) (n_prods y) (n_stors y) (n_links y ++ l))).
Proof.
  induction l as [|c l IH]; intros s net nd y N D G K.
  - rewrite updn_id; [apply reach_refl|]. intros z _. rewrite app_nil_r. destruct z; reflexivity.
  - inversion G as [|? ? G1 G2]; subst. eapply reach_trans; [apply (reach_link s net nd y N c G1)|].
    + apply K. now left.
    + rewrite map_app in D. simpl in D. intros I. apply NoDup_remove_2 in D. apply D. apply in_or_app. now left.
    + destruct (updn_dims s net nd (push_link c)) as [E1 E2].
      pose proof (IH (updn s net nd (push_link c)) net nd (push_link c y) (updn_node _ _ _ _ _ N)) as H.
      rewrite E1, E2, updn_updn in H. simpl in H. rewrite <- app_assoc in H. specialize (H D G2).
      assert (K' : forall d, In d l -> has_node (updn s net nd (push_link c)) net (l_dest d)) by (intros d I; apply updn_has; apply K; now right).
      specialize (H K'). same_end H. apply updn_ext. intros z _. simpl. now rewrite <- app_assoc.
Qed.

(** An empty node gets its contents. *)
Lemma fill_node s net nd x : node_at s net nd = Some empty_node -> good_node (st_horizon s) (st_nb_scn s) x ->
  NoDup (map c_name (n_cons x)) -> NoDup (map p_name (n_prods x)) -> NoDup (map s_name (n_stors x)) -> NoDup (map l_dest (n_links x)) ->
  (forall l, In l (n_links x) -> has_node s net (l_dest l)) -> reach s (updn s net nd (fun _ => x)).
Proof.
  intros N [G1 G2 G3 G4] D1 D2 D3 D4 K.
  pose proof (fill_cons (n_cons x) s net nd _ N D1 G1) as R1.
  set (s1 := updn s net nd _) in R1. pose proof (updn_node s net nd (fun y => Node (n_cons y ++ n_cons x) (n_prods y) (n_stors y) (n_links y)) _ N) as N1. fold s1 in N1.
  destruct (updn_dims s net nd (fun y => Node (n_cons y ++ n_cons x) (n_prods y) (n_stors y) (n_links y))) as [A1 B1]. fold s1 in A1, B1.
  rewrite <- A1, <- B1 in G2, G3, G4. pose proof (fill_prods (n_prods x) s1 net nd _ N1 D2 G2) as R2.
  set (s2 := updn s1 net nd _) in R2. pose proof (updn_node s1 net nd (fun y => Node (n_cons y) (n_prods y ++ n_prods x) (n_stors y) (n_links y)) _ N1) as N2. fold s2 in N2.
  destruct (updn_dims s1 net nd (fun y => Node (n_cons y) (n_prods y ++ n_prods x) (n_stors y) (n_links y))) as [A2 B2]. fold s2 in A2, B2.
  rewrite <- A2, <- B2 in G3, G4. pose proof (fill_stors (n_stors x) s2 net nd _ N2 D3 G3) as R3.
  set (s3 := updn s2 net nd _) in R3. pose proof (updn_node s2 net nd (fun y => Node (n_cons y) (n_prods y) (n_stors y ++ n_stors x) (n_links y)) _ N2) as N3. fold s3 in N3.
  destruct (updn_dims s2 net nd (fun y => Node (n_cons y) (n_prods y) (n_stors y ++ n_stors x) (n_links y))) as [A3 B3]. fold s3 in A3, B3.
  rewrite <- A3, <- B3 in G4. pose proof (fill_links (n_links x) s3 net nd _ N3 D4 G4) as R4.
  assert (K3 : forall c, In c (n_links x) -> has_node s3 net (l_dest c)) by (intros c I; do 3 apply updn_has; auto).
  specialize (R4 K3). set (s4 := updn s3 net nd _) in R4.
  assert (E : s4 = updn s net nd (fun _ => x)).
  { unfold s4, s3, s2, s1. rewrite !updn_updn. apply updn_ext. intros y Y. rewrite N in Y. inversion Y; subst. simpl. destruct x; reflexivity. }
  rewrite <- E. eapply reach_trans; [exact R1|]. eapply reach_trans; [exact R2|]. eapply reach_trans; [exact R3 | exact R4].
Qed.

(** ** Networks *)
Lemma dset_at {V} (pre post : dict string V) k v w : ~ In k (dkeys pre) -> dset k v (pre ++ (k, w) :: post) = pre ++ (k, v) :: post.
Proof.
  induction pre as [|[k' u] r IH]; simpl; intros H.
  - now rewrite String.eqb_refl.
  - destruct (String.eqb k k') eqn:E; [apply String.eqb_eq in E; subst; tauto|]. rewrite IH; auto.
Qed.
Lemma dget_at {V} (pre post : dict string V) k w : ~ In k (dkeys pre) -> dget k (pre ++ (k, w) :: post) = Some w.
Proof.
  induction pre as [|[k' u] r IH]; simpl; intros H.
  - now rewrite String.eqb_refl.
  - destruct (String.eqb k k') eqn:E; [apply String.eqb_eq in E; subst; tauto|]. apply IH; auto.
Qed.

Section Networks.
  Variables (version : string) (convs : dict string converter) (h n : nat).
  Definition with_nets (d : dict string network) : study := Study version d convs h n.

  Lemma reach_network done net : ~ In net (dkeys done) -> reach (with_nets done) (with_nets (done ++ [(net, [])])).
  Proof.
    intros Nn. apply (reach_one _ _ (OnStudy_add_network net)); [intros x []|].
    intros w E. unfold step, no_handle, w_study, onstudy. cbn [fst w_fs]. fold (w_study w). rewrite E, add_network_eq.
    unfold add_network_eff. simpl. replace (dmem net done) with false by (symmetry; now apply dmem_false). reflexivity.
  Qed.

  (** Empty nodes. *)
  Lemma reach_nodes done net : ~ In net (dkeys done) -> forall ks (ns : network), NoDup (dkeys ns ++ ks) ->
    reach (with_nets (done ++ [(net, ns)])) (with_nets (done ++ [(net, ns ++ map (fun k => (k, empty_node)) ks)])).
  Proof.
    intros Nn ks. induction ks as [|k ks IH]; intros ns D; simpl; [rewrite app_nil_r; apply reach_refl|].
    eapply reach_trans with (b := with_nets (done ++ [(net, ns ++ [(k, empty_node)])])).
    - apply (reach_one _ _ (OnStudy_add_node net k)); [intros x []|].
      intros w E. unfold step, no_handle, w_study, onstudy. cbn [fst w_fs]. fold (w_study w). rewrite E.
      assert (G : dget net (done ++ [(net, ns)]) = Some ns) by (now apply dget_at).
      rewrite add_node_eq by (unfold has_network, with_nets; simpl; congruence).
      unfold add_node_eff, with_nets. simpl. rewrite G.
      replace (dmem k ns) with false by (symmetry; apply dmem_false; apply NoDup_remove_2 in D; intros I; apply D; apply in_or_app; now left).
      unfold set_networks. simpl. now rewrite dset_at.
    - specialize (IH (ns ++ [(k, empty_node)])). rewrite <- app_assoc in IH. apply IH. rewrite dkeys_app. simpl. rewrite <- app_assoc. exact D.
  Qed.

  (** Their contents. *)
  Lemma reach_contents done net : ~ In net (dkeys done) -> forall (todo pre : network), NoDup (dkeys (pre ++ todo)) ->
    (forall nd x, In (nd, x) todo -> good_node h n x /\ NoDup (map c_name (n_cons x)) /\ NoDup (map p_name (n_prods x)) /\
       NoDup (map s_name (n_stors x)) /\ NoDup (map l_dest (n_links x)) /\ forall l, In l (n_links x) -> In (l_dest l) (dkeys (pre ++ todo))) ->
    reach (with_nets (done ++ [(net, pre ++ map (fun k => (k, empty_node)) (dkeys todo))])) (with_nets (done ++ [(net, pre ++ todo)])).
  Proof.
    intros Nn todo. induction todo as [|[nd x] todo IH]; intros pre D H; simpl; [apply reach_refl|].
    assert (P : ~ In nd (dkeys pre)).
    { rewrite dkeys_app in D. simpl in D. apply NoDup_remove_2 in D. intros I. apply D. apply in_or_app. now left. }
    eapply reach_trans with (b := with_nets (done ++ [(net, pre ++ (nd, x) :: map (fun k => (k, empty_node)) (dkeys todo))])).
    - destruct (H nd x (or_introl eq_refl)) as (G & D1 & D2 & D3 & D4 & K).
      set (s := with_nets _). assert (G1 : dget net (st_networks s) = Some (pre ++ (nd, empty_node) :: map (fun k => (k, empty_node)) (dkeys todo))) by (now apply dget_at).
      assert (G2 : dget nd (pre ++ (nd, empty_node) :: map (fun k => (k, empty_node)) (dkeys todo)) = Some empty_node) by (now apply dget_at).
      assert (N : node_at s net nd = Some empty_node) by (unfold node_at; now rewrite G1).
      pose proof (fill_node s net nd x N G D1 D2 D3 D4) as R.
      assert (E : updn s net nd (fun _ => x) = with_nets (done ++ [(net, pre ++ (nd, x) :: map (fun k => (k, empty_node)) (dkeys todo))])).
      { unfold updn. rewrite G1, G2. rewrite dset_at by auto. unfold s, set_networks, with_nets. simpl. now rewrite dset_at. }
      rewrite E in R. apply R. intros l I. specialize (K l I). unfold has_node, node_at. rewrite G1.
      assert (J : In (l_dest l) (dkeys (pre ++ (nd, empty_node) :: map (fun k => (k, empty_node)) (dkeys todo)))).
      { rewrite dkeys_app in *. simpl in *. replace (dkeys (map (fun k => (k, empty_node)) (dkeys todo))) with (dkeys todo); [exact K|].
        unfold dkeys. rewrite map_map. simpl. now rewrite map_id. }
      apply In_keys_dget in J as [z ->]. congruence.
    - specialize (IH (pre ++ [(nd, x)])). rewrite <- !app_assoc in IH. simpl in IH. apply IH; [exact D|].
      intros nd' x' I. apply (H nd' x'). now right.
  Qed.

  Lemma reach_nets todo : forall done, NoDup (dkeys (done ++ todo)) ->
    (forall net ns, In (net, ns) todo -> NoDup (dkeys ns) /\ forall nd x, In (nd, x) ns -> good_node h n x /\ NoDup (map c_name (n_cons x)) /\
       NoDup (map p_name (n_prods x)) /\ NoDup (map s_name (n_stors x)) /\ NoDup (map l_dest (n_links x)) /\
       forall l, In l (n_links x) -> In (l_dest l) (dkeys ns)) ->
    reach (with_nets done) (with_nets (done ++ todo)).
  Proof.
    induction todo as [|[net ns] todo IH]; intros done D H; [rewrite app_nil_r; apply reach_refl|].
    assert (P : ~ In net (dkeys done)).
    { rewrite dkeys_app in D. simpl in D. apply NoDup_remove_2 in D. intros I. apply D. apply in_or_app. now left. }
    destruct (H net ns (or_introl eq_refl)) as [Dn Hn].
    eapply reach_trans; [apply (reach_network done net P)|].
    eapply reach_trans; [apply (reach_nodes done net P (dkeys ns) []); exact Dn|].
    eapply reach_trans; [apply (reach_contents done net P ns []); [exact Dn | exact Hn] |].
    simpl. specialize (IH (done ++ [(net, ns)])). rewrite <- app_assoc in IH. apply IH; [exact D|]. intros m ms I. apply (H m ms). now right.
  Qed.
End Networks.

(** ** Converters *)
Section Converters.
  Variables (version : string) (nets : dict string network) (h n : nat).
  Definition with_convs (d : dict string converter) : study := Study version nets d h n.
  Hypothesis some_net : nets <> [].

  (** A name that no node of a network has. *)
  Fixpoint unused (l : list string) : string := match l with [] => "x" | k :: r => (k ++ unused r)%string end.
  Lemma unused_longer l : forall k, In k l -> String.length k < String.length (unused l).
  Proof.
    assert (P : forall l, 0 < String.length (unused l)) by (induction l0; simpl; [lia|]; rewrite append_length; lia).
    induction l as [|a r IH]; intros k I; [destruct I|]. simpl. rewrite append_length. destruct I as [->|I]; [specialize (P r); lia|].
    specialize (IH k I). lia.
  Qed.
  Lemma unused_new l : ~ In (unused l) l.
  Proof. intros I. apply unused_longer in I. lia. Qed.

  Lemma reach_fresh done name : ~ In name (dkeys done) -> reach (with_convs done) (with_convs (done ++ [(name, Conv name [] "" "" None None)])).
  Proof.
    intros Nn. destruct nets as [|[net ns] r] eqn:En; [congruence|].
    apply (reach_net _ _ net (MConverter name net (unused (dkeys ns)) POther POther)).
    - unfold has_network, with_convs. simpl. rewrite En. simpl. rewrite String.eqb_refl. congruence.
    - intros x [<-|[<-|[]]]; apply plain_other.
    - intros fs a E. cbn [fl_call]. unfold fl_converter, do_converter. unfold onstudy at 1.
      assert (X : (add_converter name;; set_converter_dest name net (unused (dkeys ns)) POther POther) (f_study fs)
                  = (with_convs (done ++ [(name, Conv name [] "" "" None None)]), Err ValueError)).
      { rewrite E. erewrite sbind_eq_ok by apply add_converter_eq. unfold add_converter_eff. simpl.
        replace (dmem name done) with false by (symmetry; now apply dmem_false). unfold set_converter_dest.
        set (s1 := set_converters _ _). assert (C : conv_at s1 name = Some (Conv name [] "" "" None None)) by (unfold conv_at; simpl; now apply dget_at).
        erewrite sbind_eq_ok by (unfold conv_of, dlook; unfold conv_at in C; rewrite C; reflexivity).
        erewrite sbind_eq_ok by reflexivity. erewrite sbind_eq_ok by reflexivity.
        erewrite sbind_eq_err; [reflexivity|]. unfold sguard. unfold s1, set_converters, with_convs. simpl. rewrite En. simpl. rewrite String.eqb_refl.
        replace (dmem (unused (dkeys ns)) ns) with false by (symmetry; apply dmem_false; apply unused_new). reflexivity. }
      unfold sbind at 1. rewrite X. reflexivity.
  Qed.

  (** Its sources. *)
  Lemma reach_sources done name : ~ In name (dkeys done) -> forall todo v, v_name v = name -> NoDup (dkeys (v_src v ++ todo)) ->
    Forall (fun kr => fits h n (snd kr)) todo -> (forall net nd, In (net, nd) (dkeys todo) -> has_node (with_convs []) net nd) ->
    reach (with_convs (done ++ [(name, v)])) (with_convs (done ++ [(name, Conv name (v_src v ++ todo) (v_dnet v) (v_dnode v) (v_cost v) (v_max v))])).
  Proof.
    intros Nn todo. induction todo as [|[[net nd] r] todo IH]; intros v Ev D F H.
    - rewrite app_nil_r. subst name. destruct v; apply reach_refl.
    - inversion F as [|? ? F1 F2]; subst. simpl in F1.
      eapply reach_trans with (b := with_convs (done ++ [(v_name v, Conv (v_name v) (v_src v ++ [((net, nd), r)]) (v_dnet v) (v_dnode v) (v_cost v) (v_max v))])).
      + apply (reach_sel _ _ net nd (MToConverter (v_name v) (arg_of r))).
        * apply (H net nd). now left.
        * intros x [<-|[]]. eapply arg_plain; eauto.
        * intros fs a E S. cbn [fl_call]. unfold fl_to_converter.
          assert (C : conv_at (f_study fs) (v_name v) = Some v) by (rewrite E; unfold conv_at; simpl; now apply dget_at).
          assert (A : add_converter (v_name v) (f_study fs) = (f_study fs, Ok tt)).
          { unfold add_converter, dmem. unfold conv_at in C. now rewrite C. }
          unfold onstudy at 1. unfold sbind at 1. rewrite A. replace (FS (f_study fs) (f_sels fs)) with fs by (destruct fs; reflexivity).
          rewrite (keys_bind a _ fs net nd S). unfold sbind at 1. unfold onstudy.
          assert (X : add_converter_src (v_name v) net nd (arg_of r) (f_study fs)
                      = (with_convs (done ++ [(v_name v, Conv (v_name v) (v_src v ++ [((net, nd), r)]) (v_dnet v) (v_dnode v) (v_cost v) (v_max v))]), Ok tt)).
          { unfold add_converter_src. erewrite sbind_eq_ok by (unfold conv_of, dlook; unfold conv_at in C; rewrite C; reflexivity).
            assert (NI : ~ In (net, nd) (dkeys (v_src v))).
            { unfold dkeys in *. rewrite map_app in D. simpl in D. apply NoDup_remove_2 in D. intros I. apply D. apply in_or_app. now left. }
            erewrite sbind_eq_ok by (unfold sguard; replace (dmem (net, nd) (v_src v)) with false by (symmetry; now apply dmem_false); reflexivity).
            assert (F1' : fits (st_horizon (f_study fs)) (st_nb_scn (f_study fs)) r) by (rewrite E; exact F1).
            erewrite sbind_eq_ok by (unfold mk; rewrite (arg_value _ _ _ F1'); reflexivity).
            erewrite upd_conv_eq by exact C. unfold updc. rewrite C. rewrite (dset_fresh (net, nd) r (v_src v) NI).
            rewrite E. unfold set_converters, with_convs. simpl. now rewrite dset_at. }
          rewrite X. reflexivity.
      + specialize (IH (Conv (v_name v) (v_src v ++ [((net, nd), r)]) (v_dnet v) (v_dnode v) (v_cost v) (v_max v)) eq_refl).
        simpl in IH. rewrite <- app_assoc in IH. simpl in IH. apply IH; [exact D | exact F2 |]. intros m d I. apply H. now right.
  Qed.

  (** Its destination. *)
  Definition arg_opt (o : option numval) : pyval := match o with Some v => arg_of v | None => POther end.
  Lemma reach_dest done name src net nd c m : ~ In name (dkeys done) -> has_node (with_convs []) net nd ->
    fits_opt h n c -> fits_opt h n m -> (m <> None -> c <> None) ->
    reach (with_convs (done ++ [(name, Conv name src "" "" None None)])) (with_convs (done ++ [(name, Conv name src net nd c m)])).
  Proof.
    intros Nn HN Fc Fm O. destruct nets as [|[net0 ns0] r0] eqn:En; [congruence|].
    apply (reach_net _ _ net0 (MConverter name net nd (arg_opt m) (arg_opt c))).
    - unfold has_network, with_convs. simpl. rewrite En. simpl. rewrite String.eqb_refl. congruence.
    - assert (P : forall o, fits_opt h n o -> plain_arg (arg_opt o)) by (intros [v|] F; [eapply arg_plain; eauto | apply plain_other]).
      intros x [<-|[<-|[]]]; auto.
    - intros fs a E. cbn [fl_call]. unfold fl_converter, do_converter.
      set (v0 := Conv name src "" "" None None) in *.
      assert (C : conv_at (f_study fs) name = Some v0) by (rewrite E; unfold conv_at; simpl; now apply dget_at).
      assert (A : add_converter name (f_study fs) = (f_study fs, Ok tt)).
      { unfold add_converter, dmem. unfold conv_at in C. now rewrite C. }
      assert (X : fst ((add_converter name;; set_converter_dest name net nd (arg_opt c) (arg_opt m)) (f_study fs))
                  = with_convs (done ++ [(name, Conv name src net nd c m)])).
      { erewrite sbind_eq_ok by exact A.
        assert (HN' : has_node (f_study fs) net nd) by (rewrite E; exact HN).
        assert (W : forall o, fits_opt h n o -> create (st_horizon (f_study fs)) (st_nb_scn (f_study fs)) (arg_opt o)
                    = match o with Some v => Ok v | None => Err ValueError end).
        { rewrite E. simpl. intros [v|] F; [apply arg_value; exact F | reflexivity]. }
        destruct (set_converter_dest name net nd (arg_opt c) (arg_opt m) (f_study fs)) as [s' res] eqn:SD.
        assert (U : forall f v', f v0 = v' -> updc (f_study fs) name f = with_convs (done ++ [(name, v')])).
        { intros f v' <-. unfold updc. rewrite C, E. unfold set_converters, with_convs. simpl. now rewrite dset_at. }
        clear A. unfold set_converter_dest in SD.
        erewrite sbind_eq_ok in SD by (unfold conv_of, dlook; unfold conv_at in C; rewrite C; reflexivity).
        erewrite sbind_eq_ok in SD by reflexivity. erewrite sbind_eq_ok in SD by reflexivity.
        erewrite sbind_eq_ok in SD.
        2: { unfold sguard. unfold has_node, node_at in HN'. destruct (dget net (st_networks (f_study fs))) as [ms|]; [|congruence].
             unfold dmem. destruct (dget nd ms); [reflexivity | congruence]. }
        erewrite sbind_eq_ok in SD by (eapply upd_conv_eq; exact C).
        erewrite sbind_eq_ok in SD by (eapply upd_conv_eq; eapply updc_conv; exact C).
        rewrite updc_updc in SD. cbn [v_name v_src v_dnet v_dnode v_cost v_max] in SD.
        set (f1 := fun v => Conv (v_name v) (v_src v) net nd (v_cost v) (v_max v)) in SD.
        destruct (updc_dims (f_study fs) name f1) as (D1 & D2 & _).
        destruct c as [c|].
        2: { destruct m as [m|]; [exfalso; apply O; congruence|].
             erewrite sbind_eq_err in SD by (unfold mk; rewrite D1, D2, (W None Fc); reflexivity).
             injection SD as <- _. simpl. now apply U. }
        erewrite sbind_eq_ok in SD by (unfold mk; rewrite D1, D2, (W (Some c) Fc); reflexivity).
        erewrite sbind_eq_ok in SD by (eapply upd_conv_eq; eapply updc_conv; exact C).
        rewrite updc_updc in SD. unfold f1 in SD. cbn [v_name v_src v_dnet v_dnode v_cost v_max] in SD.
        set (f2 := fun v => Conv (v_name v) (v_src v) net nd (Some c) (v_max v)) in SD.
        destruct (updc_dims (f_study fs) name f2) as (D3 & D4 & _).
        destruct m as [m|].
        2: { erewrite sbind_eq_err in SD by (unfold mk; rewrite D3, D4, (W None Fm); reflexivity).
             injection SD as <- _. simpl. now apply U. }
        erewrite sbind_eq_ok in SD by (unfold mk; rewrite D3, D4, (W (Some m) Fm); reflexivity).
        erewrite upd_conv_eq in SD by (eapply updc_conv; exact C). rewrite updc_updc in SD.
        injection SD as <- _. simpl. now apply U. }
      rewrite <- X. unfold onstudy at 1. unfold sbind at 1.
      destruct ((add_converter name;; set_converter_dest name net nd (arg_opt c) (arg_opt m)) (f_study fs)) as [s' [u|e]]; reflexivity.
  Qed.

  Lemma reach_convs todo : forall done, NoDup (dkeys (done ++ todo)) ->
    (forall name v, In (name, v) todo -> good_conv h n v /\ conv_wf (with_convs []) name v) ->
    reach (with_convs done) (with_convs (done ++ todo)).
  Proof.
    induction todo as [|[name v] todo IH]; intros done D H; [rewrite app_nil_r; apply reach_refl|].
    assert (P : ~ In name (dkeys done)).
    { rewrite dkeys_app in D. simpl in D. apply NoDup_remove_2 in D. intros I. apply D. apply in_or_app. now left. }
    destruct (H name v (or_introl eq_refl)) as [[G1 G2 G3 G4] [W1 W2 W3 W4]].
    eapply reach_trans; [apply (reach_fresh done name P)|].
    eapply reach_trans; [apply (reach_sources done name P (v_src v) (Conv name [] "" "" None None) eq_refl); [exact W2 | exact G1 | exact W3] |].
    simpl. eapply reach_trans with (b := with_convs (done ++ [(name, v)])).
    - destruct W4 as [(A1 & A2 & A3 & A4) | W4].
      + replace v with (Conv name (v_src v) "" "" None None) at 2; [apply reach_refl|]. destruct v; simpl in *; subst; reflexivity.
      + pose proof (reach_dest done name (v_src v) (v_dnet v) (v_dnode v) (v_cost v) (v_max v) P W4 G2 G3 G4) as R.
        replace (Conv name (v_src v) (v_dnet v) (v_dnode v) (v_cost v) (v_max v)) with v in R; [exact R|]. destruct v; simpl in *; subst; reflexivity.
    - specialize (IH (done ++ [(name, v)])). rewrite <- app_assoc in IH. apply IH; [exact D|]. intros m u I. apply (H m u). now right.
  Qed.
End Converters.

(** ** Every valid study can be built *)
Theorem C94_valid_is_built : forall s, valid_study s -> api_study s.
Proof.
  intros [version nets convs h n] [Hh Hn Hv W Vn Vc Vs]. simpl in *.
  assert (R1 : reach (with_nets version [] h n []) (with_nets version [] h n nets)).
  { apply (reach_nets version [] h n nets []); [apply (wf_networks _ W)|].
    intros net ns I. assert (G : dget net nets = Some ns) by (apply In_dget; [apply (wf_networks _ W) | exact I]).
    assert (Dn : NoDup (dkeys ns)) by (apply (wf_nodes _ W net ns); exact G). split; [exact Dn|].
    intros nd x J. assert (N : node_at (Study version nets convs h n) net nd = Some x).
    { unfold node_at. simpl. rewrite G. now apply In_dget. }
    split; [exact (Vn net nd x N)|]. destruct (wf_node _ W net nd x N) as [A1 A2 A3 A4 A5].
    do 4 (split; [assumption|]). intros l L. specialize (A5 l L). unfold has_node, node_at in A5. simpl in A5. rewrite G in A5.
    destruct (dget (l_dest l) ns) as [z|] eqn:Z; [|congruence]. now apply dget_In_keys in Z. }
  assert (R2 : reach (with_convs version nets h n []) (with_convs version nets h n convs)).
  { destruct convs as [|c0 r0]; [apply reach_refl|].
    apply (reach_convs version nets h n) with (done := []) (todo := c0 :: r0); [apply Vs; discriminate | apply (wf_convs _ W) |].
    intros name v I. assert (C : conv_at (Study version nets (c0 :: r0) h n) name = Some v).
    { unfold conv_at. apply In_dget; [apply (wf_convs _ W) | exact I]. }
    split; [exact (Vc name v C)|]. destruct (wf_conv _ W name v C) as [B1 B2 B3 B4]. constructor; auto. }
  destruct (R1 (start h n (Some version))) as (cs & P & E).
  { unfold start, w_study, new_study, with_nets. simpl. apply String.eqb_neq in Hv. now rewrite Hv. }
  destruct (R2 _ E) as (ds & Q & F). exists h, n, (Some version), (cs ++ ds).
  split; [exact Hh|]. split; [exact Hn|]. split; [now apply plain_app|]. rewrite run_app. symmetry. exact F.
Qed.

(** ** Every study built is valid *)
Record sound_data (s : study) : Prop := {
  sd_node : forall net nd x, node_at s net nd = Some x -> good_node (st_horizon s) (st_nb_scn s) x;
  sd_conv : forall name v, conv_at s name = Some v -> good_conv (st_horizon s) (st_nb_scn s) v
}.
Definition dkeeps {A} (m : ST study A) : Prop := forall s s' r, m s = (s', r) -> sound_data s -> sound_data s'.
Lemma dkeeps_bind {A B} (m : ST study A) (k : A -> ST study B) : dkeeps m -> (forall a, dkeeps (k a)) -> dkeeps (sbind m k).
Proof.
  intros M K s s' r H C. unfold sbind in H. destruct (m s) as [s1 [a|e]] eqn:E; [eapply K; eauto | inversion H; subst; eauto].
Qed.
Lemma data_updn s net nd n f : sound_data s -> node_at s net nd = Some n -> good_node (st_horizon s) (st_nb_scn s) (f n) -> sound_data (updn s net nd f).
Proof.
  intros [A B] N G. destruct (updn_only s net nd f) as [_ _ O C (D1 & D2 & D3)]. constructor.
  - intros m d x. rewrite D2, D3. destruct (string_dec m net) as [->|NM]; [destruct (string_dec d nd) as [->|ND]|].
    + rewrite (updn_node _ _ _ _ _ N). intros E; inversion E; subst. exact G.
    + rewrite O by congruence. apply A.
    + rewrite O by congruence. apply A.
  - intros name v. unfold conv_at. rewrite C, D2, D3. apply B.
Qed.
Lemma data_updc s name f v : sound_data s -> conv_at s name = Some v -> good_conv (st_horizon s) (st_nb_scn s) (f v) -> sound_data (updc s name f).
Proof.
  intros [A B] N G. destruct (updc_only s name f) as [C O (D1 & D2 & D3)]. constructor.
  - intros m d x. unfold node_at. rewrite C, D2, D3. apply A.
  - intros m u. rewrite D2, D3. destruct (string_dec m name) as [->|NM].
    + rewrite (updc_conv _ _ _ _ N). intros E; inversion E; subst. exact G.
    + rewrite O by auto. apply B.
Qed.
Lemma created h n x v : create h n x = Ok v -> plain_arg x -> fits h n v.
Proof. intros E P. apply canon_fits. eapply create_canon; eauto. Qed.

Lemma add_link_dkeeps net src dest c q : plain_arg c -> plain_arg q -> dkeeps (add_link net src dest c q).
Proof.
  intros Pc Pq s s' [[]|e] H C; [|apply add_link_atomic in H; subst; auto].
  apply add_link_ok in H as (n & vq & vc & N & D & F & Eq & L & Ec & ->). eapply data_updn; eauto. destruct C as [A _]. destruct (A _ _ _ N).
  constructor; simpl; auto. apply Forall_app. split; auto. constructor; auto. split; [|split]; simpl; try (eapply created; eauto; fail). now apply below_lt.
Qed.
Lemma add_production_dkeeps net nd name c q : plain_arg c -> plain_arg q -> dkeeps (add_production net nd name c q).
Proof.
  intros Pc Pq s s' [[]|e] H C; [|apply add_production_atomic in H; subst; auto].
  apply add_production_ok in H as (n & vq & vc & N & F & Eq & L & Ec & ->). eapply data_updn; eauto. destruct C as [A _]. destruct (A _ _ _ N).
  constructor; simpl; auto. apply Forall_app. split; auto. constructor; auto. split; [|split]; simpl; try (eapply created; eauto; fail). now apply below_lt.
Qed.
Lemma add_consumption_dkeeps net nd name c q : plain_arg c -> plain_arg q -> dkeeps (add_consumption net nd name c q).
Proof.
  intros Pc Pq s s' [[]|e] H C; [|apply add_consumption_atomic in H; subst; auto].
  apply add_consumption_ok in H as (n & vq & vc & N & F & Eq & L & Ec & ->). eapply data_updn; eauto. destruct C as [A _]. destruct (A _ _ _ N).
  constructor; simpl; auto. apply Forall_app. split; auto. constructor; auto. split; [|split]; simpl; try (eapply created; eauto; fail). now apply below_lt.
Qed.
Lemma add_storage_dkeeps net nd name ca fi fo c i e : plain_arg ca -> plain_arg fi -> plain_arg fo -> plain_arg c -> plain_arg e ->
  dkeeps (add_storage net nd name ca fi fo c i e).
Proof.
  intros P1 P2 P3 P4 P5 s s' [[]|x] H C; [|apply add_storage_atomic in H; subst; auto].
  apply add_storage_ok in H as (n & vca & vfi & vfo & vc & ve & N & F & E1 & E2 & E3 & E4 & E5 & L1 & L2 & L3 & L4 & L5 & L6 & ->).
  eapply data_updn; eauto. destruct C as [A _]. destruct (A _ _ _ N).
  constructor; simpl; auto. apply Forall_app. split; auto. constructor; auto. constructor; simpl.
  - repeat split; eapply created; eauto.
  - apply below_lt in L1, L2, L3, L5. auto.
  - now apply above_gt.
  - now apply qlt_false.
Qed.
Lemma add_network_dkeeps net : dkeeps (add_network net).
Proof.
  intros s s' r H [A B]. rewrite add_network_eq in H. inversion H; subst. unfold add_network_eff. destruct (dmem net (st_networks s)); [constructor; auto|].
  constructor; simpl; auto. intros m d x G. apply (A m d x). unfold node_at in *. simpl in G. rewrite dget_app in G.
  destruct (dget m (st_networks s)); auto. simpl in G. destruct (String.eqb m net); discriminate.
Qed.
Lemma empty_good h n : good_node h n empty_node.
Proof. constructor; constructor. Qed.
Lemma add_node_dkeeps net nd : dkeeps (add_node net nd).
Proof.
  intros s s' r H C. destruct (dget net (st_networks s)) eqn:E.
  - rewrite add_node_eq in H by (unfold has_network; congruence). inversion H; subst.
    destruct (add_node_dims s net nd) as (D1 & D2 & _). destruct C as [A B]. constructor.
    + intros m d x. rewrite D1, D2, add_node_node. destruct (node_at s m d) as [y|] eqn:Y; [intros X; inversion X; subst; eauto|].
      rewrite E. destruct (String.eqb m net && String.eqb d nd); [|discriminate]. intros X. injection X as <-. apply empty_good.
    + intros name v. rewrite D1, D2. unfold conv_at, add_node_eff. rewrite E. destruct (dmem nd n); apply B.
  - rewrite add_node_err in H by (unfold has_network; congruence). inversion H; subst. auto.
Qed.
Lemma add_converter_dkeeps name : dkeeps (add_converter name).
Proof.
  intros s s' r H [A B]. rewrite add_converter_eq in H. inversion H; subst.
  destruct (add_converter_only s name) as [C _ (D1 & D2 & D3)]. constructor.
  - intros m d x. unfold node_at. rewrite C, D2, D3. apply A.
  - intros m v. rewrite add_converter_conv, D2, D3. destruct (conv_at s m) eqn:E; [intros X; inversion X; subst; eauto|].
    destruct (String.eqb m name); try discriminate. intros X; inversion X; subst. constructor; simpl; auto; tauto.
Qed.
Lemma add_converter_src_dkeeps name net nd r : plain_arg r -> dkeeps (add_converter_src name net nd r).
Proof.
  intros P s s' [[]|e] H C; [|apply add_converter_src_atomic in H; subst; auto].
  apply add_converter_src_ok in H as (v & vr & E & F & B & ->). eapply data_updc; eauto. destruct C as [_ A]. destruct (A _ _ E).
  constructor; simpl; auto. rewrite dset_fresh by exact F. apply Forall_app. split; auto. constructor; auto. simpl. eapply created; eauto.
Qed.
Lemma set_converter_dest_dkeeps name net nd c m : plain_arg c -> plain_arg m -> dkeeps (set_converter_dest name net nd c m).
Proof.
  intros Pc Pm s s' r H C. apply set_converter_dest_state in H.
  destruct H as [[-> _] | (v & E & N & _ & H)]; auto. pose proof C as [_ A]. destruct (A _ _ E).
  destruct H as [(e & _ & ->) | [(e & vc & _ & Ec & ->) | (vc & vm & _ & Ec & Em & ->)]];
    (eapply data_updc; eauto; constructor; simpl; eauto; try (intros; discriminate); eapply created; eauto).
Qed.

Definition fdkeeps {A} (m : ST fstate A) : Prop := forall fs, sound_data (f_study fs) -> sound_data (f_study (fst (m fs))).
Lemma fdkeeps_bind {A B} (m : ST fstate A) (k : A -> ST fstate B) : fdkeeps m -> (forall a, fdkeeps (k a)) -> fdkeeps (sbind m k).
Proof. intros M K fs C. specialize (M fs C). unfold sbind. destruct (m fs) as [fs1 [a|e]]; simpl in *; auto. now apply K. Qed.
Lemma fdkeeps_onstudy {A} (m : ST study A) : dkeeps m -> fdkeeps (onstudy m).
Proof. intros K fs C. unfold onstudy. destruct (m (f_study fs)) as [s' r] eqn:E. simpl. eapply K; eauto. Qed.
Lemma fdkeeps_key a : fdkeeps (key_network a).
Proof. intros fs C. now rewrite key_network_eq. Qed.
Lemma fdkeeps_keyn a : fdkeeps (key_node a).
Proof. intros fs C. now rewrite key_node_eq. Qed.
Lemma fdkeeps_ret {A} (x : A) : fdkeeps (sret x).
Proof. intros fs C; auto. Qed.
Lemma fdkeeps_raise {A} e : fdkeeps (@sraise _ A e).
Proof. intros fs C; auto. Qed.
Lemma fdkeeps_newsel x : fdkeeps (new_sel x).
Proof. intros fs C; auto. Qed.
Lemma fdkeeps_setnode a x : fdkeeps (set_node_key a x).
Proof. intros fs C; auto. Qed.
Local Hint Resolve fdkeeps_bind fdkeeps_onstudy fdkeeps_key fdkeeps_keyn fdkeeps_ret fdkeeps_raise fdkeeps_newsel
  fdkeeps_setnode add_link_dkeeps add_production_dkeeps add_consumption_dkeeps add_storage_dkeeps
  add_network_dkeeps add_node_dkeeps add_converter_dkeeps add_converter_src_dkeeps
  set_converter_dest_dkeeps dkeeps_bind : sdata.
Lemma fl_call_data h m : (forall x, In x (meth_args m) -> plain_arg x) -> fdkeeps (fl_call h m).
Proof.
  intros P. destruct m; simpl in P; destruct h; cbn [fl_call];
    unfold fl_network, fl_node, fl_link, fl_converter, fl_consumption, fl_production, fl_storage, fl_to_converter, do_converter;
    repeat first [apply fdkeeps_key | apply fdkeeps_keyn | apply fdkeeps_bind; [|intros]]; auto 10 with sdata.
Qed.
Lemma step_data w c : (forall x, In x (call_args c) -> plain_arg x) -> sound_data (w_study w) -> sound_data (w_study (fst (step w c))).
Proof.
  intros P C. unfold w_study in *.
  assert (PH : forall r, sound_data (f_study (fst r)) -> sound_data (f_study (w_fs (fst (push_handle w r))))) by (intros [fs [h|e]]; auto).
  destruct c; simpl in P; simpl step.
  - apply PH. assert (F : fdkeeps (fl_network name)) by (unfold fl_network; auto with sdata). now apply F.
  - simpl. apply fdkeeps_onstudy; auto. apply add_link_dkeeps; auto.
  - simpl. apply fdkeeps_onstudy; auto with sdata.
  - simpl. apply fdkeeps_onstudy; auto with sdata.
  - destruct (nth_error (w_handles w) i) as [h|]; auto. apply PH. now apply fl_call_data.
Qed.
Lemma run_data cs : forall w, plain_program cs -> sound_data (w_study w) -> sound_data (w_study (run w cs)).
Proof.
  induction cs as [|c cs IH]; simpl; intros w P C; auto. apply IH.
  - intros d x I J. eapply P; eauto. now right.
  - apply step_data; auto. intros x I. eapply P; eauto. now left.
Qed.

(** Without network there is no selector, and no converter. *)
Definition bare (w : world) : Prop := st_networks (w_study w) = [] -> w_handles w = [] /\ st_converters (w_study w) = [].
Lemma step_bare w c : inv w -> bare w -> bare (fst (step w c)).
Proof.
  intros I B E. destruct (step w c) as [w' r] eqn:S. simpl in *.
  destruct (si_grows _ _ (step_ok w c w' r I S)) as [_ G _ _].
  assert (N : st_networks (w_study w) = []).
  { destruct (st_networks (w_study w)) as [|[k ns] l] eqn:N; [reflexivity|]. exfalso. assert (H : has_network (w_study w) k).
    { unfold has_network. rewrite N. simpl. rewrite String.eqb_refl. congruence. }
    apply G in H. unfold has_network in H. rewrite E in H. simpl in H. congruence. }
  destruct (B N) as [Hh Hc]. unfold w_study in *. destruct w as [[s sels] hs]. simpl in *. subst hs.
  destruct c; simpl in S.
  - exfalso. unfold fl_network, sbind, onstudy, new_sel, sret in S. simpl in S. rewrite add_network_eq in S. inversion S; subst. simpl in E.
    pose proof (add_network_has s name) as X. unfold has_network in X. rewrite E in X. simpl in X. congruence.
  - unfold no_handle, onstudy in S. simpl in S. unfold add_link, sbind, nodes_of, dlook in S. rewrite N in S. simpl in S. inversion S; subst. auto.
  - exfalso. unfold no_handle, onstudy in S. simpl in S. rewrite add_network_eq in S. inversion S; subst. simpl in E.
    pose proof (add_network_has s net) as X. unfold has_network in X. rewrite E in X. simpl in X. congruence.
  - unfold no_handle, onstudy in S. simpl in S. unfold add_node, sbind, nodes_of, dlook in S. rewrite N in S. simpl in S. inversion S; subst. auto.
  - destruct i; inversion S; subst; auto.
Qed.
Lemma run_bare cs : forall w, inv w -> bare w -> bare (run w cs).
Proof.
  induction cs as [|c cs IH]; simpl; intros w I B; auto. destruct (step w c) as [w' r] eqn:S. simpl.
  pose proof (step_bare w c I B) as B'. rewrite S in B'. apply IH; auto. exact (si_inv _ _ (step_ok w c w' r I S)).
Qed.

Theorem C94_built_is_valid : forall s, api_study s -> valid_study s.
Proof.
  intros s (h & n & version & cs & Hh & Hn & P & ->).
  destruct (run_dims h n version cs) as (D1 & D2 & D3). simpl in D1, D2, D3.
  destruct (run_data cs (start h n version) P) as [A B]; [constructor; intros; discriminate|].
  constructor.
  - rewrite D1. exact Hh.
  - rewrite D2. exact Hn.
  - rewrite D3. apply (new_study_version h n version).
  - apply (fi_wf _ (iv_fs _ (si_inv _ _ (run_ok cs (start h n version) (start_inv h n version))))).
  - exact A.
  - exact B.
  - intros C E. apply C. apply (run_bare cs (start h n version) (start_inv h n version)); auto. intros _. split; reflexivity.
Qed.

(** The studies that can be built with the API, from any data, in any order, through any
    selectors, are exactly the valid ones. *)
Theorem C94_exact : forall s, api_study s <-> valid_study s.
Proof. intros s. split; [apply C94_built_is_valid | apply C94_valid_is_built]. Qed.

(** ** A validator: whether a study could have been built can be computed *)
Fixpoint onceb {K} `{EqB K} (l : list K) : bool :=
  match l with [] => true | x :: r => negb (mem x r) && onceb r end.
Lemma onceb_ok {K} `{EqB K} (l : list K) : onceb l = true <-> NoDup l.
Proof.
  induction l as [|x l IH]; simpl; [split; [constructor | auto]|].
  rewrite andb_true_iff, negb_true_iff, IH. split.
  - intros [M N]. constructor; [|exact N]. intros I. apply mem_In in I. congruence.
  - intros N. inversion N; subst. split; [|auto]. destruct (mem x l) eqn:M; [|reflexivity]. apply mem_In in M. contradiction.
Qed.
Definition listb (l l' : list nat) : bool := if list_eq_dec Nat.eq_dec l l' then true else false.
Lemma listb_ok l l' : listb l l' = true <-> l = l'.
Proof. unfold listb. destruct (list_eq_dec Nat.eq_dec l l'); split; congruence. Qed.

Definition fitsb (h n : nat) (v : numval) : bool :=
  match v with
  | Scalar _ h' n' => Nat.eqb h' h && Nat.eqb n' n
  | Row a h' n' => Nat.eqb h' h && Nat.eqb n' n && listb (shape a) [h] && Nat.eqb (List.length (data a)) h
  | Column a h' n' => Nat.eqb h' h && Nat.eqb n' n && listb (shape a) [n; 1] && Nat.eqb (List.length (data a)) n
  | Matrix a h' n' => Nat.eqb h' h && Nat.eqb n' n && negb (Nat.eqb h 1) && listb (shape a) [n; h] && Nat.eqb (List.length (data a)) (n * h)
  end.
Lemma fitsb_ok h n v : fitsb h n v = true <-> fits h n v.
Proof.
  destruct v; simpl; rewrite ?andb_true_iff, ?negb_true_iff, ?Nat.eqb_eq, ?Nat.eqb_neq, ?listb_ok; tauto.
Qed.
Definition not_belowb (q : Q) (v : numval) : bool := existsb (Qle_bool q) (entries v).
Definition not_aboveb (q : Q) (v : numval) : bool := existsb (fun x => Qle_bool x q) (entries v).
Lemma not_belowb_ok q v : not_belowb q v = true <-> not_below q v.
Proof. unfold not_belowb, not_below. rewrite existsb_exists. split; intros (x & I & L); exists x; (split; [exact I|]); now apply Qle_bool_iff. Qed.
Lemma not_aboveb_ok q v : not_aboveb q v = true <-> not_above q v.
Proof. unfold not_aboveb, not_above. rewrite existsb_exists. split; intros (x & I & L); exists x; (split; [exact I|]); now apply Qle_bool_iff. Qed.

Definition carrierb (h n : nat) (cost qty : numval) : bool := fitsb h n cost && fitsb h n qty && not_belowb 0 qty.
Lemma carrierb_ok h n c q : carrierb h n c q = true <-> fits h n c /\ fits h n q /\ not_below 0 q.
Proof. unfold carrierb. rewrite !andb_true_iff, !fitsb_ok, not_belowb_ok. tauto. Qed.
Definition storb (h n : nat) (x : storage) : bool :=
  fitsb h n (s_capacity x) && fitsb h n (s_flow_in x) && fitsb h n (s_flow_out x) && fitsb h n (s_cost x) && fitsb h n (s_eff x) &&
  not_belowb 0 (s_capacity x) && not_belowb 0 (s_flow_in x) && not_belowb 0 (s_flow_out x) && not_belowb 0 (s_eff x) &&
  not_aboveb 1 (s_eff x) && Qle_bool 0 (s_init x).
Lemma storb_ok h n x : storb h n x = true <-> good_stor h n x.
Proof.
  unfold storb. rewrite !andb_true_iff, !fitsb_ok, !not_belowb_ok, not_aboveb_ok, Qle_bool_iff. split.
  - intros H. constructor; tauto.
  - intros [G1 G2 G3 G4]. tauto.
Qed.
Definition nodeb (h n : nat) (ns : network) (x : node) : bool :=
  onceb (map c_name (n_cons x)) && onceb (map p_name (n_prods x)) && onceb (map s_name (n_stors x)) && onceb (map l_dest (n_links x)) &&
  forallb (fun l => dmem (l_dest l) ns) (n_links x) &&
  forallb (fun c => carrierb h n (c_cost c) (c_qty c)) (n_cons x) &&
  forallb (fun p => carrierb h n (p_cost p) (p_qty p)) (n_prods x) &&
  forallb (storb h n) (n_stors x) &&
  forallb (fun l => carrierb h n (l_cost l) (l_qty l)) (n_links x).
Definition existsnb (s : study) (net nd : string) : bool := match node_at s net nd with Some _ => true | None => false end.
Lemma existsnb_ok s net nd : existsnb s net nd = true <-> has_node s net nd.
Proof. unfold existsnb, has_node. destruct (node_at s net nd); split; congruence. Qed.
Definition fits_optb (h n : nat) (o : option numval) : bool := match o with Some v => fitsb h n v | None => true end.
Lemma fits_optb_ok h n o : fits_optb h n o = true <-> fits_opt h n o.
Proof. destruct o; simpl; [apply fitsb_ok | tauto]. Qed.
Definition noneb {A} (o : option A) : bool := match o with Some _ => false | None => true end.
Lemma noneb_ok {A} (o : option A) : noneb o = true <-> o = None.
Proof. destruct o; simpl; split; congruence. Qed.
Definition convb (s : study) (name : string) (v : converter) : bool :=
  String.eqb (v_name v) name && onceb (dkeys (v_src v)) && forallb (fun k => existsnb s (fst k) (snd k)) (dkeys (v_src v)) &&
  ((String.eqb (v_dnet v) "" && String.eqb (v_dnode v) "" && noneb (v_cost v) && noneb (v_max v)) || existsnb s (v_dnet v) (v_dnode v)) &&
  forallb (fun kr => fitsb (st_horizon s) (st_nb_scn s) (snd kr)) (v_src v) &&
  fits_optb (st_horizon s) (st_nb_scn s) (v_cost v) && fits_optb (st_horizon s) (st_nb_scn s) (v_max v) &&
  (noneb (v_max v) || negb (noneb (v_cost v))).
Definition validb (s : study) : bool :=
  Nat.ltb 0 (st_horizon s) && Nat.ltb 0 (st_nb_scn s) && negb (String.eqb (st_version s) "") &&
  onceb (dkeys (st_networks s)) &&
  forallb (fun kn => onceb (dkeys (snd kn)) && forallb (fun nx => nodeb (st_horizon s) (st_nb_scn s) (snd kn) (snd nx)) (snd kn)) (st_networks s) &&
  onceb (dkeys (st_converters s)) &&
  forallb (fun kv => convb s (fst kv) (snd kv)) (st_converters s) &&
  (match st_converters s with [] => true | _ => negb (match st_networks s with [] => true | _ => false end) end).

Lemma nodeb_ok s net ns x : dget net (st_networks s) = Some ns ->
  (nodeb (st_horizon s) (st_nb_scn s) ns x = true <-> node_wf s net x /\ good_node (st_horizon s) (st_nb_scn s) x).
Proof.
  intros G. unfold nodeb. rewrite !andb_true_iff, !onceb_ok, !forallb_forall.
  assert (D : forall l, dmem (l_dest l) ns = true <-> has_node s net (l_dest l)).
  { intros l. unfold has_node, node_at. rewrite G, dmem_In. split; intros H.
    - destruct (In_keys_dget _ _ H) as [y E]. congruence.
    - destruct (dget (l_dest l) ns) eqn:E; [now apply dget_In_keys in E | congruence]. }
  split.
  - intros ((((((((A1 & A2) & A3) & A4) & A5) & A6) & A7) & A8) & A9). split; constructor; auto.
    + intros l I. apply D. auto.
    + apply Forall_forall. intros c I. apply carrierb_ok. auto.
    + apply Forall_forall. intros c I. apply carrierb_ok. auto.
    + apply Forall_forall. intros c I. apply storb_ok. auto.
    + apply Forall_forall. intros c I. apply carrierb_ok. auto.
  - intros [[W1 W2 W3 W4 W5] [G1 G2 G3 G4]]. rewrite Forall_forall in G1, G2, G3, G4. repeat split; auto.
    + intros l I. apply D. auto.
    + intros c I. apply carrierb_ok. exact (G1 c I).
    + intros c I. apply carrierb_ok. exact (G2 c I).
    + intros c I. apply storb_ok. exact (G3 c I).
    + intros c I. apply carrierb_ok. exact (G4 c I).
Qed.
Lemma convb_ok s name v : convb s name v = true <-> conv_wf s name v /\ good_conv (st_horizon s) (st_nb_scn s) v.
Proof.
  unfold convb. rewrite !andb_true_iff, !orb_true_iff, !andb_true_iff, negb_true_iff, !String.eqb_eq, onceb_ok, !forallb_forall, existsnb_ok, !fits_optb_ok, !noneb_ok.
  assert (NB : noneb (v_cost v) = false <-> v_cost v <> None) by (destruct (v_cost v); simpl; split; congruence).
  split.
  - intros (((((((A1 & A2) & A3) & A4) & A5) & A6) & A7) & A8). split; constructor; auto.
    + intros net nd I. apply existsnb_ok. exact (A3 (net, nd) I).
    + destruct A4 as [A4|A4]; [left; tauto | now right].
    + apply Forall_forall. intros kr I. apply fitsb_ok. auto.
    + intros M. destruct A8 as [A8|A8]; [contradiction | now apply NB].
  - intros [[W1 W2 W3 W4] [G1 G2 G3 G4]]. rewrite Forall_forall in G1. split; [split; [split; [split; [split; [split; [split|]|]|]|]|]|]; auto.
    + intros [net nd] I. apply existsnb_ok. simpl. auto.
    + destruct W4 as [W4|W4]; [left; tauto | now right].
    + intros kr I. apply fitsb_ok. auto.
    + destruct (v_max v); [right; apply NB, G4; discriminate | now left].
Qed.

Theorem C94_decided : forall s, validb s = true <-> api_study s.
Proof.
  intros s. rewrite C94_exact. unfold validb. rewrite !andb_true_iff, !Nat.ltb_lt, negb_true_iff, String.eqb_neq, !onceb_ok, !forallb_forall. split.
  - intros (((((((A1 & A2) & A3) & A4) & A5) & A6) & A7) & A8).
    assert (N : forall net nd x, node_at s net nd = Some x -> node_wf s net x /\ good_node (st_horizon s) (st_nb_scn s) x).
    { intros net nd x G. unfold node_at in G. destruct (dget net (st_networks s)) as [ns|] eqn:E; [|discriminate].
      apply (nodeb_ok s net ns x E). specialize (A5 _ (dget_In _ _ _ E)). simpl in A5. apply andb_prop in A5 as [_ A5]. rewrite forallb_forall in A5.
      exact (A5 _ (dget_In _ _ _ G)). }
    assert (V : forall name v, conv_at s name = Some v -> conv_wf s name v /\ good_conv (st_horizon s) (st_nb_scn s) v).
    { intros name v G. apply convb_ok. exact (A7 _ (dget_In _ _ _ G)). }
    constructor; auto.
    + constructor; auto.
      * intros net ns E. specialize (A5 _ (dget_In _ _ _ E)). simpl in A5. apply andb_prop in A5 as [A5 _]. now apply onceb_ok.
      * intros. eapply N; eauto.
      * intros. eapply V; eauto.
    + intros. eapply N; eauto.
    + intros. eapply V; eauto.
    + intros C E. rewrite E in A8. destruct (st_converters s); [congruence | discriminate].
  - intros [V1 V2 V3 W V5 V6 V7]. pose proof W as [W1 W2 W3 W4 W5].
    split; [split; [split; [split; [split; [split; [split|]|]|]|]|]|]; auto.
    + intros [net ns] I. simpl. apply (In_dget _ _ _ W1) in I. apply andb_true_intro. split; [apply onceb_ok; eauto|].
      apply forallb_forall. intros [nd x] J. simpl. apply (In_dget _ _ _ (W2 _ _ I)) in J.
      assert (E : node_at s net nd = Some x) by (unfold node_at; now rewrite I). apply (nodeb_ok s net ns x I). split; eauto.
    + intros [name v] I. apply (In_dget _ _ _ W3) in I. apply convb_ok. split; [now apply W5 | eapply V6; eauto].
    + destruct (st_converters s); [reflexivity|]. destruct (st_networks s); [exfalso; now apply V7 | reflexivity].
Qed.

(** Studies written down without any call: two nodes, every kind of data, and a converter
    with a cost and no maximum yet. *)
Definition hand (limit : Q) (dest : string) : study :=
  let k (q : Q) := Scalar q 2 3 in
  Study "0.5" [("elec", [("a", Node [Cons "load" (k 1000%Q) (Row (ND [2] [7; 9]%Q) 2 3)] []
                                    [Stor "cell" (k 6%Q) (k 4%Q) (k 4%Q) (k 1%Q) 2%Q (k (1 # 2)%Q)] []);
                         ("b", Node [] [Prod "wind" (k 3%Q) (Column (ND [3; 1] [4; 5; 6]%Q) 2 3)] [] [Lnk dest (k limit) (k 2%Q)])])]
    [("plant", Conv "plant" [(("elec", "b"), k 2%Q)] "elec" "a" (Some (k 5%Q)) None)] 2 3.
Example C94_valid_is_built_example : api_study (hand 8%Q "a"). Proof. apply C94_decided. vm_compute. reflexivity. Qed.
Example C94_built_is_valid_example : ~ valid_study (hand (-8)%Q "a") /\ ~ valid_study (hand 8%Q "c").
Proof. split; rewrite <- C94_exact, <- C94_decided; vm_compute; discriminate. Qed.
Example C94_decided_example : validb mix = true. Proof. apply C94_decided, mix_api. Qed.

Print Assumptions C94_exact.
Print Assumptions C94_decided.
