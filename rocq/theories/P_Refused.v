(** C05, C07 and C10 exactly: which signs are refused, what a refused call leaves in the study
    and which calls it spoils, which selectors can be continued. *)
From Coq Require Import String List ZArith QArith Bool Arith Lia.
From Verif Require Import Base BaseFacts Numeric Study Fluent SpecNumeric SpecStudy NumericFacts StudyFacts FluentFacts P_Study P_Accept.
Import ListNotations.
Open Scope nat_scope.
Open Scope string_scope.
Open Scope list_scope.

(** ** Specification *)

(** The converter of this name, or the empty one a call creates first. *)
Definition conv_or_new (s : study) (name : string) : converter :=
  match conv_at s name with Some v => v | None => Conv name [] "" "" None None end.
Definition has_dest (v : converter) : Prop := v_dnet v <> "" /\ v_dnode v <> "".
Definition with_dest (v : converter) (net nd : string) (c : option numval) : converter :=
  Conv (v_name v) (v_src v) net nd c (v_max v).

(** The converter [name] after a refused call of [converter]. *)
Inductive dest_left (s : study) (name net nd : string) (mx co : pyval) : converter -> Prop :=
| dl_blocked : has_dest (conv_or_new s name) \/ ~ has_node s net nd ->
    dest_left s name net nd mx co (conv_or_new s name)
| dl_no_cost : ~ has_dest (conv_or_new s name) -> has_node s net nd -> ~ fits s co ->
    dest_left s name net nd mx co (with_dest (conv_or_new s name) net nd (v_cost (conv_or_new s name)))
| dl_no_max c : ~ has_dest (conv_or_new s name) -> has_node s net nd -> becomes s co c -> ~ fits s mx ->
    dest_left s name net nd mx co (with_dest (conv_or_new s name) net nd (Some c)).

(** What the refused call [c] makes of the study. *)
Definition refused_leaves (w : world) (c : call) (s' : study) : Prop :=
  let s := w_study w in
  match c with
  | OnSel i (MToConverter name r) =>
      (~ is_node_selector w i -> s' = s) /\
      (is_node_selector w i -> only_conv s s' name /\ conv_at s' name = Some (conv_or_new s name))
  | OnSel i (MConverter name net nd mx co) =>
      (~ is_selector w i -> s' = s) /\
      (is_selector w i -> only_conv s s' name /\ exists v, conv_at s' name = Some v /\ dest_left s name net nd mx co v)
  | _ => s' = s
  end.

(** A refused call that makes the later call impossible: a destination with names was set
    although the cost or the maximum was no proper value. *)
Definition spoils (w : world) (c c' : call) : Prop :=
  exists i name net nd mx co i' net' nd' mx' co',
    c = OnSel i (MConverter name net nd mx co) /\ c' = OnSel i' (MConverter name net' nd' mx' co') /\
    is_selector w i /\ ~ has_dest (conv_or_new (w_study w) name) /\
    has_node (w_study w) net nd /\ net <> "" /\ nd <> "" /\ ~ (fits (w_study w) mx /\ fits (w_study w) co).

(** ** Proofs *)
Lemma free_dest v : ~ has_dest v <-> v_dnet v = "" \/ v_dnode v = "".
Proof.
  unfold has_dest. destruct (string_dec (v_dnet v) "") as [-> |]; [split; auto; intros _ [X _]; now apply X |].
  destruct (string_dec (v_dnode v) "") as [-> |]; [split; auto; intros _ [_ X]; now apply X |].
  split; [intros X; exfalso; apply X; auto | intros [X | X]; contradiction].
Qed.
Lemma has_node_dec s net nd : {has_node s net nd} + {~ has_node s net nd}.
Proof. unfold has_node. destruct (node_at s net nd); [left; discriminate | right; auto]. Qed.
Lemma fits_dec s x : {v | becomes s x v} + {~ fits s x}.
Proof. unfold fits, becomes. destruct (create _ _ x) as [v | e]; [left; eauto | right; intros (v & X); discriminate]. Qed.

Lemma add_converter_new s name : conv_at (add_converter_eff s name) name = Some (conv_or_new s name).
Proof. rewrite add_converter_conv. unfold conv_or_new. destruct (conv_at s name); auto. now rewrite String.eqb_refl. Qed.

Lemma only_conv_trans s s1 s2 name : only_conv s s1 name -> only_conv s1 s2 name -> only_conv s s2 name.
Proof.
  intros [A B (C1 & C2 & C3)] [A' B' (C1' & C2' & C3')]. constructor; [congruence | | split; [congruence | split; congruence]].
  intros m N. rewrite B' by exact N. auto.
Qed.

Lemma dest_run name net nd co mx s v : conv_at s name = Some v ->
  set_converter_dest name net nd co mx s =
    if negb (String.eqb (v_dnet v) "") && negb (String.eqb (v_dnode v) "") then (s, Err ValueError)
    else if has_node_dec s net nd then
      match create (st_horizon s) (st_nb_scn s) co with
      | Err e => (updc s name (fun v => with_dest v net nd (v_cost v)), Err e)
      | Ok c =>
          match create (st_horizon s) (st_nb_scn s) mx with
          | Err e => (updc s name (fun v => with_dest v net nd (Some c)), Err e)
          | Ok m => (updc s name (fun v => Conv (v_name v) (v_src v) net nd (Some c) (Some m)), Ok tt)
          end
      end
    else (s, Err ValueError).
Proof.
  intros V. unfold set_converter_dest.
  rewrite (sbind_eq_ok _ _ s s v) by (unfold conv_of, dlook, conv_at in *; now rewrite V).
  destruct (negb (String.eqb (v_dnet v) "") && negb (String.eqb (v_dnode v) "")); [apply sbind_eq_err; reflexivity |].
  rewrite (sbind_eq_ok _ _ s s tt) by auto. rewrite (sbind_eq_ok _ _ s s s) by auto.
  destruct (has_node_dec s net nd) as [HN | HN]; unfold has_node, node_at in HN.
  2: { apply sbind_eq_err. unfold sguard. destruct (dget net (st_networks s)) as [ns |]; [| reflexivity].
       unfold dmem. destruct (dget nd ns); [exfalso; apply HN; discriminate | reflexivity]. }
  rewrite (sbind_eq_ok _ _ s s tt).
  2: { unfold sguard. destruct (dget net (st_networks s)) as [ns |]; [| congruence]. unfold dmem. destruct (dget nd ns); [reflexivity | congruence]. }
  erewrite sbind_eq_ok by (eapply upd_conv_eq; eauto).
  erewrite sbind_eq_ok by (eapply upd_conv_eq; eapply updc_conv; eauto).
  rewrite updc_updc. cbn [v_name v_src v_dnet v_dnode v_cost v_max].
  pose proof (updc_dims s name (fun v => Conv (v_name v) (v_src v) net nd (v_cost v) (v_max v))) as (D1 & D2 & _).
  destruct (create (st_horizon s) (st_nb_scn s) co) as [c | e] eqn:C.
  2: { apply sbind_eq_err. unfold mk. rewrite D1, D2, C. reflexivity. }
  erewrite sbind_eq_ok by (unfold mk; rewrite D1, D2, C; reflexivity).
  erewrite sbind_eq_ok by (eapply upd_conv_eq; eapply updc_conv; eauto).
  rewrite updc_updc. cbn [v_name v_src v_dnet v_dnode v_cost v_max].
  pose proof (updc_dims s name (fun v => Conv (v_name v) (v_src v) net nd (Some c) (v_max v))) as (D3 & D4 & _).
  destruct (create (st_horizon s) (st_nb_scn s) mx) as [m | e] eqn:M.
  2: { apply sbind_eq_err. unfold mk. rewrite D3, D4, M. reflexivity. }
  erewrite sbind_eq_ok by (unfold mk; rewrite D3, D4, M; reflexivity).
  erewrite upd_conv_eq by (eapply updc_conv; eauto). rewrite updc_updc. reflexivity.
Qed.

Lemma has_dest_b v : negb (String.eqb (v_dnet v) "") && negb (String.eqb (v_dnode v) "") = true <-> has_dest v.
Proof. unfold has_dest. rewrite andb_true_iff, !negb_true_iff, !String.eqb_neq. reflexivity. Qed.

Lemma dest_refused name net nd co mx s s' e : set_converter_dest name net nd co mx (add_converter_eff s name) = (s', Err e) ->
  only_conv s s' name /\ exists v, conv_at s' name = Some v /\ dest_left s name net nd mx co v.
Proof.
  set (s1 := add_converter_eff s name). pose proof (add_converter_new s name) as V. fold s1 in V.
  pose proof (add_converter_only s name) as ON. fold s1 in ON.
  pose proof (add_converter_nets s name) as NE. fold s1 in NE. pose proof (oc_rest _ _ _ ON) as (_ & HE & SE).
  rewrite (dest_run _ _ _ _ _ _ _ V).
  destruct (negb (String.eqb (v_dnet (conv_or_new s name)) "") && negb (String.eqb (v_dnode (conv_or_new s name)) "")) eqn:B.
  { intros E; injection E as <- _. split; auto. exists (conv_or_new s name). split; auto. apply dl_blocked. left. now apply has_dest_b. }
  assert (D : ~ has_dest (conv_or_new s name)) by (intros X; apply has_dest_b in X; congruence).
  destruct (has_node_dec s1 net nd) as [HN | HN]; rewrite (has_node_same _ _ _ _ NE) in HN.
  2: { intros E; injection E as <- _. split; auto. exists (conv_or_new s name). split; auto. apply dl_blocked. now right. }
  rewrite HE, SE. destruct (create (st_horizon s) (st_nb_scn s) co) as [c | e1] eqn:C.
  - destruct (create (st_horizon s) (st_nb_scn s) mx) as [m | e1] eqn:M; [intros E; discriminate E |].
    intros E; injection E as <- _. split; [eapply only_conv_trans; [exact ON | apply updc_only] |].
    eexists. split; [apply updc_conv; exact V |]. apply dl_no_max; auto. intros (m & X). unfold becomes in X. congruence.
  - intros E; injection E as <- _. split; [eapply only_conv_trans; [exact ON | apply updc_only] |].
    eexists. split; [apply updc_conv; exact V |]. apply dl_no_cost; auto. intros (m & X). unfold becomes in X. congruence.
Qed.

(** What a refused call leaves. *)
Theorem C07_exact : forall w c w' e, step w c = (w', Err e) -> refused_leaves w c (w_study w').
Proof.
  intros w c w' e H.
  assert (G : ~ is_converter_call c -> w_study w' = w_study w) by (intros N; eapply C07_refused_call_changes_nothing_partial; eauto).
  destruct c as [| | | | i m]; try (apply G; intros X; exact X).
  destruct m; try (apply G; intros X; exact X); cbn [refused_leaves].
  - (* converter *)
    unfold is_selector, w_study. cbn [step] in H. destruct (nth_error (w_handles w) i) as [h |] eqn:K.
    2: { injection H as <- _. split; auto. intros (h & X). discriminate X. }
    split; [intros X; exfalso; apply X; eauto |]. intros _.
    apply push_err in H as (e' & H & ->).
    assert (Q : fl_call h (MConverter name to_net to_nd max cost) = fl_converter name to_net to_nd max cost) by (destruct h; reflexivity).
    rewrite Q in *. unfold fl_converter in *. unfold sbind, onstudy, new_sel, sret in *.
    destruct (do_converter name to_net to_nd max cost (f_study (w_fs w))) as [s' [u | e1]] eqn:F; cbn in H; [discriminate H |].
    cbn [fst f_study]. unfold do_converter in F. rewrite (sbind_eq_ok _ _ _ _ _ (add_converter_eq name (f_study (w_fs w)))) in F.
    eapply dest_refused; eauto.
  - (* to_converter *)
    unfold is_node_selector, w_study. cbn [step] in H. destruct (nth_error (w_handles w) i) as [h |] eqn:K.
    2: { injection H as <- _. split; auto. intros (h & X). discriminate X. }
    apply push_err in H as (e' & H & ->). destruct h as [a | a]; cbn [fl_call] in *.
    { split; [reflexivity |]. intros (b & X). discriminate X. }
    split; [intros X; exfalso; apply X; eauto |]. intros _.
    destruct (fl_to_converter a name ratio (w_fs w)) as [fs' r] eqn:F. cbn [fst snd] in *. subst r.
    unfold fl_to_converter in F.
    erewrite sbind_eq_ok in F by (unfold onstudy; rewrite add_converter_eq; reflexivity).
    apply (elem_err a (fun n d => add_converter_src name n d ratio)) in F; [| intros; apply add_converter_src_atomic].
    cbn [f_study] in F. rewrite F. split; [apply add_converter_only | apply add_converter_new].
Qed.

Lemma with_same s name v : conv_at s name = Some v -> forall s', only_conv s s' name -> conv_at s' name = Some v ->
  forall m, conv_at s' m = conv_at s m.
Proof. intros V s' ON V' m. destruct (string_dec m name) as [-> |]; [congruence | now apply (oc_other _ _ _ ON)]. Qed.

(** The same networks, horizon and scenarios. *)
Definition same_frame (s s' : study) : Prop :=
  st_networks s' = st_networks s /\ st_horizon s' = st_horizon s /\ st_nb_scn s' = st_nb_scn s.
Lemma only_conv_frame s s' name : only_conv s s' name -> same_frame s s'.
Proof. intros [A _ (_ & B & C)]. repeat split; auto. Qed.

Lemma refused_frame w c s' : refused_leaves w c s' -> same_frame (w_study w) s'.
Proof.
  assert (R : forall s, same_frame s s) by (intros s; repeat split).
  destruct c as [| | | | i m]; cbn [refused_leaves]; try (intros ->; apply R). destruct m; cbn [refused_leaves]; try (intros ->; apply R).
  - intros [A B]. unfold is_selector in *. destruct (nth_error (w_handles w) i) as [h |] eqn:K.
    + destruct B as (B & _); [eauto |]. eapply only_conv_frame; eauto.
    + rewrite A; [apply R |]. intros (h & X). discriminate X.
  - intros [A B]. unfold is_node_selector in *. destruct (nth_error (w_handles w) i) as [[h | h] |] eqn:K.
    + rewrite A; [apply R |]. intros (x & X). discriminate X.
    + destruct B as (B & _); [eauto |]. eapply only_conv_frame; eauto.
    + rewrite A; [apply R |]. intros (x & X). discriminate X.
Qed.

Lemma refused_selectors w c w' e : inv w -> step w c = (w', Err e) ->
  w_handles w' = w_handles w /\
  (f_sels (w_fs w') = f_sels (w_fs w) \/
   exists a x name, nth_error (f_sels (w_fs w)) a = Some x /\ sel_net x = None /\
     f_sels (w_fs w') = upd_nth a (fun y => Sel (sel_net y) (Some name)) (f_sels (w_fs w))).
Proof.
  intros V H.
  assert (PH : forall r, push_handle w r = (w', Err e) -> w_handles w' = w_handles w /\ w_fs w' = fst r /\ exists e', snd r = Err e').
  { intros [fs [h | x]] X; cbn in X; [discriminate X |]. injection X as <- _. cbn. eauto. }
  destruct c as [nm | net src dest co q | net | net nd | i m]; cbn [step] in H.
  - apply PH in H as (A & B & e' & C). split; auto. left. rewrite B. unfold fl_network, sbind, onstudy, new_sel, sret in *.
    destruct (add_network nm (f_study (w_fs w))) as [s' [u | x]]; cbn in *; [discriminate C | reflexivity].
  - unfold no_handle in H. injection H as <- _. cbn. split; auto. left. unfold onstudy. destruct (add_link _ _ _ _ _ _); reflexivity.
  - unfold no_handle in H. injection H as <- _. cbn. split; auto. left. unfold onstudy. destruct (add_network _ _); reflexivity.
  - unfold no_handle in H. injection H as <- _. cbn. split; auto. left. unfold onstudy. destruct (add_node _ _ _); reflexivity.
  - destruct (nth_error (w_handles w) i) as [h |] eqn:K; [| injection H as <- _; auto].
    apply PH in H as (A & B & e' & C). split; auto. rewrite B.
    destruct (fl_call h m (w_fs w)) as [fs' r] eqn:F. cbn [fst snd] in *. subst r.
    assert (HO : handle_ok (f_sels (w_fs w)) h) by (apply (iv_handles _ V); eapply nth_error_In; eauto).
    assert (EL : forall a (k : string -> string -> ST study unit) s0,
       (do n <- key_network a; do d <- key_node a; onstudy (k n d);; sret (HNode a)) (FS s0 (f_sels (w_fs w))) = (fs', Err e') ->
       f_sels fs' = f_sels (w_fs w)).
    { intros a k s0 X. apply sbind_err in X as [X | (f1 & n & X1 & X)]; [rewrite key_network_eq in X; now inversion X |].
      rewrite key_network_eq in X1. inversion X1; subst f1. apply sbind_err in X as [X | (f2 & d & X2 & X)]; [rewrite key_node_eq in X; now inversion X |].
      rewrite key_node_eq in X2. inversion X2; subst f2. unfold sbind, onstudy, sret in X. cbn [f_study f_sels] in X.
      destruct (k n d s0) as [s' [u | x]]; cbn in X; [discriminate X |]. now injection X as <- _. }
    assert (EL' : forall a (k : string -> string -> ST study unit),
       (do n <- key_network a; do d <- key_node a; onstudy (k n d);; sret (HNode a)) (w_fs w) = (fs', Err e') ->
       f_sels fs' = f_sels (w_fs w)).
    { intros a k X. apply (EL a k (f_study (w_fs w))). destruct (w_fs w); exact X. }
    destruct m.
    + left. assert (Q : fl_network name (w_fs w) = (fs', Err e')) by (destruct h; exact F). unfold fl_network, sbind, onstudy, new_sel, sret in Q.
      destruct (add_network name (f_study (w_fs w))) as [s' [u | x]]; cbn in Q; [discriminate Q | now injection Q as <- _].
    + right. assert (Q : fl_node (addr h) name (w_fs w) = (fs', Err e')) by (destruct h; exact F).
      assert (L : addr h < length (f_sels (w_fs w))).
      { destruct h as [a | a]; cbn [handle_ok addr] in *; auto. destruct HO as (net & nd & X). apply nth_error_Some. congruence. }
      destruct (nth_error (f_sels (w_fs w)) (addr h)) as [x |] eqn:X; [| apply nth_error_None in X; lia].
      exists (addr h), x, name. split; auto. unfold fl_node in Q. erewrite sbind_eq_ok in Q by reflexivity.
      apply sbind_err in Q as [Q | (f1 & net & Q1 & Q)]; rewrite key_network_eq in *; cbn [f_sels] in *; rewrite nth_error_upd_nth, Nat.eqb_refl, X in *; cbn in *.
      * destruct (sel_net x) eqn:N; [discriminate Q |]. injection Q as <- _. auto.
      * exfalso. destruct (sel_net x) as [net0 |] eqn:N; [| discriminate Q1]. inversion Q1; subst f1 net0.
        destruct (fi_sels _ (iv_fs _ V) _ _ X net N) as (HN & _).
        apply sbind_err in Q as [Q | (f2 & u & _ & Q)]; [| discriminate Q]. unfold onstudy in Q. cbn [f_study] in Q.
        rewrite add_node_eq in Q by exact HN. discriminate Q.
    + left. assert (Q : fl_link (addr h) src dest cost quantity (w_fs w) = (fs', Err e')) by (destruct h; exact F). unfold fl_link in Q.
      apply sbind_err in Q as [Q | (f1 & net & Q1 & Q)]; [rewrite key_network_eq in Q; now inversion Q |].
      rewrite key_network_eq in Q1. inversion Q1; subst f1. unfold sbind, onstudy, sret in Q. 
      destruct (add_link net src dest cost quantity (f_study (w_fs w))) as [s' [u | x]]; cbn in Q; [discriminate Q | now injection Q as <- _].
    + left. assert (Q : fl_converter name to_net to_nd max cost (w_fs w) = (fs', Err e')) by (destruct h; exact F). unfold fl_converter, sbind, onstudy, new_sel, sret in Q.
      destruct (do_converter name to_net to_nd max cost (f_study (w_fs w))) as [s' [u | x]]; cbn in Q; [discriminate Q | now injection Q as <- _].
    + left. destruct h as [a | a]; [injection F as <- _; reflexivity | apply (EL' a (fun n d => add_consumption n d name cost quantity) F)].
    + left. destruct h as [a | a]; [injection F as <- _; reflexivity | apply (EL' a (fun n d => add_production n d name cost quantity) F)].
    + left. destruct h as [a | a]; [injection F as <- _; reflexivity | apply (EL' a (fun n d => add_storage n d name capacity flow_in flow_out cost init eff) F)].
    + left. destruct h as [a | a]; [injection F as <- _; reflexivity |]. cbn [fl_call] in F. unfold fl_to_converter in F.
      erewrite sbind_eq_ok in F by (unfold onstudy; rewrite add_converter_eq; reflexivity).
      apply (EL a (fun n d => add_converter_src name n d ratio) (add_converter_eff (f_study (w_fs w)) name) F).
Qed.

Lemma refused_keys w c w' e : inv w -> step w c = (w', Err e) ->
  (forall k net, in_network w' k net <-> in_network w k net) /\ (forall k net nd, selects w' k net nd <-> selects w k net nd).
Proof.
  intros V H. destruct (refused_selectors _ _ _ _ V H) as (A & B). unfold in_network, selects, selector_keys, selector_dict. rewrite A.
  destruct B as [-> | (a & x & name & X & N & ->)]; [split; reflexivity |].
  assert (G : forall k, match option_map addr (nth_error (w_handles w) k) with
     | Some b => nth_error (upd_nth a (fun y => Sel (sel_net y) (Some name)) (f_sels (w_fs w))) b | None => None end =
     if match option_map addr (nth_error (w_handles w) k) with Some b => Nat.eqb a b | None => false end then Some (Sel None (Some name))
     else match option_map addr (nth_error (w_handles w) k) with Some b => nth_error (f_sels (w_fs w)) b | None => None end).
  { intros k. destruct (option_map addr (nth_error (w_handles w) k)) as [b |]; auto. rewrite nth_error_upd_nth.
    destruct (Nat.eqb a b) eqn:E; auto. apply Nat.eqb_eq in E. subst b. rewrite X. cbn. now rewrite N. }
  assert (G' : forall k, match option_map addr (nth_error (w_handles w) k) with Some b => Nat.eqb a b | None => false end = true ->
     match option_map addr (nth_error (w_handles w) k) with Some b => nth_error (f_sels (w_fs w)) b | None => None end = Some x).
  { intros k. destruct (option_map addr (nth_error (w_handles w) k)) as [b |]; [| discriminate]. intros E. apply Nat.eqb_eq in E. now subst b. }
  split.
  - intros k net. rewrite G. specialize (G' k). destruct (match option_map addr (nth_error (w_handles w) k) with Some b => Nat.eqb a b | None => false end); [| reflexivity].
    rewrite (G' eq_refl). split; intros (y & Y & M); injection Y as <-; cbn in M; congruence.
  - intros k net nd. rewrite G. specialize (G' k). destruct (match option_map addr (nth_error (w_handles w) k) with Some b => Nat.eqb a b | None => false end); [| reflexivity].
    rewrite (G' eq_refl). split; intros Y; injection Y as Y; subst; cbn in N; congruence.
Qed.

Lemma frame_link s s' net src dest co q : same_frame s s' -> (valid_link s' net src dest co q <-> valid_link s net src dest co q).
Proof. destruct s, s'. intros (A & B & C). cbn in *. subst. reflexivity. Qed.
Lemma frame_element s s' n m : same_frame s s' -> (valid_element s' n m <-> valid_element s n m).
Proof. destruct s, s'. intros (A & B & C). cbn in *. subst. reflexivity. Qed.
Lemma frame_node s s' net nd : same_frame s s' -> node_at s' net nd = node_at s net nd.
Proof. destruct s, s'. intros (A & B & C). cbn in *. subst. reflexivity. Qed.
Lemma frame_fits s s' x : same_frame s s' -> (fits s' x <-> fits s x).
Proof. destruct s, s'. intros (A & B & C). cbn in *. subst. reflexivity. Qed.
Lemma frame_net s s' net : same_frame s s' -> (has_network s' net <-> has_network s net).
Proof. destruct s, s'. intros (A & B & C). cbn in *. subst. reflexivity. Qed.

(** The sources of a converter after a refused call; its destination. *)
Lemma refused_conv w c s' name : refused_leaves w c s' ->
  v_src (conv_or_new s' name) = v_src (conv_or_new (w_study w) name) /\
  (has_dest (conv_or_new s' name) <-> has_dest (conv_or_new (w_study w) name) \/
     exists i net nd mx co, c = OnSel i (MConverter name net nd mx co) /\ is_selector w i /\
       ~ has_dest (conv_or_new (w_study w) name) /\ has_node (w_study w) net nd /\ net <> "" /\ nd <> "" /\
       ~ (fits (w_study w) mx /\ fits (w_study w) co)).
Proof.
  set (s := w_study w). intros H.
  assert (Same : conv_or_new s' name = conv_or_new s name ->
     ~ (exists i net nd mx co, c = OnSel i (MConverter name net nd mx co) /\ is_selector w i /\
       ~ has_dest (conv_or_new s name) /\ has_node s net nd /\ net <> "" /\ nd <> "" /\ ~ (fits s mx /\ fits s co)) ->
     v_src (conv_or_new s' name) = v_src (conv_or_new s name) /\
     (has_dest (conv_or_new s' name) <-> has_dest (conv_or_new s name) \/
     exists i net nd mx co, c = OnSel i (MConverter name net nd mx co) /\ is_selector w i /\
       ~ has_dest (conv_or_new s name) /\ has_node s net nd /\ net <> "" /\ nd <> "" /\ ~ (fits s mx /\ fits s co))).
  { intros -> N. split; auto. tauto. }
  destruct c as [| | | | i m]; cbn [refused_leaves] in H; fold s in H;
    try (apply Same; [now rewrite H | intros (i0 & a1 & a2 & a3 & a4 & X & _); discriminate X]).
  destruct m; cbn [refused_leaves] in H; fold s in H; try (apply Same; [now rewrite H | intros (i0 & a1 & a2 & a3 & a4 & X & _); discriminate X]).
  - destruct H as [A B]. assert (Sd : is_selector w i \/ ~ is_selector w i).
    { unfold is_selector. destruct (nth_error (w_handles w) i); [left; eauto | right; intros (h & X); discriminate X]. }
    destruct Sd as [Sd | Sd].
    2: { apply Same; [now rewrite A |]. intros (i0 & a1 & a2 & a3 & a4 & X & Y & _). injection X as -> _ _ _ _ _. contradiction. }
    destruct (B Sd) as (ON & v & V & D).
    destruct (string_dec name name0) as [-> | N].
    + assert (W : conv_or_new s' name0 = v) by (unfold conv_or_new; now rewrite V).
      inversion D as [Bl Ev | D1 D2 D3 Ev | cc D1 D2 D3 D4 Ev].
      * apply Same; [congruence |]. intros (i0 & a1 & a2 & a3 & a4 & X & _ & Y & Z & _). injection X as _ <- <- <- <-. destruct Bl; contradiction.
      * rewrite W, <- Ev. split; [reflexivity |]. unfold has_dest at 1. cbn [v_dnet v_dnode with_dest]. split.
        -- intros [Y Z]. right. exists i, to_net, to_nd, max, cost. split; auto. split; auto. split; auto. split; auto. split; auto. split; auto. intros (_ & X). contradiction.
        -- intros [Y | (i0 & a1 & a2 & a3 & a4 & X & _ & _ & _ & Y & Z & _)]; [contradiction |]. injection X as _ <- <- <- <-. auto.
      * rewrite W, <- Ev. split; [reflexivity |]. unfold has_dest at 1. cbn [v_dnet v_dnode with_dest]. split.
        -- intros [Y Z]. right. exists i, to_net, to_nd, max, cost. split; auto. split; auto. split; auto. split; auto. split; auto. split; auto. intros (X & _). contradiction.
        -- intros [Y | (i0 & a1 & a2 & a3 & a4 & X & _ & _ & _ & Y & Z & _)]; [contradiction |]. injection X as _ <- <- <- <-. auto.
    + apply Same; [unfold conv_or_new; now rewrite (oc_other _ _ _ ON _ N) |].
      intros (i0 & a1 & a2 & a3 & a4 & X & _). congruence.
  - destruct H as [A B]. apply Same; [| intros (i0 & a1 & a2 & a3 & a4 & X & _); discriminate X].
    unfold is_node_selector in *. destruct (nth_error (w_handles w) i) as [[h | h] |] eqn:K;
      try (rewrite A; [reflexivity |]; intros (x & X); discriminate X).
    destruct B as (ON & V); [eauto |]. destruct (string_dec name name0) as [-> | N].
    + unfold conv_or_new at 1. now rewrite V.
    + unfold conv_or_new. now rewrite (oc_other _ _ _ ON _ N).
Qed.

Lemma conv_free s name : (forall v, conv_at s name = Some v -> v_dnet v = "" \/ v_dnode v = "") <-> ~ has_dest (conv_or_new s name).
Proof.
  rewrite free_dest. unfold conv_or_new. destruct (conv_at s name) as [v |]; split; auto; [intros X v' E; injection E as <-; auto | discriminate].
Qed.
Lemma conv_sources s name (k : string * string) : (forall v, conv_at s name = Some v -> ~ In k (dkeys (v_src v))) <-> ~ In k (dkeys (v_src (conv_or_new s name))).
Proof.
  unfold conv_or_new. destruct (conv_at s name) as [v |]; split; auto; [intros X v' E; injection E as <-; auto | discriminate].
Qed.

(** After a refused call exactly those calls are accepted that were accepted before it,
    except for setting the destination of a converter whose destination the refused call
    has set halfway. *)
Theorem C07_what_is_spoiled : forall w c w' e c', reachable w -> step w c = (w', Err e) ->
  (snd (step w' c') = Ok tt <-> snd (step w c') = Ok tt /\ ~ spoils w c c').
Proof.
  intros w c w' e c' R H. pose proof (reachable_inv _ R) as V. rewrite !C73_accepted_iff.
  pose proof (C07_exact _ _ _ _ H) as L. pose proof (refused_frame _ _ _ L) as F.
  destruct (refused_keys _ _ _ _ V H) as (KN & KS). destruct (refused_selectors _ _ _ _ V H) as (HH & _).
  assert (NS : (forall i name net nd mx co, c' <> OnSel i (MConverter name net nd mx co)) -> ~ spoils w c c').
  { intros N (i & name & net & nd & mx & co & i' & net' & nd' & mx' & co' & _ & X & _). exact (N _ _ _ _ _ _ X). }
  assert (HS : forall k, is_selector w' k <-> is_selector w k) by (intros k; unfold is_selector; now rewrite HH).
  assert (HNS : forall k, is_node_selector w' k <-> is_node_selector w k) by (intros k; unfold is_node_selector; now rewrite HH).
  assert (Plain : (forall i name net nd mx co, c' <> OnSel i (MConverter name net nd mx co)) ->
     (valid_call w' c' <-> valid_call w c') -> (valid_call w' c' <-> valid_call w c' /\ ~ spoils w c c')).
  { intros N E. specialize (NS N). tauto. }
  destruct c' as [nm | net src dest co q | net | net nd | k m]; try (apply Plain; [discriminate |]); cbn [valid_call].
  - reflexivity.
  - apply frame_link; auto.
  - reflexivity.
  - apply frame_net; auto.
  - destruct m; try (apply Plain; [discriminate |]).
    + apply HS.
    + split; intros (net & A & B); exists net; (split; [now apply KN | now apply (frame_net _ _ _ F)]).
    + split; intros (net & A & B); exists net; (split; [now apply KN | now apply (frame_link _ _ _ _ _ _ _ F)]).
    + cbn [valid_call]. rewrite HS. unfold has_node. rewrite (frame_node _ _ _ _ F), !(frame_fits _ _ _ F), !conv_free.
      destruct (refused_conv _ _ _ name L) as (_ & ->). split.
      * intros (A & B & C & D & E). split; [repeat split; auto |]. intros (i & name' & net & nd & mx & co & i' & net' & nd' & mx' & co' & Ec & Ec' & Rest).
        injection Ec' as <- <- <- <- <- <-. apply E. right. exists i, net, nd, mx, co. auto.
      * intros ((A & B & C & D & E) & N). repeat split; auto. intros [X | (i & net & nd & mx & co & Ec & Rest)]; [contradiction |].
        apply N. exists i, name, net, nd, mx, co, k, to_net, to_nd, max, cost. auto.
    + cbn [valid_call]. rewrite HNS. split; intros (A & net & nd & n & B & C & D); (split; auto); exists net, nd, n; (split; [now apply KS | split; [now rewrite (frame_node _ _ _ _ F) in * | now apply (frame_element _ _ _ _ F)]]).
    + cbn [valid_call]. rewrite HNS. split; intros (A & net & nd & n & B & C & D); (split; auto); exists net, nd, n; (split; [now apply KS | split; [now rewrite (frame_node _ _ _ _ F) in * | now apply (frame_element _ _ _ _ F)]]).
    + cbn [valid_call]. rewrite HNS. split; intros (A & net & nd & n & B & C & D); (split; auto); exists net, nd, n; (split; [now apply KS | split; [now rewrite (frame_node _ _ _ _ F) in * | now apply (frame_element _ _ _ _ F)]]).
    + cbn [valid_call]. rewrite HNS. destruct (refused_conv _ _ _ name L) as (SR & _).
      split; intros (A & net & nd & B & C & D); (split; auto); exists net, nd; (split; [now apply KS | split; [now apply (frame_fits _ _ _ F) |]]).
      * apply conv_sources. rewrite <- SR. now apply conv_sources.
      * apply conv_sources. rewrite SR. now apply conv_sources.
Qed.

(** A maximum given as text is refused; giving it again as a number is refused too. Any
    other call is accepted as before. *)
Example C07_exact_example :
  let bad := OnSel 3 (MConverter "p2g" "elec" "a" (PJson (JStr "oops")) (PJson (JNum 1))) in
  let good := OnSel 3 (MConverter "p2g" "elec" "a" (PJson (JNum 5)) (PJson (JNum 1))) in
  let other := OnSel 3 (MToConverter "p2g" (PJson (JNum 2))) in
  reachable demo_world /\ (exists w' e, step demo_world bad = (w', Err e)) /\
  snd (step demo_world good) = Ok tt /\ spoils demo_world bad good /\
  snd (step demo_world other) = Ok tt /\ ~ spoils demo_world bad other.
Proof.
  cbn zeta. split; [apply demo_reachable |]. split; [eexists; eexists; reflexivity |]. split; [reflexivity |].
  split; [| split; [reflexivity |]].
  - exists 3, "p2g", "elec", "a", (PJson (JStr "oops")), (PJson (JNum 1)), 3, "elec", "a", (PJson (JNum 5)), (PJson (JNum 1)).
    split; [reflexivity |]. split; [reflexivity |]. split; [eexists; reflexivity |]. split; [intros [X _]; now apply X |].
    split; [vm_compute; discriminate |]. split; [discriminate |]. split; [discriminate |]. intros ((v & X) & _). discriminate X.
  - intros (i & a1 & a2 & a3 & a4 & a5 & i' & b1 & b2 & b3 & b4 & _ & X & _). discriminate X.
Qed.

(** ** C05 *)

(** An element call that is proper but for the signs: its name is new and every argument is
    a number, a series or a table that fits. *)
Definition args_fit (s : study) (m : meth) : Prop :=
  match m with
  | MConsumption _ c q | MProduction _ c q => fits s c /\ fits s q
  | MStorage _ ca fi fo c _ e => fits s ca /\ fits s fi /\ fits s fo /\ fits s c /\ fits s e
  | _ => False
  end.
Definition all_below (s : study) (q : Q) (x : pyval) : Prop := forall v e, becomes s x v -> In e (entries v) -> (e < q)%Q.
Definition all_above (s : study) (q : Q) (x : pyval) : Prop := forall v e, becomes s x v -> In e (entries v) -> (q < e)%Q.
Definition bad_signs (s : study) (m : meth) : Prop :=
  (exists x, In x (checked_args m) /\ all_below s 0 x) \/
  match m with MStorage _ _ _ _ _ _ e => all_above s 1 e | _ => False end.

Lemma reaches_dec s q x : fits s x -> (reaches s q x <-> ~ all_below s q x).
Proof.
  intros (v & B). split.
  - intros (v' & e & B' & I' & L) N. specialize (N _ _ B' I'). apply (Qlt_not_le _ _ N L).
  - intros N. destruct (existsb (fun e => qle q e) (entries v)) eqn:X.
    + apply existsb_exists in X as (e & I' & L). exists v, e. split; auto. split; auto. now apply Qle_bool_iff.
    + exfalso. apply N. intros v' e B' I'. assert (v' = v) by (unfold becomes in *; congruence). subst v'.
      apply Qnot_le_lt. intros L. assert (Y : existsb (fun e => qle q e) (entries v) = true); [| congruence].
      apply existsb_exists. exists e. split; auto. now apply Qle_bool_iff.
Qed.
Lemma stays_dec s q x : fits s x -> (stays s q x <-> ~ all_above s q x).
Proof.
  intros (v & B). split.
  - intros (v' & e & B' & I' & L) N. specialize (N _ _ B' I'). apply (Qlt_not_le _ _ N L).
  - intros N. destruct (existsb (fun e => qle e q) (entries v)) eqn:X.
    + apply existsb_exists in X as (e & I' & L). exists v, e. split; auto. split; auto. now apply Qle_bool_iff.
    + exfalso. apply N. intros v' e B' I'. assert (v' = v) by (unfold becomes in *; congruence). subst v'.
      apply Qnot_le_lt. intros L. assert (Y : existsb (fun e => qle e q) (entries v) = true); [| congruence].
      apply existsb_exists. exists e. split; auto. now apply Qle_bool_iff.
Qed.
Lemma init_below s q : all_below s 0 (PJson (JNum q)) <-> (q < 0)%Q.
Proof.
  split.
  - intros H. apply (H (Scalar q (st_horizon s) (st_nb_scn s)) q); [reflexivity | now left].
  - intros L v e B I'. unfold becomes in B. cbn in B. injection B as <-. destruct I' as [<- | []]. exact L.
Qed.

(** Such a call is refused exactly if a quantity is negative in all its entries, or the
    efficiency above 1 in all of them. *)
Theorem C05_exact : forall w i net nd n m,
  is_node_selector w i -> selects w i net nd -> node_at (w_study w) net nd = Some n ->
  fresh_name n m -> args_fit (w_study w) m ->
  (snd (step w (OnSel i m)) <> Ok tt <-> bad_signs (w_study w) m).
Proof.
  intros w i net nd n m NS S N FN AF. set (s := w_study w) in *.
  assert (G : snd (step w (OnSel i m)) = Ok tt <-> valid_element s n m).
  { rewrite C73_accepted_iff. destruct m; try contradiction; cbn [valid_call]; fold s; (split;
      [ intros (_ & net' & nd' & n' & S' & N' & V); assert (Q : (net', nd') = (net, nd)) by (unfold selects in *; congruence); injection Q as -> ->; congruence
      | intros V; split; auto; exists net, nd, n; auto ]). }
  rewrite G. unfold bad_signs. destruct m; try contradiction; cbn [valid_element args_fit fresh_name checked_args] in *.
  - destruct AF as (Fc & Fq). rewrite (reaches_dec s 0 _ Fq). split.
    + intros X. left. exists quantity. split; [now left |]. intros v e B I'. apply Qnot_le_lt. intros L. apply X. repeat split; auto.
      intros Y. apply (Qlt_not_le _ _ (Y _ _ B I') L).
    + intros [(x & [<- | []] & Y) | []] (_ & _ & Z). contradiction.
  - destruct AF as (Fc & Fq). rewrite (reaches_dec s 0 _ Fq). split.
    + intros X. left. exists quantity. split; [now left |]. intros v e B I'. apply Qnot_le_lt. intros L. apply X. repeat split; auto.
      intros Y. apply (Qlt_not_le _ _ (Y _ _ B I') L).
    + intros [(x & [<- | []] & Y) | []] (_ & _ & Z). contradiction.
  - destruct AF as (F1 & F2 & F3 & Fc & Fe). rewrite (reaches_dec s 0 _ F1), (reaches_dec s 0 _ F2), (reaches_dec s 0 _ F3), (reaches_dec s 0 _ Fe), (stays_dec s 1 _ Fe).
    assert (Dec : forall x, fits s x -> all_below s 0 x \/ ~ all_below s 0 x).
    { intros x (v & B). destruct (existsb (fun e => qle 0 e) (entries v)) eqn:X.
      - right. apply existsb_exists in X as (e & I' & L). apply Qle_bool_iff in L. intros Y. apply (Qlt_not_le _ _ (Y _ _ B I') L).
      - left. intros v' e B' I'. assert (v' = v) by (unfold becomes in *; congruence). subst v'.
        apply Qnot_le_lt. intros L. assert (Y : existsb (fun e => qle 0 e) (entries v) = true); [| congruence].
        apply existsb_exists. exists e. split; auto. now apply Qle_bool_iff. }
    destruct (Dec _ F1) as [D1 | D1]; [split; [intros _; left; exists capacity; simpl; auto | intros _ X; tauto] |].
    destruct (Dec _ F2) as [D2 | D2]; [split; [intros _; left; exists flow_in; simpl; auto | intros _ X; tauto] |].
    destruct (Dec _ F3) as [D3 | D3]; [split; [intros _; left; exists flow_out; simpl; auto | intros _ X; tauto] |].
    destruct (Dec _ Fe) as [D4 | D4]; [split; [intros _; left; exists eff; simpl; auto 10 | intros _ X; tauto] |].
    destruct (Qlt_le_dec init 0) as [D5 | D5].
    { split; [intros _; left; exists (PJson (JNum init)); simpl; split; [auto 10 | now apply init_below] |].
      intros _ (_ & _ & _ & _ & _ & X & _). apply (Qlt_not_le _ _ D5 X). }
    split.
    + intros X. right. intros v e B I'. apply Qnot_le_lt. intros L. apply X. repeat split; auto. intros Y. apply (Qlt_not_le _ _ (Y _ _ B I') L).
    + intros [(x & I' & Y) | Y] (_ & _ & _ & _ & _ & _ & _ & Z); [| contradiction].
      simpl in I'. destruct I' as [<- | [<- | [<- | [<- | [<- | []]]]]]; try contradiction. apply init_below in Y. apply (Qlt_not_le _ _ Y D5).
Qed.

Example C05_exact_example :
  let m := MStorage "s" (PJson (JNum 10)) (PJson (JList [JNum (-1); JNum 4])) (PJson (JNum 4)) (PJson (JNum 0)) 1 (PJson (JList [JNum (1 # 2); JNum 2])) in
  let m' := MStorage "s" (PJson (JNum 10)) (PJson (JList [JNum (-1); JNum (-4)])) (PJson (JNum 4)) (PJson (JNum 0)) 1 (PJson (JNum 1)) in
  is_node_selector demo_world 3 /\ args_fit (w_study demo_world) m /\ args_fit (w_study demo_world) m' /\
  snd (step demo_world (OnSel 3 m)) = Ok tt /\ snd (step demo_world (OnSel 3 m')) = Err ValueError.
Proof.
  cbn zeta. split; [eexists; reflexivity |]. repeat split; try (eexists; reflexivity).
Qed.

(** ** C10 *)
(** A selector can be continued with [.node] and [.link] unless it was returned by
    [.converter]; [.network] and [.converter] can always be called on it. *)
Theorem C10_exact : forall w c w1 cs j,
  reachable w -> step w c = (w1, Ok tt) -> j = length (w_handles w) -> j < length (w_handles w1) ->
  let w2 := run w1 cs in
  (forall name, snd (step w2 (OnSel j (MNetwork name))) = Ok tt) /\
  ((exists i name net nd mx co, c = OnSel i (MConverter name net nd mx co)) ->
     (forall name, snd (step w2 (OnSel j (MNode name))) = Err KeyError) /\
     (forall a b x y, snd (step w2 (OnSel j (MLink a b x y))) = Err KeyError) /\
     ~ is_node_selector w2 j) /\
  (~ (exists i name net nd mx co, c = OnSel i (MConverter name net nd mx co)) ->
     (forall name, snd (step w2 (OnSel j (MNode name))) = Ok tt) /\
     exists net, in_network w2 j net /\ has_network (w_study w2) net).
Proof.
  intros w c w1 cs j R H -> L w2. pose proof (reachable_inv _ R) as V.
  pose proof (step_ok _ _ _ _ V H) as S1. pose proof (run_ok cs _ (si_inv _ _ S1)) as S2. fold w2 in S2.
  destruct (si_handles _ _ S2) as [hs HS].
  destruct (nth_error (w_handles w1) (length (w_handles w))) as [h |] eqn:K; [| apply nth_error_None in K; lia].
  assert (K2 : nth_error (w_handles w2) (length (w_handles w)) = Some h) by (rewrite HS; now apply nth_error_app_some).
  split; [intros name; apply C73_accepted_iff; cbn [valid_call]; exists h; exact K2 |]. split.
  - intros (i & name & net & nd & mx & co & ->). apply sel_call_ok in H as (h0 & _ & fs & h' & H & ->).
    assert (Q : fl_converter name net nd mx co (w_fs w) = (fs, Ok h')) by (destruct h0; exact H).
    cbn [w_handles] in K. rewrite nth_error_app2, Nat.sub_diag in K by lia. injection K as <-.
    unfold fl_converter, sbind, onstudy, new_sel, sret in Q.
    destruct (do_converter name net nd mx co (f_study (w_fs w))) as [s' [u | x]]; cbn in Q; [| discriminate Q]. injection Q as <- <-.
    assert (X : nth_error (f_sels (w_fs (World (FS s' (f_sels (w_fs w) ++ [Sel None None])) (w_handles w ++ [HNet (length (f_sels (w_fs w)))])))) (length (f_sels (w_fs w))) = Some (Sel None None)).
    { cbn. rewrite nth_error_app2, Nat.sub_diag by lia. reflexivity. }
    destruct (proj2 (si_sels _ _ S2) _ _ X) as (y & Y & YN & _). cbn in YN.
    split; [| split].
    + intros nm. cbn [step]. rewrite K2. cbn [fl_call]. unfold push_handle.
      assert (Q : snd (fl_node (length (f_sels (w_fs w))) nm (w_fs w2)) = Err KeyError).
      { unfold fl_node. erewrite sbind_eq_ok by reflexivity. unfold sbind at 1. rewrite key_network_eq. cbn [f_sels].
        rewrite nth_error_upd_nth, Nat.eqb_refl, Y. cbn. rewrite YN. reflexivity. }
      destruct (fl_node _ nm (w_fs w2)) as [f r]; cbn in Q; subst r; reflexivity.
    + intros a b p q. cbn [step]. rewrite K2. cbn [fl_call]. unfold push_handle.
      assert (Q : snd (fl_link (length (f_sels (w_fs w))) a b p q (w_fs w2)) = Err KeyError).
      { unfold fl_link, sbind at 1. rewrite key_network_eq, Y, YN. reflexivity. }
      destruct (fl_link _ a b p q (w_fs w2)) as [f r]; cbn in Q; subst r; reflexivity.
    + intros (a & A). rewrite K2 in A. discriminate A.
  - intros N.
    assert (NC : match c with OnSel _ (MConverter _ _ _ _ _) => False | _ => True end).
    { destruct c as [| | | | i m]; auto. destruct m; auto. apply N. eauto 10. }
    assert (G : forall name, snd (step w2 (OnSel (length (w_handles w)) (MNode name))) = Ok tt).
    { intros name. apply (C10_selectors_usable_partial w c w1 cs (length (w_handles w)) R H NC eq_refl L name). }
    split; auto. specialize (G ""). apply C73_accepted_iff in G. exact G.
Qed.

Example C10_exact_example :
  exists w1, step demo_world (OnSel 3 (MConverter "p2g" "elec" "a" (PJson (JNum 9)) (PJson (JNum 1)))) = (w1, Ok tt) /\
             length (w_handles demo_world) < length (w_handles w1).
Proof. eexists. split; [reflexivity |]. cbn. lia. Qed.

Print Assumptions C05_exact.
Print Assumptions C10_exact.
Print Assumptions C07_exact.
Print Assumptions C07_what_is_spoiled.
