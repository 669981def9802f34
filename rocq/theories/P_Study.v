(** Properties C05-C10: building a study. *)
From Coq Require Import String List ZArith QArith Bool Arith Lia.
From Verif Require Import Base BaseFacts Numeric Study Fluent SpecNumeric SpecStudy NumericFacts StudyFacts FluentFacts.
Import ListNotations.
Open Scope nat_scope.
Open Scope string_scope.
Open Scope list_scope.

(** A small program used by the examples: two nodes, a consumption and a link. *)
Definition demo : list call :=
  [ OnStudy_network "elec";
    OnSel 0 (MNode "a");
    OnSel 1 (MConsumption "load" (PJson (JNum 1000)) (PJson (JList [JNum 10; JNum 20])));
    OnSel 2 (MNode "b");
    OnSel 3 (MProduction "gas" (PJson (JNum 30)) (PJson (JNum 50)));
    OnSel 4 (MLink "b" "a" (PJson (JNum 2)) (PJson (JNum 40))) ].
Definition demo_world : world := Eval vm_compute in run (start 2 1 None) demo.

Lemma demo_reachable : reachable demo_world.
Proof. exists 2, 1, None, demo. vm_compute. reflexivity. Qed.

(** ** C05 *)
Lemma nv_lt_false v q : nv_lt v q = false -> exists e, In e (entries v) /\ (q <= e)%Q.
Proof.
  assert (F : forall l, forallb (fun x => qlt x q) l = false -> exists e, In e l /\ (q <= e)%Q).
  { induction l as [|x r IH]; simpl; intros H; try discriminate.
    apply andb_false_iff in H as [H|H].
    - exists x. split; auto. now apply qlt_false.
    - destruct (IH H) as (e & ? & ?). eauto. }
  destruct v; simpl; auto. intros H. exists v. split; auto. now apply qlt_false.
Qed.

Lemma nv_gt_false v q : nv_gt v q = false -> exists e, In e (entries v) /\ (e <= q)%Q.
Proof.
  assert (F : forall l, forallb (fun x => qlt q x) l = false -> exists e, In e l /\ (e <= q)%Q).
  { induction l as [|x r IH]; simpl; intros H; try discriminate.
    apply andb_false_iff in H as [H|H].
    - exists x. split; auto. now apply qlt_false.
    - destruct (IH H) as (e & ? & ?). eauto. }
  destruct v; simpl; auto. intros H. exists v. split; auto. now apply qlt_false.
Qed.

(** [x] is stored with at least one entry >= 0, and is >= 0 if it was a number. *)
Definition not_all_negative (s : study) (x : pyval) : Prop :=
  (exists v e, becomes s x v /\ In e (entries v) /\ (0 <= e)%Q) /\
  (forall q, given_number q x -> (0 <= q)%Q).

Lemma lt_not_all_negative s x v : becomes s x v -> nv_lt v 0 = false -> not_all_negative s x.
Proof.
  intros B N. destruct (nv_lt_false _ _ N) as (e & I & L). split; [eauto|].
  intros q G. unfold becomes in B. inversion G; subst; simpl in B.
  - inversion B; subst. simpl in I. intuition subst; auto.
  - rewrite H in B. simpl in B. inversion B; subst. simpl in I. intuition subst; auto.
Qed.

Lemma gt_not_all_above s x v : becomes s x v -> nv_gt v 1 = false ->
  (exists v e, becomes s x v /\ In e (entries v) /\ (e <= 1)%Q) /\
  (forall q, given_number q x -> (q <= 1)%Q).
Proof.
  intros B N. destruct (nv_gt_false _ _ N) as (e & I & L). split; [eauto|].
  intros q G. unfold becomes in B. inversion G; subst; simpl in B.
  - inversion B; subst. simpl in I. intuition subst; auto.
  - rewrite H in B. simpl in B. inversion B; subst. simpl in I. intuition subst; auto.
Qed.

(** The quantities a method call passes that must not be negative. *)
Definition checked_args (m : meth) : list pyval :=
  match m with
  | MConsumption _ _ q | MProduction _ _ q | MLink _ _ _ q => [q]
  | MStorage _ ca fi fo _ i e => [ca; fi; fo; PJson (JNum i); e]
  | _ => []
  end.

(** Successful selector calls, as study methods. *)
Lemma sel_call_ok w i m w' : step w (OnSel i m) = (w', Ok tt) ->
  exists h, nth_error (w_handles w) i = Some h /\
    exists fs' h', fl_call h m (w_fs w) = (fs', Ok h') /\ w' = World fs' (w_handles w ++ [h']).
Proof.
  simpl. destruct (nth_error (w_handles w) i) as [h|]; [|discriminate].
  intros E. exists h. split; auto. unfold push_handle in E.
  destruct (fl_call h m (w_fs w)) as [fs' [h'|e]]; inversion E; subst; eauto.
Qed.

Lemma onstudy_ok {A} (m : ST study A) fs fs' a : onstudy m fs = (fs', Ok a) ->
  m (f_study fs) = (f_study fs', Ok a) /\ f_sels fs' = f_sels fs.
Proof. unfold onstudy. destruct (m (f_study fs)) as [s' r]. intros E; inversion E; auto. Qed.

Lemma key_network_ok a fs fs' n : key_network a fs = (fs', Ok n) ->
  fs' = fs /\ exists x, nth_error (f_sels fs) a = Some x /\ sel_net x = Some n.
Proof.
  rewrite key_network_eq. destruct (nth_error (f_sels fs) a) as [x|]; [|discriminate].
  destruct (sel_net x) eqn:E; [|discriminate]. intros H; inversion H; subst. eauto.
Qed.
Lemma key_node_ok a fs fs' n : key_node a fs = (fs', Ok n) ->
  fs' = fs /\ exists x, nth_error (f_sels fs) a = Some x /\ sel_node x = Some n.
Proof.
  rewrite key_node_eq. destruct (nth_error (f_sels fs) a) as [x|]; [|discriminate].
  destruct (sel_node x) eqn:E; [|discriminate]. intros H; inversion H; subst. eauto.
Qed.

Lemma elem_ok a (k : string -> string -> ST study unit) fs fs' h :
  (do n <- key_network a; do d <- key_node a; onstudy (k n d);; sret (HNode a)) fs = (fs', Ok h) ->
  exists net nd, nth_error (f_sels fs) a = Some (Sel (Some net) (Some nd)) /\
    k net nd (f_study fs) = (f_study fs', Ok tt) /\ f_sels fs' = f_sels fs /\ h = HNode a.
Proof.
  intros H. apply sbind_ok in H as (fs1 & net & H1 & H). apply key_network_ok in H1 as (-> & x & X & N).
  apply sbind_ok in H as (fs1 & nd & H1 & H). apply key_node_ok in H1 as (-> & y & Y & D).
  apply sbind_ok in H as (fs1 & [] & H1 & H). apply onstudy_ok in H1 as [H1 S].
  inversion H; subst. exists net, nd. repeat split; auto.
  assert (x = y) by congruence; subst. rewrite Y. destruct y; simpl in *; congruence.
Qed.

Lemma link_call_ok a src dest c q fs fs' h : fl_link a src dest c q fs = (fs', Ok h) ->
  exists net x, nth_error (f_sels fs) a = Some x /\ sel_net x = Some net /\
    add_link net src dest c q (f_study fs) = (f_study fs', Ok tt) /\ f_sels fs' = f_sels fs /\ h = HNet a.
Proof.
  intros H. apply sbind_ok in H as (fs1 & net & H1 & H). apply key_network_ok in H1 as (-> & x & X & N).
  apply sbind_ok in H as (fs1 & [] & H1 & H). apply onstudy_ok in H1 as [H1 S].
  inversion H; subst. exists net, x. auto.
Qed.

Theorem C05_negative_data_partial : forall w i m w',
  step w (OnSel i m) = (w', Ok tt) ->
  (forall x, In x (checked_args m) -> not_all_negative (w_study w) x) /\
  (match m with
   | MStorage _ _ _ _ _ _ e =>
       (exists v q, becomes (w_study w) e v /\ In q (entries v) /\ (q <= 1)%Q) /\
       (forall q, given_number q e -> (q <= 1)%Q)
   | _ => True
   end).
Proof.
  intros w i m w' H. apply sel_call_ok in H as (h & _ & fs' & h' & H & ->). unfold w_study.
  destruct m, h as [a|a]; cbn [fl_call] in H; try (inversion H; fail);
    try (split; [simpl; tauto | exact I]).
  - apply link_call_ok in H as (net & x & _ & _ & H & _ & _).
    apply add_link_ok in H as (n & vq & vc & _ & _ & _ & B & N & _). simpl. split; auto.
    intros y [<-|[]]. eapply lt_not_all_negative; eauto.
  - apply link_call_ok in H as (net & x & _ & _ & H & _ & _).
    apply add_link_ok in H as (n & vq & vc & _ & _ & _ & B & N & _). simpl. split; auto.
    intros y [<-|[]]. eapply lt_not_all_negative; eauto.
  - apply (elem_ok a (fun n d => add_consumption n d name cost quantity)) in H as (net & nd & _ & H & _ & _).
    apply add_consumption_ok in H as (n & vq & vc & _ & _ & B & N & _). simpl. split; auto.
    intros y [<-|[]]. eapply lt_not_all_negative; eauto.
  - apply (elem_ok a (fun n d => add_production n d name cost quantity)) in H as (net & nd & _ & H & _ & _).
    apply add_production_ok in H as (n & vq & vc & _ & _ & B & N & _). simpl. split; auto.
    intros y [<-|[]]. eapply lt_not_all_negative; eauto.
  - apply (elem_ok a (fun n d => add_storage n d name capacity flow_in flow_out cost init eff)) in H
      as (net & nd & _ & H & _ & _).
    apply add_storage_ok in H as (n & vca & vfi & vfo & vc & ve & _ & _ & B1 & B2 & B3 & B4 & B5 & N1 & N2 & N3 & N4 & N5 & N6 & _).
    simpl. split.
    + intros y [<-|[<-|[<-|[<-|[<-|[]]]]]]; try (eapply lt_not_all_negative; eauto; fail).
      split.
      * exists (Scalar init (st_horizon (f_study (w_fs w))) (st_nb_scn (f_study (w_fs w)))), init.
        repeat split; simpl; auto. now apply qlt_false.
      * intros q G. inversion G; subst. now apply qlt_false.
    + eapply gt_not_all_above; eauto.
Qed.

Example C05_example :
  exists w', step demo_world (OnSel 3 (MProduction "wind" (PJson (JNum 0)) (PJson (JList [JNum 0; JNum 5]))))
             = (w', Ok tt).
Proof. eexists; reflexivity. Qed.

(** The full claim is false: the test looks whether all entries are negative, so
    an array with one negative entry passes; likewise for an efficiency. *)
Theorem C05_negative_data_refuted :
  exists w i m w' x v e,
    reachable w /\ step w (OnSel i m) = (w', Ok tt) /\ In x (checked_args m) /\
    becomes (w_study w) x v /\ In e (entries v) /\ (e < 0)%Q.
Proof.
  exists demo_world, 3, (MProduction "wind" (PJson (JNum 0)) (PJson (JList [JNum (-5); JNum 5]))).
  eexists. exists (PJson (JList [JNum (-5); JNum 5])). eexists. exists (-5)%Q.
  split; [apply demo_reachable|]. repeat split; simpl; auto.
Qed.

Theorem C05_efficiency_refuted :
  exists w i name ca fi fo c q0 e w' v q,
    reachable w /\ step w (OnSel i (MStorage name ca fi fo c q0 e)) = (w', Ok tt) /\
    becomes (w_study w) e v /\ In q (entries v) /\ (1 < q)%Q.
Proof.
  exists demo_world, 3, "bat", (PJson (JNum 10)), (PJson (JNum 10)), (PJson (JNum 10)), (PJson (JNum 0)), 0%Q.
  exists (PJson (JList [JNum 1; JNum 3])). eexists. eexists. exists 3%Q.
  split; [apply demo_reachable|]. repeat split; simpl; auto.
Qed.

(** ** C06 *)
Theorem C06_well_formed_studies : forall h n version cs,
  study_wf (w_study (run (start h n version) cs)).
Proof.
  intros. assert (I : inv (run (start h n version) cs)).
  { apply reachable_inv. exists h, n, version, cs. auto. }
  apply I.
Qed.

(** A program with refused calls in the middle: duplicate name, unknown node,
    converter with a missing destination. *)
Example C06_example :
  let cs := demo ++ [ OnSel 3 (MProduction "gas" (PJson (JNum 1)) (PJson (JNum 1)));
                      OnSel 3 (MLink "b" "nowhere" (PJson (JNum 1)) (PJson (JNum 1)));
                      OnSel 3 (MToConverter "p2g" (PJson (JNum 1)));
                      OnSel 3 (MConverter "p2g" "gas" "x" (PJson (JNum 1)) (PJson (JNum 1))) ] in
  option_map (fun v => (dkeys (v_src v), v_dnet v)) (conv_at (w_study (run (start 2 1 None) cs)) "p2g")
  = Some ([("elec", "b")], "").
Proof. vm_compute. reflexivity. Qed.

(** ** C07 *)
Lemma onstudy_err {A} (m : ST study A) fs fs' e : atomic m -> onstudy m fs = (fs', Err e) ->
  f_study fs' = f_study fs.
Proof.
  unfold onstudy. intros T. destruct (m (f_study fs)) as [s' r] eqn:E. intros H; inversion H; subst; simpl.
  eapply T; eauto.
Qed.

Lemma study_then_handle (m : ST study unit) (h : handle) fs fs' e : atomic m ->
  (onstudy m;; sret h) fs = (fs', Err e) -> f_study fs' = f_study fs.
Proof.
  intros T H. apply sbind_err in H as [H | (fs1 & u & _ & H)]; [eapply onstudy_err; eauto | discriminate].
Qed.

Lemma elem_err a (k : string -> string -> ST study unit) fs fs' e : (forall n d, atomic (k n d)) ->
  (do n <- key_network a; do d <- key_node a; onstudy (k n d);; sret (HNode a)) fs = (fs', Err e) ->
  f_study fs' = f_study fs.
Proof.
  intros T H. apply sbind_err in H as [H | (fs1 & u & H1 & H)].
  { rewrite key_network_eq in H. inversion H; auto. }
  rewrite key_network_eq in H1. inversion H1; subst; clear H1.
  apply sbind_err in H as [H | (fs2 & u2 & H1 & H)].
  { rewrite key_node_eq in H. inversion H; auto. }
  rewrite key_node_eq in H1. inversion H1; subst; clear H1.
  eapply study_then_handle; eauto.
Qed.

Lemma link_err a src dest c q fs fs' e : fl_link a src dest c q fs = (fs', Err e) -> f_study fs' = f_study fs.
Proof.
  intros H. apply sbind_err in H as [H | (fs1 & u & H1 & H)].
  { rewrite key_network_eq in H. inversion H; auto. }
  rewrite key_network_eq in H1. inversion H1; subst; clear H1.
  eapply study_then_handle; eauto using add_link_atomic.
Qed.

Lemma push_err w r w' e : push_handle w r = (w', Err e) -> exists e', snd r = Err e' /\ w_fs w' = fst r.
Proof. unfold push_handle. destruct r as [fs [h|x]]; intros H; inversion H; subst; simpl; eauto. Qed.

Theorem C07_refused_call_changes_nothing_partial : forall w c w' e,
  step w c = (w', Err e) -> ~ is_converter_call c -> w_study w' = w_study w.
Proof.
  intros w c w' e H NC. unfold w_study. destruct c; simpl in H.
  - apply push_err in H as (e' & H & ->). exfalso. unfold fl_network in H.
    erewrite sbind_eq_ok in H by (unfold onstudy; rewrite add_network_eq; reflexivity). discriminate.
  - unfold no_handle in H. destruct (onstudy (add_link net src dest cost quantity) (w_fs w)) as [fs' r] eqn:E.
    simpl in H. inversion H; subst; simpl. eapply onstudy_err; eauto using add_link_atomic.
  - unfold no_handle in H. unfold onstudy in H. rewrite add_network_eq in H. discriminate.
  - unfold no_handle in H. destruct (onstudy (add_node net nd) (w_fs w)) as [fs' r] eqn:E.
    simpl in H. inversion H; subst; simpl. eapply onstudy_err; eauto using add_node_atomic.
  - destruct (nth_error (w_handles w) i) as [h|]; [|inversion H; auto].
    apply push_err in H as (e' & H & ->).
    destruct (fl_call h m (w_fs w)) as [fs' r] eqn:E. simpl in *. subst r.
    destruct m, h as [a|a]; cbn [fl_call] in E; try (now inversion E); try (exfalso; apply NC; exact I).
    all: try (exfalso; unfold fl_network in E;
              erewrite sbind_eq_ok in E by (unfold onstudy; rewrite add_network_eq; reflexivity); discriminate).
    all: try (eapply link_err; eauto; fail).
    + unfold fl_node in E. erewrite sbind_eq_ok in E by reflexivity.
      apply sbind_err in E as [E | (fs1 & net & E1 & E)]; rewrite key_network_eq in *; [inversion E; auto|].
      inversion E1; subst. eapply study_then_handle in E; eauto using add_node_atomic.
    + unfold fl_node in E. erewrite sbind_eq_ok in E by reflexivity.
      apply sbind_err in E as [E | (fs1 & net & E1 & E)]; rewrite key_network_eq in *; [inversion E; auto|].
      inversion E1; subst. eapply study_then_handle in E; eauto using add_node_atomic.
    + eapply (elem_err a (fun n d => add_consumption n d name cost quantity)); eauto using add_consumption_atomic.
    + eapply (elem_err a (fun n d => add_production n d name cost quantity)); eauto using add_production_atomic.
    + eapply (elem_err a (fun n d => add_storage n d name capacity flow_in flow_out cost init eff)); eauto using add_storage_atomic.
Qed.

(** A refused [to_converter] on an existing converter also changes nothing. *)
Theorem C07_refused_source_partial : forall w i name ratio w' e,
  step w (OnSel i (MToConverter name ratio)) = (w', Err e) ->
  conv_at (w_study w) name <> None -> w_study w' = w_study w.
Proof.
  intros w i name ratio w' e H C. unfold w_study in *. cbn [step] in H.
  destruct (nth_error (w_handles w) i) as [h|]; [|inversion H; auto].
  apply push_err in H as (e' & H & ->).
  destruct (fl_call h (MToConverter name ratio) (w_fs w)) as [fs' r] eqn:E. simpl in *. subst r.
  destruct h as [a|a]; [now inversion E|].
  assert (Z : add_converter_eff (f_study (w_fs w)) name = f_study (w_fs w)).
  { unfold add_converter_eff, dmem, conv_at in *. destruct (dget name _); congruence. }
  unfold fl_to_converter in E.
  erewrite sbind_eq_ok in E by (unfold onstudy; rewrite add_converter_eq, Z; reflexivity).
  apply (elem_err a (fun n d => add_converter_src name n d ratio)) in E; auto.
  intros; apply add_converter_src_atomic.
Qed.

Example C07_example :
  exists w' e, step demo_world (OnSel 3 (MProduction "gas" (PJson (JNum 1)) (PJson (JNum 1)))) = (w', Err e).
Proof. eexists; eexists; reflexivity. Qed.

(** The full claim is false of converter calls: a refused destination leaves a
    converter without sources nor destination, a bad maximum leaves a converter
    whose destination is set. *)
Theorem C07_refused_call_changes_nothing_refuted : exists w c w' e,
  reachable w /\ step w c = (w', Err e) /\ w_study w' <> w_study w.
Proof.
  exists demo_world, (OnSel 3 (MConverter "p2g" "gas" "x" (PJson (JNum 1)) (PJson (JNum 1)))).
  eexists; eexists. split; [apply demo_reachable|]. split; [reflexivity|]. discriminate.
Qed.

Theorem C07_half_set_destination_refuted : exists w c w' e v,
  reachable w /\ step w c = (w', Err e) /\
  conv_at (w_study w) "p2g" = None /\
  conv_at (w_study w') "p2g" = Some v /\ v_dnode v = "a" /\ v_max v = None.
Proof.
  exists demo_world, (OnSel 3 (MConverter "p2g" "elec" "a" (PJson (JStr "oops")) (PJson (JNum 1)))).
  eexists; eexists; eexists. split; [apply demo_reachable|]. repeat split; reflexivity.
Qed.

(** ** C08 *)
Theorem C08_accepted_call_adds_element : forall w i m w',
  step w (OnSel i m) = (w', Ok tt) -> is_element m ->
  exists net nd n n',
    selects w i net nd /\
    node_at (w_study w) net nd = Some n /\ node_at (w_study w') net nd = Some n' /\
    element_added (w_study w) m n n' /\
    only_node (w_study w) (w_study w') net nd.
Proof.
  intros w i m w' H E. apply sel_call_ok in H as (h & HH & fs' & h' & H & ->).
  assert (K : forall net nd f n, nth_error (f_sels (w_fs w)) (addr h) = Some (Sel (Some net) (Some nd)) ->
            node_at (w_study w) net nd = Some n -> element_added (w_study w) m n (f n) ->
            f_study fs' = updn (w_study w) net nd f ->
            exists net nd n n', selects w i net nd /\
              node_at (w_study w) net nd = Some n /\
              node_at (w_study (World fs' (w_handles w ++ [h']))) net nd = Some n' /\
              element_added (w_study w) m n n' /\
              only_node (w_study w) (w_study (World fs' (w_handles w ++ [h']))) net nd).
  { intros net nd f n S N EA U. exists net, nd, n, (f n).
    assert (W' : w_study (World fs' (w_handles w ++ [h'])) = updn (w_study w) net nd f) by exact U.
    rewrite W'. unfold selects, selector_keys, selector_dict. rewrite HH; simpl.
    split; auto. split; auto. split; [now apply updn_node|]. split; auto. apply updn_only. }
  unfold w_study in *.
  destruct m; try (destruct E; fail); destruct h as [a|a]; cbn [fl_call] in H; try discriminate.
  - apply (elem_ok a (fun n d => add_consumption n d name cost quantity)) in H as (net & nd & S & H & _ & _).
    apply add_consumption_ok in H as (n & vq & vc & N & _ & B & _ & C & U).
    eapply K; eauto. eapply ea_cons; eauto.
  - apply (elem_ok a (fun n d => add_production n d name cost quantity)) in H as (net & nd & S & H & _ & _).
    apply add_production_ok in H as (n & vq & vc & N & _ & B & _ & C & U).
    eapply K; eauto. eapply ea_prod; eauto.
  - apply (elem_ok a (fun n d => add_storage n d name capacity flow_in flow_out cost init eff)) in H
      as (net & nd & S & H & _ & _).
    apply add_storage_ok in H as (n & vca & vfi & vfo & vc & ve & N & _ & B1 & B2 & B3 & B4 & B5 & _ & _ & _ & _ & _ & _ & U).
    eapply K; eauto. eapply ea_stor; eauto.
Qed.

(** The same for links, through a selector or on the study itself. *)
Definition link_added (s s' : study) (net src dest : string) (c q : pyval) : Prop :=
  exists n n', node_at s net src = Some n /\ has_node s net dest /\
    node_at s' net src = Some n' /\
    element_added s (MLink src dest c q) n n' /\ only_node s s' net src.

Lemma add_link_added net src dest c q s s' :
  add_link net src dest c q s = (s', Ok tt) -> link_added s s' net src dest c q.
Proof.
  intros H. apply add_link_ok in H as (n & vq & vc & N & D & _ & B & _ & C & ->).
  exists n, (push_link (Lnk dest vq vc) n). split; auto. split; auto. split; [now apply updn_node|].
  split; [eapply ea_link; eauto | apply updn_only].
Qed.

Theorem C08_accepted_link : forall w w' src dest c q,
  (forall i, step w (OnSel i (MLink src dest c q)) = (w', Ok tt) ->
     exists x net, selector_keys w i = Some x /\ sel_net x = Some net /\
       link_added (w_study w) (w_study w') net src dest c q) /\
  (forall net, step w (OnStudy_add_link net src dest c q) = (w', Ok tt) ->
     link_added (w_study w) (w_study w') net src dest c q).
Proof.
  intros w w' src dest c q. split.
  - intros i H. apply sel_call_ok in H as (h & HH & fs' & h' & H & ->).
    assert (L : fl_link (addr h) src dest c q (w_fs w) = (fs', Ok h')) by (destruct h; exact H).
    apply link_call_ok in L as (net & x & X & N & L & _ & _).
    exists x, net. unfold selector_keys, selector_dict. rewrite HH; simpl. repeat split; auto.
    unfold w_study; simpl. now apply add_link_added.
  - intros net H. simpl in H. unfold no_handle in H.
    destruct (onstudy (add_link net src dest c q) (w_fs w)) as [fs' r] eqn:E.
    inversion H; subst. apply onstudy_ok in E as [E _].
    unfold w_study; simpl. now apply add_link_added.
Qed.

(** And for converters: the two calls touch one converter only. *)
Theorem C08_accepted_converter : forall w i w',
  (forall name net nd mx c, step w (OnSel i (MConverter name net nd mx c)) = (w', Ok tt) ->
     exists v vc vm, conv_at (w_study w') name = Some v /\
       becomes (w_study w) c vc /\ becomes (w_study w) mx vm /\ has_node (w_study w) net nd /\
       v_dnet v = net /\ v_dnode v = nd /\ v_cost v = Some vc /\ v_max v = Some vm /\
       v_src v = match conv_at (w_study w) name with Some v0 => v_src v0 | None => [] end /\
       only_conv (w_study w) (w_study w') name) /\
  (forall name r, step w (OnSel i (MToConverter name r)) = (w', Ok tt) ->
     exists v vr net nd, selects w i net nd /\ conv_at (w_study w') name = Some v /\
       becomes (w_study w) r vr /\
       v_src v = (match conv_at (w_study w) name with Some v0 => v_src v0 | None => [] end)
                 ++ [((net, nd), vr)] /\
       (forall v0, conv_at (w_study w) name = Some v0 ->
          (v_dnet v, v_dnode v, v_cost v, v_max v) = (v_dnet v0, v_dnode v0, v_cost v0, v_max v0)) /\
       only_conv (w_study w) (w_study w') name).
Proof.
  intros w i w'. split.
  - intros name net nd mx c H. apply sel_call_ok in H as (h & HH & fs' & h' & H & ->).
    assert (L : fl_converter name net nd mx c (w_fs w) = (fs', Ok h')) by (destruct h; exact H).
    clear H. unfold fl_converter in L. apply sbind_ok in L as (fs1 & [] & L1 & L).
    unfold sbind, new_sel, sret in L. inversion L; subst; clear L.
    apply onstudy_ok in L1 as [L1 _]. unfold do_converter in L1.
    erewrite sbind_eq_ok in L1 by apply add_converter_eq.
    unfold w_study; simpl.
    pose proof (add_converter_only (f_study (w_fs w)) name) as [O1 O2 O3].
    apply set_converter_dest_state in L1. destruct L1 as [[_ [e X]] | (v & V & N & _ & L1)]; [discriminate|].
    destruct L1 as [(e & X & _) | [(e & vc & X & _) | (vc & vm & _ & BC & BM & E)]]; try discriminate.
    rewrite E. destruct O3 as (O3 & O4 & O5). rewrite O4, O5 in *.
    pose proof (updc_only (add_converter_eff (f_study (w_fs w)) name) name
                 (fun v => Conv (v_name v) (v_src v) net nd (Some vc) (Some vm))) as [U1 U2 U3].
    eexists. exists vc, vm. split; [apply updc_conv; exact V|]. repeat split; auto; simpl.
    + unfold has_node, node_at in *. now rewrite O1 in N.
    + rewrite add_converter_conv, String.eqb_refl in V. destruct (conv_at (f_study (w_fs w)) name); inversion V; auto.
    + now rewrite U1.
    + intros m M. rewrite U2 by auto. now apply O2.
    + destruct U3 as (? & ? & ?); congruence.
    + destruct U3 as (? & ? & ?); congruence.
    + destruct U3 as (? & ? & ?); congruence.
  - intros name r H. apply sel_call_ok in H as (h & HH & fs' & h' & H & ->).
    destruct h as [a|a]; cbn [fl_call] in H; [discriminate|].
    unfold fl_to_converter in H.
    erewrite sbind_eq_ok in H by (unfold onstudy; rewrite add_converter_eq; reflexivity).
    apply (elem_ok a (fun n d => add_converter_src name n d r)) in H as (net & nd & S & H & _ & _).
    simpl in S, H. apply add_converter_src_ok in H as (v & vr & V & F & B & E).
    unfold w_study; simpl. rewrite E.
    pose proof (add_converter_only (f_study (w_fs w)) name) as [O1 O2 (O3 & O4 & O5)]. rewrite O4, O5 in *.
    pose proof (updc_only (add_converter_eff (f_study (w_fs w)) name) name
                 (fun v => Conv (v_name v) (dset (net, nd) vr (v_src v)) (v_dnet v) (v_dnode v) (v_cost v) (v_max v)))
      as [U1 U2 (U3 & U4 & U5)].
    eexists. exists vr, net, nd. unfold selects, selector_keys, selector_dict. rewrite HH; simpl.
    split; auto. split; [apply updc_conv; exact V|]. repeat split; auto; simpl; try congruence.
    + rewrite dset_fresh by auto.
      rewrite add_converter_conv, String.eqb_refl in V. destruct (conv_at (f_study (w_fs w)) name); inversion V; auto.
    + intros v0 V0. rewrite add_converter_conv, V0 in V. inversion V; auto.
    + intros m M. rewrite U2 by auto. now apply O2.
Qed.

Example C08_example :
  let r1 := step demo_world (OnSel 3 (MStorage "bat" (PJson (JNum 10)) (PJson (JNum 5)) (PJson (JNum 5))
                                (PJson (JNum 0)) 2 (PJson (JNum 1)))) in
  let r2 := step (fst r1) (OnSel 6 (MToConverter "p2g" (PJson (JNum 2)))) in
  let r3 := step (fst r2) (OnSel 7 (MConverter "p2g" "elec" "a" (PJson (JNum 9)) (PJson (JNum 1)))) in
  snd r1 = Ok tt /\ snd r2 = Ok tt /\ snd r3 = Ok tt.
Proof. vm_compute. auto. Qed.

(** ** C63 *)

(** [s'] is [s] with network [net] present, empty if it is new. *)
Definition network_named (s s' : study) (net : string) : Prop :=
  dkeys (st_networks s') = (if dmem net (st_networks s) then dkeys (st_networks s) else dkeys (st_networks s) ++ [net]) /\
  (forall m d, node_at s' m d = node_at s m d) /\
  st_converters s' = st_converters s /\
  (st_version s', st_horizon s', st_nb_scn s') = (st_version s, st_horizon s, st_nb_scn s).

(** [s'] is [s] with node [nd] present in network [net], empty if it is new. *)
Definition node_named (s s' : study) (net nd : string) : Prop :=
  dkeys (st_networks s') = dkeys (st_networks s) /\
  node_at s' net nd = Some (match node_at s net nd with Some n => n | None => empty_node end) /\
  (forall m d, (m, d) <> (net, nd) -> node_at s' m d = node_at s m d) /\
  st_converters s' = st_converters s /\
  (st_version s', st_horizon s', st_nb_scn s') = (st_version s, st_horizon s, st_nb_scn s).

Lemma add_network_named s net : network_named s (add_network_eff s net) net.
Proof.
  unfold network_named, add_network_eff. destruct (dmem net (st_networks s)) eqn:E; [repeat split; auto|].
  simpl. rewrite dkeys_app. repeat split; auto.
  intros m d. unfold node_at; simpl. rewrite dget_app.
  destruct (dget m (st_networks s)) eqn:G; auto. simpl. now destruct (String.eqb m net).
Qed.

Lemma add_node_named s net nd : has_network s net -> node_named s (add_node_eff s net nd) net nd.
Proof.
  intros H. assert (D : exists ns, dget net (st_networks s) = Some ns).
  { unfold has_network in H. destruct (dget net (st_networks s)); eauto. congruence. }
  destruct D as [ns G]. unfold node_named. repeat split.
  - unfold add_node_eff. rewrite G. destruct (dmem nd ns); auto. simpl.
    apply dkeys_dset_mem. eapply dget_In_keys; eauto.
  - rewrite add_node_node. destruct (node_at s net nd); auto. rewrite G, !String.eqb_refl. auto.
  - intros m d N. rewrite add_node_node. destruct (node_at s m d); auto. rewrite G.
    destruct (String.eqb m net) eqn:E1; auto. destruct (String.eqb d nd) eqn:E2; auto.
    apply String.eqb_eq in E1, E2. subst. congruence.
  - unfold add_node_eff. rewrite G. destruct (dmem nd ns); auto.
  - unfold add_node_eff. rewrite G. destruct (dmem nd ns); auto.
Qed.

Theorem C63_network_named : forall w c w' net,
  step w c = (w', Ok tt) ->
  (c = OnStudy_network net \/ c = OnStudy_add_network net \/ exists i, c = OnSel i (MNetwork net)) ->
  network_named (w_study w) (w_study w') net.
Proof.
  intros w c w' net H [->|[->|[i ->]]]; unfold w_study.
  - cbn [step] in H. unfold fl_network in H.
    erewrite sbind_eq_ok in H by (unfold onstudy; rewrite add_network_eq; reflexivity).
    cbn in H. inversion H; subst. apply add_network_named.
  - cbn [step] in H. unfold no_handle, onstudy in H. rewrite add_network_eq in H. inversion H; subst.
    apply add_network_named.
  - apply sel_call_ok in H as (h & _ & fs' & h' & H & ->). simpl in H. unfold fl_network in H.
    assert (E : f_study fs' = add_network_eff (f_study (w_fs w)) net).
    { destruct h; cbn [fl_call] in H; unfold fl_network in H;
        erewrite sbind_eq_ok in H by (unfold onstudy; rewrite add_network_eq; reflexivity);
        cbn in H; inversion H; reflexivity. }
    simpl. rewrite E. apply add_network_named.
Qed.

Theorem C63_node_named : forall w i w' nd,
  step w (OnSel i (MNode nd)) = (w', Ok tt) ->
  exists net, selects w' i net nd /\ has_network (w_study w) net /\ node_named (w_study w) (w_study w') net nd.
Proof.
  intros w i w' nd H. apply sel_call_ok in H as (h & HH & fs' & h' & H & ->).
  assert (F : fl_node (addr h) nd (w_fs w) = (fs', Ok h')) by (destruct h; exact H). clear H.
  unfold fl_node in F. erewrite sbind_eq_ok in F by reflexivity.
  apply sbind_ok in F as (fs1 & net & E1 & F). rewrite key_network_eq in E1. injection E1 as <- EK.
  apply sbind_ok in F as (fs2 & u & E2 & F). inversion F; subst. clear F.
  unfold onstudy in E2. simpl in E2.
  destruct (dget net (st_networks (f_study (w_fs w)))) eqn:G.
  - assert (HN : has_network (f_study (w_fs w)) net) by (unfold has_network; congruence).
    rewrite add_node_eq in E2 by auto. inversion E2; subst. exists net.
    split; [|split; [exact HN | now apply add_node_named]].
    unfold selects, selector_keys, selector_dict. simpl. rewrite nth_error_app1.
    2: { apply nth_error_Some. congruence. }
    rewrite HH. simpl. rewrite nth_error_upd_nth, Nat.eqb_refl.
    simpl in EK. rewrite nth_error_upd_nth, Nat.eqb_refl in EK.
    destruct (nth_error (f_sels (w_fs w)) (addr h)); simpl in *; try discriminate.
    destruct (sel_net s); inversion EK; subst. reflexivity.
  - rewrite add_node_err in E2 by (unfold has_network; congruence). discriminate.
Qed.

Theorem C63_add_node_named : forall w w' net nd,
  step w (OnStudy_add_node net nd) = (w', Ok tt) -> node_named (w_study w) (w_study w') net nd.
Proof.
  intros w w' net nd H. cbn [step] in H. unfold no_handle, onstudy in H. unfold w_study.
  destruct (dget net (st_networks (f_study (w_fs w)))) eqn:G.
  - assert (HN : has_network (f_study (w_fs w)) net) by (unfold has_network; congruence).
    rewrite add_node_eq in H by auto. inversion H; subst. now apply add_node_named.
  - rewrite add_node_err in H by (unfold has_network; congruence). discriminate.
Qed.

(** Network "elec" and node "b" already exist, with elements. *)
Example C63_example :
  snd (step demo_world (OnStudy_network "elec")) = Ok tt /\
  snd (step demo_world (OnSel 0 (MNode "b"))) = Ok tt /\
  snd (step demo_world (OnStudy_add_node "elec" "new")) = Ok tt.
Proof. vm_compute. auto. Qed.

(** ** C09 *)
Lemma sel_kept w c w' r a x : step w c = (w', r) -> inv w ->
  nth_error (f_sels (w_fs w)) a = Some x ->
  (forall k nd, c = OnSel k (MNode nd) -> selector_dict w k <> Some a) ->
  nth_error (f_sels (w_fs w')) a = Some x.
Proof.
  intros H I X N.
  assert (SN : forall y, nth_error (f_sels (w_fs w) ++ [y]) a = Some x).
  { intros y. rewrite nth_error_app1; auto. apply nth_error_Some; congruence. }
  assert (P : forall fr, push_handle w fr = (w', r) -> f_sels (w_fs w') = f_sels (fst fr)).
  { intros [fs [h|e]] E; inversion E; auto. }
  assert (O : forall A (m : ST study A) fs, f_sels (fst (onstudy m fs)) = f_sels fs).
  { intros A m fs. unfold onstudy. destruct (m (f_study fs)); auto. }
  assert (OB : forall (m : ST study unit) (h : handle) fs, f_sels (fst ((onstudy m;; sret h) fs)) = f_sels fs).
  { intros m h fs. pose proof (O _ m fs) as Q. unfold sbind. destruct (onstudy m fs) as [fs1 [u|e]]; auto. }
  assert (EB : forall b (k : string -> string -> ST study unit) fs,
     f_sels (fst ((do n <- key_network b; do d <- key_node b; onstudy (k n d);; sret (HNode b)) fs)) = f_sels fs).
  { intros b k fs. unfold sbind at 1. rewrite key_network_eq.
    destruct (nth_error (f_sels fs) b) as [y|] eqn:Y; auto. destruct (sel_net y); auto.
    unfold sbind at 1. rewrite key_node_eq, Y. destruct (sel_node y); auto. }
  assert (LB : forall b src dest c q fs, f_sels (fst (fl_link b src dest c q fs)) = f_sels fs).
  { intros. unfold fl_link, sbind at 1. rewrite key_network_eq.
    destruct (nth_error (f_sels fs) b) as [y|] eqn:Y; auto. destruct (sel_net y); auto. }
  assert (NB : forall name, nth_error (f_sels (fst (fl_network name (w_fs w)))) a = Some x).
  { intros. unfold fl_network. erewrite sbind_eq_ok by (unfold onstudy; rewrite add_network_eq; reflexivity).
    simpl. auto. }
  destruct c; simpl in H.
  - apply P in H. rewrite H. auto.
  - unfold no_handle in H. inversion H; subst. simpl. now rewrite O.
  - unfold no_handle in H. inversion H; subst. simpl. now rewrite O.
  - unfold no_handle in H. inversion H; subst. simpl. now rewrite O.
  - destruct (nth_error (w_handles w) i) as [h|] eqn:HH; [|inversion H; subst; auto].
    apply P in H. rewrite H. clear H P.
    destruct m; cbn [fl_call].
    + destruct h; auto.
    + assert (D : addr h <> a).
      { intros E. apply (N i name eq_refl). unfold selector_dict. rewrite HH; simpl; congruence. }
      assert (G : f_sels (fst (fl_node (addr h) name (w_fs w))) =
                  upd_nth (addr h) (fun x => Sel (sel_net x) (Some name)) (f_sels (w_fs w))).
      { unfold fl_node. erewrite sbind_eq_ok by reflexivity. unfold sbind at 1. rewrite key_network_eq.
        simpl f_sels. destruct (nth_error (upd_nth _ _ _) _) as [y|]; auto. destruct (sel_net y); auto. rewrite OB. auto. }
      destruct h as [b|b]; simpl addr in *; rewrite G, nth_error_upd_nth;
        (replace (Nat.eqb b a) with false by (symmetry; now apply Nat.eqb_neq)); auto.
    + destruct h; rewrite LB; auto.
    + assert (G : nth_error (f_sels (fst (fl_converter name to_net to_nd max cost (w_fs w)))) a = Some x).
      { unfold fl_converter, sbind at 1. pose proof (O _ (do_converter name to_net to_nd max cost) (w_fs w)) as Q.
        destruct (onstudy (do_converter name to_net to_nd max cost) (w_fs w)) as [fs1 [u|e]]; simpl in *.
        - rewrite Q. auto.
        - congruence. }
      destruct h; auto.
    + destruct h; auto. unfold fl_consumption. now rewrite EB.
    + destruct h; auto. unfold fl_production. now rewrite EB.
    + destruct h; auto. unfold fl_storage. now rewrite EB.
    + destruct h; auto. unfold fl_to_converter.
      erewrite sbind_eq_ok by (unfold onstudy; rewrite add_converter_eq; reflexivity). now rewrite EB.
Qed.

Lemma nth_error_app_some {A} (l m : list A) i x : nth_error l i = Some x -> nth_error (l ++ m) i = Some x.
Proof. intros H. rewrite nth_error_app1; auto. apply nth_error_Some; congruence. Qed.

Lemma undisturbed_kept cs : forall w j a x, inv w -> selector_dict w j = Some a ->
  nth_error (f_sels (w_fs w)) a = Some x -> undisturbed j w cs ->
  selector_dict (run w cs) j = Some a /\ nth_error (f_sels (w_fs (run w cs))) a = Some x.
Proof.
  induction cs as [|c cs IH]; simpl; intros w j a x I D X U; auto.
  destruct U as [U1 U2]. destruct (step w c) as [w' r] eqn:E. simpl in *.
  pose proof (step_ok _ _ _ _ I E) as S. apply IH; auto.
  - apply S.
  - destruct (si_handles _ _ S) as [hs HS]. unfold selector_dict in *. rewrite HS.
    destruct (nth_error (w_handles w) j) eqn:N; [|discriminate].
    now rewrite (nth_error_app_some _ _ _ _ N).
  - eapply sel_kept; eauto. intros k nd -> K. apply U1. exists k, nd. split; auto; congruence.
Qed.

Lemma node_call_selects w i nd w1 : inv w -> step w (OnSel i (MNode nd)) = (w1, Ok tt) ->
  exists x net, selector_keys w i = Some x /\ sel_net x = Some net /\
    selects w1 (length (w_handles w)) net nd.
Proof.
  intros I H. pose proof H as H0. apply sel_call_ok in H as (h & HH & fs' & h' & H & ->).
  assert (L : fl_node (addr h) nd (w_fs w) = (fs', Ok h')) by (destruct h; exact H). clear H.
  unfold fl_node in L. erewrite sbind_eq_ok in L by reflexivity.
  apply sbind_ok in L as (fs1 & net & L1 & L). apply key_network_ok in L1 as (-> & y & Y & N).
  apply sbind_ok in L as (fs1 & u & L1 & L). apply onstudy_ok in L1 as [_ S]. inversion L; subst; clear L.
  simpl in Y, S. rewrite nth_error_upd_nth, Nat.eqb_refl in Y.
  destruct (nth_error (f_sels (w_fs w)) (addr h)) as [x|] eqn:X; [|discriminate]. simpl in Y. inversion Y; subst.
  simpl in N. exists x, net. unfold selects, selector_keys, selector_dict. rewrite HH. simpl.
  repeat split; auto.
  rewrite nth_error_app2, Nat.sub_diag by auto. simpl. rewrite S, nth_error_upd_nth, Nat.eqb_refl, X. simpl.
  now rewrite N.
Qed.

(** Elements added through the selector returned by [.node(nd)] land on [nd], as
    long as nobody calls [.node] again through a selector holding the same
    dictionary. The missing part is exactly the interleavings that do. *)
Theorem C09_node_selector_keeps_node_partial : forall w i nd w1 cs m w',
  reachable w ->
  step w (OnSel i (MNode nd)) = (w1, Ok tt) ->
  let j := length (w_handles w) in
  undisturbed j w1 cs ->
  step (run w1 cs) (OnSel j m) = (w', Ok tt) -> is_element m ->
  exists x net n n', selector_keys w i = Some x /\ sel_net x = Some net /\
    node_at (w_study (run w1 cs)) net nd = Some n /\ node_at (w_study w') net nd = Some n' /\
    element_added (w_study (run w1 cs)) m n n' /\
    only_node (w_study (run w1 cs)) (w_study w') net nd.
Proof.
  intros w i nd w1 cs m w' R H j U E EL. pose proof (reachable_inv _ R) as I.
  destruct (node_call_selects _ _ _ _ I H) as (x & net & X & N & S). fold j in S.
  assert (I1 : inv w1) by (apply (step_ok _ _ _ _ I H)).
  unfold selects, selector_keys in S. destruct (selector_dict w1 j) as [a|] eqn:D; [|discriminate].
  destruct (undisturbed_kept cs _ _ _ _ I1 D S U) as [D' S'].
  destruct (C08_accepted_call_adds_element _ _ _ _ E EL) as (net' & nd' & n & n' & S2 & N1 & N2 & EA & ON).
  unfold selects, selector_keys in S2. rewrite D' in S2. rewrite S' in S2. inversion S2; subst.
  exists x, net', n, n'. auto 10.
Qed.

Example C09_example :
  let w := run (start 2 1 None) [OnStudy_network "elec"; OnStudy_network "gas"] in
  let w1 := fst (step w (OnSel 0 (MNode "a"))) in
  let cs := [OnSel 1 (MNode "b"); OnSel 2 (MLink "a" "zzz" (PJson (JNum 0)) (PJson (JNum 0)))] in
  step w (OnSel 0 (MNode "a")) = (w1, Ok tt) /\
  undisturbed 2 w1 cs /\
  exists w', step (run w1 cs) (OnSel 2 (MConsumption "load" (PJson (JNum 1)) (PJson (JNum 1)))) = (w', Ok tt).
Proof.
  cbn zeta. split; [reflexivity|]. split.
  - cbn. split; [|split; auto].
    + intros (k & nd & E & D). inversion E; subst. cbv in D. discriminate.
    + intros (k & nd & E & D). inversion E.
  - eexists; reflexivity.
Qed.

(** The full claim is false: the second [.node] call on the same network
    selector redirects the first node selector. *)
Theorem C09_node_selector_keeps_node_refuted :
  exists w i nd w1 cs name c q w',
    reachable w /\ step w (OnSel i (MNode nd)) = (w1, Ok tt) /\
    step (run w1 cs) (OnSel (length (w_handles w)) (MConsumption name c q)) = (w', Ok tt) /\
    (forall net n, node_at (w_study w') net nd = Some n -> n_cons n = []) /\
    (exists net nd' n, nd' <> nd /\ node_at (w_study w') net nd' = Some n /\ n_cons n <> []).
Proof.
  exists (run (start 2 1 None) [OnStudy_network "elec"]), 0, "a".
  eexists. exists [OnSel 0 (MNode "b")], "load", (PJson (JNum 1)), (PJson (JNum 1)). eexists.
  split; [exists 2, 1, None, [OnStudy_network "elec"]; reflexivity|].
  split; [reflexivity|]. split; [reflexivity|]. split.
  - intros net n. unfold node_at. cbn. destruct (String.eqb net "elec"); [|discriminate]. cbn.
    intros H; inversion H; auto.
  - exists "elec", "b". eexists. repeat split; cbn; discriminate.
Qed.

(** ** C10 *)
Definition not_selector_failure (r : res unit) : Prop :=
  r <> Err KeyError /\ r <> Err AttributeError.

Lemma create_json_exn h n j e : create_json h n j = Err e -> e <> KeyError /\ e <> AttributeError.
Proof.
  assert (A : forall x, match create_arr h n x with Err e => e <> KeyError /\ e <> AttributeError | _ => True end).
  { intros x. unfold create_arr. repeat (destruct (list_eqb _ _ _); auto). destruct (shape x); split; discriminate. }
  assert (M : forall j, match np_array j with Err e => e <> KeyError /\ e <> AttributeError | _ => True end).
  { intros j0. induction j0 as [ | | q | | l IH | d IH | ] using json_ind2;
      try (split; discriminate); auto.
    rewrite np_array_list. destruct (mapM np_array l) as [sub|x] eqn:E; simpl.
    - destruct sub; auto. destruct (forallb _ _); auto. split; discriminate.
    - clear - IH E. induction IH as [|y r Hy Hr IHr]; simpl in E; [discriminate|].
      destruct (np_array y); simpl in E; [|inversion E; subst; auto].
      destruct (mapM np_array r); simpl in E; [discriminate|]. inversion E; subst; auto. }
  destruct j; simpl; intros E; try (inversion E; split; discriminate).
  specialize (M (JList l)). simpl in M.
  match type of E with rbind ?m _ = _ => destruct m as [x|x] end; simpl in E.
  - specialize (A x). rewrite E in A. auto.
  - inversion E; subst; auto.
Qed.

Lemma create_exn h n x e : create h n x = Err e -> e <> KeyError /\ e <> AttributeError.
Proof.
  assert (A : forall a, create_arr h n a = Err e -> e <> KeyError /\ e <> AttributeError).
  { intros a. unfold create_arr. repeat (destruct (list_eqb _ _ _); try discriminate).
    destruct (shape a); intros E; inversion E; split; discriminate. }
  destruct x as [j|a|a|v|]; simpl; intros E; eauto; try (inversion E; split; discriminate).
  destruct j; try (eapply create_json_exn; eauto; fail).
  destruct (dget "value" d); [eapply create_json_exn; eauto|]. inversion E; split; discriminate.
Qed.

(** Computations that raise neither KeyError nor AttributeError on a study. *)
Definition quiet_on {A} (P : study -> Prop) (m : ST study A) : Prop :=
  forall s, P s -> match snd (m s) with Err e => e <> KeyError /\ e <> AttributeError | Ok _ => True end.

Lemma quiet_bind {A B} (P : study -> Prop) (m : ST study A) (k : A -> ST study B) :
  reads m -> quiet_on P m -> (forall a, quiet_on P (k a)) -> quiet_on P (sbind m k).
Proof.
  intros R M K s HP. unfold sbind. specialize (R s). specialize (M s HP).
  destruct (m s) as [s1 [a|e]]; simpl in *; subst; auto. apply K; auto.
Qed.

Lemma quiet_guard P b e : e <> KeyError -> e <> AttributeError -> quiet_on P (sguard b e).
Proof. intros K T s _. unfold sguard. destruct b; simpl; auto. Qed.
Lemma quiet_mk P x : quiet_on P (mk x).
Proof. intros s _. simpl. destruct (create _ _ x) eqn:E; auto. eapply create_exn; eauto. Qed.
Lemma quiet_node net nd : quiet_on (fun s => has_node s net nd) (node_of net nd).
Proof.
  intros s H. unfold has_node, node_at in H. unfold node_of, sbind, nodes_of, slift, dlook.
  destruct (dget net (st_networks s)) as [ns|]; [|congruence]. destruct (dget nd ns); [simpl; auto|congruence].
Qed.
Lemma quiet_updn net nd f : quiet_on (fun s => has_node s net nd) (upd_node net nd f).
Proof.
  intros s H. pose proof (upd_node_spec net nd f s) as U. unfold has_node in H.
  destruct (node_at s net nd); [|congruence]. destruct U as (? & _ & _ & ->). simpl; auto.
Qed.

Ltac quiet := first
  [ apply quiet_mk | apply quiet_node | apply quiet_updn | (apply quiet_guard; discriminate)
  | (apply quiet_bind; [auto with reads | quiet | intros; quiet]) ].

(** A node selector is always usable. *)
Theorem C10_node_selectors_usable : forall w i a, reachable w ->
  nth_error (w_handles w) i = Some (HNode a) ->
  (forall name, snd (step w (OnSel i (MNetwork name))) = Ok tt) /\
  (forall name, snd (step w (OnSel i (MNode name))) = Ok tt) /\
  (forall m, is_element m -> not_selector_failure (snd (step w (OnSel i m)))).
Proof.
  intros w i a R HH. pose proof (reachable_inv _ R) as I.
  assert (HO : handle_ok (f_sels (w_fs w)) (HNode a)) by (apply I; eapply nth_error_In; eauto).
  destruct HO as (net & nd & S).
  assert (HN : has_network (w_study w) net /\ has_node (w_study w) net nd).
  { destruct (fi_sels _ (iv_fs _ I) _ _ S net eq_refl) as [H1 H2]. split; auto. }
  destruct HN as [HNet' HNode'].
  split; [|split].
  - intros name. simpl. rewrite HH. cbn [fl_call]. unfold fl_network.
    erewrite sbind_eq_ok by (unfold onstudy; rewrite add_network_eq; reflexivity). auto.
  - intros name. simpl. rewrite HH. cbn [fl_call]. unfold fl_node.
    erewrite sbind_eq_ok by reflexivity.
    erewrite sbind_eq_ok.
    2: { rewrite key_network_eq. simpl. rewrite nth_error_upd_nth, Nat.eqb_refl, S. reflexivity. }
    erewrite sbind_eq_ok.
    2: { unfold onstudy; simpl. rewrite add_node_eq by exact HNet'. reflexivity. }
    auto.
  - assert (K : forall k : string -> string -> ST study unit,
       quiet_on (fun s => has_node s net nd) (k net nd) ->
       not_selector_failure (snd (push_handle w
         ((do n <- key_network a; do d <- key_node a; onstudy (k n d);; sret (HNode a)) (w_fs w))))).
    { intros k Qk. rewrite (keys_bind a (fun n d => onstudy (k n d);; sret (HNode a)) _ net nd S).
      specialize (Qk _ HNode'). unfold sbind, onstudy, w_study in *.
      destruct (k net nd (f_study (w_fs w))) as [s' [u|e]]; simpl in *; split; try discriminate;
        intros E; inversion E; subst; tauto. }
    intros m EL. destruct m; try (destruct EL; fail); simpl step; rewrite HH; cbn [fl_call].
    + apply (K (fun n d => add_consumption n d name cost quantity)). unfold add_consumption. quiet.
    + apply (K (fun n d => add_production n d name cost quantity)). unfold add_production. quiet.
    + apply (K (fun n d => add_storage n d name capacity flow_in flow_out cost init eff)). unfold add_storage. quiet.
Qed.

(** A selector returned by [.network], [.node], [.link] or an element call can be
    continued with [.network] and [.node] at any later time. *)
Theorem C10_selectors_usable_partial : forall w c w1 cs j,
  reachable w -> step w c = (w1, Ok tt) ->
  (match c with OnSel _ (MConverter _ _ _ _ _) => False | _ => True end) ->
  j = length (w_handles w) -> j < length (w_handles w1) ->
  forall name,
    snd (step (run w1 cs) (OnSel j (MNode name))) = Ok tt /\
    snd (step (run w1 cs) (OnSel j (MNetwork name))) = Ok tt.
Proof.
  intros w c w1 cs j R H NC -> L name. pose proof (reachable_inv _ R) as I.
  pose proof (step_ok _ _ _ _ I H) as S1. pose proof (run_ok cs _ (si_inv _ _ S1)) as S2.
  (* the new selector has a network key *)
  assert (K : exists h x net, nth_error (w_handles w1) (length (w_handles w)) = Some h /\
                nth_error (f_sels (w_fs w1)) (addr h) = Some x /\ sel_net x = Some net).
  { assert (P : forall fs h, w1 = World fs (w_handles w ++ [h]) ->
       (exists x net, nth_error (f_sels fs) (addr h) = Some x /\ sel_net x = Some net) ->
       exists h x net, nth_error (w_handles w1) (length (w_handles w)) = Some h /\
         nth_error (f_sels (w_fs w1)) (addr h) = Some x /\ sel_net x = Some net).
    { intros fs h -> (x & net & X & N). exists h, x, net. simpl.
      rewrite nth_error_app2, Nat.sub_diag by auto. auto. }
    assert (NW : forall name0 fs h, fl_network name0 (w_fs w) = (fs, Ok h) ->
        exists x net, nth_error (f_sels fs) (addr h) = Some x /\ sel_net x = Some net).
    { intros name0 fs h E. unfold fl_network in E.
      erewrite sbind_eq_ok in E by (unfold onstudy; rewrite add_network_eq; reflexivity).
      unfold sbind, new_sel, sret in E. inversion E; subst. simpl.
      rewrite nth_error_app2, Nat.sub_diag by auto. eexists; exists name0; split; reflexivity. }
    destruct c.
    - simpl in H. unfold push_handle in H.
      destruct (fl_network name0 (w_fs w)) as [fs [h|e]] eqn:E; [|discriminate].
      eapply (P fs h); [congruence | eauto].
    - simpl in H. unfold no_handle in H. inversion H; subst. simpl in L. lia.
    - simpl in H. unfold no_handle in H. inversion H; subst. simpl in L. lia.
    - simpl in H. unfold no_handle in H. inversion H; subst. simpl in L. lia.
    - pose proof H as H0. apply sel_call_ok in H as (h & HH & fs' & h' & H & E). 
      assert (EL : forall b (k : string -> string -> ST study unit) fs0,
         (do n <- key_network b; do d <- key_node b; onstudy (k n d);; sret (HNode b)) fs0 = (fs', Ok h') ->
         exists x net, nth_error (f_sels fs') (addr h') = Some x /\ sel_net x = Some net).
      { intros b k fs0 F. apply elem_ok in F as (net & nd & F1 & _ & F2 & ->). rewrite F2. simpl. rewrite F1. do 2 eexists; split; reflexivity. }
      assert (LK : forall b s d c q, fl_link b s d c q (w_fs w) = (fs', Ok h') ->
         exists x net, nth_error (f_sels fs') (addr h') = Some x /\ sel_net x = Some net).
      { intros b s d c0 q0 F. apply link_call_ok in F as (net & x & F1 & F2 & _ & F3 & ->). rewrite F3. eauto. }
      assert (ND : forall b n, fl_node b n (w_fs w) = (fs', Ok h') ->
         exists x net, nth_error (f_sels fs') (addr h') = Some x /\ sel_net x = Some net).
      { intros b n F. unfold fl_node in F. erewrite sbind_eq_ok in F by reflexivity.
        apply sbind_ok in F as (fs1 & net & L1 & F). apply key_network_ok in L1 as (-> & y & Y & N).
        apply sbind_ok in F as (fs1 & u & L1 & F). apply onstudy_ok in L1 as [_ SS]. inversion F; subst; clear F.
        rewrite SS. eauto. }
      destruct m, h as [b|b]; cbn [fl_call] in H; try discriminate; try (destruct NC; fail);
        (eapply P; [exact E|]); eauto.
      + eapply (EL b (fun n d => add_consumption n d name0 cost quantity)); exact H.
      + eapply (EL b (fun n d => add_production n d name0 cost quantity)); exact H.
      + eapply (EL b (fun n d => add_storage n d name0 capacity flow_in flow_out cost init eff)); exact H.
      + unfold fl_to_converter in H.
        erewrite sbind_eq_ok in H by (unfold onstudy; rewrite add_converter_eq; reflexivity).
        eapply (EL b (fun n d => add_converter_src name0 n d ratio)); exact H. }
  destruct K as (h & x & net & HH & X & N).
  destruct (si_handles _ _ S2) as [hs HS].
  assert (HH2 : nth_error (w_handles (run w1 cs)) (length (w_handles w)) = Some h).
  { rewrite HS. now apply nth_error_app_some. }
  destruct (proj2 (si_sels _ _ S2) _ _ X) as (y & Y & YN & _).
  assert (HN : has_network (w_study (run w1 cs)) net).
  { eapply (fi_sels _ (iv_fs _ (si_inv _ _ S2)) _ _ Y). congruence. }
  split; simpl; rewrite HH2.
  - assert (G : snd (fl_node (addr h) name (w_fs (run w1 cs))) = Ok (HNode (addr h))).
    { unfold fl_node. erewrite sbind_eq_ok by reflexivity.
      erewrite sbind_eq_ok.
      2: { rewrite key_network_eq. simpl. rewrite nth_error_upd_nth, Nat.eqb_refl, Y. simpl. rewrite YN, N. reflexivity. }
      erewrite sbind_eq_ok.
      2: { unfold onstudy; simpl. rewrite add_node_eq by exact HN. reflexivity. }
      reflexivity. }
    destruct h as [b|b]; cbn [fl_call]; simpl addr in G;
      destruct (fl_node b name (w_fs (run w1 cs))) as [fs r]; simpl in G; subst r; reflexivity.
  - destruct h as [b|b]; cbn [fl_call]; unfold fl_network;
      (erewrite sbind_eq_ok by (unfold onstudy; rewrite add_network_eq; reflexivity)); reflexivity.
Qed.

Example C10_example :
  nth_error (w_handles demo_world) 3 = Some (HNode 0) /\
  exists w1, step demo_world (OnSel 3 (MToConverter "p2g" (PJson (JNum 2)))) = (w1, Ok tt) /\
             length (w_handles demo_world) < length (w_handles w1).
Proof. split; [reflexivity|]. eexists. split; [reflexivity|]. cbn. lia. Qed.

(** The full claim is false: the selector returned by [.converter] holds an empty
    dictionary, so continuing with [.node] raises KeyError. *)
Theorem C10_selectors_usable_refuted : exists w i name,
  reachable w /\ (exists h, nth_error (w_handles w) i = Some h) /\
  snd (step w (OnSel i (MNode name))) = Err KeyError.
Proof.
  exists (run demo_world [OnSel 3 (MConverter "p2g" "elec" "a" (PJson (JNum 9)) (PJson (JNum 1)))]), 6, "c".
  split; [apply reachable_run, demo_reachable|]. split; [eexists; reflexivity | reflexivity].
Qed.

Print Assumptions C05_negative_data_partial.
Print Assumptions C05_negative_data_refuted.
Print Assumptions C05_efficiency_refuted.
Print Assumptions C06_well_formed_studies.
Print Assumptions C07_refused_call_changes_nothing_partial.
Print Assumptions C07_refused_source_partial.
Print Assumptions C07_refused_call_changes_nothing_refuted.
Print Assumptions C07_half_set_destination_refuted.
Print Assumptions C08_accepted_call_adds_element.
Print Assumptions C08_accepted_link.
Print Assumptions C08_accepted_converter.
Print Assumptions C63_network_named.
Print Assumptions C63_node_named.
Print Assumptions C63_add_node_named.
Print Assumptions C09_node_selector_keeps_node_partial.
Print Assumptions C09_node_selector_keeps_node_refuted.
Print Assumptions C10_node_selectors_usable.
Print Assumptions C10_selectors_usable_partial.
Print Assumptions C10_selectors_usable_refuted.
