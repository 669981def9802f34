(** C09 exactly: where an element lands that is added through a node selector, and which
    selectors move one another. *)
From Coq Require Import String List ZArith QArith Bool Arith Lia.
From Verif Require Import Base BaseFacts Numeric Study Fluent SpecStudy StudyFacts FluentFacts P_Study.
Import ListNotations.
Open Scope nat_scope.
Open Scope string_scope.
Open Scope list_scope.

(** The name given in the last call of [.node] through a selector holding the same
    dictionary as selector [j]; [nd] if there is none. *)
Definition same_dict (w : world) (k j : nat) : bool :=
  match selector_dict w k, selector_dict w j with
  | Some a, Some b => Nat.eqb a b
  | _, _ => false
  end.
Fixpoint last_name (j : nat) (w : world) (cs : list call) (nd : string) : string :=
  match cs with
  | [] => nd
  | c :: r =>
      last_name j (fst (step w c)) r
        (match c with OnSel k (MNode x) => if same_dict w k j then x else nd | _ => nd end)
  end.

(** Calls that start a selector of their own. *)
Definition fresh_start (c : call) : Prop :=
  match c with
  | OnStudy_network _ | OnSel _ (MNetwork _) | OnSel _ (MConverter _ _ _ _ _) => True
  | _ => False
  end.

Lemma node_moves w k x w' r a y : step w (OnSel k (MNode x)) = (w', r) -> selector_dict w k = Some a ->
  nth_error (f_sels (w_fs w)) a = Some y -> nth_error (f_sels (w_fs w')) a = Some (Sel (sel_net y) (Some x)).
Proof.
  intros E D Y. unfold selector_dict in D. cbn [step] in E. destruct (nth_error (w_handles w) k) as [h |] eqn:K; [| discriminate D].
  simpl in D. injection D as D.
  assert (P : f_sels (w_fs w') = f_sels (fst (fl_call h (MNode x) (w_fs w)))).
  { destruct (fl_call h (MNode x) (w_fs w)) as [fs [h' | e]]; cbn in E; injection E as <- <-; reflexivity. }
  rewrite P. assert (G : f_sels (fst (fl_node a x (w_fs w))) = upd_nth a (fun z => Sel (sel_net z) (Some x)) (f_sels (w_fs w))).
  { unfold fl_node. erewrite sbind_eq_ok by reflexivity. unfold sbind at 1. rewrite key_network_eq. simpl f_sels.
    destruct (nth_error (upd_nth _ _ _) _) as [z |]; auto. destruct (sel_net z) as [net |]; auto.
    unfold sbind, onstudy. cbn [f_study f_sels]. destruct (add_node net x (f_study (w_fs w))) as [s' [u | e]]; reflexivity. }
  assert (F : f_sels (fst (fl_call h (MNode x) (w_fs w))) = upd_nth a (fun z => Sel (sel_net z) (Some x)) (f_sels (w_fs w))).
  { destruct h as [b | b]; cbn [fl_call]; simpl in D; subst b; exact G. }
  rewrite F, nth_error_upd_nth, Nat.eqb_refl, Y. reflexivity.
Qed.

Lemma last_name_kept cs : forall w j a net nd, inv w -> selector_dict w j = Some a ->
  nth_error (f_sels (w_fs w)) a = Some (Sel net (Some nd)) ->
  selector_dict (run w cs) j = Some a /\
  nth_error (f_sels (w_fs (run w cs))) a = Some (Sel net (Some (last_name j w cs nd))).
Proof.
  induction cs as [| c cs IH]; intros w j a net nd V D X; [split; auto |].
  cbn [run fold_left last_name]. destruct (step w c) as [w' r] eqn:E. cbn [fst].
  pose proof (step_ok _ _ _ _ V E) as G.
  assert (D' : selector_dict w' j = Some a).
  { destruct (si_handles _ _ G) as [hs HS]. unfold selector_dict in *. rewrite HS.
    destruct (nth_error (w_handles w) j) eqn:N; [| discriminate]. now rewrite (nth_error_app_some _ _ _ _ N). }
  assert (K : (exists k x, c = OnSel k (MNode x) /\ same_dict w k j = true) \/
              (forall k x, c = OnSel k (MNode x) -> same_dict w k j = false)).
  { destruct c as [| | | | k m]; try (right; discriminate). destruct m; try (right; discriminate).
    destruct (same_dict w k j) eqn:Z; [left; eauto |]. right. intros k' x Q. injection Q as <- <-. exact Z. }
  destruct K as [(k & x & -> & Z) | K].
  - assert (Dk : selector_dict w k = Some a).
    { unfold same_dict in Z. rewrite D in Z. destruct (selector_dict w k); [| discriminate Z]. apply Nat.eqb_eq in Z. congruence. }
    rewrite Z. apply (IH w' j a net x); auto; [apply G |]. apply (node_moves _ _ _ _ _ _ _ E Dk X).
  - assert (N : match c with OnSel k (MNode x) => if same_dict w k j then x else nd | _ => nd end = nd).
    { destruct c as [| | | | k m]; auto. destruct m; auto. rewrite (K k name eq_refl). reflexivity. }
    rewrite N. apply (IH w' j a net nd); auto; [apply G |].
    eapply sel_kept; eauto. intros k x -> Q. specialize (K k x eq_refl). unfold same_dict in K. rewrite Q, D, Nat.eqb_refl in K. discriminate K.
Qed.

(** An accepted element call through the selector returned by [.node(nd)] adds the element
    to the node named in the last [.node] call through a selector sharing its dictionary,
    in the network of that selector, and changes nothing else. *)
Theorem C09_exact : forall w i nd w1 cs m w',
  reachable w -> step w (OnSel i (MNode nd)) = (w1, Ok tt) ->
  let j := length (w_handles w) in
  step (run w1 cs) (OnSel j m) = (w', Ok tt) -> is_element m ->
  let name := last_name j w1 cs nd in
  exists x net n n', selector_keys w i = Some x /\ sel_net x = Some net /\
    node_at (w_study (run w1 cs)) net name = Some n /\ node_at (w_study w') net name = Some n' /\
    element_added (w_study (run w1 cs)) m n n' /\
    only_node (w_study (run w1 cs)) (w_study w') net name.
Proof.
  intros w i nd w1 cs m w' R H j E EL name. pose proof (reachable_inv _ R) as V.
  destruct (node_call_selects _ _ _ _ V H) as (x & net & X & N & Z). fold j in Z.
  assert (V1 : inv w1) by (apply (step_ok _ _ _ _ V H)).
  unfold selects, selector_keys in Z. destruct (selector_dict w1 j) as [a |] eqn:D; [| discriminate].
  destruct (last_name_kept cs _ _ _ _ _ V1 D Z) as [D' Z'].
  destruct (C08_accepted_call_adds_element _ _ _ _ E EL) as (net' & nd' & n & n' & S2 & N1 & N2 & EA & ON).
  unfold selects, selector_keys in S2. rewrite D' in S2. rewrite Z' in S2. injection S2 as <- <-.
  exists x, net, n, n'. auto 10.
Qed.

Lemma dict_old w w' j : inv w -> (exists hs, w_handles w' = w_handles w ++ hs) -> j < length (w_handles w) ->
  selector_dict w' j = selector_dict w j.
Proof. intros _ (hs & E) L. unfold selector_dict. rewrite E, nth_error_app1 by exact L. reflexivity. Qed.

Lemma handle_addr_lt l h : handle_ok l h -> addr h < length l.
Proof. destruct h as [a | a]; simpl; auto. intros (net & nd & E). apply nth_error_Some. congruence. Qed.

(** Which selectors share a dictionary: the one returned by [.network] or [.converter]
    shares with no earlier one, every other one with the selector it was called on. Sharing
    does not change later. *)
Theorem C09_sharing : forall w c w', reachable w -> step w c = (w', Ok tt) ->
  let j := length (w_handles w) in
  (forall k, k < j -> selector_dict w' k = selector_dict w k) /\
  (fresh_start c -> length (w_handles w') = S j /\ forall k, k < j -> selector_dict w' k <> selector_dict w' j) /\
  (forall i m, c = OnSel i m -> ~ fresh_start c -> length (w_handles w') = S j /\ i < j /\ selector_dict w' j = selector_dict w' i).
Proof.
  intros w c w' R H j. pose proof (reachable_inv _ R) as V. pose proof (step_ok _ _ _ _ V H) as G.
  split; [intros k L; apply dict_old; auto; apply (si_handles _ _ G) |].
  assert (Old : forall k, k < j -> exists a, selector_dict w' k = Some a /\ a < length (f_sels (w_fs w))).
  { intros k L. rewrite (dict_old w w' k V (si_handles _ _ G) L). unfold selector_dict.
    destruct (nth_error (w_handles w) k) as [h |] eqn:K; [| apply nth_error_None in K; unfold j in L; lia].
    exists (addr h). split; auto. apply handle_addr_lt. apply (iv_handles _ V). eapply nth_error_In; eauto. }
  assert (New : forall fs h, w' = World fs (w_handles w ++ [h]) -> length (w_handles w') = S j /\ selector_dict w' j = Some (addr h)).
  { intros fs h ->. cbn [w_handles]. split; [rewrite app_length; simpl; unfold j; lia |].
    unfold selector_dict. cbn [w_handles]. unfold j. rewrite nth_error_app2, Nat.sub_diag by lia. reflexivity. }
  assert (Fresh : forall fs, w' = World fs (w_handles w ++ [HNet (length (f_sels (w_fs w)))]) ->
            length (w_handles w') = S j /\ forall k, k < j -> selector_dict w' k <> selector_dict w' j).
  { intros fs E. destruct (New fs _ E) as (L & Dj). split; auto. intros k Lk X. destruct (Old k Lk) as (a & Da & La).
    rewrite Da, Dj in X. injection X as X. simpl in X. lia. }
  assert (Net : forall name fs h, fl_network name (w_fs w) = (fs, Ok h) -> h = HNet (length (f_sels (w_fs w)))).
  { intros name fs h E. unfold fl_network in E.
    erewrite sbind_eq_ok in E by (unfold onstudy; rewrite add_network_eq; reflexivity). cbn in E. injection E as _ <-. reflexivity. }
  assert (Cnv : forall n tn td mx c0 fs h, fl_converter n tn td mx c0 (w_fs w) = (fs, Ok h) -> h = HNet (length (f_sels (w_fs w)))).
  { intros n tn td mx c0 fs h E. unfold fl_converter in E. unfold sbind at 1, onstudy in E.
    destruct (do_converter n tn td mx c0 (f_study (w_fs w))) as [s' [u | e]]; cbn in E; [| discriminate E]. injection E as _ <-. reflexivity. }
  split.
  - intros Fs. destruct c as [nm | | | | i m]; try contradiction.
    + cbn [step] in H. destruct (fl_network nm (w_fs w)) as [fs [h | e]] eqn:E; cbn in H; [| discriminate H].
      injection H as <-. rewrite (Net _ _ _ E) in *. apply (Fresh fs). reflexivity.
    + apply sel_call_ok in H as (h & _ & fs & h' & H & ->).
      destruct m; try contradiction; cbn [fl_call] in H.
      * rewrite (Net name fs h') in * by (destruct h; exact H). apply (Fresh fs). reflexivity.
      * rewrite (Cnv name to_net to_nd max cost fs h') in * by (destruct h; exact H). apply (Fresh fs). reflexivity.
  - intros i m -> Fs. apply sel_call_ok in H as (h & K & fs & h' & H & ->).
    assert (Li : i < j) by (unfold j; apply nth_error_Some; congruence).
    destruct (New fs h' eq_refl) as (L & Dj). split; auto. split; auto. rewrite Dj.
    unfold selector_dict. cbn [w_handles]. rewrite nth_error_app1 by exact Li. rewrite K. cbn [option_map]. f_equal.
    assert (Same : forall (f : ST fstate unit) g, (f;; sret g) (w_fs w) = (fs, Ok h') -> h' = g).
    { intros f g E. apply sbind_ok in E as (fs1 & u & _ & E). injection E as _ <-. reflexivity. }
    assert (El : forall b (k : string -> string -> ST study unit) fs0,
       (do n <- key_network b; do d <- key_node b; onstudy (k n d);; sret (HNode b)) fs0 = (fs, Ok h') -> addr h' = b).
    { intros b k fs0 E. apply sbind_ok in E as (fs1 & n & _ & E). apply sbind_ok in E as (fs2 & d & _ & E).
      apply sbind_ok in E as (fs3 & u & _ & E). injection E as _ <-. reflexivity. }
    destruct m; try (exfalso; apply Fs; exact I).
    + assert (E : fl_node (addr h) name (w_fs w) = (fs, Ok h')) by (destruct h; exact H). unfold fl_node in E.
      apply sbind_ok in E as (fs1 & u & _ & E). apply sbind_ok in E as (fs2 & net & _ & E).
      apply sbind_ok in E as (fs3 & u' & _ & E). injection E as _ <-. reflexivity.
    + assert (E : fl_link (addr h) src dest cost quantity (w_fs w) = (fs, Ok h')) by (destruct h; exact H). unfold fl_link in E.
      apply sbind_ok in E as (fs1 & net & _ & E). apply sbind_ok in E as (fs2 & u & _ & E). injection E as _ <-. reflexivity.
    + destruct h as [b | b]; [inversion H |]. apply El in H. exact H.
    + destruct h as [b | b]; [inversion H |]. apply El in H. exact H.
    + destruct h as [b | b]; [inversion H |]. apply El in H. exact H.
    + destruct h as [b | b]; [inversion H |]. cbn [fl_call] in H. unfold fl_to_converter in H.
      apply sbind_ok in H as (fs1 & u & _ & H). apply El in H. exact H.
Qed.

(** [n = study.network("elec"); a = n.node("a"); b = n.node("b"); other = study.network("gas").node("z")]:
    a consumption added through [a] lands on b. *)
Example C09_exact_example :
  let w := run (start 2 1 None) [OnStudy_network "elec"] in
  let w1 := fst (step w (OnSel 0 (MNode "a"))) in
  let cs := [OnSel 0 (MNode "b"); OnStudy_network "gas"; OnSel 3 (MNode "z")] in
  reachable w /\ step w (OnSel 0 (MNode "a")) = (w1, Ok tt) /\ last_name 1 w1 cs "a" = "b" /\
  exists w' n, step (run w1 cs) (OnSel 1 (MConsumption "load" (PJson (JNum 1)) (PJson (JNum 1)))) = (w', Ok tt) /\
    node_at (w_study w') "elec" "b" = Some n /\ map c_name (n_cons n) = ["load"].
Proof.
  cbn zeta. split; [exists 2, 1, None, [OnStudy_network "elec"]; reflexivity |].
  split; [reflexivity |]. split; [reflexivity |]. eexists. eexists. split; [reflexivity |]. split; reflexivity.
Qed.

Print Assumptions C09_exact.
Print Assumptions C09_sharing.
