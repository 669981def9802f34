(** Property C107: on which side of a free and wide connection things stand does not matter. *)
From Coq Require Import String List ZArith QArith Bool Arith Lia Lqa Permutation.
From Verif Require Import Base BaseFacts Numeric Study Fluent SpecStudy StudyFacts Output Json SpecJson JsonFacts P_Json
  LP SpecLP LPFacts LPBuild LPSat LPResult LPSolve LPReady LPOpt LPWeak LPMore P_LP P_Opt P_Accept P_More P_Solvable P_Law P_Mean SpecRename P_Rename SpecPlace.
Import ListNotations.
Open Scope nat_scope.
Open Scope string_scope.
Open Scope list_scope.

(** ** Sums *)
Lemma qsum_cons q l : qsum (q :: l) = (q + qsum l)%Q.
Proof. reflexivity. Qed.
Lemma mapi_shift {A B} (f : nat -> A -> B) m : forall i k, mapi f (i + k) m = mapi (fun j a => f (i + j)%nat a) k m.
Proof. induction m as [|b m IH]; intros i k; cbn [mapi]; [reflexivity |]. f_equal. rewrite <- Nat.add_succ_r. apply IH. Qed.
Lemma mapi_join {A B} (f : nat -> A -> B) l m : forall i, mapi f i (l ++ m) = mapi f i l ++ mapi f (i + List.length l) m.
Proof.
  induction l as [|a l IH]; intros i; cbn [app mapi List.length]; [now rewrite Nat.add_0_r |]. f_equal. rewrite IH. do 2 f_equal. lia.
Qed.
Lemma sumi_app {A} (f : nat -> A -> Q) l m : (sumi f (l ++ m) == sumi f l + sumi (fun j a => f (List.length l + j)%nat a) m)%Q.
Proof.
  unfold sumi. rewrite mapi_join, qsum_app, <- mapi_shift, Nat.add_0_r, Nat.add_0_l. reflexivity.
Qed.
Lemma sumi_upto {A} (f g : nat -> A -> Q) l : (forall i a, nth_error l i = Some a -> (f i a <= g i a)%Q) -> (sumi f l <= sumi g l)%Q.
Proof.
  unfold sumi. assert (X : forall i, (forall j a, nth_error l j = Some a -> (f (i + j)%nat a <= g (i + j)%nat a)%Q) -> (qsum (mapi f i l) <= qsum (mapi g i l))%Q).
  { induction l as [|a l IH]; intros i H; cbn [mapi qsum fold_right]; [lra |]. pose proof (H 0 a eq_refl) as H0. rewrite Nat.add_0_r in H0.
    specialize (IH (S i)). unfold qsum in IH. assert (Y := IH ltac:(intros j b J; specialize (H (S j) b J); rewrite Nat.add_succ_r in H; exact H)). lra. }
  intros H. apply (X 0). exact H.
Qed.
Lemma qsum_upto {A} (f g : A -> Q) l : (forall a, In a l -> (f a <= g a)%Q) -> (qsum (map f l) <= qsum (map g l))%Q.
Proof.
  induction l as [|a l IH]; intros H; cbn [map qsum fold_right]; [lra |]. pose proof (H a (or_introl eq_refl)). assert (X := IH (fun b J => H b (or_intror J))). unfold qsum in X. lra.
Qed.

(** The positive part. *)
Definition up (q : Q) : Q := if Qle_bool 0 q then q else 0%Q.
Lemma up_parts q : (up q - up (- q) == q)%Q /\ (0 <= up q)%Q /\ (0 <= up (- q))%Q /\ ((up q == 0)%Q \/ (up (- q) == 0)%Q).
Proof.
  unfold up. destruct (Qle_bool 0 q) eqn:A; destruct (Qle_bool 0 (- q)) eqn:B.
  - apply Qle_bool_iff in A, B. repeat split; lra.
  - apply Qle_bool_iff in A. repeat split; lra.
  - apply Qle_bool_iff in B. assert (~ (0 <= q)%Q) by (intros H; apply Qle_bool_iff in H; congruence). repeat split; lra.
  - assert (~ (0 <= q)%Q) by (intros H; apply Qle_bool_iff in H; congruence). assert (~ (0 <= - q)%Q) by (intros H'; apply Qle_bool_iff in H'; congruence). lra.
Qed.

(** What a node gets at a time depends on the variables of that time. *)
Lemma xflow_ext s x z t net nd n : (forall v, fst (owner v) = t -> (x v == z v)%Q) -> (xflow s x t net nd n == xflow s z t net nd n)%Q.
Proof.
  intros H. unfold xflow. apply Qplus_comp; [apply Qplus_comp; [apply Qplus_comp |] |].
  - unfold xnode. unfold Qminus. repeat apply Qplus_comp; try apply Qopp_comp; apply sumi_ext; intros i a _; rewrite ?(H (VLol net nd i t) eq_refl), ?(H (VProd net nd i t) eq_refl),
      ?(H (VIn net nd i t) eq_refl), ?(H (VOut net nd i t) eq_refl), ?(H (VLink net nd i t) eq_refl); reflexivity.
  - apply qsum_map_ext. intros [k v] _. unfold xconv, vsrc. cbn [fst snd]. unfold Qminus. apply Qplus_comp; [| apply Qopp_comp, qsum_map_ext; intros [[p q] w] _; cbn [fst snd]].
    + destruct (_ && _); [apply H |]; reflexivity.
    + destruct (pair_eqb _ _); [apply H |]; reflexivity.
  - unfold ximport. apply qsum_map_ext. intros [k m] _. cbn [fst snd]. apply sumi_ext. intros i l _. destruct (String.eqb _ _); [apply H |]; reflexivity.
  - unfold xself. apply sumi_ext. intros i l _. destruct (String.eqb _ _); [apply H |]; reflexivity.
Qed.

Lemma moved_back net a b mc mp s s' : moved_across net a b mc mp s s' -> moved_across net b a mc mp s' s.
Proof.
  intros [H C N]. constructor; auto. eapply Forall2_swap; [exact N |]. intros [k ns] [k' ns'] _ _ [E F]. cbn [fst snd] in *. subst k'. split; auto.
  eapply Forall2_swap; [exact F |]. intros [d n] [d' n'] _ _ [E [CS CL CF CT CE]]. cbn [fst snd] in *. subst d'. split; auto. constructor; auto.
  intros X. destruct CE as [E1 E2]; [tauto |]. auto.
Qed.

Section Place.
Variables (s s' : study) (scn : nat) (net a b : string) (mc : list consumption) (mp : list production).
Hypothesis MV : moved_across net a b mc mp s s'.
Hypothesis RD : ready s.
Hypothesis RD' : ready s'.
Hypothesis AB : a <> b.
Local Notation h := (st_horizon s).
Local Notation carried := (carried net a b mc mp).

Lemma hor t : t < st_horizon s' <-> t < h.
Proof. rewrite (mv_horizon _ _ _ _ _ _ _ MV). tauto. Qed.
Lemma cvs name : conv_at s' name = conv_at s name.
Proof. unfold conv_at. now rewrite (mv_convs _ _ _ _ _ _ _ MV). Qed.
Lemma nets_down k ns : dget k (st_networks s) = Some ns -> exists ns', dget k (st_networks s') = Some ns' /\
  Forall2 (fun c d => fst d = fst c /\ carried k (fst c) (snd c) (snd d)) ns ns'.
Proof.
  intros D. apply dget_In in D. destruct (Forall2_In_l _ _ _ _ (mv_networks _ _ _ _ _ _ _ MV) D) as ([k' ns'] & J & E & H). cbn [fst snd] in *. subst k'.
  exists ns'. split; auto. apply In_dget; auto. apply wf_networks, RD'.
Qed.
Lemma nodes_down k nd n : node_at s k nd = Some n -> exists n', node_at s' k nd = Some n' /\ carried k nd n n'.
Proof.
  unfold node_at at 1. destruct (dget k (st_networks s)) as [ns|] eqn:D; [| discriminate]. intros E. destruct (nets_down _ _ D) as (ns' & D' & H).
  apply dget_In in E. destruct (Forall2_In_l _ _ _ _ H E) as ([k' n'] & J & K & X). cbn [fst snd] in *. subst k'. exists n'. split; auto.
  unfold node_at. rewrite D'. apply In_dget; auto. exact (wf_nodes _ (rd_wf _ RD') _ _ D').
Qed.
End Place.

Section Move.
Variables (s s' : study) (scn : nat) (net a b : string) (mc : list consumption) (mp : list production).
Hypothesis MV : moved_across net a b mc mp s s'.
Hypothesis RD : ready s.
Hypothesis RD' : ready s'.
Hypothesis AB : a <> b.
Local Notation h := (st_horizon s).
Local Notation carried := (carried net a b mc mp).
Lemma nodes_up k nd n' : node_at s' k nd = Some n' -> exists n, node_at s k nd = Some n /\ carried k nd n n'.
Proof.
  intros N'. destruct (nodes_down _ _ _ _ _ _ _ (moved_back _ _ _ _ _ _ _ MV) RD _ _ _ N') as (n & N & _). exists n. split; auto.
  destruct (nodes_down _ _ _ _ _ _ _ MV RD' _ _ _ N) as (m & M & C). rewrite N' in M. inversion M; subst m. exact C.
Qed.

(** The two nodes, before and after, and the links between them. *)
Variables (na nb na' nb' : node) (ia ib : nat) (la lb : link).
Hypothesis NA : node_at s net a = Some na.
Hypothesis NB : node_at s net b = Some nb.
Hypothesis NA' : node_at s' net a = Some na'.
Hypothesis NB' : node_at s' net b = Some nb'.
Hypothesis LA : nth_error (n_links na') ia = Some la.
Hypothesis LB : nth_error (n_links nb') ib = Some lb.
Hypothesis DA : l_dest la = b.
Hypothesis DB : l_dest lb = a.
Hypothesis FA : forall t, t < h -> (value (l_cost la) scn t == 0)%Q /\ (intake s' scn t net a b <= value (l_qty la) scn t)%Q.
Hypothesis FB : forall t, t < h -> (value (l_cost lb) scn t == 0)%Q /\ (intake s' scn t net b a <= value (l_qty lb) scn t)%Q.
Hypothesis SA : forall m, In m (n_links na') -> l_dest m <> a.
Hypothesis SB : forall m, In m (n_links nb') -> l_dest m <> b.

Lemma pair_a : carried net a na na'.
Proof. destruct (nodes_up _ _ _ NA') as (m & M & C). rewrite NA in M. inversion M; subst m. exact C. Qed.
Lemma pair_b : carried net b nb nb'.
Proof. destruct (nodes_up _ _ _ NB') as (m & M & C). rewrite NB in M. inversion M; subst m. exact C. Qed.
Lemma cons_a : n_cons na = n_cons na' ++ mc. Proof. apply (ca_from _ _ _ _ _ _ _ _ _ pair_a); auto. Qed.
Lemma prods_a : n_prods na = n_prods na' ++ mp. Proof. apply (ca_from _ _ _ _ _ _ _ _ _ pair_a); auto. Qed.
Lemma cons_b : n_cons nb' = n_cons nb ++ mc. Proof. apply (ca_to _ _ _ _ _ _ _ _ _ pair_b); auto. Qed.
Lemma prods_b : n_prods nb' = n_prods nb ++ mp. Proof. apply (ca_to _ _ _ _ _ _ _ _ _ pair_b); auto. Qed.

Variable x : var -> Q.
Hypothesis OK : xok s scn x.
Definition ca := List.length (n_cons na').
Definition cb := List.length (n_cons nb).
Definition pa := List.length (n_prods na').
Definition pb := List.length (n_prods nb).
Definition at_b (k nd : string) : bool := String.eqb k net && String.eqb nd b.
(** What is moved does at [b] what it did at [a]. *)
Definition rem (v : var) : Q :=
  match v with
  | VLol k nd i t => if at_b k nd && Nat.leb cb i then x (VLol net a (ca + (i - cb)) t) else x (VLol k nd i t)
  | VProd k nd i t => if at_b k nd && Nat.leb pb i then x (VProd net a (pa + (i - pb)) t) else x (VProd k nd i t)
  | v => x v
  end.
Lemma at_b_true k nd : at_b k nd = true <-> k = net /\ nd = b.
Proof. unfold at_b. rewrite andb_true_iff, !String.eqb_eq. tauto. Qed.
Lemma at_b_false k nd : at_b k nd = false <-> ~ (k = net /\ nd = b).
Proof. rewrite <- at_b_true. destruct (at_b k nd); split; congruence. Qed.

(** Sums over consumptions and productions. *)
Definition mlol (g : consumption -> Q -> Q) (t : nat) : Q := sumi (fun j c => g c (x (VLol net a (ca + j) t))) mc.
Definition mprod (g : production -> Q -> Q) (t : nat) : Q := sumi (fun j p => g p (x (VProd net a (pa + j) t))) mp.
Definition is_a (k nd : string) : Q := if String.eqb k net && String.eqb nd a then 1%Q else 0%Q.
Definition is_b (k nd : string) : Q := if at_b k nd then 1%Q else 0%Q.
Lemma is_cases k nd n n' : carried k nd n n' -> node_at s k nd = Some n -> node_at s' k nd = Some n' ->
  (k = net /\ nd = a /\ n = na /\ n' = na' /\ is_a k nd = 1%Q /\ is_b k nd = 0%Q) \/
  (k = net /\ nd = b /\ n = nb /\ n' = nb' /\ is_a k nd = 0%Q /\ is_b k nd = 1%Q) \/
  (at_b k nd = false /\ is_a k nd = 0%Q /\ is_b k nd = 0%Q /\ n_cons n' = n_cons n /\ n_prods n' = n_prods n).
Proof.
  intros C N N'. unfold is_a, is_b. destruct (String.eqb k net) eqn:K; [apply String.eqb_eq in K; subst k; destruct (String.eqb nd a) eqn:E |].
  - apply String.eqb_eq in E. subst nd. left. assert (n = na) by congruence. assert (n' = na') by congruence. repeat split; auto.
    rewrite (proj2 (at_b_false net a)); auto. intros [_ X]. auto.
  - destruct (at_b net nd) eqn:F.
    + apply at_b_true in F as [_ ->]. right; left. assert (n = nb) by congruence. assert (n' = nb') by congruence. repeat split; auto.
    + right; right. split; auto. apply at_b_false in F. apply String.eqb_neq in E. destruct (ca_else _ _ _ _ _ _ _ _ _ C) as [X1 X2]; [tauto |]. auto.
  - apply String.eqb_neq in K. right; right. assert (F : at_b k nd = false) by (apply at_b_false; tauto). rewrite F. split; auto.
    destruct (ca_else _ _ _ _ _ _ _ _ _ C) as [X1 X2]; [tauto |]. auto.
Qed.
Lemma lol_sum g t k nd n n' : carried k nd n n' -> node_at s k nd = Some n -> node_at s' k nd = Some n' ->
  (sumi (fun i c => g c (rem (VLol k nd i t))) (n_cons n') == sumi (fun i c => g c (x (VLol k nd i t))) (n_cons n) + (is_b k nd - is_a k nd) * mlol g t)%Q.
Proof.
  intros C N N'. destruct (is_cases _ _ _ _ C N N') as [(-> & -> & -> & -> & -> & ->) | [(-> & -> & -> & -> & -> & ->) | (F & -> & -> & E & _)]].
  - rewrite cons_a, sumi_app. fold ca. unfold mlol. rewrite (sumi_ext (fun i c => g c (rem (VLol net a i t))) (fun i c => g c (x (VLol net a i t)))); [lra |].
    intros i c _. unfold rem. rewrite (proj2 (at_b_false net a)) by tauto. reflexivity.
  - rewrite cons_b, sumi_app. fold cb. unfold mlol. rewrite (sumi_ext (fun i c => g c (rem (VLol net b i t))) (fun i c => g c (x (VLol net b i t)))).
    + rewrite (sumi_ext (fun j c => g c (rem (VLol net b (cb + j) t))) (fun j c => g c (x (VLol net a (ca + j) t)))); [lra |].
      intros i c _. unfold rem. rewrite (proj2 (at_b_true net b)) by auto. rewrite (proj2 (Nat.leb_le cb (cb + i))) by lia. cbn [andb].
      replace (cb + i - cb) with i by lia. reflexivity.
    + intros i c E. unfold rem. assert (X : i < cb) by (apply nth_error_Some; congruence). rewrite (proj2 (Nat.leb_gt cb i)) by lia. rewrite andb_false_r. reflexivity.
  - rewrite E. rewrite (sumi_ext (fun i c => g c (rem (VLol k nd i t))) (fun i c => g c (x (VLol k nd i t)))); [lra |].
    intros i c _. unfold rem. rewrite F. reflexivity.
Qed.
Lemma prod_sum g t k nd n n' : carried k nd n n' -> node_at s k nd = Some n -> node_at s' k nd = Some n' ->
  (sumi (fun i c => g c (rem (VProd k nd i t))) (n_prods n') == sumi (fun i c => g c (x (VProd k nd i t))) (n_prods n) + (is_b k nd - is_a k nd) * mprod g t)%Q.
Proof.
  intros C N N'. destruct (is_cases _ _ _ _ C N N') as [(-> & -> & -> & -> & -> & ->) | [(-> & -> & -> & -> & -> & ->) | (F & -> & -> & _ & E)]].
  - rewrite prods_a, sumi_app. fold pa. unfold mprod. rewrite (sumi_ext (fun i c => g c (rem (VProd net a i t))) (fun i c => g c (x (VProd net a i t)))); [lra |].
    intros i c _. unfold rem. rewrite (proj2 (at_b_false net a)) by tauto. reflexivity.
  - rewrite prods_b, sumi_app. fold pb. unfold mprod. rewrite (sumi_ext (fun i c => g c (rem (VProd net b i t))) (fun i c => g c (x (VProd net b i t)))).
    + rewrite (sumi_ext (fun j c => g c (rem (VProd net b (pb + j) t))) (fun j c => g c (x (VProd net a (pa + j) t)))); [lra |].
      intros i c _. unfold rem. rewrite (proj2 (at_b_true net b)) by auto. rewrite (proj2 (Nat.leb_le pb (pb + i))) by lia. cbn [andb].
      replace (pb + i - pb) with i by lia. reflexivity.
    + intros i c E. unfold rem. assert (X : i < pb) by (apply nth_error_Some; congruence). rewrite (proj2 (Nat.leb_gt pb i)) by lia. rewrite andb_false_r. reflexivity.
  - rewrite E. rewrite (sumi_ext (fun i c => g c (rem (VProd k nd i t))) (fun i c => g c (x (VProd k nd i t)))); [lra |].
    intros i c _. unfold rem. rewrite F. reflexivity.
Qed.
Definition needs (t : nat) (n : node) : Q := qsum (map (fun c => value (c_qty c) scn t) (n_cons n)).
Definition mneed (t : nat) : Q := qsum (map (fun c => value (c_qty c) scn t) mc).
Lemma needs_sum t k nd n n' : carried k nd n n' -> node_at s k nd = Some n -> node_at s' k nd = Some n' ->
  (needs t n' == needs t n + (is_b k nd - is_a k nd) * mneed t)%Q.
Proof.
  intros C N N'. unfold needs, mneed. destruct (is_cases _ _ _ _ C N N') as [(-> & -> & -> & -> & -> & ->) | [(-> & -> & -> & -> & -> & ->) | (F & -> & -> & E & _)]].
  - rewrite cons_a, map_app, qsum_app. lra.
  - rewrite cons_b, map_app, qsum_app. lra.
  - rewrite E. lra.
Qed.

(** What the moved elements bring, together. *)
Definition gain (t : nat) : Q := (mprod (fun _ q => q) t + mlol (fun _ q => q) t - mneed t)%Q.
Lemma same_import z t k nd : (forall u i, (z (VLink k u i t) == x (VLink k u i t))%Q) -> (ximport s' z t k nd == ximport s x t k nd)%Q.
Proof.
  intros Z. unfold ximport, nodes_in. destruct (dget k (st_networks s)) as [ns|] eqn:D.
  - destruct (nets_down _ _ _ _ _ _ _ MV RD' _ _ D) as (ns' & D' & F). rewrite D'. clear D D'. induction F as [|[p m] [p' m'] ns ns' [E C] F IH]; cbn [map qsum fold_right]; [reflexivity |].
    cbn [fst snd] in *. subst p'. apply Qplus_comp; [| exact IH]. rewrite (ca_links _ _ _ _ _ _ _ _ _ C). apply sumi_ext. intros i l _.
    destruct (String.eqb (l_dest l) nd); [apply Z |]; reflexivity.
  - destruct (dget k (st_networks s')) as [ns'|] eqn:D'; [| reflexivity].
    destruct (nets_down _ _ _ _ _ _ _ (moved_back _ _ _ _ _ _ _ MV) RD _ _ D') as (ns & D2 & _). congruence.
Qed.
Lemma rem_flow t k nd n n' : carried k nd n n' -> node_at s k nd = Some n -> node_at s' k nd = Some n' ->
  (xflow s' rem t k nd n' - needs t n' == xflow s x t k nd n - needs t n + (is_b k nd - is_a k nd) * gain t)%Q.
Proof.
  intros C N N'. unfold xflow.
  assert (X1 : (xnode rem t k nd n' == xnode x t k nd n + (is_b k nd - is_a k nd) * (mprod (fun _ q => q) t + mlol (fun _ q => q) t))%Q).
  { unfold xnode. rewrite (lol_sum (fun _ q => q) t _ _ _ _ C N N'), (prod_sum (fun _ q => q) t _ _ _ _ C N N').
    rewrite (ca_stors _ _ _ _ _ _ _ _ _ C), (ca_links _ _ _ _ _ _ _ _ _ C). unfold rem. lra. }
  assert (X2 : (xself rem t k nd n' == xself x t k nd n)%Q) by (unfold xself; rewrite (ca_links _ _ _ _ _ _ _ _ _ C); reflexivity).
  rewrite X1, X2, (needs_sum t _ _ _ _ C N N'). rewrite (same_import rem t k nd) by reflexivity.
  rewrite (mv_convs _ _ _ _ _ _ _ MV). unfold gain.
  change (fun kv : string * converter => xconv rem t k nd (fst kv) (snd kv)) with (fun kv : string * converter => xconv x t k nd (fst kv) (snd kv)).
  set (Z := qsum (map (fun kv : string * converter => xconv x t k nd (fst kv) (snd kv)) (st_converters s))). lra.
Qed.

(** Then the two links carry what is needed and no more. *)
Definition xa t := x (VLink net a ia t).
Definition xb t := x (VLink net b ib t).
Definition back (t : nat) : Q := (xb t - xa t + gain t)%Q.
Definition is_la (k nd : string) (i : nat) : bool := String.eqb k net && String.eqb nd a && Nat.eqb i ia.
Definition is_lb (k nd : string) (i : nat) : bool := String.eqb k net && String.eqb nd b && Nat.eqb i ib.
Definition place (v : var) : Q :=
  match v with
  | VLink k nd i t => if is_la k nd i then up (- back t) else if is_lb k nd i then up (back t) else x (VLink k nd i t)
  | v => rem v
  end.
Lemma is_la_true k nd i : is_la k nd i = true <-> k = net /\ nd = a /\ i = ia.
Proof. unfold is_la. rewrite !andb_true_iff, !String.eqb_eq, Nat.eqb_eq. tauto. Qed.
Lemma is_lb_true k nd i : is_lb k nd i = true <-> k = net /\ nd = b /\ i = ib.
Proof. unfold is_lb. rewrite !andb_true_iff, !String.eqb_eq, Nat.eqb_eq. tauto. Qed.
Lemma place_a t : place (VLink net a ia t) = up (- back t).
Proof. unfold place. now rewrite (proj2 (is_la_true net a ia)) by auto. Qed.
Lemma place_b t : place (VLink net b ib t) = up (back t).
Proof.
  unfold place. rewrite (proj2 (is_lb_true net b ib)) by auto. destruct (is_la net b ib) eqn:E; auto. apply is_la_true in E as (_ & E & _). congruence.
Qed.
Lemma place_link k nd i t : ~ (k = net /\ nd = a /\ i = ia) -> ~ (k = net /\ nd = b /\ i = ib) -> place (VLink k nd i t) = x (VLink k nd i t).
Proof.
  intros H K. unfold place. destruct (is_la k nd i) eqn:E; [apply is_la_true in E; tauto |]. destruct (is_lb k nd i) eqn:F; [apply is_lb_true in F; tauto |]. reflexivity.
Qed.
Definition turned (t : nat) : var -> Q :=
  pert (pert rem (up (back t) - xb t) (unit1 (VLink net b ib t))) (up (- back t) - xa t) (unit1 (VLink net a ia t)).
Lemma turned_ok t v : fst (owner v) = t -> (place v == turned t v)%Q.
Proof.
  intros T. unfold turned, pert. destruct (var_eq_dec v (VLink net a ia t)) as [->|NEa].
  - rewrite place_a, unit1_same, unit1_other by congruence. unfold rem, xa. lra.
  - rewrite (unit1_other _ _ NEa). destruct (var_eq_dec v (VLink net b ib t)) as [->|NEb].
    + rewrite place_b, unit1_same. unfold rem, xb. lra.
    + rewrite (unit1_other _ _ NEb). assert (E : place v = rem v); [| rewrite E; lra]. destruct v; try reflexivity. cbn in T. subst.
      apply place_link; intros (-> & -> & ->); congruence.
Qed.
Lemma here_b t k nd : here net b t t k nd = is_b k nd.
Proof. unfold here, is_b, at_b. now rewrite Nat.eqb_refl. Qed.
Lemma here_a t k nd : here net a t t k nd = is_a k nd.
Proof. unfold here, is_a. now rewrite Nat.eqb_refl. Qed.
Lemma place_flow t k nd n n' : carried k nd n n' -> node_at s k nd = Some n -> node_at s' k nd = Some n' ->
  (xflow s' place t k nd n' - needs t n' == xflow s x t k nd n - needs t n)%Q.
Proof.
  intros C N N'. rewrite (xflow_ext s' place (turned t) t k nd n' (turned_ok t)). unfold turned. rewrite !xflow_pert.
  rewrite (xflow_link s' RD' net b a nb' ib lb t t k nd n' NB' LB DB (not_eq_sym AB) N').
  rewrite (xflow_link s' RD' net a b na' ia la t t k nd n' NA' LA DA AB N'). rewrite here_a, here_b.
  pose proof (rem_flow t _ _ _ _ C N N') as R. destruct (up_parts (back t)) as (U & _). unfold back in U at 3.
  assert (E : (xflow s' rem t k nd n' == xflow s x t k nd n - needs t n + needs t n' + (is_b k nd - is_a k nd) * gain t)%Q) by lra. rewrite E.
  assert (G : (gain t == (up (back t) - xb t) - (up (- back t) - xa t))%Q) by lra. rewrite G. ring.
Qed.
Lemma place_balance t k nd n' : t < h -> node_at s' k nd = Some n' -> xbalance s' scn place t k nd n'.
Proof.
  intros T N'. destruct (nodes_up _ _ _ N') as (n & N & C). pose proof (place_flow t _ _ _ _ C N N') as P. pose proof (xo_balance _ _ _ OK t k nd n T N) as B.
  unfold xbalance in *. fold (xflow s x t k nd n) in B. fold (xflow s' place t k nd n'). unfold needs in P. lra.
Qed.

(** *** Bounds *)
Lemma place_lol t k nd n' i c : t < h -> node_at s' k nd = Some n' -> nth_error (n_cons n') i = Some c -> within 0 (place (VLol k nd i t)) (value (c_qty c) scn t).
Proof.
  intros T N' E. destruct (nodes_up _ _ _ N') as (n & N & C). pose proof (xb_cons _ _ _ (xo_bounds _ _ _ OK)) as X. unfold place, rem.
  destruct (is_cases _ _ _ _ C N N') as [(-> & -> & -> & -> & _) | [(-> & -> & -> & -> & _) | (F & _ & _ & EC & _)]].
  - rewrite (proj2 (at_b_false net a)) by tauto. apply (X t net a na i c T NA). rewrite cons_a, nth_error_app1; auto. apply nth_error_Some. congruence.
  - rewrite (proj2 (at_b_true net b)) by auto. rewrite cons_b in E. destruct (Nat.leb cb i) eqn:L; cbn [andb].
    + apply Nat.leb_le in L. rewrite nth_error_app2 in E by exact L. apply (X t net a na _ c T NA). rewrite cons_a, nth_error_app2 by (unfold ca; lia).
      unfold ca. replace (List.length (n_cons na') + (i - cb) - List.length (n_cons na')) with (i - cb) by lia. exact E.
    + apply Nat.leb_gt in L. rewrite nth_error_app1 in E by exact L. apply (X t net b nb i c T NB E).
  - rewrite F. cbn [andb]. rewrite EC in E. apply (X t k nd n i c T N E).
Qed.
Lemma place_prod t k nd n' i c : t < h -> node_at s' k nd = Some n' -> nth_error (n_prods n') i = Some c -> within 0 (place (VProd k nd i t)) (value (p_qty c) scn t).
Proof.
  intros T N' E. destruct (nodes_up _ _ _ N') as (n & N & C). pose proof (xb_prods _ _ _ (xo_bounds _ _ _ OK)) as X. unfold place, rem.
  destruct (is_cases _ _ _ _ C N N') as [(-> & -> & -> & -> & _) | [(-> & -> & -> & -> & _) | (F & _ & _ & _ & EC)]].
  - rewrite (proj2 (at_b_false net a)) by tauto. apply (X t net a na i c T NA). rewrite prods_a, nth_error_app1; auto. apply nth_error_Some. congruence.
  - rewrite (proj2 (at_b_true net b)) by auto. rewrite prods_b in E. destruct (Nat.leb pb i) eqn:L; cbn [andb].
    + apply Nat.leb_le in L. rewrite nth_error_app2 in E by exact L. apply (X t net a na _ c T NA). rewrite prods_a, nth_error_app2 by (unfold pa; lia).
      unfold pa. replace (List.length (n_prods na') + (i - pb) - List.length (n_prods na')) with (i - pb) by lia. exact E.
    + apply Nat.leb_gt in L. rewrite nth_error_app1 in E by exact L. apply (X t net b nb i c T NB E).
  - rewrite F. cbn [andb]. rewrite EC in E. apply (X t k nd n i c T N E).
Qed.
Lemma old_link t k nd n' i l : t < h -> node_at s' k nd = Some n' -> nth_error (n_links n') i = Some l -> within 0 (x (VLink k nd i t)) (value (l_qty l) scn t).
Proof.
  intros T N' E. destruct (nodes_up _ _ _ N') as (n & N & C). rewrite (ca_links _ _ _ _ _ _ _ _ _ C) in E. apply (xb_links _ _ _ (xo_bounds _ _ _ OK) t k nd n i l T N E).
Qed.
Lemma link_floor t k nd n' i l : t < h -> node_at s' k nd = Some n' -> nth_error (n_links n') i = Some l -> (0 <= place (VLink k nd i t))%Q.
Proof.
  intros T N' E. destruct (up_parts (back t)) as (_ & U1 & U2 & _). unfold place. destruct (is_la k nd i); auto. destruct (is_lb k nd i); auto. apply (old_link t k nd n' i l T N' E).
Qed.

(** All that leaves [u] for [w] on their link when nothing comes back by the other. *)
Lemma poured_out t u w nu nw i j l m : t < h -> node_at s' net u = Some nu -> node_at s' net w = Some nw ->
  nth_error (n_links nu) i = Some l -> l_dest l = w -> nth_error (n_links nw) j = Some m -> l_dest m = u -> u <> w ->
  (forall q, In q (n_links nu) -> l_dest q <> u) -> (place (VLink net w j t) == 0)%Q ->
  (forall k v, node_at s' net k = Some v -> forall p q, nth_error (n_links v) p = Some q -> l_dest q = u -> k <> w -> (place (VLink net k p t) <= value (l_qty q) scn t)%Q) ->
  (place (VLink net u i t) <= intake s' scn t net u w)%Q.
Proof.
  intros T NU NW LU DU LW DW UW SU Z OT. pose proof (place_balance t net u nu T NU) as B. unfold xbalance in B.
  assert (S0 : (xself place t net u nu == 0)%Q).
  { unfold xself. apply sumi_zero. intros p q E. rewrite (proj2 (String.eqb_neq _ _) (SU q (nth_error_In _ _ E))). reflexivity. }
  unfold intake. pose proof NU as NU2. unfold node_at in NU2. destruct (dget net (st_networks s')) as [ns|] eqn:D; [| discriminate]. rewrite NU2.
  assert (IM : (ximport s' place t net u <= total (fun kd => if String.eqb (fst kd) w then 0 else
      total (fun l => if String.eqb (l_dest l) u then value (l_qty l) scn t else 0) (n_links (snd kd))) ns)%Q).
  { unfold ximport, nodes_in, total. rewrite D. apply qsum_upto. intros [k v] J. cbn [fst snd].
    pose proof (node_at_In s' RD' net ns k v (dget_In _ _ _ D) J) as NV. destruct (String.eqb k w) eqn:K.
    - apply String.eqb_eq in K. subst k. rewrite NW in NV. inversion NV; subst v.
      assert (E : (sumi (fun p q => if String.eqb (l_dest q) u then place (VLink net w p t) else 0) (n_links nw) == 0)%Q); [| lra].
      apply sumi_zero. intros p q E. destruct (String.eqb (l_dest q) u) eqn:DQ; [| reflexivity]. apply String.eqb_eq in DQ.
      assert (X : p = j); [| subst; exact Z].
      pose proof (wf_links _ _ _ (wf_node _ (rd_wf _ RD') _ _ _ NW)) as ND. rewrite NoDup_nth_error in ND. apply ND.
      + rewrite map_length. apply nth_error_Some. congruence.
      + rewrite !nth_error_map, E, LW. cbn. congruence.
    - apply String.eqb_neq in K. rewrite <- sumi_map. apply sumi_upto. intros p q E. destruct (String.eqb (l_dest q) u) eqn:DQ; [| lra]. apply String.eqb_eq in DQ.
      apply (OT k v NV p q E DQ K). }
  assert (CV : (qsum (map (fun kv => xconv place t net u (fst kv) (snd kv)) (st_converters s')) <=
     total (fun kv => if String.eqb (v_dnet (snd kv)) net && String.eqb (v_dnode (snd kv)) u then ovalue (v_max (snd kv)) scn t else 0) (st_converters s'))%Q).
  { apply qsum_upto. intros [name v] J. cbn [fst snd]. assert (V : conv_at s name = Some v).
    { rewrite <- (cvs _ _ _ _ _ _ _ MV). apply In_dget; auto. apply wf_convs, RD'. }
    unfold xconv. assert (P : (0 <= qsum (map (fun kr => if pair_eqb (fst kr) (net, u) then place (vsrc name t (fst kr)) else 0) (v_src v)))%Q).
    { apply qsum_nonneg. intros q Q. apply in_map_iff in Q as ([k r] & <- & Q). cbn [fst snd]. destruct (pair_eqb _ _); [| lra].
      apply (xb_src _ _ _ (xo_bounds _ _ _ OK) t name v k r T V Q). }
    pose proof (xb_dest _ _ _ (xo_bounds _ _ _ OK) t name v T V) as [_ Q]. cbn [place rem]. destruct (_ && _); lra. }
  assert (LC : (sumi (fun i _ => place (VLol net u i t)) (n_cons nu) <= qsum (map (fun c => value (c_qty c) scn t) (n_cons nu)))%Q).
  { rewrite <- sumi_map. apply sumi_upto. intros p c E. apply (place_lol t net u nu p c T NU E). }
  assert (PC : (sumi (fun i _ => place (VProd net u i t)) (n_prods nu) <= total (fun p => value (p_qty p) scn t) (n_prods nu))%Q).
  { unfold total. rewrite <- sumi_map. apply sumi_upto. intros p c E. apply (place_prod t net u nu p c T NU E). }
  assert (SC : (sumi (fun i _ => - place (VIn net u i t) + place (VOut net u i t)) (n_stors nu) <= total (fun y => value (s_flow_out y) scn t) (n_stors nu))%Q).
  { unfold total. rewrite <- sumi_map. apply sumi_upto. intros p y E. destruct (nodes_up _ _ _ NU) as (n & N & C). rewrite (ca_stors _ _ _ _ _ _ _ _ _ C) in E.
    destruct (xb_stors _ _ _ (xo_bounds _ _ _ OK) t net u n p y T N E) as (_ & [B1 B2] & [B3 B4]). cbn [place rem]. lra. }
  assert (LK : (place (VLink net u i t) <= sumi (fun i _ => place (VLink net u i t)) (n_links nu))%Q).
  { assert (P := sumi_pick (fun p (_ : link) => if Nat.eqb p i then place (VLink net u p t) else 0%Q) (n_links nu) i l LU). cbv beta in P. rewrite Nat.eqb_refl in P.
    rewrite <- P.
    - apply sumi_upto. intros p q E. destruct (Nat.eqb p i); [apply Qle_refl |]. apply (link_floor t net u nu p q T NU E).
    - intros p q E NE. rewrite (proj2 (Nat.eqb_neq _ _) NE). reflexivity. }
  unfold xnode in B. rewrite S0 in B. lra.
Qed.
Lemma other_links t u w : t < h -> (u = a /\ w = b) \/ (u = b /\ w = a) ->
  (forall k v, node_at s' net k = Some v -> forall p q, nth_error (n_links v) p = Some q -> l_dest q = u -> k <> w -> (place (VLink net k p t) <= value (l_qty q) scn t)%Q).
Proof.
  intros T UW k v NV p q E DQ KW. assert (KU : k <> u).
  { intros ->. destruct UW as [[-> ->] | [-> ->]].
    - rewrite NA' in NV. inversion NV as [X]. rewrite <- X in E. apply (SA q (nth_error_In _ _ E) DQ).
    - rewrite NB' in NV. inversion NV as [X]. rewrite <- X in E. apply (SB q (nth_error_In _ _ E) DQ). }
  rewrite place_link; [apply (old_link t net k v p q T NV E) | |]; intros (_ & X & _); destruct UW as [[U W] | [U W]]; congruence.
Qed.
Lemma place_links t k nd n' i l : t < h -> node_at s' k nd = Some n' -> nth_error (n_links n') i = Some l -> within 0 (place (VLink k nd i t)) (value (l_qty l) scn t).
Proof.
  intros T N' E. split; [apply (link_floor t k nd n' i l T N' E) |]. destruct (up_parts (back t)) as (_ & U1 & U2 & UZ).
  destruct (is_la k nd i) eqn:EA.
  - apply is_la_true in EA as (-> & -> & ->). assert (X : l = la) by (rewrite NA' in N'; inversion N' as [Y]; rewrite <- Y in E; congruence). rewrite X.
    pose proof (old_link t net a na' ia la T NA' LA) as O. destruct UZ as [UZ | UZ].
    + eapply Qle_trans; [| apply (FA t T)]. eapply (poured_out t a b na' nb' ia ib la lb); auto.
      * now rewrite place_b.
      * apply other_links; auto.
    + rewrite place_a, UZ. unfold within in O. lra.
  - destruct (is_lb k nd i) eqn:EB.
    + apply is_lb_true in EB as (-> & -> & ->). assert (X : l = lb) by (rewrite NB' in N'; inversion N' as [Y]; rewrite <- Y in E; congruence). rewrite X.
      pose proof (old_link t net b nb' ib lb T NB' LB) as O. destruct UZ as [UZ | UZ].
      * rewrite place_b, UZ. unfold within in O. lra.
      * eapply Qle_trans; [| apply (FB t T)]. eapply (poured_out t b a nb' na' ib ia lb la); auto.
        -- now rewrite place_a.
        -- apply other_links; auto.
    + unfold place. rewrite EA, EB. apply (old_link t k nd n' i l T N' E).
Qed.
Lemma place_ok : xok s' scn place.
Proof.
  pose proof (xo_bounds _ _ _ OK) as XB. constructor; [constructor | | |].
  - intros t k nd n' i c T. apply place_lol. now apply (hor _ _ _ _ _ _ _ MV).
  - intros t k nd n' i c T. apply place_prod. now apply (hor _ _ _ _ _ _ _ MV).
  - intros t k nd n' i y T N' E. apply (hor _ _ _ _ _ _ _ MV) in T. destruct (nodes_up _ _ _ N') as (n & N & C). rewrite (ca_stors _ _ _ _ _ _ _ _ _ C) in E. cbn [place rem].
    apply (xb_stors _ _ _ XB t k nd n i y T N E).
  - intros t k nd n' i c T. apply place_links. now apply (hor _ _ _ _ _ _ _ MV).
  - intros t name v k q T V J. rewrite (cvs _ _ _ _ _ _ _ MV) in V. apply (hor _ _ _ _ _ _ _ MV) in T. apply (xb_src _ _ _ XB t name v k q T V J).
  - intros t name v T V. rewrite (cvs _ _ _ _ _ _ _ MV) in V. apply (hor _ _ _ _ _ _ _ MV) in T. apply (xb_dest _ _ _ XB t name v T V).
  - intros t k nd n' T. apply place_balance. now apply (hor _ _ _ _ _ _ _ MV).
  - intros t k nd n' T N'. apply (hor _ _ _ _ _ _ _ MV) in T. destruct (nodes_up _ _ _ N') as (n & N & C). pose proof (xo_storage _ _ _ OK t k nd n T N) as X.
    unfold xstorage in *. rewrite (ca_stors _ _ _ _ _ _ _ _ _ C). exact X.
  - intros t name v T V. rewrite (cvs _ _ _ _ _ _ _ MV) in V. apply (hor _ _ _ _ _ _ _ MV) in T. exact (xo_mix _ _ _ OK t name v T V).
Qed.

(** *** Cost *)
Definition mcost (t : nat) : Q := (mlol (fun c q => value (c_cost c) scn t * q) t + mprod (fun p q => value (p_cost p) scn t * q) t)%Q.
Lemma place_ncost t k nd n n' : t < h -> carried k nd n n' -> node_at s k nd = Some n -> node_at s' k nd = Some n' ->
  (ncost scn place t k nd n' == ncost scn x t k nd n + (is_b k nd - is_a k nd) * mcost t)%Q.
Proof.
  intros T C N N'. unfold ncost, mcost.
  change (sumi (fun i c => value (c_cost c) scn t * place (VLol k nd i t)) (n_cons n'))%Q with (sumi (fun i c => value (c_cost c) scn t * rem (VLol k nd i t)) (n_cons n'))%Q.
  change (sumi (fun i c => value (p_cost c) scn t * place (VProd k nd i t)) (n_prods n'))%Q with (sumi (fun i c => value (p_cost c) scn t * rem (VProd k nd i t)) (n_prods n'))%Q.
  rewrite (lol_sum (fun c q => value (c_cost c) scn t * q)%Q t _ _ _ _ C N N'), (prod_sum (fun c q => value (p_cost c) scn t * q)%Q t _ _ _ _ C N N').
  assert (L : (sumi (fun i l => value (l_cost l) scn t * place (VLink k nd i t)) (n_links n') == sumi (fun i l => value (l_cost l) scn t * x (VLink k nd i t)) (n_links n))%Q).
  { rewrite <- (ca_links _ _ _ _ _ _ _ _ _ C). apply sumi_ext. intros i l E. unfold place. destruct (is_la k nd i) eqn:EA; [| destruct (is_lb k nd i) eqn:EB; [| reflexivity]].
    - apply is_la_true in EA as (-> & -> & ->). assert (X : l = la) by (rewrite NA' in N'; inversion N' as [Y]; rewrite <- Y in E; congruence). rewrite X, (proj1 (FA t T)). lra.
    - apply is_lb_true in EB as (-> & -> & ->). assert (X : l = lb) by (rewrite NB' in N'; inversion N' as [Y]; rewrite <- Y in E; congruence). rewrite X, (proj1 (FB t T)). lra. }
  rewrite L, (ca_stors _ _ _ _ _ _ _ _ _ C). cbn [place rem]. lra.
Qed.
Lemma one_node u n K : node_at s net u = Some n ->
  (qsum (map (fun kn => qsum (map (fun kd => (if String.eqb (fst kn) net && String.eqb (fst kd) u then 1 else 0) * K) (snd kn))) (st_networks s)) == K)%Q.
Proof.
  intros N. unfold node_at in N. destruct (dget net (st_networks s)) as [ns|] eqn:D; [| discriminate].
  pose proof (wf_nodes _ (rd_wf _ RD) _ _ D) as ND. pose proof (wf_networks _ (rd_wf _ RD)) as NN. apply dget_In in D, N.
  rewrite (qsum_single_key fst _ _ (net, ns) NN D).
  - cbn [fst snd]. rewrite String.eqb_refl. rewrite (qsum_single_key fst _ _ (u, n) ND N).
    + cbn [fst snd]. rewrite String.eqb_refl. cbn [andb]. lra.
    + intros [k v] _ NE. cbn [fst snd] in *. rewrite (proj2 (String.eqb_neq _ _) NE). cbn [andb]. lra.
  - intros [k v] _ NE. cbn [fst snd] in *. rewrite (proj2 (String.eqb_neq _ _) NE). apply qsum_map_zero. intros. cbn [andb]. lra.
Qed.
Lemma place_cost : (xcost s' scn place == xcost s scn x)%Q.
Proof.
  unfold xcost. rewrite (mv_horizon _ _ _ _ _ _ _ MV). apply qsum_map_ext. intros t J. apply in_seq in J. assert (T : t < h) by lia. apply Qplus_comp.
  - assert (X : forall l l', Forall2 (fun c d => fst d = fst c /\ Forall2 (fun p q => fst q = fst p /\ carried (fst c) (fst p) (snd p) (snd q)) (snd c) (snd d)) l l' ->
      (forall c, In c l -> In c (st_networks s)) -> (forall c, In c l' -> In c (st_networks s')) ->
      (qsum (map (fun kn => qsum (map (fun kd => ncost scn place t (fst kn) (fst kd) (snd kd)) (snd kn))) l') ==
       qsum (map (fun kn => qsum (map (fun kd => ncost scn x t (fst kn) (fst kd) (snd kd)) (snd kn))) l) +
       qsum (map (fun kn => qsum (map (fun kd => is_b (fst kn) (fst kd) * mcost t) (snd kn))) l) -
       qsum (map (fun kn => qsum (map (fun kd => is_a (fst kn) (fst kd) * mcost t) (snd kn))) l))%Q).
    { induction 1 as [|[k ns] [k' ns'] l l' [E SH] FL IH]; intros I1 I2; cbn [map]; [cbn; lra |]. cbn [fst snd] in *. subst k'. rewrite !qsum_cons.
      rewrite (IH (fun c H => I1 c (or_intror H)) (fun c H => I2 c (or_intror H))).
      assert (Y : forall m m', Forall2 (fun p q => fst q = fst p /\ carried k (fst p) (snd p) (snd q)) m m' -> (forall c, In c m -> In c ns) -> (forall c, In c m' -> In c ns') ->
        (qsum (map (fun kd => ncost scn place t k (fst kd) (snd kd)) m') == qsum (map (fun kd => ncost scn x t k (fst kd) (snd kd)) m) +
         qsum (map (fun kd => is_b k (fst kd) * mcost t) m) - qsum (map (fun kd => is_a k (fst kd) * mcost t) m))%Q).
      { induction 1 as [|[nd n] [nd' n'] m m' [E C] FB' IHm]; intros J1 J2; cbn [map]; [cbn; lra |]. cbn [fst snd] in *. subst nd'. rewrite !qsum_cons.
        rewrite (IHm (fun c H => J1 c (or_intror H)) (fun c H => J2 c (or_intror H))).
        pose proof (node_at_In s RD _ _ _ _ (I1 _ (or_introl eq_refl)) (J1 _ (or_introl eq_refl))) as N.
        pose proof (node_at_In s' RD' _ _ _ _ (I2 _ (or_introl eq_refl)) (J2 _ (or_introl eq_refl))) as N'.
        rewrite (place_ncost t k nd n n' T C N N'). lra. }
      rewrite (Y ns ns') by auto. lra. }
    rewrite (X _ _ (mv_networks _ _ _ _ _ _ _ MV)) by auto. pose proof (one_node a na (mcost t) NA) as OA. pose proof (one_node b nb (mcost t) NB) as OB.
    unfold is_a, is_b, at_b. rewrite OA, OB. lra.
  - rewrite (mv_convs _ _ _ _ _ _ _ MV). reflexivity.
Qed.
End Move.

Theorem moved_exists s s' scn net a b mc mp x : moved_across net a b mc mp s s' -> ready s -> ready s' -> a <> b ->
  poured s' scn net a b -> poured s' scn net b a -> xok s scn x -> exists y, xok s' scn y /\ (xcost s' scn y == xcost s scn x)%Q.
Proof.
  intros MV RD RD' AB (na' & ia & la & NA' & LA & DA & FA & SA) (nb' & ib & lb & NB' & LB & DB & FB & SB) OK.
  destruct (nodes_up _ _ _ _ _ _ _ MV RD RD' _ _ _ NA') as (na & NA & _). destruct (nodes_up _ _ _ _ _ _ _ MV RD RD' _ _ _ NB') as (nb & NB & _).
  assert (FA1 : forall t, t < st_horizon s -> (value (l_cost la) scn t == 0)%Q /\ (intake s' scn t net a b <= value (l_qty la) scn t)%Q) by (intros t T; apply FA, (hor _ _ _ _ _ _ _ MV), T).
  assert (FB1 : forall t, t < st_horizon s -> (value (l_cost lb) scn t == 0)%Q /\ (intake s' scn t net b a <= value (l_qty lb) scn t)%Q) by (intros t T; apply FB, (hor _ _ _ _ _ _ _ MV), T).
  exists (place scn net a b mc mp nb na' ia ib x). split.
  - eapply (place_ok s s' scn net a b mc mp MV RD RD' AB na nb na' nb' ia ib la lb); eauto.
  - eapply (place_cost s s' scn net a b mc mp MV RD RD' AB na nb na' nb' ia ib la lb); eauto.
Qed.

(** ** C107 *)
(** Between the two sides energy may be poured freely, either way. *)
Theorem C107_same_dispatches : forall s s' scn net a b mc mp, api_study s -> api_study s' -> usable_converters s -> usable_converters s' ->
  scn < st_nb_scn s -> scn < st_nb_scn s' -> a <> b -> moved_across net a b mc mp s s' ->
  poured s scn net a b -> poured s scn net b a -> poured s' scn net a b -> poured s' scn net b a -> forall cost,
  (exists r, mirrors s r /\ law_ok s r scn /\ (total_cost s r scn == cost)%Q) <->
  (exists r', mirrors s' r' /\ law_ok s' r' scn /\ (total_cost s' r' scn == cost)%Q).
Proof.
  assert (ONE : forall s s' scn net a b mc mp, api_study s -> api_study s' -> usable_converters s -> usable_converters s' ->
    scn < st_nb_scn s -> scn < st_nb_scn s' -> a <> b -> moved_across net a b mc mp s s' -> poured s' scn net a b -> poured s' scn net b a -> forall cost,
    (exists r, mirrors s r /\ law_ok s r scn /\ (total_cost s r scn == cost)%Q) -> exists r', mirrors s' r' /\ law_ok s' r' scn /\ (total_cost s' r' scn == cost)%Q).
  { intros s s' scn net a b mc mp A A' U U' S S' AB MV P1 P2 cost. pose proof (api_ready s A U) as R. pose proof (api_ready s' A' U') as R'.
    destruct (build_ok s scn S R) as (p & B & _). destruct (build_ok s' scn S' R') as (p' & B' & _).
    destruct (C15_program_exact s scn A U S) as (_ & DX & XD & D). destruct (C15_program_exact s' scn A' U' S') as (_ & DX' & XD' & D').
    unfold program_of in D, D'. rewrite B in D. rewrite B' in D'.
    intros (r & M & L & C). destruct (DX r M) as (x & CA). destruct (D r x M CA) as [DF DO]. apply DF, (sat_iff s scn S R _ _ _ B) in L.
    destruct (moved_exists _ _ _ _ _ _ _ _ _ MV R R' AB P1 P2 L) as (y & X & E). destruct (XD' y) as (r' & M' & CA'). destruct (D' r' _ M' CA') as [DF' DO'].
    exists r'. split; auto. split; [now apply DF', (sat_iff s' scn S' R' _ _ _ B') |]. rewrite <- DO', <- C, <- DO.
    rewrite (objective_value s scn S R _ _ _ B), (objective_value s' scn S' R' _ _ _ B'). exact E. }
  intros s s' scn net a b mc mp A A' U U' S S' AB MV P1 P2 P3 P4 cost. split.
  - eapply (ONE s s'); eauto.
  - eapply (ONE s' s scn net b a mc mp); eauto. now apply moved_back.
Qed.

(** Solved by an optimal solver, both cost the same. *)
Theorem C107_same_optimum : forall answer answer' s s' r r' scn net a b mc mp, api_study s -> api_study s' ->
  a <> b -> moved_across net a b mc mp s s' ->
  poured s scn net a b -> poured s scn net b a -> poured s' scn net a b -> poured s' scn net b a -> scn < st_nb_scn s -> scn < st_nb_scn s' ->
  solved answer s r -> solved answer' s' r' -> optimal_answer answer s scn -> optimal_answer answer' s' scn ->
  (total_cost s r scn == total_cost s' r' scn)%Q.
Proof.
  intros answer answer' s s' r r' scn net a b mc mp A A' AB MV P1 P2 P3 P4 S S' SV SV' [F Best] [F' Best'].
  destruct (solved_weak _ _ _ A SV) as (R & M & C). destruct (C scn S) as ((vs & B) & CA & _).
  destruct (solved_weak _ _ _ A' SV') as (R' & M' & C'). destruct (C' scn S') as ((vs' & B') & CA' & _).
  rewrite (cost_eq s r R M scn _ CA), (cost_eq s' r' R' M' scn _ CA').
  apply (sat_iff s scn S R _ vs _ B) in F. apply (sat_iff s' scn S' R' _ vs' _ B') in F'. apply Qle_antisym.
  - destruct (moved_exists _ _ _ _ _ _ _ _ _ (moved_back _ _ _ _ _ _ _ MV) R' R (not_eq_sym AB) P2 P1 F') as (y & X & E). rewrite <- E.
    apply (sat_iff s scn S R _ vs _ B) in X. specialize (Best _ X). rewrite !(objective_value s scn S R _ vs _ B) in Best. exact Best.
  - destruct (moved_exists _ _ _ _ _ _ _ _ _ MV R R' AB P3 P4 F) as (y & X & E). rewrite <- E.
    apply (sat_iff s' scn S' R' _ vs' _ B') in X. specialize (Best' _ X). rewrite !(objective_value s' scn S' R' _ vs' _ B') in Best'. exact Best'.
Qed.

(** ** A town and its plant, on either side of a river *)
Definition west_calls : list call :=
  [ OnStudy_network "net"; OnSel 0 (MNode "a"); OnSel 1 (MConsumption "farm" (jn 50) (jn 1)); OnSel 2 (MConsumption "town" (jn 100) (jn 10)); OnSel 3 (MProduction "plant" (jn 3) (jn 6));
    OnSel 4 (MNode "b"); OnSel 5 (MConsumption "village" (jn 80) (jn 2)); OnSel 6 (MProduction "wind" (jn 1) (jn 7));
    OnSel 7 (MNode "c"); OnSel 8 (MProduction "hydro" (jn 2) (jn 4)); OnSel 9 (MLink "c" "a" (jn 1) (jn 4)); OnSel 10 (MLink "a" "b" (jn 0) (jn 30)); OnSel 11 (MLink "b" "a" (jn 0) (jn 30)) ].
Definition east_calls : list call :=
  [ OnStudy_network "net"; OnSel 0 (MNode "a"); OnSel 1 (MConsumption "farm" (jn 50) (jn 1));
    OnSel 2 (MNode "b"); OnSel 3 (MConsumption "village" (jn 80) (jn 2)); OnSel 4 (MProduction "wind" (jn 1) (jn 7)); OnSel 5 (MConsumption "town" (jn 100) (jn 10)); OnSel 6 (MProduction "plant" (jn 3) (jn 6));
    OnSel 7 (MNode "c"); OnSel 8 (MProduction "hydro" (jn 2) (jn 4)); OnSel 9 (MLink "c" "a" (jn 1) (jn 4)); OnSel 10 (MLink "a" "b" (jn 0) (jn 30)); OnSel 11 (MLink "b" "a" (jn 0) (jn 30)) ].
Definition west : study := Eval vm_compute in w_study (run (start 1 1 None) west_calls).
Definition east : study := Eval vm_compute in w_study (run (start 1 1 None) east_calls).
Lemma west_api : api_study west.
Proof. exists 1, 1, None, west_calls. split; [lia|]. split; [lia|]. split; [plain_tac | vm_compute; reflexivity]. Qed.
Lemma east_api : api_study east.
Proof. exists 1, 1, None, east_calls. split; [lia|]. split; [lia|]. split; [plain_tac | vm_compute; reflexivity]. Qed.
Ltac carried_tac := constructor; cbn [fst snd n_cons n_prods n_stors n_links]; intros;
  first [reflexivity | discriminate | split; reflexivity | exfalso; tauto].
Ltac moved_tac := constructor; [reflexivity | reflexivity |];
  constructor; [| constructor]; split; [reflexivity |]; cbn [fst snd];
  repeat (constructor; [split; [reflexivity |]; carried_tac |]); constructor.
Ltac poured_tac := eexists; exists 0; eexists; split; [vm_compute; reflexivity |]; split; [reflexivity |]; split; [reflexivity |]; split;
  [ let t := fresh "t" in let T := fresh "T" in intros t T; replace t with 0 by (cbn in T; lia); split; [vm_compute; reflexivity | apply Qle_bool_iff; vm_compute; reflexivity]
  | let m := fresh "m" in let J := fresh "J" in intros m J; cbn in J; destruct J as [<- | []]; cbn; discriminate ].
Lemma west_east : exists mc mp, mc <> [] /\ mp <> [] /\ moved_across "net" "a" "b" mc mp west east.
Proof.
  exists (match node_at west "net" "a" with Some n => skipn 1 (n_cons n) | None => [] end), (match node_at west "net" "a" with Some n => n_prods n | None => [] end).
  split; [vm_compute; discriminate |]. split; [vm_compute; discriminate |]. vm_compute node_at. cbn [skipn n_cons n_prods]. unfold west, east. moved_tac.
Qed.
Lemma west_ab : poured west 0 "net" "a" "b". Proof. poured_tac. Qed.
Lemma west_ba : poured west 0 "net" "b" "a". Proof. poured_tac. Qed.
Lemma east_ab : poured east 0 "net" "a" "b". Proof. poured_tac. Qed.
Lemma east_ba : poured east 0 "net" "b" "a". Proof. poured_tac. Qed.
Definition west_answer (_ : nat) (_ : solver) (v : var) : Q :=
  match v with VProd _ "a" 0 _ => 2 | VProd _ "b" 0 _ => 7 | VProd _ "c" 0 _ => 4 | VLink _ "b" 0 _ => 5 | VLink _ "c" 0 _ => 4 | _ => 0 end%Q.
Definition east_answer (_ : nat) (_ : solver) (v : var) : Q :=
  match v with VProd _ "b" 0 _ => 7 | VProd _ "b" 1 _ => 2 | VProd _ "c" 0 _ => 4 | VLink _ "a" 0 _ => 3 | VLink _ "c" 0 _ => 4 | _ => 0 end%Q.
Lemma west_optimal : optimal_answer west_answer west 0. Proof. best_tac (program_of west 0). Qed.
Lemma east_optimal : optimal_answer east_answer east 0. Proof. best_tac (program_of east 0). Qed.
Definition west_result : result := Eval vm_compute in
  match solve_lp west_answer [0] no_bench west with Ok r => r | Err _ => Result [] [] no_bench end.
Definition east_result : result := Eval vm_compute in
  match solve_lp east_answer [0] no_bench east with Ok r => r | Err _ => Result [] [] no_bench end.
Example C107_example : api_study west /\ api_study east /\ usable_converters west /\ usable_converters east /\
  (exists mc mp, mc <> [] /\ mp <> [] /\ moved_across "net" "a" "b" mc mp west east) /\
  poured west 0 "net" "a" "b" /\ poured west 0 "net" "b" "a" /\ poured east 0 "net" "a" "b" /\ poured east 0 "net" "b" "a" /\
  solved west_answer west west_result /\ solved east_answer east east_result /\ optimal_answer west_answer west 0 /\ optimal_answer east_answer east 0 /\
  (total_cost west west_result 0 == 25)%Q /\ (total_cost east east_result 0 == 25)%Q.
Proof.
  split; [apply west_api |]. split; [apply east_api |]. split; [apply usableb_ok; vm_compute; reflexivity |]. split; [apply usableb_ok; vm_compute; reflexivity |].
  split; [apply west_east |]. split; [apply west_ab |]. split; [apply west_ba |]. split; [apply east_ab |]. split; [apply east_ba |].
  split. { exists [0], no_bench. split; [reflexivity | vm_compute; reflexivity]. }
  split. { exists [0], no_bench. split; [reflexivity | vm_compute; reflexivity]. }
  split; [apply west_optimal |]. split; [apply east_optimal |]. split; vm_compute; reflexivity.
Qed.

(** A connection that is free but narrow does not do: the wind moved beside the town serves it all. *)
Definition far_calls : list call :=
  [ OnStudy_network "net"; OnSel 0 (MNode "a"); OnSel 1 (MProduction "wind" (jn 1) (jn 10)); OnSel 2 (MNode "b"); OnSel 3 (MConsumption "town" (jn 100) (jn 10));
    OnSel 4 (MLink "a" "b" (jn 0) (jn 5)); OnSel 5 (MLink "b" "a" (jn 0) (jn 5)) ].
Definition near_calls : list call :=
  [ OnStudy_network "net"; OnSel 0 (MNode "a"); OnSel 1 (MNode "b"); OnSel 2 (MConsumption "town" (jn 100) (jn 10)); OnSel 3 (MProduction "wind" (jn 1) (jn 10));
    OnSel 4 (MLink "a" "b" (jn 0) (jn 5)); OnSel 5 (MLink "b" "a" (jn 0) (jn 5)) ].
Definition far : study := Eval vm_compute in w_study (run (start 1 1 None) far_calls).
Definition near : study := Eval vm_compute in w_study (run (start 1 1 None) near_calls).
Lemma far_api : api_study far.
Proof. exists 1, 1, None, far_calls. split; [lia|]. split; [lia|]. split; [plain_tac | vm_compute; reflexivity]. Qed.
Lemma near_api : api_study near.
Proof. exists 1, 1, None, near_calls. split; [lia|]. split; [lia|]. split; [plain_tac | vm_compute; reflexivity]. Qed.
Lemma far_near : exists mc mp, moved_across "net" "a" "b" mc mp far near.
Proof.
  exists [], (match node_at far "net" "a" with Some n => n_prods n | None => [] end). vm_compute node_at. cbn [n_prods]. unfold far, near. moved_tac.
Qed.
Definition far_answer (_ : nat) (_ : solver) (v : var) : Q :=
  match v with VProd _ "a" 0 _ => 5 | VLol _ "b" 0 _ => 5 | VLink _ "a" 0 _ => 5 | _ => 0 end%Q.
Definition near_answer (_ : nat) (_ : solver) (v : var) : Q :=
  match v with VProd _ "b" 0 _ => 10 | _ => 0 end%Q.
Lemma far_optimal : optimal_answer far_answer far 0. Proof. best_tac (program_of far 0). Qed.
Lemma near_optimal : optimal_answer near_answer near 0. Proof. best_tac (program_of near 0). Qed.
Definition far_result : result := Eval vm_compute in
  match solve_lp far_answer [0] no_bench far with Ok r => r | Err _ => Result [] [] no_bench end.
Definition near_result : result := Eval vm_compute in
  match solve_lp near_answer [0] no_bench near with Ok r => r | Err _ => Result [] [] no_bench end.
Theorem C107_narrow_refuted : exists s s' net a b mc mp answer answer' r r', api_study s /\ api_study s' /\ a <> b /\ moved_across net a b mc mp s s' /\
  (forall nd n l t, node_at s net nd = Some n -> In l (n_links n) -> t < st_horizon s -> (value (l_cost l) 0%nat t == 0)%Q /\ (value (l_qty l) 0%nat t == 5)%Q) /\
  solved answer s r /\ solved answer' s' r' /\ optimal_answer answer s 0 /\ optimal_answer answer' s' 0 /\
  (total_cost s r 0 == 505)%Q /\ (total_cost s' r' 0 == 10)%Q.
Proof.
  destruct far_near as (mc & mp & MV). exists far, near, "net", "a", "b", mc, mp, far_answer, near_answer, far_result, near_result.
  split; [apply far_api |]. split; [apply near_api |]. split; [discriminate |]. split; [exact MV |].
  split. { intros nd n l t N J T. replace t with 0 by (cbn in T; lia). unfold node_at in N. cbn [dget far st_networks] in N. cbn in N.
    destruct (String.eqb nd "a"); [inversion N; subst n; cbn in J; destruct J as [<- | []]; split; vm_compute; reflexivity |].
    destruct (String.eqb nd "b"); [inversion N; subst n; cbn in J; destruct J as [<- | []]; split; vm_compute; reflexivity | discriminate]. }
  split. { exists [0], no_bench. split; [reflexivity | vm_compute; reflexivity]. }
  split. { exists [0], no_bench. split; [reflexivity | vm_compute; reflexivity]. }
  split; [apply far_optimal |]. split; [apply near_optimal |]. split; vm_compute; reflexivity.
Qed.

Print Assumptions C107_same_dispatches.
Print Assumptions C107_same_optimum.
Print Assumptions C107_narrow_refuted.
