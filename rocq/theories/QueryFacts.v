(** Facts about sorting, grouping and queries of [Analyzer.v]. *)
From Coq Require Import String Ascii List ZArith QArith Bool Arith Lia Lqa Permutation Sorted.
From Verif Require Import Base BaseFacts Numeric Study Output Analyzer SpecAnalyzer.
Import ListNotations.
Open Scope nat_scope.
Open Scope string_scope.
Open Scope list_scope.

(** ** The order of labels *)
Lemma str_le_total a b : str_le a b = true \/ str_le b a = true.
Proof.
  revert b. induction a as [|x a IH]; intros [|y b]; simpl; auto.
  destruct (lt_eq_lt_dec (nat_of_ascii x) (nat_of_ascii y)) as [[L|E]|L].
  - left. apply Nat.ltb_lt in L. now rewrite L.
  - rewrite E, Nat.ltb_irrefl, Nat.eqb_refl. simpl. apply IH.
  - right. apply Nat.ltb_lt in L. now rewrite L.
Qed.
Lemma str_le_cons x a y b : str_le (String x a) (String y b) = true <->
  (nat_of_ascii x < nat_of_ascii y)%nat \/ (x = y /\ str_le a b = true).
Proof.
  simpl. rewrite orb_true_iff, andb_true_iff, Nat.ltb_lt, Nat.eqb_eq. split; intros [H|[H K]]; auto.
  - right. split; auto. rewrite <- (ascii_nat_embedding x), <- (ascii_nat_embedding y). now rewrite H.
  - right. subst. auto.
Qed.
Lemma str_le_trans a b c : str_le a b = true -> str_le b c = true -> str_le a c = true.
Proof.
  revert b c. induction a as [|x a IH]; intros [|y b] [|z c] H K; auto; try discriminate.
  apply str_le_cons in H, K. apply str_le_cons. destruct H as [H|[-> H]], K as [K|[-> K]]; eauto; left; lia.
Qed.
Lemma str_le_antisym a b : str_le a b = true -> str_le b a = true -> a = b.
Proof.
  revert b. induction a as [|x a IH]; intros [|y b] H K; auto; try discriminate.
  apply str_le_cons in H, K. destruct H as [H|[-> H]], K as [K|[E K]]; try lia.
  - subst. lia.
  - f_equal. auto.
Qed.

(** Labels: integers and strings. *)
Definition label (c : cell) : Prop := match c with CInt _ | CStr _ => True | _ => False end.

Lemma cell_le_total a b : label a -> label b -> cell_le a b = true \/ cell_le b a = true.
Proof.
  destruct a, b; simpl; intros; try tauto.
  - destruct (Z.leb_spec z z0); auto. right. apply Z.leb_le. lia.
  - apply str_le_total.
Qed.
Lemma cell_le_trans a b c : label a -> label b -> label c -> cell_le a b = true -> cell_le b c = true -> cell_le a c = true.
Proof.
  destruct a, b, c; simpl; intros; try tauto; try discriminate.
  - rewrite Z.leb_le in *. lia.
  - eapply str_le_trans; eauto.
Qed.
Lemma cell_le_antisym a b : label a -> label b -> cell_le a b = true -> cell_le b a = true -> a = b.
Proof.
  destruct a, b; simpl; intros; try tauto; try discriminate.
  - rewrite Z.leb_le in *. f_equal. lia.
  - f_equal. now apply str_le_antisym.
Qed.
Lemma cell_le_refl a : label a -> cell_le a a = true.
Proof. intros L. destruct (cell_le_total a a L L); auto. Qed.

Definition labels_only (k : list cell) : Prop := Forall label k.

Lemma key_le_cons a k b l : label a -> label b ->
  key_le (a :: k) (b :: l) = true <-> (a <> b /\ cell_le a b = true) \/ (a = b /\ key_le k l = true).
Proof.
  intros La Lb. cbn [key_le]. destruct (eqb a b) eqn:E.
  - apply eqb_eq in E. subst. split; auto. intros [[H _]|[_ H]]; [congruence | auto].
  - assert (N : a <> b) by (intros ->; rewrite (proj2 (eqb_eq b b) eq_refl) in E; discriminate). split; auto. intros [[_ H]|[H _]]; congruence.
Qed.
Lemma key_le_total k l : labels_only k -> labels_only l -> key_le k l = true \/ key_le l k = true.
Proof.
  intros K. revert l. induction K as [|a k La K IH]; intros [|b l] L; auto. inversion L as [|? ? Lb L']; subst.
  rewrite !key_le_cons by auto. destruct (eqb a b) eqn:E.
  - apply eqb_eq in E. subst. destruct (IH l L'); auto.
  - assert (N : a <> b) by (intros ->; rewrite (proj2 (eqb_eq b b) eq_refl) in E; discriminate).
    destruct (cell_le_total a b La Lb); auto.
Qed.
Lemma key_le_trans k l m : labels_only k -> labels_only l -> labels_only m -> key_le k l = true -> key_le l m = true -> key_le k m = true.
Proof.
  intros K. revert l m. induction K as [|a k La K IH]; intros [|b l] [|c m] L M H J; auto; try discriminate.
  inversion L as [|? ? Lb L']; inversion M as [|? ? Lc M']; subst. apply key_le_cons in H; auto. apply key_le_cons in J; auto. apply key_le_cons; auto.
  destruct H as [[H1 H2]|[-> H]], J as [[J1 J2]|[-> J]]; eauto.
  left. split; [|eapply (cell_le_trans a b c); eauto]. intros ->. apply H1. now apply cell_le_antisym.
Qed.
Lemma key_le_antisym k l : labels_only k -> labels_only l -> key_le k l = true -> key_le l k = true -> k = l.
Proof.
  intros K. revert l. induction K as [|a k La K IH]; intros [|b l] L H J; auto; try discriminate.
  inversion L as [|? ? Lb L']; subst. apply key_le_cons in H; auto. apply key_le_cons in J; auto.
  destruct H as [[H1 H2]|[-> H]], J as [[J1 J2]|[J1 J]]; try congruence.
  - exfalso. apply H1. now apply cell_le_antisym.
  - f_equal. auto.
Qed.

(** ** Sorting *)
Section Sort.
  Context {A : Type} (le : A -> A -> bool) (P : A -> Prop)
    (total : forall a b, P a -> P b -> le a b = true \/ le b a = true)
    (trans : forall a b c, P a -> P b -> P c -> le a b = true -> le b c = true -> le a c = true)
    (antisym : forall a b, P a -> P b -> le a b = true -> le b a = true -> a = b).

  Lemma insert_perm x l : Permutation (insert le x l) (x :: l).
  Proof.
    induction l as [|y l IH]; simpl; auto. destruct (le x y); auto. rewrite IH. apply perm_swap.
  Qed.
  Lemma isort_perm l : Permutation (isort le l) l.
  Proof. induction l as [|x l IH]; simpl; auto. rewrite insert_perm. now constructor. Qed.

  Lemma insert_sorted x l : P x -> Forall P l -> StronglySorted (fun a b => le a b = true) l -> StronglySorted (fun a b => le a b = true) (insert le x l).
  Proof.
    intros Px Pl S. induction S as [|y l S IH F]; simpl; [repeat constructor|]. inversion Pl as [|? ? Py Pl']; subst.
    destruct (le x y) eqn:E.
    - constructor; [constructor; auto|]. constructor; auto. rewrite Forall_forall in *. intros z I. apply (trans x y z); auto.
    - constructor; auto. rewrite Forall_forall in *. intros z I. apply (Permutation_in _ (insert_perm x l)) in I as [->|I]; auto.
      destruct (total z y Px Py); auto. congruence.
  Qed.
  Lemma isort_sorted l : Forall P l -> StronglySorted (fun a b => le a b = true) (isort le l).
  Proof.
    intros F. induction F as [|x l Px F IH]; simpl; [constructor|]. apply insert_sorted; auto.
    rewrite Forall_forall in *. intros y I. apply F. eapply Permutation_in; [apply isort_perm | exact I].
  Qed.
  Lemma sorted_unique l : forall m, Forall P l -> Permutation l m -> StronglySorted (fun a b => le a b = true) l ->
    StronglySorted (fun a b => le a b = true) m -> l = m.
  Proof.
    induction l as [|x l IH]; intros m Fl Pm Sl Sm.
    - apply Permutation_nil in Pm. now subst.
    - destruct m as [|y m]; [apply Permutation_sym, Permutation_nil in Pm; discriminate|].
      assert (Fm : Forall P (y :: m)) by (rewrite Forall_forall in *; intros z I; apply Fl; eapply Permutation_in; [apply Permutation_sym, Pm | exact I]).
      inversion Fl as [|? ? Px Fl']; inversion Fm as [|? ? Py Fm']; inversion Sl as [|? ? Sl' Bl]; inversion Sm as [|? ? Sm' Bm]; subst.
      assert (E : x = y).
      { assert (Ix : In x (y :: m)) by (eapply Permutation_in; [exact Pm | left; auto]).
        assert (Iy : In y (x :: l)) by (eapply Permutation_in; [apply Permutation_sym, Pm | left; auto]).
        destruct Ix as [->|Ix]; auto. destruct Iy as [->|Iy]; auto. rewrite Forall_forall in Bl, Bm. apply antisym; auto. }
      subst y. f_equal. apply IH; auto. eapply Permutation_cons_inv; eauto.
  Qed.
End Sort.

Lemma isort_keys_sorted l : Forall labels_only l -> StronglySorted (fun a b => key_le a b = true) (isort key_le l).
Proof.
  apply (isort_sorted key_le labels_only).
  - apply key_le_total.
  - intros a b c A B C. now apply key_le_trans.
Qed.
Lemma sorted_keys_unique l m : Forall labels_only l -> Permutation l m -> StronglySorted (fun a b => key_le a b = true) l ->
    StronglySorted (fun a b => key_le a b = true) m -> l = m.
Proof. apply (sorted_unique key_le labels_only). intros a b A B. now apply key_le_antisym. Qed.

(** ** Distinct elements *)
Lemma unique_from_fresh {A} `{EqB A} (l : list A) : forall seen, NoDup l -> (forall x, In x l -> ~ In x seen) -> unique_from seen l = l.
Proof.
  induction l as [|x l IH]; simpl; intros seen N D; auto. inversion N; subst.
  destruct (mem x seen) eqn:E; [apply mem_In in E; exfalso; eapply D; eauto|]. f_equal. apply IH; auto.
  intros y I [->|J]; auto. eapply D; eauto.
Qed.
Lemma unique_NoDup_id {A} `{EqB A} (l : list A) : NoDup l -> unique l = l.
Proof. intros N. apply unique_from_fresh; auto. Qed.
Lemma unique_from_spec {A} `{EqB A} (l : list A) : forall seen, NoDup (unique_from seen l) /\ (forall x, In x (unique_from seen l) <-> In x l /\ ~ In x seen).
Proof.
  induction l as [|x l IH]; intros seen; simpl; [split; [constructor | tauto]|].
  destruct (mem x seen) eqn:E.
  - destruct (IH seen) as [N S]. split; auto. intros y. rewrite S. apply mem_In in E. split; [tauto|]. intros [[->|I] J]; tauto.
  - destruct (IH (x :: seen)) as [N S]. assert (NI : ~ In x seen) by (intros I; apply mem_In in I; congruence). split.
    + constructor; auto. rewrite S. simpl. tauto.
    + intros y. simpl. rewrite S. simpl. split; [intros [->|[I J]]; tauto|]. intros [[->|I] J]; auto.
      destruct (eqb x y) eqn:Exy; [apply eqb_eq in Exy; auto|]. right. split; auto. intros [->|K]; auto. rewrite (proj2 (eqb_eq y y) eq_refl) in Exy. discriminate.
Qed.
Lemma unique_spec {A} `{EqB A} (l : list A) : NoDup (unique l) /\ (forall x, In x (unique l) <-> In x l).
Proof. destruct (unique_from_spec l []) as [N S]. split; auto. intros x. unfold unique. rewrite S. simpl. tauto. Qed.

Lemma filter_all {A} (f : A -> bool) l : (forall x, In x l -> f x = true) -> filter f l = l.
Proof. induction l as [|x l IH]; simpl; auto. intros H. rewrite H by auto. f_equal. auto. Qed.
Lemma filter_none {A} (f : A -> bool) l : (forall x, In x l -> f x = false) -> filter f l = [].
Proof. induction l as [|x l IH]; simpl; auto. intros H. rewrite H by auto. auto. Qed.

Lemma labels_not_nan k : labels_only k -> existsb is_nan k = false.
Proof. induction 1 as [|c k L _ IH]; simpl; auto. rewrite IH. destruct c; simpl in *; tauto. Qed.

(** ** The order of the specification *)
Lemma str_le_compare a b : str_le a b = true <-> String.compare a b <> Gt.
Proof.
  revert b. induction a as [|x a IH]; intros [|y b]; simpl; try (split; congruence).
  rewrite orb_true_iff, andb_true_iff, Nat.ltb_lt, Nat.eqb_eq. unfold Ascii.compare, nat_of_ascii.
  destruct (N.compare_spec (N_of_ascii x) (N_of_ascii y)) as [E|L|L].
  - rewrite E. rewrite <- IH. split; [intros [H|[_ H]]; [lia|auto] | auto].
  - split; [congruence|]. intros _. left. lia.
  - split; [|congruence]. intros [H|[H _]]; exfalso; lia.
Qed.
Lemma key_le_before k l : labels_only k -> labels_only l -> List.length k = List.length l -> key_le k l = true -> k <> l -> before k l.
Proof.
  intros K. revert l. induction K as [|a k La K IH]; intros [|b l] L E H N; try discriminate; [congruence|].
  inversion L as [|? ? Lb L']; subst. apply key_le_cons in H; auto. cbn [before]. destruct H as [[H1 H2]|[-> H]].
  - left. destruct a, b; simpl in *; try tauto; try discriminate.
    + rewrite Z.leb_le in H2. assert (z <> z0) by congruence. lia.
    + apply str_le_compare in H2. destruct (String.compare s s0) eqn:C; try congruence. apply String.compare_eq_iff in C. congruence.
  - right. split; auto. apply IH; auto. congruence.
Qed.

(** ** Pivoting a table with unique keys *)
Lemma mean_one c : match c with CNum _ | CNaN => True | _ => False end -> same_cell (mean [c]) c.
Proof.
  destruct c; simpl; try tauto; intros _; unfold mean, nums; simpl; auto. unfold qnat. simpl. field.
Qed.

Section Pivot.
  Variables (names cols : list string) (F : list trow).
  Hypotheses (Lb : forall r, In r F -> labels_only (key_of names r)) (Un : NoDup (map (key_of names) F))
    (Some_value : forall r, In r F -> exists c q, In c cols /\ ~ In c names /\ cell_of c r = CNum q).
  Let vals := filter (fun c => negb (mem c names)) cols.
  Definition values_of (vs : list string) (r : trow) : trow := map (fun c => (c, mean [cell_of c r])) vs.

  Lemma group_one r : In r F -> group names F (key_of names r) = [r].
  Proof.
    unfold group. clear Lb Some_value. induction F as [|x l IH]; cbn [filter In]; [tauto|]. cbn [map] in Un. inversion Un as [|? ? NI Un']; subst. intros [->|I].
    - rewrite (proj2 (eqb_eq (key_of names r) (key_of names r)) eq_refl). f_equal. apply filter_none. intros y Iy.
      destruct (eqb (key_of names y) (key_of names r)) eqn:E; auto. apply eqb_eq in E. exfalso. apply NI. rewrite <- E. now apply in_map.
    - destruct (eqb (key_of names x) (key_of names r)) eqn:E; [|auto]. apply eqb_eq in E. exfalso. apply NI. rewrite E. now apply in_map.
  Qed.
  Lemma group_keys_eq : group_keys names F = isort key_le (map (key_of names) F).
  Proof.
    unfold group_keys. rewrite filter_all; [now rewrite unique_NoDup_id|]. intros k I. apply in_map_iff in I as (r & <- & I). now rewrite labels_not_nan by auto.
  Qed.
  Definition line (r : trow) : list cell * trow := (key_of names r, values_of vals r).
  Lemma pivot_rows_perm : exists F', Permutation F' F /\ fr_rows (pivot_table names (Table cols F)) = map line F' /\
    StronglySorted (fun a b => key_le a b = true) (map (key_of names) F').
  Proof.
    pose proof (isort_perm key_le (map (key_of names) F)) as PM. apply Permutation_sym in PM.
    destruct (Permutation_map_inv _ _ (Permutation_sym PM)) as (F' & E & P'). exists F'. split; [now apply Permutation_sym|].
    assert (IF : forall r, In r F' -> In r F) by (intros r; apply Permutation_in; now apply Permutation_sym).
    split.
    - unfold pivot_table. cbn [tb_cols tb_rows fr_rows]. fold vals. rewrite group_keys_eq, E, map_map.
      assert (X : map (fun x => (key_of names x, map (fun c => (c, mean (map (cell_of c) (group names F (key_of names x))))) vals)) F' = map line F').
      { apply map_ext_in. intros r I. rewrite group_one by auto. reflexivity. }
      rewrite X. apply filter_all. intros l I. apply in_map_iff in I as (r & <- & I). destruct (Some_value r (IF r I)) as (c & q & Ic & Nc & Ec).
      apply existsb_exists. exists (c, mean [cell_of c r]). split.
      + unfold line, values_of. cbn [snd]. apply in_map_iff. exists c. split; auto. apply filter_In. split; auto. apply negb_true_iff.
        destruct (mem c names) eqn:M; auto. apply mem_In in M. tauto.
      + cbn [snd]. rewrite Ec. reflexivity.
    - rewrite <- E. apply isort_keys_sorted. apply Forall_map, Forall_forall. exact Lb.
  Qed.
End Pivot.

(** ** Dropping levels *)
Definition alone_value (i : index) : Prop := is_alone i = true /\ ix_index i <> [].

Lemma remove_useless_ok : forall ixs levels rows f,
  remove_useless (Frame levels rows) ixs = Ok f -> List.length levels = List.length ixs ->
  (forall l, In l rows -> List.length (fst l) = List.length ixs) ->
  (forall l j i, In l rows -> nth_error ixs j = Some i -> ix_all i = false -> mem (nth j (fst l) CNaN) (ix_index i) = true) ->
  exists pre, fr_levels f = skipn (List.length pre) levels /\ rows = map (fun l => (pre ++ fst l, snd l)) (fr_rows f).
Proof.
  induction ixs as [|i ixs IH]; intros levels rows f E LL LR K; [discriminate|]. cbn [remove_useless] in E.
  assert (stop : Ok (Frame levels rows) = Ok f -> exists pre, fr_levels f = skipn (List.length pre) levels /\ rows = map (fun l => (pre ++ fst l, snd l)) (fr_rows f)).
  { intros X. injection X as <-. exists []. split; auto. cbn [fr_rows app]. erewrite map_ext; [symmetry; apply map_id|]. now intros []. }
  destruct (is_alone i) eqn:AL; auto. destruct (ix_index i) as [|x rest] eqn:Ei; [discriminate|].
  destruct (in_index x (Frame levels rows)) eqn:IX; auto. clear stop.
  unfold is_alone in AL. apply andb_true_iff in AL as [NA L1]. rewrite Ei in L1. destruct rest; [|discriminate]. apply negb_true_iff in NA.
  assert (HD : forall l, In l rows -> exists k, fst l = x :: k).
  { intros l I. specialize (LR l I). destruct (fst l) as [|c k] eqn:El; [discriminate|]. specialize (K l 0 i I eq_refl NA). rewrite El, Ei in K.
    apply mem_In in K as [->|[]]. eauto. }
  assert (RE : rows = map (fun l => (x :: fst l, snd l)) (fr_rows (frame_loc x (Frame levels rows)))).
  { cbn [frame_loc fr_rows]. clear - HD. induction rows as [|[k v] rows IHr]; auto. cbn [flat_map fst].
    destruct (HD (k, v) (or_introl eq_refl)) as (k' & Ek). cbn [fst] in Ek. subst k. rewrite (proj2 (eqb_eq x x) eq_refl). cbn [app map fst snd].
    f_equal. apply IHr. intros l I. apply HD. now right. }
  destruct levels as [|lv levels]; [discriminate|]. unfold frame_loc in E, RE. cbn [fr_levels tl fr_rows] in E, RE.
  set (rows' := flat_map _ rows) in *. clearbody rows'.
  destruct (IH levels rows' f E) as (pre & E1 & E2).
  - now injection LL.
  - intros l I. specialize (LR (x :: fst l, snd l)). cbn [fst List.length] in LR. rewrite RE in LR. specialize (LR ltac:(apply in_map_iff; eauto)). now injection LR.
  - intros l j i' I J A. apply (K (x :: fst l, snd l) (S j) i'); auto. rewrite RE. apply in_map_iff. eauto.
  - exists (x :: pre). split; [exact E1|]. rewrite RE, E2, map_map. apply map_ext. reflexivity.
Qed.

Lemma remove_useless_total : forall ixs levels rows,
  (exists i, In i ixs /\ is_alone i = false) -> (forall i rest, ixs = i :: rest -> is_alone i = true -> ix_index i <> []) ->
  (forall l, In l rows -> List.length (fst l) = List.length ixs) ->
  (forall l j i, In l rows -> nth_error ixs j = Some i -> ix_all i = false -> mem (nth j (fst l) CNaN) (ix_index i) = true) ->
  exists f, remove_useless (Frame levels rows) ixs = Ok f.
Proof.
  induction ixs as [|i ixs IH]; intros levels rows (i0 & I0 & N0) H1 LR K; [destruct I0|]. cbn [remove_useless].
  destruct (is_alone i) eqn:AL; [|eauto]. specialize (H1 i ixs eq_refl AL). destruct (ix_index i) as [|x rest] eqn:Ei; [congruence|].
  destruct (in_index x (Frame levels rows)) eqn:IX; [|eauto]. unfold frame_loc. cbn [fr_rows fr_levels].
  unfold in_index in IX. apply existsb_exists in IX as (l0 & Il0 & X). cbn [fr_rows] in Il0.
  apply IH.
  - destruct I0 as [->|I0]; [congruence|]. eauto.
  - intros i' rest' -> A'. intros EE.
    assert (Z : ix_all i' = false) by (unfold is_alone in A'; apply andb_true_iff in A' as [A' _]; now apply negb_true_iff).
    specialize (K l0 1 i' Il0 eq_refl Z). rewrite EE in K. discriminate.
  - intros l I. apply in_flat_map in I as (l1 & I1 & I). specialize (LR l1 I1). destruct (fst l1) as [|c k]; [destruct I|].
    destruct (eqb c x); [|destruct I]. destruct I as [<-|[]]. cbn [fst]. now injection LR.
  - intros l j i' I J A. apply in_flat_map in I as (l1 & I1 & I). specialize (K l1 (S j) i' I1 J A). destruct (fst l1) as [|c k]; [destruct I|].
    destruct (eqb c x); [|destruct I]. destruct I as [<-|[]]. exact K.
Qed.

Lemma remove_useless_fail : forall ixs levels rows, rows <> [] ->
  (forall i, In i ixs -> is_alone i = true) -> 
  (forall l, In l rows -> List.length (fst l) = List.length ixs) ->
  (forall l j i, In l rows -> nth_error ixs j = Some i -> ix_all i = false -> mem (nth j (fst l) CNaN) (ix_index i) = true) ->
  remove_useless (Frame levels rows) ixs = Err IndexError.
Proof.
  induction ixs as [|i ixs IH]; intros levels rows NE AL LR K; auto. cbn [remove_useless]. pose proof (AL i (or_introl eq_refl)) as A. rewrite A.
  destruct (ix_index i) as [|x rest] eqn:Ei; auto.
  assert (Z : ix_all i = false) by (unfold is_alone in A; apply andb_true_iff in A as [A' _]; now apply negb_true_iff).
  assert (L1 : rest = []) by (unfold is_alone in A; apply andb_true_iff in A as [_ A']; rewrite Ei in A'; destruct rest; auto; discriminate). subst rest.
  assert (HD : forall l, In l rows -> exists k, fst l = x :: k).
  { intros l I. specialize (LR l I). destruct (fst l) as [|c k] eqn:El; [discriminate|]. specialize (K l 0 i I eq_refl Z). rewrite El, Ei in K.
    apply mem_In in K as [->|[]]. eauto. }
  destruct rows as [|l0 rows]; [congruence|]. destruct (HD l0 (or_introl eq_refl)) as (k0 & E0).
  assert (IX : in_index x (Frame levels (l0 :: rows)) = true).
  { apply existsb_exists. exists l0. split; [left; auto|]. rewrite E0. now apply eqb_eq. }
  rewrite IX. unfold frame_loc. cbn [fr_levels fr_rows]. apply IH.
  - cbn [flat_map]. rewrite E0, (proj2 (eqb_eq x x) eq_refl). discriminate.
  - intros i' I. apply AL. now right.
  - intros l I. apply in_flat_map in I as (l1 & I1 & I). specialize (LR l1 I1). destruct (fst l1) as [|c k]; [destruct I|].
    destruct (eqb c x); [|destruct I]. destruct I as [<-|[]]. cbn [fst]. now injection LR.
  - intros l j i' I J A'. apply in_flat_map in I as (l1 & I1 & I). specialize (K l1 (S j) i' I1 J A'). destruct (fst l1) as [|c k]; [destruct I|].
    destruct (eqb c x); [|destruct I]. destruct I as [<-|[]]. exact K.
Qed.
