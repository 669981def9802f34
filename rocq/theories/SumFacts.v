(** Facts on sums by scenario and time: used by balances, costs and remaining capacities. *)
From Coq Require Import String List ZArith QArith Bool Arith Lia Lqa Permutation Sorted.
From Verif Require Import Base BaseFacts Numeric Study Fluent Output LP SpecStudy SpecLP StudyFacts LPSat LPResult LPReady P_LP Analyzer SpecAnalyzer
  AnalyzerFacts P_Tables QueryFacts P_Query.
Import ListNotations.
Open Scope nat_scope.
Open Scope string_scope.
Open Scope list_scope.

(** ** Arrays *)
Definition garr (n h : nat) (f : nat -> nat -> Q) : ndarray := ND [n; h] (grid n h f).

Lemma combine_map2 {A B C} (f : A -> B) (g : A -> C) l : combine (map f l) (map g l) = map (fun x => (f x, g x)) l.
Proof. induction l; simpl; auto. now f_equal. Qed.
Lemma combine_grid {A B} n h (f : nat -> nat -> A) (g : nat -> nat -> B) : combine (grid n h f) (grid n h g) = grid n h (fun a b => (f a b, g a b)).
Proof.
  unfold grid. generalize (seq 0 n). induction l as [|a l IH]; auto. cbn [flat_map].
  assert (E : forall (x : list A) (y : list B) u v, List.length x = List.length y -> combine (x ++ u) (y ++ v) = combine x y ++ combine u v).
  { clear. induction x as [|a x IH]; intros [|b y] u v H; simpl in *; try discriminate; auto. f_equal. apply IH. lia. }
  rewrite E by (now rewrite !map_length). now rewrite IH, combine_map2.
Qed.
Lemma nd_op_garr op n h f g : nd_op op (garr n h f) (garr n h g) = Ok (garr n h (fun a b => op (f a b) (g a b))).
Proof.
  unfold nd_op, garr. cbn [shape data]. cbn [list_eqb]. rewrite !Nat.eqb_refl. cbn [andb]. now rewrite combine_grid, map_grid.
Qed.
Lemma repeat_map {A B} (x : A) (l : list B) : repeat x (List.length l) = map (fun _ => x) l.
Proof. induction l as [|a l IH] using rev_ind; auto. rewrite app_length, map_app, repeat_app. now rewrite IH. Qed.
Lemma nd_zeros2_garr n h : nd_zeros2 n h = garr n h (fun _ _ => 0%Q).
Proof.
  unfold nd_zeros2, garr. f_equal. rewrite <- (grid_length n h (fun a b => (a, b))) at 1. rewrite repeat_map. exact (map_grid n h (fun a b => (a, b)) (fun _ => 0%Q)).
Qed.
Lemma reshape2_grid n h f : reshape2 n h (grid n h f) = Ok (garr n h f).
Proof. unfold reshape2. rewrite grid_length, Nat.eqb_refl. reflexivity. Qed.
Lemma nth_error_grid {A} n h (f : nat -> nat -> A) a b : a < n -> b < h -> nth_error (grid n h f) (a * h + b) = Some (f a b).
Proof.
  intros La Lb. assert (E : grid n h f = map (fun k => f (k / h) (k mod h)) (seq 0 (h * n))).
  { rewrite (grid_seq (fun k => f (k / h) (k mod h))). apply grid_ext. intros x y Lx Ly.
    rewrite Nat.div_add_l by lia. rewrite Nat.div_small by lia. rewrite (Nat.add_comm (x * h) y), Nat.mod_add by lia. rewrite Nat.mod_small by lia. now rewrite Nat.add_0_r. }
  rewrite E, nth_error_map, nth_error_seq0 by nia. cbn [option_map].
  rewrite Nat.div_add_l by lia. rewrite Nat.div_small by lia. rewrite (Nat.add_comm (a * h) b), Nat.mod_add by lia. rewrite Nat.mod_small by lia. now rewrite Nat.add_0_r.
Qed.
Lemma entry_garr n h f a b : a < n -> b < h -> entry (garr n h f) a b = f a b.
Proof.
  intros La Lb. unfold entry, nd_get2, garr. cbn [shape data].
  assert (P : forall m i, i < m -> pyindex m (Z.of_nat i) = Some i).
  { intros m i Hi. unfold pyindex. destruct (Z.ltb_spec (Z.of_nat i) 0); [lia|]. 
    destruct (Z.leb_spec 0 (Z.of_nat i)); [|lia]. destruct (Z.ltb_spec (Z.of_nat i) (Z.of_nat m)); [|lia]. cbn. now rewrite Nat2Z.id. }
  rewrite !P by auto. unfold lnth. now rewrite nth_error_grid.
Qed.
Lemma garr_dims n h f : shape (garr n h f) = [n; h] /\ nd_wf (garr n h f).
Proof. split; auto. unfold nd_wf, garr. cbn [shape data]. rewrite grid_length. cbn. lia. Qed.

(** ** Groups *)
Definition gkey (scn t : nat) : list cell := [CInt (Z.of_nat scn); CInt (Z.of_nat t)].
Definition st := ["scn"; "t"].

Lemma sorted_app {A} (R : A -> A -> Prop) l m : StronglySorted R l -> StronglySorted R m -> (forall x y, In x l -> In y m -> R x y) -> StronglySorted R (l ++ m).
Proof.
  intros L Mm H. induction L as [|x l L IH F]; auto. cbn. constructor.
  - apply IH. intros a b I J. apply H; [right|]; auto.
  - apply Forall_app. split; auto. apply Forall_forall. intros y I. apply H; [left|]; auto.
Qed.
Lemma sorted_seq {A} (R : A -> A -> Prop) (f : nat -> A) m : forall k, (forall i j, k <= i < j -> j < k + m -> R (f i) (f j)) -> StronglySorted R (map f (seq k m)).
Proof.
  induction m as [|m IH]; intros k H; cbn; constructor.
  - apply IH. intros i j L1 L2. apply H; lia.
  - apply Forall_map, Forall_forall. intros j I. apply in_seq in I. apply H; lia.
Qed.
Lemma sorted_grid {A} (R : A -> A -> Prop) n h (f : nat -> nat -> A) :
  (forall a b a' b', a < n -> b < h -> a' < n -> b' < h -> a < a' \/ (a = a' /\ b < b') -> R (f a b) (f a' b')) -> StronglySorted R (grid n h f).
Proof.
  intros H. unfold grid. assert (G : forall m k, k + m <= n -> StronglySorted R (flat_map (fun a => map (f a) (seq 0 h)) (seq k m))).
  { induction m as [|m IH]; intros k L; cbn; [constructor|]. apply sorted_app.
    - apply sorted_seq. intros i j L1 L2. apply H; lia.
    - apply IH. lia.
    - intros x y I J. apply in_map_iff in I as (b & <- & I). apply in_flat_map in J as (a & Ia & J). apply in_map_iff in J as (b' & <- & J).
      apply in_seq in I, Ia, J. apply H; lia. }
  apply G. lia.
Qed.
Lemma gkey_labels a b : labels_only (gkey a b). Proof. repeat constructor. Qed.
Lemma gkey_inj a b a' b' : gkey a b = gkey a' b' -> a = a' /\ b = b'.
Proof. unfold gkey. intros E. injection E as E1 E2. lia. Qed.
Lemma grid_keys_sorted n h : StronglySorted (fun a b => key_le a b = true) (grid n h gkey).
Proof.
  apply sorted_grid. intros a b a' b' _ _ _ _ L. unfold gkey. apply key_le_cons; [exact Logic.I | exact Logic.I |].
  destruct L as [L|[-> L]].
  - left. split; [intros E; injection E; lia|]. cbn. apply Z.leb_le. lia.
  - right. split; auto. apply key_le_cons; [exact Logic.I | exact Logic.I |]. left. split; [intros E; injection E; lia|]. cbn. apply Z.leb_le. lia.
Qed.
Lemma grid_keys_NoDup n h : NoDup (grid n h gkey).
Proof.
  apply (NoDup_grid _ _ _ (fun k => cell_nat (nth 0 k CNaN)) (fun k => cell_nat (nth 1 k CNaN))).
  intros a b _ _. unfold gkey. cbn [nth cell_nat]. now rewrite !Nat2Z.id.
Qed.

Lemma group_keys_are names rows keys : Forall labels_only keys -> NoDup keys -> StronglySorted (fun a b => key_le a b = true) keys ->
  (forall r, In r rows -> In (key_of names r) keys) -> (forall k, In k keys -> exists r, In r rows /\ key_of names r = k) ->
  group_keys names rows = keys.
Proof.
  intros L N S H1 H2. unfold group_keys. rewrite Forall_forall in L.
  assert (E : filter (fun k => negb (existsb is_nan k)) (map (key_of names) rows) = map (key_of names) rows).
  { apply filter_all. intros k I. apply in_map_iff in I as (r & <- & I). now rewrite labels_not_nan by auto. }
  rewrite E. destruct (unique_spec (map (key_of names) rows)) as [Nu Su].
  assert (P : Permutation (unique (map (key_of names) rows)) keys).
  { apply NoDup_Permutation; auto. intros k. rewrite Su, in_map_iff. split.
    - intros (r & <- & I). auto.
    - intros I. destruct (H2 k I) as (r & I' & E'). eauto. }
  apply sorted_keys_unique.
  - apply Forall_forall. intros k I. apply L. eapply Permutation_in; [exact P|]. eapply Permutation_in; [apply isort_perm | exact I].
  - rewrite isort_perm. exact P.
  - apply isort_keys_sorted. apply Forall_forall. intros k I. apply L. eapply Permutation_in; [exact P | exact I].
  - exact S.
Qed.

(** Rows of the grid: labels of every scenario and time, and no other. *)
Record on_grid (n h : nat) (rows : list trow) : Prop := {
  og_label : forall r, In r rows -> exists scn t, scn < n /\ t < h /\ key_of st r = gkey scn t;
  og_all : forall scn t, scn < n -> t < h -> exists r, In r rows /\ key_of st r = gkey scn t
}.
Lemma keys_grid n h rows : on_grid n h rows -> group_keys st rows = grid n h gkey.
Proof.
  intros [H1 H2]. apply group_keys_are.
  - apply Forall_forall. intros k I. apply grid_In in I as (a & b & _ & _ & ->). apply gkey_labels.
  - apply grid_keys_NoDup.
  - apply grid_keys_sorted.
  - intros r I. destruct (H1 r I) as (a & b & A & B & ->). apply grid_In. eauto.
  - intros k I. apply grid_In in I as (a & b & A & B & ->). apply H2; auto.
Qed.

Definition tally (col : string) (rows : list trow) (scn t : nat) : Q := sum_cells (map (cell_of col) (group st rows (gkey scn t))).
Lemma pivot_sum_grid n h col rows : on_grid n h rows -> pivot_sum st col rows = grid n h (tally col rows).
Proof. intros G. unfold pivot_sum. rewrite (keys_grid n h rows G), map_grid. reflexivity. Qed.

Lemma sum_cells_app a b : (sum_cells (a ++ b) == sum_cells a + sum_cells b)%Q.
Proof. unfold sum_cells, nums. rewrite flat_map_app. apply qsum_app. Qed.
Lemma tally_cons col r rows scn t : (tally col (r :: rows) scn t ==
  (if eqb (key_of st r) (gkey scn t) then match cell_of col r with CNum q => q | _ => 0 end else 0) + tally col rows scn t)%Q.
Proof.
  unfold tally, group. cbn [filter]. destruct (eqb (key_of st r) (gkey scn t)); [|lra].
  change (map (cell_of col) (r :: ?l)) with (cell_of col r :: map (cell_of col) l). unfold sum_cells, nums. cbn [map flat_map].
  rewrite qsum_app. destruct (cell_of col r); simpl; lra.
Qed.
Lemma tally_perm col rows rows' scn t : Permutation rows rows' -> (tally col rows scn t == tally col rows' scn t)%Q.
Proof.
  induction 1 as [|x l l' _ IH|x y l|l l' l'' _ IH1 _ IH2]; [reflexivity | | |].
  - rewrite !tally_cons, IH. reflexivity.
  - rewrite !tally_cons. lra.
  - now rewrite IH1.
Qed.
Lemma tally_app col rows rows' scn t : (tally col (rows ++ rows') scn t == tally col rows scn t + tally col rows' scn t)%Q.
Proof.
  induction rows as [|x l IH]; cbn [app]; [unfold tally at 2; simpl; unfold sum_cells; simpl; lra|]. rewrite !tally_cons, IH. lra.
Qed.
Lemma tally_Forall2 col col' rows rows' scn t :
  Forall2 (fun r r' => key_of st r = key_of st r' /\ same_cell (cell_of col r) (cell_of col' r')) rows rows' ->
  (tally col rows scn t == tally col' rows' scn t)%Q.
Proof.
  induction 1 as [|x y l m [K S] _ IH]; [reflexivity|]. rewrite !tally_cons, IH, K.
  destruct (eqb (key_of st y) (gkey scn t)); [|lra]. destruct (cell_of col x), (cell_of col' y); cbn in S; try discriminate; lra.
Qed.

(** ** Tables by blocks *)
Section Blocks.
  Context {A : Type} (n h : nat) (row : A -> nat -> nat -> trow).
  Hypothesis (Lab : forall x scn t, key_of st (row x scn t) = gkey scn t).
  Definition blocks (els : list A) : list trow := flat_map (fun x => grid n h (row x)) els.

  Lemma filter_flat_map {B} (p : B -> bool) (f : A -> list B) l : filter p (flat_map f l) = flat_map (fun x => filter p (f x)) l.
  Proof. induction l; simpl; auto. now rewrite filter_app, IHl. Qed.
  Lemma filter_blocks (p : trow -> bool) (p' : A -> bool) els : (forall x scn t, In x els -> p (row x scn t) = p' x) ->
    filter p (blocks els) = blocks (filter p' els).
  Proof.
    intros H. unfold blocks. rewrite filter_flat_map. induction els as [|x els IH]; auto. cbn [flat_map filter].
    rewrite IH by (intros; apply H; right; auto). destruct (p' x) eqn:E.
    - cbn [flat_map]. f_equal. apply filter_all. intros r I. apply grid_In in I as (a & b & _ & _ & ->). rewrite H; auto. now left.
    - rewrite filter_none; auto. intros r I. apply grid_In in I as (a & b & _ & _ & ->). rewrite H; auto. now left.
  Qed.
  Lemma blocks_on_grid els : els <> [] -> on_grid n h (blocks els).
  Proof.
    intros NE. split.
    - intros r I. unfold blocks in I. apply in_flat_map in I as (x & _ & I). apply grid_In in I as (a & b & La & Lb & ->). eauto.
    - intros a b La Lb. destruct els as [|x els]; [congruence|]. exists (row x a b). split; auto. unfold blocks. cbn [flat_map].
      apply in_or_app. left. apply grid_In. eauto.
  Qed.
  Lemma tally_grid col x scn t q : scn < n -> t < h -> cell_of col (row x scn t) = CNum q -> (tally col (grid n h (row x)) scn t == q)%Q.
  Proof.
    intros L1 L2 V.
    assert (G : group st (grid n h (row x)) (gkey scn t) = [row x scn t]).
    { assert (K : key_of st (row x scn t) = gkey scn t) by auto. rewrite <- K. apply group_one.
      - rewrite map_grid. rewrite (grid_ext _ _ _ gkey) by auto. apply grid_keys_NoDup.
      - apply grid_In. eauto. }
    unfold tally. rewrite G. cbn [map]. rewrite V. cbn. lra.
  Qed.
  Lemma tally_blocks col (val : A -> nat -> nat -> Q) els scn t : scn < n -> t < h -> (forall x, In x els -> cell_of col (row x scn t) = CNum (val x scn t)) ->
    (tally col (blocks els) scn t == qsum (map (fun x => val x scn t) els))%Q.
  Proof.
    intros L1 L2. induction els as [|x els IH]; intros V; [reflexivity|]. unfold blocks in *. cbn [flat_map map qsum fold_right].
    rewrite tally_app. fold (qsum (map (fun x => val x scn t) els)). rewrite IH by (intros; apply V; right; auto).
    rewrite (tally_grid col x scn t (val x scn t)); auto; [reflexivity|]. apply V. now left.
  Qed.
End Blocks.

Lemma qsum_filter {A} (p : A -> bool) (f : A -> Q) l : (qsum (map f (filter p l)) == qsum (map (fun x => if p x then f x else 0) l))%Q.
Proof. induction l as [|x l IH]; simpl; [reflexivity|]. destruct (p x); simpl; fold (qsum (map f (filter p l))); rewrite IH; simpl; lra. Qed.
Lemma qsum_map_flat_map {A B} (f : B -> Q) (g : A -> list B) l : (qsum (map f (flat_map g l)) == qsum (map (fun x => qsum (map f (g x))) l))%Q.
Proof. rewrite map_flat_map. apply qsum_flat_map. Qed.
