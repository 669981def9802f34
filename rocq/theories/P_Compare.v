(** Property C80: comparing a value of a study with a number. *)
From Coq Require Import String List ZArith QArith Bool Arith Lia Lqa.
From Verif Require Import Base BaseFacts Numeric SpecNumeric NumericFacts SpecStudy P_Numeric P_Study P_Accept.
Import ListNotations.
Open Scope nat_scope.

(** ** Specification *)

(** The number [e] is read in some cell of the value; the cells all hold a number of [P]. *)
Definition in_cell (h n : nat) (v : numval) (e : Q) : Prop := exists i j, i < n /\ j < h /\ getn v i j = Ok e.
Definition all_cells (h n : nat) (v : numval) (P : Q -> Prop) : Prop :=
  forall i j, i < n -> j < h -> exists e, getn v i j = Ok e /\ P e.
(** Made by the factory of a study. *)
Definition made (h n : nat) (v : numval) : Prop := exists x, create h n x = Ok v /\ raw_arg x /\ sound_arg x.

(** ** Cells and entries *)
Lemma in_tile {A} (x : A) l n : In x (tile l n) <-> In x l /\ 0 < n.
Proof.
  unfold tile. induction n as [| n IH]; cbn; [split; [easy | intros [_ L]; lia] |].
  rewrite in_app_iff. rewrite IH. split; [intros [I|[I L]]; split; auto; lia | intros [I _]; auto].
Qed.
Lemma in_nprepeat {A} (x : A) l n : In x (nprepeat l n) <-> In x l /\ 0 < n.
Proof.
  unfold nprepeat. rewrite in_flat_map. split.
  - intros (y & I & J). pose proof (repeat_spec _ _ _ J). subst y. split; auto. destruct n; [easy | lia].
  - intros [I L]. exists x. split; auto. destruct n; [lia | now left].
Qed.
Lemma entries_flatten h n v : made h n v -> 0 < h -> 0 < n -> forall e, In e (entries v) <-> In e (flatten v).
Proof.
  intros (x & E & R & S) H N e. pose proof (create_ok _ _ _ _ E R S) as W. destruct v; cbn in W |- *.
  - destruct W as [-> ->]. split.
    + intros [->|[]]. destruct h, n; try lia. now left.
    + intros I. left. symmetry. eapply repeat_spec; eauto.
  - reflexivity.
  - rewrite in_tile. intuition (subst; auto).
  - rewrite in_nprepeat. intuition (subst; auto).
Qed.
Lemma entries_cells h n v : made h n v -> 0 < h -> 0 < n -> forall e, In e (entries v) <-> in_cell h n v e.
Proof.
  intros M H N e. rewrite (entries_flatten h n v M H N). destruct M as (x & E & R & S). destruct (C02_flatten_agrees h n x v E R S) as [L F]. split.
  - intros I. apply In_nth_error in I as [k K]. assert (B : k < n * h) by (rewrite <- L; apply nth_error_Some; congruence).
    exists (k / h), (k mod h). assert (k / h < n) by (apply Nat.div_lt_upper_bound; lia). assert (k mod h < h) by (apply Nat.mod_upper_bound; lia).
    split; auto. split; auto. destruct (F (k / h) (k mod h)) as (q & G & K'); auto. rewrite G. f_equal.
    replace (k / h * h + k mod h) with k in K' by (rewrite Nat.mul_comm; apply Nat.div_mod; lia). congruence.
  - intros (i & j & I & J & G). destruct (F i j I J) as (q & G' & K). rewrite G in G'. inversion G'; subst. eapply nth_error_In; eauto.
Qed.
Lemma all_cells_iff h n v P : made h n v -> 0 < h -> 0 < n -> (all_cells h n v P <-> forall e, In e (entries v) -> P e).
Proof.
  intros M H N. split.
  - intros A e I. apply (entries_cells h n v M H N) in I as (i & j & I & J & G). destruct (A i j I J) as (e' & G' & Pe). rewrite G in G'. now inversion G'; subst.
  - intros A i j I J. destruct M as (x & E & R & S) eqn:EM. destruct (C02_flatten_agrees h n x v E R S) as [_ F]. destruct (F i j I J) as (q & G & _).
    exists q. split; auto. apply A. apply (entries_cells h n v M H N). now exists i, j.
Qed.

(** ** C80 *)

(** A value is below a number when all its cells are, and above when all its cells are. *)
Theorem C80_strict : forall h n v q, made h n v -> 0 < h -> 0 < n ->
  (nv_lt v q = true <-> all_cells h n v (fun e => e < q)%Q) /\ (nv_gt v q = true <-> all_cells h n v (fun e => q < e)%Q).
Proof.
  intros h n v q M H N. rewrite !(all_cells_iff h n v _ M H N). split; split.
  - intros E e I. destruct (Qlt_le_dec e q) as [|L]; auto. assert (X : nv_lt v q = false) by (apply nv_lt_iff; eauto). congruence.
  - intros A. destruct (nv_lt v q) eqn:E; auto. apply nv_lt_iff in E as (e & I & L). specialize (A e I). lra.
  - intros E e I. destruct (Qlt_le_dec q e) as [|L]; auto. assert (X : nv_gt v q = false) by (apply nv_gt_iff; eauto). congruence.
  - intros A. destruct (nv_gt v q) eqn:E; auto. apply nv_gt_iff in E as (e & I & L). specialize (A e I). lra.
Qed.

(** [<=] and [>=] hold as soon as one cell meets them. *)
Theorem C80_one_cell : forall h n v q, made h n v -> 0 < h -> 0 < n ->
  (nv_le v q = true <-> exists e, in_cell h n v e /\ (e <= q)%Q) /\ (nv_ge v q = true <-> exists e, in_cell h n v e /\ (q <= e)%Q).
Proof.
  intros h n v q M H N. unfold nv_le, nv_ge. rewrite !negb_true_iff, nv_gt_iff, nv_lt_iff.
  split; split; intros (e & I & L); exists e; (split; [| exact L]); now apply (entries_cells h n v M H N).
Qed.

(** They mean all cells when the value is a number, or the cells lie on one side of [q]. *)
Theorem C80_weak_partial : forall h n v q, made h n v -> 0 < h -> 0 < n ->
  (exists x, v = Scalar x h n) \/ all_cells h n v (fun e => e <= q)%Q \/ all_cells h n v (fun e => q < e)%Q ->
  (nv_le v q = true <-> all_cells h n v (fun e => e <= q)%Q).
Proof.
  intros h n v q M H N C. rewrite (proj1 (C80_one_cell h n v q M H N)). split.
  - intros (e & (i & j & I & J & G) & L). destruct C as [(x & ->)|[C|C]]; auto.
    + rewrite (all_cells_iff h n _ _ M H N). intros e' I'. apply (entries_cells h n _ M H N) in I'. cbn in *.
      assert (Y : In e (entries (Scalar x h n))) by (apply (entries_cells h n _ M H N); now exists i, j).
      apply (entries_cells h n _ M H N) in I'. destruct Y as [<-|[]], I' as [<-|[]]. exact L.
    + destruct (C i j I J) as (e' & G' & L'). rewrite G in G'. inversion G'; subst. lra.
  - intros A. destruct (A 0 0 N H) as (e & G & L). exists e. split; auto. now exists 0, 0.
Qed.

(** In general they do not: a value may be at most 3, and at least 3, and yet exceed 3 in
    one cell and stay below it in another. *)
Theorem C80_weak_refuted : exists h n v q, made h n v /\ 0 < h /\ 0 < n /\ nv_le v q = true /\ nv_ge v q = true /\
  (exists e, in_cell h n v e /\ (q < e)%Q) /\ (exists e, in_cell h n v e /\ (e < q)%Q).
Proof.
  exists 2, 1, (Row (ND [2] [1; 5]%Q) 2 1), 3%Q. split; [| repeat (split; [lia || reflexivity |])].
  - exists (PArr (ND [2] [1; 5]%Q)). split; [reflexivity |]. split; [intros v E; discriminate E | reflexivity].
  - split; [exists 5%Q | exists 1%Q]; (split; [| reflexivity]); [exists 0, 1 | exists 0, 0]; repeat split; lia.
Qed.

Example C80_example : exists v, made 2 2 v /\ nv_lt v 9 = true /\ nv_gt v 0 = true /\ nv_lt v 8 = false /\ nv_le v 8 = true /\ nv_ge v 8 = true /\
  all_cells 2 2 v (fun e => e < 9)%Q.
Proof.
  set (x := PArr (ND [2; 2] [1; 2; 3; 8]%Q)). destruct (create 2 2 x) as [v|] eqn:E; [| discriminate]. exists v. cbn in E. inversion E; subst v.
  assert (M : made 2 2 (Matrix (ND [2; 2] [1; 2; 3; 8]%Q) 2 2)) by (exists x; split; [reflexivity |]; split; [intros v X; discriminate X | reflexivity]).
  split; [exact M |]. repeat (split; [reflexivity |]). apply (C80_strict 2 2 _ 9 M); [lia | lia | reflexivity].
Qed.

Print Assumptions C80_strict.
Print Assumptions C80_one_cell.
Print Assumptions C80_weak_partial.
Print Assumptions C80_weak_refuted.
