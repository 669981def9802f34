(** Properties C01-C04: study values read back what the user gave. *)
From Coq Require Import String List ZArith QArith Bool Arith Lia.
From Verif Require Import Base BaseFacts Numeric SpecNumeric NumericFacts.
Import ListNotations.
Open Scope nat_scope.

(** C01. A number is read everywhere; a series over time is read the same in
    every scenario; a column over scenarios is read the same at every time; a
    table is read cell by cell. The scenario index comes first. *)
Theorem C01_broadcast_lookup : forall h n i j, i < n -> j < h ->
  (forall q x, given_number q x ->
     exists v, create h n x = Ok v /\ getn v i j = Ok q) /\
  (forall l x, given_series l x -> length l = h ->
     exists v, create h n x = Ok v /\ getn v i j = Ok (nth j l 0%Q)) /\
  (forall l x, given_table 1 (map (fun q => [q]) l) x -> length l = n ->
     exists v, create h n x = Ok v /\ getn v i j = Ok (nth i l 0%Q)) /\
  (forall m x, given_table h m x -> length m = n ->
     exists v, create h n x = Ok v /\ getn v i j = Ok (nth j (nth i m []) 0%Q)).
Proof.
  intros h n i j Hi Hj. repeat split.
  - intros q x G. rewrite (create_carries _ _ _ _ G). exists (Scalar q h n). split; auto.
    unfold getn; simpl.
    replace (Z.of_nat n <=? Z.of_nat i)%Z with false by (symmetry; apply Z.leb_gt; lia).
    now replace (Z.of_nat h <=? Z.of_nat j)%Z with false by (symmetry; apply Z.leb_gt; lia).
  - intros l x G L. rewrite (create_series _ _ _ _ G). unfold create_arr; cbn [shape].
    replace (list_eqb Nat.eqb [length l] [h]) with true by (symmetry; apply list_eqb_nat; congruence).
    eexists; split; [reflexivity|]. unfold getn; simpl.
    replace (Z.of_nat n <=? Z.of_nat i)%Z with false by (symmetry; apply Z.leb_gt; lia).
    unfold nd_get1; cbn [shape data]. rewrite L, pyindex_nat by auto.
    unfold lnth. now rewrite (nth_error_nth_some l j 0%Q) by lia.
  - intros l x G L. rewrite (create_table _ _ 1 (map (fun q => [q]) l) x); auto.
    2: { destruct l; simpl in *; [lia | congruence]. }
    unfold create_arr; cbn [shape]. rewrite map_length.
    replace (list_eqb Nat.eqb [length l; 1] [h]) with false by (simpl; now rewrite andb_false_r).
    replace (list_eqb Nat.eqb [length l; 1] [n; 1]) with true by (symmetry; apply list_eqb_nat; congruence).
    eexists; split; [reflexivity|]. unfold getn; simpl.
    replace (Z.of_nat h <=? Z.of_nat j)%Z with false by (symmetry; apply Z.leb_gt; lia).
    unfold nd_get2; cbn [shape data]. rewrite L, pyindex_nat by auto.
    change (pyindex 1 0) with (Some 0). cbn iota. unfold lnth.
    replace (concat (map (fun q => [q]) l)) with l
      by (clear; induction l; simpl; congruence).
    replace (i * 1 + 0) with i by lia.
    now rewrite (nth_error_nth_some l i 0%Q) by lia.
  - intros m x G L. assert (NE : m <> []) by (destruct m; simpl in *; [lia | congruence]).
    rewrite (create_table _ _ h m x NE G). destruct G as [F _].
    assert (LC := length_concat h m F).
    destruct (Nat.eq_dec h 1) as [->|H1].
    + assert (j = 0) by lia; subst j.
      unfold create_arr; cbn [shape].
      replace (list_eqb Nat.eqb [length m; 1] [1]) with false by (simpl; now rewrite andb_false_r).
      replace (list_eqb Nat.eqb [length m; 1] [n; 1]) with true by (symmetry; apply list_eqb_nat; congruence).
      eexists; split; [reflexivity|]. unfold getn; simpl.
      unfold nd_get2; cbn [shape data]. rewrite L, pyindex_nat by auto.
      change (pyindex 1 0) with (Some 0). cbn iota. unfold lnth.
      rewrite (nth_error_nth_some (concat m) (i * 1 + 0) 0%Q) by lia.
      rewrite (nth_concat 1); auto; lia.
    + unfold create_arr; cbn [shape].
      replace (list_eqb Nat.eqb [length m; h] [h]) with false by (simpl; now rewrite andb_false_r).
      replace (list_eqb Nat.eqb [length m; h] [n; 1]) with false.
      2: { symmetry. simpl. replace (h =? 1) with false by (symmetry; apply Nat.eqb_neq; auto).
           now rewrite andb_false_r. }
      replace (list_eqb Nat.eqb [length m; h] [n; h]) with true by (symmetry; apply list_eqb_nat; congruence).
      eexists; split; [reflexivity|]. unfold getn; simpl.
      unfold nd_get2; cbn [shape data]. rewrite L, !pyindex_nat by auto.
      unfold lnth.
      rewrite (nth_error_nth_some (concat m) (i * h + j) 0%Q) by nia.
      rewrite (nth_concat h); auto; lia.
Qed.

Example C01_example :
  let rows := [[1; 2; 3]; [4; 5; 6]]%Q in
  given_table 3 rows (PJson (JObj [("value"%string, JList (map (fun r => JList (map JNum r)) rows))])) /\
  exists v, create 3 2 (PJson (JList (map (fun r => JList (map JNum r)) rows))) = Ok v
            /\ getn v 1 2 = Ok 6%Q.
Proof.
  split.
  - split; [repeat constructor | left; constructor; reflexivity].
  - eexists; split; reflexivity.
Qed.

(** A study with as many scenarios as time steps: the series stays over time. *)
Example C01_square_example :
  exists v, create 2 2 (PArr (ND [2] [7; 8]%Q)) = Ok v
            /\ getn v 1 0 = Ok 7%Q /\ getn v 0 1 = Ok 8%Q.
Proof. eexists; repeat split; reflexivity. Qed.

(** C02. [flatten] lists the cells scenario by scenario. *)
Theorem C02_flatten_agrees : forall h n x v,
  create h n x = Ok v -> raw_arg x -> sound_arg x ->
  length (flatten v) = n * h /\
  forall i j, i < n -> j < h ->
    exists q, getn v i j = Ok q /\ nth_error (flatten v) (i * h + j) = Some q.
Proof.
  intros h n x v E R S. pose proof (create_ok _ _ _ _ E R S) as W. split.
  - eapply flatten_length; eauto.
  - intros. eapply getn_nth; eauto.
Qed.

Example C02_example :
  let x := PArr (ND [2; 1] [7; 8]%Q) in
  exists v, create 3 2 x = Ok v /\ raw_arg x /\ sound_arg x /\ flatten v = [7; 7; 7; 8; 8; 8]%Q.
Proof. eexists; repeat split; try reflexivity. intros v E; discriminate. Qed.

(** C03. What the factory accepts, for anything but an already built value. *)
Definition accepted_shape (h n : nat) (s : list nat) : Prop :=
  s = [h] \/ s = [n; 1] \/ s = [n; h].

Lemma create_arr_iff h n a :
  (exists v, create_arr h n a = Ok v) <-> accepted_shape h n (shape a).
Proof.
  unfold create_arr, accepted_shape. rewrite <- !list_eqb_nat.
  destruct (list_eqb Nat.eqb (shape a) [h]) eqn:E1; [split; eauto|].
  destruct (list_eqb Nat.eqb (shape a) [n; 1]) eqn:E2; [split; eauto|].
  destruct (list_eqb Nat.eqb (shape a) [n; h]) eqn:E3; [split; eauto|].
  split.
  - intros [v H]. destruct (shape a); discriminate.
  - intuition discriminate.
Qed.

Theorem C03_only_documented_shapes : forall h n x, raw_arg x ->
  ((exists v, create h n x = Ok v) <->
   (exists q, given_number q x) \/
   (exists a, array_like x a /\ accepted_shape h n (shape a))).
Proof.
  intros h n x R.
  assert (J : forall j, carries x j ->
    ((exists v, create_json h n j = Ok v) <->
     (exists q, given_number q x) \/ (exists a, array_like x a /\ accepted_shape h n (shape a)))).
  { intros j C.
    assert (U : forall j', carries x j' -> j' = j).
    { intros j' C'. inversion C; subst; inversion C'; subst; try congruence;
        exfalso; match goal with H : forall d, _ <> JObj d |- _ => eapply H; reflexivity end. }
    split.
    - intros [v E]. destruct j; simpl in E; try discriminate.
      + left; exists q; exact C.
      + right. match type of E with rbind ?m _ = _ => destruct m as [a|] eqn:A end; try discriminate.
        exists a. split; [eapply al_list; eauto; exact A |]. apply create_arr_iff; eauto.
    - intros [[q G] | [a [AL S]]].
      + apply U in G. subst j. simpl. eauto.
      + apply create_arr_iff in S. destruct S as [v S].
        inversion AL; subst; try (inversion C; fail).
        match goal with H : carries x (JList _) |- _ => apply U in H; subst j end.
        exists v. unfold create_json. rewrite H0. exact S. }
  destruct x as [j | a | a | w | ].
  - destruct j as [ | b | q | s | l | d | ]; [apply (J JNull) | apply (J (JBool b)) | apply (J (JNum q))
      | apply (J (JStr s)) | apply (J (JList l)) | | apply (J JPy)];
      try (constructor; intros; discriminate).
    simpl create. destruct (dget "value"%string d) as [j|] eqn:G.
    + apply J. now constructor.
    + split; [intros [v E]; discriminate|].
      intros [[q C] | [a [AL S]]].
      * inversion C; subst; congruence.
      * inversion AL; subst. inversion H; subst; congruence.
  - simpl. rewrite create_arr_iff. split.
    + intros S; right; exists a; split; auto; constructor.
    + intros [[q C] | [b [AL S]]]; [inversion C | inversion AL; subst; auto; inversion H].
  - simpl. rewrite create_arr_iff. split.
    + intros S; right; exists a; split; auto; constructor.
    + intros [[q C] | [b [AL S]]]; [inversion C | inversion AL; subst; auto; inversion H].
  - exfalso; eapply R; eauto.
  - simpl. split; [intros [v E]; discriminate|].
    intros [[q C] | [b [AL S]]]; [inversion C | inversion AL; subst; inversion H].
Qed.

Example C03_example :
  let good := PArr (ND [4; 1] [1; 2; 3; 4]%Q) in
  let bad := PArr (ND [1; 3] [1; 2; 3]%Q) in
  raw_arg good /\ (exists v, create 3 4 good = Ok v) /\
  raw_arg bad /\ ~ (exists v, create 3 4 bad = Ok v).
Proof.
  repeat split; try (intros v E; discriminate).
  - eexists; reflexivity.
  - intros [v E]; discriminate.
Qed.

(** An already built value is not looked at: one of another study's dimensions
    is accepted, and reading inside the study's dimensions then fails. *)
Theorem C03_foreign_value_refuted : exists h n v i j,
  create h n (PNV v) = Ok v /\ i < n /\ j < h /\ getn v i j = Err IndexError.
Proof. exists 3, 2, (Row (ND [2] [1; 1]%Q) 2 2), 0, 2. repeat split; auto. Qed.

(** C04. Lookup succeeds inside the study's dimensions and raises IndexError
    when the scenario or the time is too large. *)
Theorem C04_out_of_range_lookup : forall h n x v,
  create h n x = Ok v -> raw_arg x -> sound_arg x ->
  (forall i j, i < n -> j < h -> exists q, getn v i j = Ok q) /\
  (forall i j, n <= i \/ h <= j -> getn v i j = Err IndexError).
Proof.
  intros h n x v E R S. pose proof (create_ok _ _ _ _ E R S) as W. split.
  - intros i j Hi Hj. destruct (getn_nth _ _ _ _ _ W Hi Hj) as [q [H _]]; eauto.
  - intros i j [Hi|Hj]; unfold getn.
    + eapply getitem_scn_range; eauto; lia.
    + eapply getitem_time_range; eauto; lia.
Qed.

Example C04_example :
  let x := PArr (ND [2; 1] [7; 8]%Q) in
  exists v, create 3 2 x = Ok v /\ raw_arg x /\ sound_arg x /\
    getn v 1 2 = Ok 8%Q /\ getn v 2 0 = Err IndexError /\ getn v 0 3 = Err IndexError.
Proof. eexists; repeat split; try reflexivity. intros v E; discriminate. Qed.

(** Negative indices are not treated alike: a number answers any of them, an
    array wraps around then raises. *)
Theorem C04_negative_index_refuted : exists h n x y v w,
  create h n x = Ok v /\ create h n y = Ok w /\
  getitem v (-100) (-100) = Ok 5%Q /\
  getitem w (-1) (-1) = Ok 4%Q /\ getitem w (-100) 0 = Err IndexError.
Proof.
  exists 2, 2, (PJson (JNum 5)), (PArr (ND [2; 2] [1; 2; 3; 4]%Q)).
  eexists; eexists; repeat split; reflexivity.
Qed.

Print Assumptions C01_broadcast_lookup.
Print Assumptions C02_flatten_agrees.
Print Assumptions C03_only_documented_shapes.
Print Assumptions C03_foreign_value_refuted.
Print Assumptions C04_out_of_range_lookup.
Print Assumptions C04_negative_index_refuted.
