(** C51 exactly: which frames RepeatScenario accepts, where it puts the columns, and which
    layouts of columns come out right whatever the data. *)
From Coq Require Import String Ascii List ZArith QArith Bool Arith Lia Permutation.
From Verif Require Import Base BaseFacts Frame Pipeline SpecWorkflow P_Stages.
From Verif Require QueryFacts.
Import ListNotations.
Open Scope nat_scope.
Open Scope string_scope.
Open Scope list_scope.

Lemma unique_lists {T} `{EqB T} (l : list T) : lists_all (unique l) l.
Proof. apply QueryFacts.unique_spec. Qed.

Lemma lists_length {T} (a b l : list T) : lists_all a l -> lists_all b l -> length a = length b.
Proof.
  intros (N & P) (M & R). apply Permutation_length. apply NoDup_Permutation; auto.
  intros x. rewrite P, R. reflexivity.
Qed.

Lemma In_grid scns names s n : In (s, n) (grid scns names) <-> In s scns /\ In n names.
Proof.
  unfold grid. rewrite in_flat_map. split.
  - intros (z & I & J). apply in_map_iff in J. destruct J as (y & X & J). injection X as <- <-. auto.
  - intros (I & J). exists s. split; auto. apply in_map_iff. exists n. auto.
Qed.

(** A list of distinct labels has as many entries as scenarios times names iff every
    scenario has every name. *)
Lemma complete_length f scns names : NoDup (keys f) -> lists_all scns (map fst (keys f)) -> lists_all names (map snd (keys f)) ->
  (length (f_cols f) = length scns * length names <-> complete f).
Proof.
  intros N (Ns & Es) (Nn & En). rewrite <- length_grid. rewrite <- (map_length fst). fold (keys f).
  assert (Sub : incl (keys f) (grid scns names)).
  { intros [s n] I. apply In_grid. rewrite Es, En. split; apply in_map_iff; exists (s, n); auto. }
  split.
  - intros L s n s' n' I J.
    assert (R : incl (grid scns names) (keys f)) by (apply NoDup_length_incl; auto; lia).
    apply R. apply In_grid. rewrite Es, En.
    split; apply in_map_iff; [exists (s, n') | exists (s', n)]; auto.
  - intros C. apply Nat.le_antisymm; [apply NoDup_incl_length; auto |].
    apply NoDup_incl_length; [apply NoDup_grid; auto |].
    intros [s n] I. apply In_grid in I. destruct I as (I & J). apply Es in I. apply En in J.
    apply in_map_iff in I. apply in_map_iff in J.
    destruct I as ([a b] & X & I). destruct J as ([a' b'] & Y & J). simpl in X, Y. subst. eapply C; eauto.
Qed.

(** A frame with distinct labels is accepted iff every scenario has every name, or nothing
    is to be returned at all; else the answer is ValueError. *)
Theorem C51_accepted strict h st d f n : st_body st = BRepeat n -> NoDup (keys f) ->
  ((exists g, snd (process strict h st d f) = Ok (Some (AMulti g))) <-> complete f \/ n = 0) /\
  (~ (complete f \/ n = 0) -> snd (process strict h st d f) = Err ValueError).
Proof.
  intros B N. pose proof (complete_length f _ _ N (unique_lists _) (unique_lists _)) as E.
  unfold process. rewrite B. unfold repeat_frame. rewrite build_multi_index_grid, length_tile, map_length, length_grid, length_range.
  unfold get_scenarios, get_names in *.
  set (a := length (unique (map fst (keys f)))) in *. set (b := length (unique (map snd (keys f)))) in *.
  destruct (Nat.eqb_spec (n * length (f_cols f)) (a * n * b)) as [K | K]; cbn.
  - assert (R : complete f \/ n = 0) by (destruct n as [| n]; [right; auto | left; apply E; nia]).
    split; [| contradiction]. split; auto. eauto.
  - assert (R : ~ (complete f \/ n = 0)) by (intros [C | ->]; [apply E in C; rewrite C in K; nia | simpl in K; lia]).
    split; auto. split; [intros (g & X); discriminate | contradiction].
Qed.

Lemma combine_nth {T U} (a : list T) (b : list U) : forall i,
  nth_error (combine a b) i = match nth_error a i, nth_error b i with Some x, Some y => Some (x, y) | _, _ => None end.
Proof.
  revert b. induction a as [| x a IH]; intros [| y b] [| i]; simpl; auto.
  destruct (nth_error a i); auto.
Qed.

Lemma grid_nth scns names : forall s j, j < length names ->
  nth_error (grid scns names) (s * length names + j) =
  match nth_error scns s, nth_error names j with Some x, Some y => Some (x, y) | _, _ => None end.
Proof.
  induction scns as [| x r IH]; intros s j L; unfold grid; simpl.
  - destruct (s * length names + j); destruct s; reflexivity.
  - fold (grid r names). destruct s as [| s]; simpl.
    + rewrite nth_error_app1 by (rewrite map_length; exact L). rewrite nth_error_map. destruct (nth_error names j); reflexivity.
    + rewrite nth_error_app2 by (rewrite map_length; lia). rewrite map_length.
      replace (length names + s * length names + j - length names) with (s * length names + j) by lia. apply IH. exact L.
Qed.

(** Where the columns go: the labels are made anew and put on the columns by position.
    Column [s * kn + j] of the frame, whatever its label, becomes the [j]-th name of the
    scenarios number [k * nb + s]; the names are those of the frame in order of first
    appearance. *)
Theorem C51_layout strict h st d f n g : st_body st = BRepeat n ->
  snd (process strict h st d f) = Ok (Some (AMulti g)) ->
  exists names nb, lists_all names (map snd (keys f)) /\
    (forall scns, lists_all scns (map fst (keys f)) -> length scns = nb) /\
    length (f_cols g) = n * length (f_cols f) /\
    forall k s j x kc, k < n -> s < nb -> nth_error names j = Some x ->
      nth_error (f_cols f) (s * length names + j) = Some kc ->
      nth_error (f_cols g) ((k * nb + s) * length names + j) = Some ((LInt (Z.of_nat (k * nb + s)), x), snd kc).
Proof.
  intros B P. exists (get_names f), (length (get_scenarios f)).
  split; [apply unique_lists |].
  split; [intros scns A; exact (lists_length _ _ _ A (unique_lists _)) |].
  unfold process in P. rewrite B in P. unfold repeat_frame in P.
  rewrite build_multi_index_grid, length_tile, map_length, length_grid, length_range in P.
  set (nb := length (get_scenarios f)) in *. set (names := get_names f) in *.
  destruct (Nat.eqb_spec (n * length (f_cols f)) (nb * n * length names)) as [K | K]; cbn in P; [| discriminate P].
  injection P as <-. cbn [f_cols].
  split; [rewrite combine_length, length_grid, length_tile, length_range, map_length; lia |].
  intros k s j x kc Lk Ls Ej Ek.
  assert (Lj : j < length names) by (apply nth_error_Some; congruence).
  assert (Lc : length (f_cols f) = nb * length names) by (destruct n as [| n]; [lia | nia]).
  assert (Lks : k * nb + s < nb * n) by nia.
  rewrite combine_nth, grid_nth by exact Lj. rewrite nth_error_range by exact Lks. rewrite Ej.
  replace ((k * nb + s) * length names + j) with (k * length (map snd (f_cols f)) + (s * length names + j))
    by (rewrite map_length, Lc; lia).
  rewrite nth_error_tile; [| exact Lk | rewrite map_length; apply nth_error_Some; congruence].
  rewrite nth_error_map, Ek. reflexivity.
Qed.

(** The layouts that come out right whatever the data: exactly those listed scenario by
    scenario with the same names in the same order. *)
Theorem C51_exact strict h st d ks n : st_body st = BRepeat n -> 0 < n -> NoDup ks ->
  ((exists scns, lists_all scns (map fst ks) /\
      forall f, keys f = ks -> frame_ok f -> exists g, snd (process strict h st d f) = Ok (Some (AMulti g)) /\ repeated n scns f g) <->
   (exists scns names, NoDup scns /\ NoDup names /\ ks = grid scns names)).
Proof.
  intros B P N. split.
  - intros (scns & A & R).
    set (cols := map (fun i => [Some (inject_Z (Z.of_nat i))]) (seq 0 (length ks)) : list column).
    set (f := Frame (range 1) (combine ks cols)).
    assert (Lk : length cols = length ks) by (unfold cols; rewrite map_length, seq_length; reflexivity).
    assert (Kf : keys f = ks) by (apply keys_combine; lia).
    destruct (R f Kf) as (g & E & Rg).
    { intros [kk c] I. apply in_combine_r in I. unfold cols in I. apply in_map_iff in I. destruct I as (i & <- & _). reflexivity. }
    destruct (C51_layout _ _ _ _ _ _ _ B E) as (names & nb & (Nn & En) & Eb & Lg & Lay).
    rewrite Kf in *. specialize (Eb scns A). destruct A as (Ns & Es).
    assert (C : complete f).
    { assert (X : exists g, snd (process strict h st d f) = Ok (Some (AMulti g))) by eauto.
      apply (proj1 (C51_accepted strict h st d f n B ltac:(rewrite Kf; exact N))) in X. destruct X as [X | X]; [exact X | lia]. }
    apply (complete_length f scns names) in C; try (rewrite Kf; auto; fail); try (rewrite Kf; split; auto).
    assert (Lf : length ks = length scns * length names) by (rewrite <- Kf; unfold keys; rewrite map_length; exact C).
    exists scns, names. split; auto. split; auto. 
    assert (All : forall i, nth_error ks i = nth_error (grid scns names) i).
    { intros i. destruct (Nat.ltb_spec i (length ks)) as [Li | Li].
      2:{ rewrite (proj2 (nth_error_None _ _) Li). symmetry. apply nth_error_None. rewrite length_grid. lia. }
      assert (Kn : 0 < length names) by nia.
      set (s := i / length names). set (j := i mod length names).
      assert (Ei : i = s * length names + j) by (unfold s, j; rewrite (Nat.div_mod i (length names)) at 1; lia).
      assert (Lj : j < length names) by (apply Nat.mod_upper_bound; lia).
      assert (Ls : s < length scns) by nia.
      destruct (nth_error scns s) as [scn |] eqn:Hs; [| apply nth_error_None in Hs; lia].
      destruct (nth_error names j) as [x |] eqn:Hj; [| apply nth_error_None in Hj; lia].
      destruct (nth_error ks i) as [kk |] eqn:Hk; [| apply nth_error_None in Hk; lia].
      rewrite Ei at 1. rewrite grid_nth by exact Lj. rewrite Hs, Hj. f_equal.
      assert (Hc : nth_error (f_cols f) (s * length names + j) = Some (kk, [Some (inject_Z (Z.of_nat i))])).
      { rewrite <- Ei. cbn [f_cols f]. rewrite combine_nth, Hk. unfold cols. rewrite nth_error_map.
        rewrite (nth_error_nth' (seq 0 (length ks)) 0) by (rewrite seq_length; exact Li).
        rewrite seq_nth by exact Li. reflexivity. }
      specialize (Lay 0 s j x _ P ltac:(lia) Hj Hc). cbn [snd] in Lay.
      apply nth_error_In in Lay.
      replace (0 * nb + s) with (0 * length scns + s) in Lay by lia.
      apply (Rg 0 s scn x _ P Hs) in Lay. apply In_nth_error in Lay. destruct Lay as (i' & Lay).
      cbn [f_cols f] in Lay. rewrite combine_nth in Lay. unfold cols in Lay. rewrite nth_error_map in Lay.
      destruct (nth_error ks i') as [k' |] eqn:Hk'; [| discriminate Lay].
      assert (Li' : i' < length ks) by (apply nth_error_Some; congruence).
      rewrite (nth_error_nth' (seq 0 (length ks)) 0) in Lay by (rewrite seq_length; exact Li').
      rewrite seq_nth in Lay by exact Li'. simpl in Lay. injection Lay as -> Z.
      assert (i' = i) by lia. congruence. }
    apply nth_error_ext. exact All.
  - intros (scns & names & Ns & Nn & ->).
    destruct names as [| x0 names].
    { exists []. assert (G : grid scns [] = []) by (unfold grid; clear; induction scns; simpl; auto). rewrite G.
      split; [split; [constructor | tauto] |]. intros f K F.
      destruct (C51_repeat_partial strict h st d f [] [] n B) as (g & E & _).
      - split; [constructor |]. split; [constructor |]. exact K.
      - exists g. split; auto. intros k s scn x c _ X. destruct s; discriminate X. }
    exists scns. split.
    { split; auto. intros s. split; intros I.
      - apply in_map_iff. exists (s, x0). split; auto. apply In_grid. split; auto. left. reflexivity.
      - apply in_map_iff in I. destruct I as ([a b] & <- & I). apply In_grid in I. tauto. }
    intros f K F. destruct (C51_repeat_partial strict h st d f scns (x0 :: names) n B) as (g & E & _ & _ & _ & _ & R).
    { split; auto. }
    exists g. split; auto.
Qed.

(** Labels interleaved by name are accepted, and come out wrong for some data; a missing
    name is refused. *)
Example C51_exact_example :
  let by_name := [(LInt 0, "a"); (LInt 1, "a"); (LInt 0, "b"); (LInt 1, "b")] in
  let st := Stage (Plug true 0 1) (BRepeat 2) in
  NoDup by_name /\ complete (Frame [] (map (fun k => (k, [])) by_name)) /\
  ~ (exists scns names, NoDup scns /\ NoDup names /\ by_name = grid scns names) /\
  ~ complete (Frame [] (map (fun k => (k, [])) (tl by_name))).
Proof.
  cbn. split; [repeat constructor; simpl; intuition discriminate |]. split.
  { intros s n s' n' I J. cbn in *.
    repeat (destruct I as [I | I]; [injection I as <- <- | ]); try contradiction;
    repeat (destruct J as [J | J]; [injection J as <- <- | ]); try contradiction; tauto. }
  split.
  - intros (scns & names & _ & _ & E). unfold grid in E.
    destruct scns as [| s scns]; [discriminate E |]. cbn in E.
    destruct names as [| n0 [| n1 names]]; cbn in E.
    + clear - E. induction scns; cbn in E; [discriminate | auto].
    + destruct scns as [| s2 [| s3 scns]]; cbn in E; try discriminate; inversion E; congruence.
    + inversion E. congruence.
  - intros C. assert (X : In (LInt 0, "a") [(LInt 1, "a"); (LInt 0, "b"); (LInt 1, "b")]).
    { apply (C (LInt 0) "a" (LInt 1) "b"); cbn; tauto. }
    cbn in X. intuition discriminate.
Qed.

Print Assumptions C51_accepted.
Print Assumptions C51_layout.
Print Assumptions C51_exact.
