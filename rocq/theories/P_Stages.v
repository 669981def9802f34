(** C48 to C51: clipping, renaming, dropping, repeating. *)
From Coq Require Import String Ascii List ZArith QArith Bool Arith Lia Lqa Permutation.
From Verif Require Import Base BaseFacts Frame Pipeline SpecWorkflow.
From Verif Require QueryFacts.
Import ListNotations.
Open Scope nat_scope.
Open Scope string_scope.
Open Scope list_scope.

(** ** Clip *)
Lemma qle_le a b : qle a b = true <-> (a <= b)%Q.
Proof. apply Qle_bool_iff. Qed.
Lemma qle_false a b : qle a b = false <-> (b < a)%Q.
Proof.
  split; intros K.
  - apply Qnot_le_lt. intros X. apply qle_le in X. congruence.
  - destruct (qle a b) eqn:E; auto. apply qle_le in E. lra.
Qed.

Lemma clip_q_within lower upper q : ordered lower upper ->
  above lower (clip_q lower upper q) /\ below upper (clip_q lower upper q).
Proof.
  unfold clip_q, clip_bounds, ordered, above, below, qmin, qmax.
  destruct lower as [l |], upper as [u |]; intros O.
  - rewrite (proj2 (qle_le l u) O).
    destruct (qlt u q) eqn:A; [apply qlt_lt in A | apply qlt_false in A].
    + destruct (qlt u l) eqn:B; [apply qlt_lt in B | apply qlt_false in B]; split; lra.
    + destruct (qlt q l) eqn:B; [apply qlt_lt in B | apply qlt_false in B]; split; lra.
  - destruct (qlt q l) eqn:B; [apply qlt_lt in B | apply qlt_false in B]; split; auto; lra.
  - destruct (qlt u q) eqn:B; [apply qlt_lt in B | apply qlt_false in B]; split; auto; lra.
  - auto.
Qed.

Lemma clip_q_inside lower upper q : above lower q -> below upper q -> clip_q lower upper q = q.
Proof.
  unfold clip_q, clip_bounds, above, below, qmin, qmax. destruct lower as [l |], upper as [u |]; intros A B.
  - assert (L : (l <= u)%Q) by lra. rewrite (proj2 (qle_le l u) L).
    rewrite (proj2 (qlt_false u q) B). rewrite (proj2 (qlt_false q l) A). reflexivity.
  - rewrite (proj2 (qlt_false q l) A). reflexivity.
  - rewrite (proj2 (qlt_false u q) B). reflexivity.
  - reflexivity.
Qed.

Lemma clip_q_twice lower upper q : clip_q lower upper (clip_q lower upper q) = clip_q lower upper q.
Proof.
  destruct lower as [l |], upper as [u |].
  - destruct (qle l u) eqn:E.
    + apply qle_le in E. destruct (clip_q_within (Some l) (Some u) q E) as (A & B). apply clip_q_inside; auto.
    + assert (S : forall x, clip_q (Some l) (Some u) x = clip_q (Some u) (Some l) x).
      { intros x. unfold clip_q, clip_bounds, qmin, qmax. rewrite E.
        apply qle_false in E. assert (L : qle u l = true) by (apply qle_le; lra). rewrite L. reflexivity. }
      rewrite !S. apply qle_false in E.
      destruct (clip_q_within (Some u) (Some l) q) as (A & B); [simpl; lra |]. apply clip_q_inside; auto.
  - destruct (clip_q_within (Some l) None q Logic.I) as (A & B). apply clip_q_inside; auto.
  - destruct (clip_q_within None (Some u) q Logic.I) as (A & B). apply clip_q_inside; auto.
  - reflexivity.
Qed.

Lemma clip_frame_twice lower upper f : clip_frame lower upper (clip_frame lower upper f) = clip_frame lower upper f.
Proof.
  unfold clip_frame. simpl. f_equal. rewrite map_map. apply map_ext. intros kc. simpl. f_equal.
  rewrite map_map. apply map_ext. intros [q |]; simpl; auto. unfold clip_cell, option_map. f_equal. apply clip_q_twice.
Qed.

Lemma cell_at_clip lower upper f j i :
  cell_at (clip_frame lower upper f) j i = option_map (clip_cell lower upper) (cell_at f j i).
Proof.
  unfold cell_at, clip_frame. simpl. rewrite nth_error_map.
  destruct (nth_error (f_cols f) j) as [kc |]; simpl; [| reflexivity]. apply nth_error_map.
Qed.

(** C48. The returned frame has the same rows and columns; with bounds in order no number is
    left outside; numbers already inside are untouched, NaN stays NaN; clipping the result
    again returns the same. *)
Theorem C48_clip strict h st d f lower upper : st_body st = BClip lower upper ->
  exists g, snd (process strict h st d f) = Ok (Some (AMulti g)) /\
    f_index g = f_index f /\ keys g = keys f /\
    (forall j i, cell_at g j i = None <-> cell_at f j i = None) /\
    (forall j i, cell_at g j i = Some None <-> cell_at f j i = Some None) /\
    (forall j i q, ordered lower upper -> cell_at g j i = Some (Some q) -> above lower q /\ below upper q) /\
    (forall j i q, cell_at f j i = Some (Some q) -> above lower q -> below upper q -> cell_at g j i = Some (Some q)) /\
    snd (process strict h st d g) = Ok (Some (AMulti g)).
Proof.
  intros B. unfold process. rewrite B. simpl. exists (clip_frame lower upper f).
  split; [reflexivity |]. split; [reflexivity |].
  split; [unfold keys, clip_frame; simpl; rewrite map_map; reflexivity |].
  split; [intros j i; rewrite cell_at_clip; destruct (cell_at f j i); simpl; split; congruence |].
  split; [intros j i; rewrite cell_at_clip; destruct (cell_at f j i) as [[q |] |]; simpl; split; congruence |].
  split.
  { intros j i q O. rewrite cell_at_clip. destruct (cell_at f j i) as [[x |] |]; simpl; try discriminate.
    intros [= <-]. apply clip_q_within. exact O. }
  split.
  { intros j i q E A U. rewrite cell_at_clip, E. simpl. rewrite clip_q_inside by assumption. reflexivity. }
  rewrite clip_frame_twice. reflexivity.
Qed.

(** Bounds given in the wrong order act as the same bounds exchanged. *)
Theorem C48_exchanged_bounds strict h st st' d f l u : (u < l)%Q ->
  st_body st = BClip (Some l) (Some u) -> st_body st' = BClip (Some u) (Some l) ->
  process strict h st d f = process strict h st' d f.
Proof.
  intros L B B'. unfold process. rewrite B, B'. f_equal. f_equal. unfold clip_frame. f_equal.
  apply map_ext. intros kc. f_equal. apply map_ext. intros [q |]; simpl; auto. unfold clip_cell, option_map. f_equal.
  unfold clip_q, clip_bounds, qmin, qmax.
  assert (E1 : qle l u = false) by (apply qle_false; exact L). assert (E2 : qle u l = true) by (apply qle_le; lra).
  rewrite E1, E2. reflexivity.
Qed.

Definition table : frame :=
  Frame (range 2) [((LInt 0, "a"), [Some 12%Q; None]); ((LInt 0, "b"), [Some 98%Q; Some 4%Q]);
                   ((LInt 1, "a"), [Some 5%Q; Some 60%Q]); ((LInt 1, "b"), [Some 10%Q; Some 50%Q])].

Example C48_example :
  let st := Stage (Plug true 0 1) (BClip (Some 10%Q) (Some 50%Q)) in
  ordered (Some 10%Q) (Some 50%Q) /\
  snd (process true [[]; []] st (fun _ => Draw [] [] []) table) =
  Ok (Some (AMulti (Frame (range 2)
    [((LInt 0, "a"), [Some 12%Q; None]); ((LInt 0, "b"), [Some 50%Q; Some 10%Q]);
     ((LInt 1, "a"), [Some 10%Q; Some 50%Q]); ((LInt 1, "b"), [Some 10%Q; Some 50%Q])]))).
Proof. split; [simpl; lra | reflexivity]. Qed.

(** ** Rename *)

(** C49. The frame that was given is changed in place and returned: same rows, same values in
    the same order; each column keeps its scenario, and its name is the one the mapping
    gives, or the old one if the mapping does not mention it. *)
Theorem C49_rename strict h st d f m : st_body st = BRename m -> NoDup (map fst m) ->
  exists g, process strict h st d f = (AMulti g, Ok None) /\
    f_index g = f_index f /\
    map snd (f_cols g) = map snd (f_cols f) /\
    length (keys g) = length (keys f) /\
    (forall j s n, nth_error (keys f) j = Some (s, n) ->
       exists n', nth_error (keys g) j = Some (s, n') /\
         (forall x, In (n, x) m -> n' = x) /\ (~ In n (map fst m) -> n' = n)).
Proof.
  intros B N. unfold process. rewrite B. exists (rename_frame m f).
  split; [reflexivity |]. split; [reflexivity |].
  split; [unfold rename_frame; simpl; rewrite map_map; reflexivity |].
  split; [unfold keys, rename_frame; simpl; rewrite !map_length; reflexivity |].
  intros j s n E. exists (rename1 m n). split.
  - unfold keys, rename_frame in *. simpl. rewrite map_map. rewrite nth_error_map in E |- *.
    destruct (nth_error (f_cols f) j) as [[[s' n'] c] |]; simpl in *; [| discriminate E].
    injection E as -> ->. reflexivity.
  - unfold rename1. split.
    + intros x I. rewrite (In_dget n x m N I). reflexivity.
    + intros I. destruct (dget n m) as [x |] eqn:D; auto. apply dget_In_keys in D. contradiction.
Qed.

Example C49_example :
  NoDup (map fst [("a", "alpha"); ("z", "b")]) /\
  process true [[]; []] (Stage (Plug false 0 1) (BRename [("a", "alpha"); ("z", "b")])) (fun _ => Draw [] [] []) table =
  (AMulti (Frame (range 2)
    [((LInt 0, "alpha"), [Some 12%Q; None]); ((LInt 0, "b"), [Some 98%Q; Some 4%Q]);
     ((LInt 1, "alpha"), [Some 5%Q; Some 60%Q]); ((LInt 1, "b"), [Some 10%Q; Some 50%Q])]), Ok None).
Proof. split; [| reflexivity]. repeat constructor; simpl; intuition discriminate. Qed.

(** ** Drop *)
Lemma filter_kept {C} names (l : list ((label * string) * C)) :
  kept names l (filter (fun kc => negb (mem (snd (fst kc)) names)) l).
Proof.
  induction l as [| [[s n] c] r IH]; simpl; [constructor |].
  destruct (mem n names) eqn:M; simpl.
  - apply kept_skip; auto. apply mem_In. exact M.
  - apply kept_keep; auto. apply mem_nIn. exact M.
Qed.

Lemma filter_all {A} (p : A -> bool) l : length (filter p l) = length l -> forall x, In x l -> p x = true.
Proof.
  induction l as [| a r IH]; simpl; intros E x I; [contradiction |].
  assert (L : length (filter p r) <= length r).
  { clear. induction r as [| b r IH]; simpl; [lia |]. destruct (p b); simpl; lia. }
  destruct (p a) eqn:P; simpl in E; [| lia].
  destruct I as [<- | I]; [exact P |]. apply IH; [lia | exact I].
Qed.

Lemma filter_same {A} (p : A -> bool) l : (forall x, In x l -> p x = true) -> filter p l = l.
Proof.
  induction l as [| a r IH]; simpl; intros K; auto.
  rewrite (K a (or_introl eq_refl)). f_equal. apply IH. intros x I. apply K. right. exact I.
Qed.

(** C50, for a frame having at least one of the names. Missing: no name of the list is in the
    frame, where pandas raises. [Stage.__call__] lets pass only frames having all the names,
    so that the list is then empty. *)
Theorem C50_drop_partial strict h st d f : st_body st = BDrop ->
  let names := lget h (p_in (st_plug st)) in
  (exists s n, In (s, n) (keys f) /\ In n names) ->
  exists g, snd (process strict h st d f) = Ok (Some (AMulti g)) /\
    f_index g = f_index f /\ kept names (f_cols f) (f_cols g).
Proof.
  intros B names (s & n & I & J). unfold process. rewrite B. fold names. unfold drop_names.
  destruct (Nat.eqb_spec (length (filter (fun kc : label * string * column => negb (mem (snd (fst kc)) names)) (f_cols f)))
                         (length (f_cols f))) as [E | E]; simpl.
  - exfalso. unfold keys in I. apply in_map_iff in I. destruct I as ([[s' n'] c] & X & I). injection X as -> ->.
    pose proof (filter_all _ _ E _ I) as F. simpl in F. apply negb_true_iff, mem_nIn in F. contradiction.
  - eexists. split; [reflexivity |]. simpl. split; [reflexivity | apply filter_kept].
Qed.

(** What a stage called on a frame can meet: all its names are there. *)
Theorem C50_call_partial strict h st d f : st_body st = BDrop ->
  let names := lget h (p_in (st_plug st)) in
  computable h (st_plug st) (get_names f) = true -> names <> [] ->
  exists g, snd (process strict h st d f) = Ok (Some (AMulti g)) /\
    f_index g = f_index f /\ kept names (f_cols f) (f_cols g).
Proof.
  intros B names K N. apply C50_drop_partial; auto. fold names.
  destruct names as [| n r] eqn:E; [congruence |].
  unfold computable in K. change (lget h (p_in (st_plug st))) with names in K. rewrite E in K. simpl in K.
  apply andb_true_iff in K. destruct K as (K & _). apply mem_In in K. unfold get_names in K.
  apply (proj2 (QueryFacts.unique_spec (map snd (keys f)))) in K. apply in_map_iff in K.
  destruct K as ([s n'] & X & I). simpl in X. subst n'. exists s, n. split; [exact I | left; reflexivity].
Qed.

(** Drop([]) should return the frame as it is, and raises. *)
Theorem C50_drop_refuted :
  exists h st f, st_body st = BDrop /\ lget h (p_in (st_plug st)) = [] /\ computable h (st_plug st) (get_names f) = true /\
    forall strict d, snd (process strict h st d f) = Err KeyError.
Proof. exists [[]; []], (Stage (Plug false 0 1) BDrop), table. repeat split; reflexivity. Qed.

(** Exactly: a frame that has one of the names is returned without them, any other raises. A
    call lets pass only frames having all the names: it is right if and only if there is one. *)
Theorem C50_exact strict h st d f : st_body st = BDrop ->
  let names := lget h (p_in (st_plug st)) in
  ((exists s n, In (s, n) (keys f) /\ In n names) <->
   exists g, snd (process strict h st d f) = Ok (Some (AMulti g)) /\ f_index g = f_index f /\ kept names (f_cols f) (f_cols g)) /\
  (~ (exists s n, In (s, n) (keys f) /\ In n names) -> snd (process strict h st d f) = Err KeyError) /\
  (computable h (st_plug st) (get_names f) = true -> (names = [] <-> snd (process strict h st d f) = Err KeyError)).
Proof.
  intros B names. assert (BAD : ~ (exists s n, In (s, n) (keys f) /\ In n names) -> snd (process strict h st d f) = Err KeyError).
  { intros N. unfold process. rewrite B. fold names. unfold drop_names. rewrite filter_same.
    - now rewrite Nat.eqb_refl.
    - intros [[s n] c] I. cbn [fst snd]. apply negb_true_iff, mem_nIn. intros J. apply N. exists s, n. split; auto.
      unfold keys. apply in_map_iff. now exists ((s, n), c). }
  split; [|split; [exact BAD|]].
  - split; [now apply C50_drop_partial|]. intros (g & E & _).
    destruct (existsb (fun k : label * string => mem (snd k) names) (keys f)) eqn:X.
    + apply existsb_exists in X as ([s n] & I & J). apply mem_In in J. eauto.
    + rewrite BAD in E; [discriminate|]. intros (s & n & I & J). assert (H : existsb (fun k : label * string => mem (snd k) names) (keys f) = true).
      { apply existsb_exists. exists (s, n). split; auto. now apply mem_In. } congruence.
  - intros K. split.
    + intros E. apply BAD. rewrite E. intros (? & ? & _ & []).
    + intros E. destruct names as [|n r] eqn:EN; auto. exfalso.
      destruct (C50_call_partial strict h st d f B K) as (g & G & _); [fold names; rewrite EN; discriminate|]. rewrite E in G. discriminate.
Qed.
Example C50_exact_example :
  let st := Stage (Plug false 0 1) BDrop in
  st_body st = BDrop /\ (exists s n, In (s, n) (keys table) /\ In n (lget [["x"; "b"]; []] (p_in (st_plug st)))) /\
  ~ (exists s n, In (s, n) (keys table) /\ In n (lget [["x"]; []] (p_in (st_plug st)))).
Proof.
  split; [reflexivity|]. split; [exists (LInt 0), "b"; split; [vm_compute; tauto | right; left; reflexivity]|].
  intros (s & n & I & [<-|[]]). vm_compute in I. intuition discriminate.
Qed.

Example C50_example :
  let h := [["b"]; []] in let st := Stage (Plug false 0 1) BDrop in
  computable h (st_plug st) (get_names table) = true /\
  snd (process true h st (fun _ => Draw [] [] []) table) =
  Ok (Some (AMulti (Frame (range 2) [((LInt 0, "a"), [Some 12%Q; None]); ((LInt 1, "a"), [Some 5%Q; Some 60%Q])]))).
Proof. split; reflexivity. Qed.

(** ** RepeatScenario *)
Lemma length_grid scns names : length (grid scns names) = length scns * length names.
Proof. unfold grid. induction scns as [| s r IH]; simpl; auto. rewrite app_length, map_length, IH. reflexivity. Qed.

Lemma repeat_combine {A B} (s : A) (l : list B) : combine (repeat s (length l)) l = map (fun n => (s, n)) l.
Proof. induction l as [| n r IH]; simpl; auto. rewrite IH. reflexivity. Qed.

Lemma combine_app2 {A B} (a b : list A) (c d : list B) : length a = length c ->
  combine (a ++ b) (c ++ d) = combine a c ++ combine b d.
Proof.
  revert c. induction a as [| x a IH]; intros [| y c]; simpl; intros E; try discriminate; auto.
  rewrite IH by lia. reflexivity.
Qed.

(** The labels built by the model are those of a regular layout. *)
Lemma build_multi_index_grid scns names : build_multi_index scns names = grid scns names.
Proof.
  unfold build_multi_index, grid, nprepeat, tile. induction scns as [| s r IH]; simpl; auto.
  rewrite combine_app2 by (rewrite repeat_length; reflexivity). rewrite IH, repeat_combine. reflexivity.
Qed.

Lemma In_get_names f n : In n (get_names f) <-> exists s, In (s, n) (keys f).
Proof.
  unfold get_names. rewrite (proj2 (QueryFacts.unique_spec (map snd (keys f)))). rewrite in_map_iff. split.
  - intros ([s n'] & X & I). simpl in X. subst. eauto.
  - intros (s & I). exists (s, n). auto.
Qed.
Lemma In_get_scenarios f s : In s (get_scenarios f) <-> exists n, In (s, n) (keys f).
Proof.
  unfold get_scenarios. rewrite (proj2 (QueryFacts.unique_spec (map fst (keys f)))). rewrite in_map_iff. split.
  - intros ([s' n] & X & I). simpl in X. subst. eauto.
  - intros (n & I). exists (s, n). auto.
Qed.
Lemma NoDup_get_names f : NoDup (get_names f).
Proof. apply (QueryFacts.unique_spec (map snd (keys f))). Qed.
Lemma NoDup_get_scenarios f : NoDup (get_scenarios f).
Proof. apply (QueryFacts.unique_spec (map fst (keys f))). Qed.

Lemma unique_from_app {A} `{EqB A} (a b : list A) : forall seen, 
  unique_from seen (a ++ b) = unique_from seen a ++ unique_from (rev (unique_from seen a) ++ seen) b.
Proof.
  induction a as [| x r IH]; intros seen; simpl; auto.
  destruct (mem x seen); [apply IH |]. simpl. rewrite IH. rewrite <- app_assoc. reflexivity.
Qed.

Lemma unique_from_seen {A} `{EqB A} (l : list A) seen : (forall x, In x l -> In x seen) -> unique_from seen l = [].
Proof.
  induction l as [| x r IH]; simpl; intros K; auto.
  rewrite (proj2 (mem_In x seen) (K x (or_introl eq_refl))). apply IH. intros y I. apply K. right. exact I.
Qed.

Lemma regular_names f scns names : regular f scns names -> scns <> [] -> get_names f = names.
Proof.
  intros (N1 & N2 & E) NE. unfold get_names, unique. rewrite E.
  destruct scns as [| s r]; [congruence |]. unfold grid. simpl. rewrite map_app, map_map. simpl. rewrite map_id.
  rewrite unique_from_app. fold (unique names). rewrite (QueryFacts.unique_NoDup_id names N2).
  rewrite unique_from_seen; [apply app_nil_r |].
  intros x I. apply in_map_iff in I. destruct I as ([s' n] & <- & I). apply in_flat_map in I.
  destruct I as (z & _ & I). apply in_map_iff in I. destruct I as (y & X & I). injection X as <- <-. simpl.
  apply in_app_iff. left. apply in_rev in I. exact I.
Qed.

Lemma unique_from_repeat {A} `{EqB A} (x : A) k seen l : ~ In x seen ->
  unique_from seen (repeat x (S k) ++ l) = x :: unique_from (x :: seen) l.
Proof.
  intros N. simpl. rewrite (proj2 (mem_nIn x seen) N). f_equal.
  rewrite unique_from_app. rewrite unique_from_seen; [reflexivity |].
  intros y I. apply repeat_spec in I. subst. left. reflexivity.
Qed.

Lemma regular_scenarios f scns names : regular f scns names -> names <> [] -> get_scenarios f = scns.
Proof.
  intros (N1 & N2 & E) NE. unfold get_scenarios, unique. rewrite E. clear E.
  assert (X : forall seen, (forall s, In s scns -> ~ In s seen) -> unique_from seen (map fst (grid scns names)) = scns).
  { unfold grid. induction scns as [| s r IH]; intros seen K; simpl; auto.
    rewrite map_app, map_map. simpl.
    replace (map (fun _ : string => s) names) with (repeat s (length names)) by (clear; induction names; simpl; congruence).
    destruct names as [| n names]; [congruence |]. cbn [length].
    rewrite unique_from_repeat by (apply K; left; reflexivity). f_equal.
    inversion N1 as [| ? ? M1 M2]; subst. apply IH; auto.
    intros y I [-> | J]; [contradiction |]. apply (K y); auto. right. exact I. }
  apply X. auto.
Qed.

Lemma combine_grid_In {C} scns names (data : list C) s n c :
  NoDup scns -> NoDup names -> length data = length scns * length names ->
  In ((s, n), c) (combine (grid scns names) data) <->
  exists i j, nth_error scns i = Some s /\ nth_error names j = Some n /\ nth_error data (i * length names + j) = Some c.
Proof.
  revert data. induction scns as [| a r IH]; intros data N1 N2 L; simpl in L |- *.
  - unfold grid. simpl. split; [contradiction |]. intros (i & j & E & _). destruct i; discriminate E.
  - unfold grid. simpl. fold (grid r names).
    set (k := length names) in *.
    rewrite <- (firstn_skipn k data).
    assert (Lf : length (firstn k data) = k) by (rewrite firstn_length; lia).
    assert (Ls : length (skipn k data) = length r * k) by (rewrite skipn_length; lia).
    rewrite combine_app2 by (rewrite map_length, Lf; reflexivity). rewrite in_app_iff.
    inversion N1 as [| ? ? M1 M2]; subst. rewrite (IH (skipn k data) M2 N2 Ls).
    split.
    + intros [I | (i & j & A & B & C0)].
      * apply In_nth_error in I. destruct I as (j & I). exists 0, j.
        assert (E : nth_error (combine (map (fun x => (a, x)) names) (firstn k data)) j =
                    match nth_error names j, nth_error (firstn k data) j with
                    | Some x, Some y => Some ((a, x), y) | _, _ => None end).
        { clear. generalize (firstn k data). revert j. induction names as [| n0 names IH]; intros j l; simpl.
          - destruct j; reflexivity.
          - destruct l as [| y l]; simpl.
            + destruct j; simpl; [reflexivity |]. destruct (nth_error names j); reflexivity.
            + destruct j; simpl; auto. }
        rewrite E in I. destruct (nth_error names j) as [x |] eqn:Nj; [| discriminate I].
        destruct (nth_error (firstn k data) j) as [y |] eqn:Dj; [| discriminate I]. injection I as <- <- <-.
        simpl. split; auto. split; auto.
        rewrite nth_error_app1; [exact Dj |]. apply nth_error_Some. congruence.
      * exists (S i), j. simpl. split; auto. split; auto.
        rewrite nth_error_app2 by lia. rewrite Lf. replace (k + i * k + j - k) with (i * k + j) by lia. exact C0.
    + intros (i & j & A & B & C0). destruct i as [| i]; simpl in A, C0.
      * left. injection A as ->.
        assert (Lj : j < k) by (apply nth_error_Some; congruence).
        rewrite nth_error_app1 in C0 by lia.
        clear - B C0. revert B C0. generalize (firstn k data). revert j.
        induction names as [| n0 names IH]; intros j l B C0; [destruct j; discriminate B |].
        destruct l as [| y l]; [destruct j; discriminate C0 |].
        destruct j; simpl in *; [left; congruence |]. right. apply (IH j); auto.
      * right. exists i, j. split; auto. split; auto.
        rewrite nth_error_app2 in C0 by lia. rewrite Lf in C0.
        replace (k + i * k + j - k) with (i * k + j) in C0 by lia. exact C0.
Qed.

Lemma keys_combine {A B} (a : list A) (b : list B) : length a = length b -> map fst (combine a b) = a.
Proof. revert b. induction a as [| x a IH]; intros [| y b]; simpl; intros E; try discriminate; auto. rewrite IH by lia. reflexivity. Qed.

Lemma combine_split_map {A B} (l : list (A * B)) : combine (map fst l) (map snd l) = l.
Proof. induction l as [| [a b] l IH]; simpl; auto. rewrite IH. reflexivity. Qed.

Lemma length_range n : length (range n) = n.
Proof. unfold range. rewrite map_length, seq_length. reflexivity. Qed.
Lemma nth_error_range n i : i < n -> nth_error (range n) i = Some (LInt (Z.of_nat i)).
Proof.
  intros L. unfold range. rewrite nth_error_map.
  rewrite (nth_error_nth' (seq 0 n) 0) by (rewrite seq_length; exact L). rewrite seq_nth by exact L. reflexivity.
Qed.
Lemma NoDup_range n : NoDup (range n).
Proof. unfold range. apply FinFun.Injective_map_NoDup; [| apply seq_NoDup]. intros x y [=]. lia. Qed.

Lemma NoDup_append {A} (a b : list A) : NoDup a -> NoDup b -> (forall x, In x a -> ~ In x b) -> NoDup (a ++ b).
Proof.
  induction a as [| x a IH]; simpl; intros N M D; auto.
  inversion N as [| ? ? N1 N2]; subst. constructor.
  - rewrite in_app_iff. intros [I | I]; [contradiction | apply (D x); auto].
  - apply IH; auto.
Qed.

Lemma NoDup_grid scns names : NoDup scns -> NoDup names -> NoDup (grid scns names).
Proof.
  unfold grid. induction scns as [| a r IH]; simpl; intros N M; [constructor |].
  inversion N as [| ? ? N1 N2]; subst. apply NoDup_append; auto.
  - apply FinFun.Injective_map_NoDup; auto. intros x y [=]. auto.
  - intros [s x] I J. apply in_map_iff in I. destruct I as (y & X & _). injection X as <- _.
    apply in_flat_map in J. destruct J as (z & K & J). apply in_map_iff in J. destruct J as (w & X & _).
    injection X as -> _. contradiction.
Qed.

(** C51 on frames laid out scenario by scenario with the same names in the same order.
    Scenario number [k * nb + s] of the result has for each name the column of the [s]-th
    scenario, and these are all the columns. Missing: other layouts, where it is false. *)
Theorem C51_repeat_partial strict h st d f scns names n : st_body st = BRepeat n -> regular f scns names ->
  let nb := length scns in
  exists g, snd (process strict h st d f) = Ok (Some (AMulti g)) /\
    length (f_index g) = length (f_index f) /\
    length (f_cols g) = n * length (f_cols f) /\
    NoDup (keys g) /\
    (forall lbl x c, In ((lbl, x), c) (f_cols g) ->
       exists k s, k < n /\ s < nb /\ lbl = LInt (Z.of_nat (k * nb + s))) /\
    (forall k s scn x c, k < n -> nth_error scns s = Some scn ->
       (In ((LInt (Z.of_nat (k * nb + s)), x), c) (f_cols g) <-> In ((scn, x), c) (f_cols f))).
Proof.
  intros B R. simpl. destruct (list_eq_dec String.string_dec names []) as [-> | NE].
  { (* no column at all *)
    assert (E : f_cols f = []).
    { destruct R as (_ & _ & E). unfold keys, grid in E.
      assert (X : map fst (f_cols f) = []). { rewrite E. clear. induction scns; simpl; auto. }
      destruct (f_cols f); [reflexivity | discriminate X]. }
    unfold process. rewrite B. unfold repeat_frame, get_scenarios, get_names, keys. rewrite E. simpl.
    assert (T : tile (@nil column) n = []). { unfold tile. clear. induction n; simpl; auto. } rewrite T. simpl.
    eexists. split; [reflexivity |]. simpl. rewrite length_range. split; [reflexivity |]. split; [lia |].
    split; [constructor |]. split; [contradiction | tauto]. }
  destruct scns as [| s0 sr].
  { assert (E : f_cols f = []).
    { destruct R as (_ & _ & E). unfold keys, grid in E. simpl in E. destruct (f_cols f); [reflexivity | discriminate E]. }
    unfold process. rewrite B. unfold repeat_frame, get_scenarios, get_names, keys. rewrite E. simpl.
    assert (T : tile (@nil column) n = []). { unfold tile. clear. induction n; simpl; auto. } rewrite T. simpl.
    eexists. split; [reflexivity |]. simpl. rewrite length_range. split; [reflexivity |]. split; [lia |].
    split; [constructor |]. split; [contradiction |]. intros k s scn x c _ E'. destruct s; discriminate E'. }
  set (scns := s0 :: sr) in *.
  assert (Gn : get_names f = names) by (eapply regular_names; [exact R | discriminate]).
  assert (Gs : get_scenarios f = scns) by (eapply regular_scenarios; [exact R | exact NE]).
  destruct R as (N1 & N2 & E).
  set (nb := length scns). set (kn := length names).
  assert (Lc : length (f_cols f) = nb * kn).
  { rewrite <- (map_length fst). fold (keys f). rewrite E. apply length_grid. }
  assert (Ld : length (tile (map snd (f_cols f)) n) = n * (nb * kn)) by (rewrite length_tile, map_length, Lc; reflexivity).
  assert (Lg : length (grid (range (nb * n)) names) = nb * n * kn) by (rewrite length_grid, length_range; reflexivity).
  unfold process. rewrite B. unfold repeat_frame. rewrite Gn, Gs. rewrite build_multi_index_grid. fold nb.
  rewrite Ld, Lg. destruct (Nat.eqb_spec (n * (nb * kn)) (nb * n * kn)) as [_ | X]; [| exfalso; apply X; lia].
  unfold returns. cbn [snd rbind]. eexists. split; [reflexivity |]. cbn [f_index f_cols].
  assert (LL : length (grid (range (nb * n)) names) = length (tile (map snd (f_cols f)) n)) by lia.
  split; [apply length_range |].
  split; [rewrite combine_length, Lg, Ld, Lc; lia |].
  split.
  { unfold keys. cbn [f_cols]. rewrite keys_combine by exact LL. apply NoDup_grid; auto. apply NoDup_range. }
  assert (Ldg : length (tile (map snd (f_cols f)) n) = length (range (nb * n)) * length names)
    by (rewrite length_range; fold kn; lia).
  assert (NB : 0 < nb) by (unfold nb, scns; simpl; lia).
  split.
  { intros lbl x c I.
    apply (combine_grid_In (range (nb * n)) names (tile (map snd (f_cols f)) n) lbl x c (NoDup_range _) N2 Ldg) in I.
    destruct I as (i & j & A & _ & _).
    assert (Li : i < nb * n) by (rewrite <- (length_range (nb * n)); apply nth_error_Some; congruence).
    rewrite nth_error_range in A by exact Li. injection A as <-.
    exists (i / nb), (i mod nb). split; [apply Nat.div_lt_upper_bound; lia |].
    split; [apply Nat.mod_upper_bound; lia |]. f_equal. f_equal. rewrite (Nat.div_mod i nb) at 1 by lia. lia. }
  intros k s scn x c Lk Es.
  assert (Ls : s < nb) by (apply nth_error_Some; congruence).
  assert (Lks : k * nb + s < nb * n) by nia.
  rewrite (combine_grid_In (range (nb * n)) names (tile (map snd (f_cols f)) n) _ x c (NoDup_range _) N2 Ldg).
  assert (Lcg : length (map snd (f_cols f)) = length scns * length names) by (rewrite map_length; exact Lc).
  assert (Hf : In ((scn, x), c) (f_cols f) <-> In ((scn, x), c) (combine (grid scns names) (map snd (f_cols f)))).
  { rewrite <- E. unfold keys. rewrite combine_split_map. reflexivity. }
  rewrite Hf. rewrite (combine_grid_In scns names (map snd (f_cols f)) scn x c N1 N2 Lcg).
  fold kn.
  assert (T : forall j, j < kn -> nth_error (tile (map snd (f_cols f)) n) ((k * nb + s) * kn + j) =
                                  nth_error (map snd (f_cols f)) (s * kn + j)).
  { intros j Lj. replace ((k * nb + s) * kn + j) with (k * length (map snd (f_cols f)) + (s * kn + j)).
    - apply nth_error_tile; auto. rewrite map_length, Lc. nia.
    - rewrite map_length, Lc. lia. }
  split.
  - intros (i & j & A & B' & C). 
    assert (Li : i < nb * n) by (rewrite <- (length_range (nb * n)); apply nth_error_Some; congruence).
    rewrite nth_error_range in A by exact Li. injection A as A. assert (i = k * nb + s) by lia. subst i.
    assert (Lj : j < kn) by (apply nth_error_Some; congruence).
    rewrite T in C by exact Lj. exists s, j. auto.
  - intros (i & j & A & B' & C).
    assert (i = s).
    { apply (proj1 (NoDup_nth_error scns) N1); [apply nth_error_Some; congruence | congruence]. }
    subst i. assert (Lj : j < kn) by (apply nth_error_Some; congruence).
    exists (k * nb + s), j. split; [apply nth_error_range; exact Lks |]. split; [exact B' |]. rewrite T by exact Lj. exact C.
Qed.

Example C51_example :
  regular table [LInt 0; LInt 1] ["a"; "b"] /\
  exists g, snd (process true [[]; []] (Stage (Plug true 0 1) (BRepeat 2)) (fun _ => Draw [] [] []) table) = Ok (Some (AMulti g)) /\
    In ((LInt 3, "a"), [Some 5%Q; Some 60%Q]) (f_cols g) /\ length (f_cols g) = 8.
Proof.
  split.
  - split; [| split]; [| | reflexivity]; repeat constructor; simpl; intuition discriminate.
  - eexists. split; [reflexivity |]. simpl. split; [tauto | reflexivity].
Qed.

(** Two scenarios with the same names in different orders: the second one comes out with its
    columns exchanged. *)
Definition crossed : frame :=
  Frame (range 1) [((LInt 0, "a"), [Some 1%Q]); ((LInt 0, "b"), [Some 2%Q]);
                   ((LInt 1, "b"), [Some 3%Q]); ((LInt 1, "a"), [Some 4%Q])].

Theorem C51_repeat_refuted :
  exists f n h st, st_body st = BRepeat n /\ frame_ok f /\ NoDup (keys f) /\
    get_scenarios f = [LInt 0; LInt 1] /\ get_names f = ["a"; "b"] /\
    In ((LInt 1, "a"), [Some 4%Q]) (f_cols f) /\
    exists g, (forall strict d, snd (process strict h st d f) = Ok (Some (AMulti g))) /\
      In ((LInt 1, "a"), [Some 3%Q]) (f_cols g) /\ ~ In ((LInt 1, "a"), [Some 4%Q]) (f_cols g).
Proof.
  exists crossed, 1, [[]; []], (Stage (Plug true 0 1) (BRepeat 1)).
  split; [reflexivity |].
  split; [intros kc I; simpl in I; intuition (subst; reflexivity) |].
  split; [repeat constructor; simpl; intuition discriminate |].
  split; [reflexivity |]. split; [reflexivity |]. split; [simpl; tauto |].
  eexists. split; [reflexivity |]. split; [simpl; tauto |].
  simpl. intuition discriminate.
Qed.

(** A frame whose scenarios have not the same names is refused, although repeating it is
    meaningful. *)
Theorem C51_uneven_refuted :
  exists f n h st, st_body st = BRepeat n /\ frame_ok f /\ NoDup (keys f) /\
    forall strict d, snd (process strict h st d f) = Err ValueError.
Proof.
  exists (Frame (range 1) [((LInt 0, "a"), [Some 1%Q]); ((LInt 0, "b"), [Some 2%Q]); ((LInt 1, "a"), [Some 3%Q])]), 2,
    [[]; []], (Stage (Plug true 0 1) (BRepeat 2)).
  split; [reflexivity |].
  split; [intros kc I; simpl in I; intuition (subst; reflexivity) |].
  split; [repeat constructor; simpl; intuition discriminate | reflexivity].
Qed.

Print Assumptions C48_clip.
Print Assumptions C48_exchanged_bounds.
Print Assumptions C49_rename.
Print Assumptions C50_drop_partial.
Print Assumptions C50_call_partial.
Print Assumptions C50_drop_refuted.
Print Assumptions C50_exact.
Print Assumptions C51_repeat_partial.
Print Assumptions C51_repeat_refuted.
Print Assumptions C51_uneven_refuted.
