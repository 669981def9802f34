(** Facts about the vocabulary of [Base.v]. *)
From Coq Require Import String Ascii List ZArith QArith Bool Arith Lia Lqa Permutation Setoid Morphisms.
From Verif Require Import Base.
Import ListNotations.
Open Scope nat_scope.

(** ** Keys *)
Lemma eqb_refl {A} `{EqB A} (x : A) : eqb x x = true.
Proof. apply eqb_eq; reflexivity. Qed.

Lemma eqb_neq {A} `{EqB A} (x y : A) : eqb x y = false <-> x <> y.
Proof.
  split.
  - intros E F. apply eqb_eq in F. congruence.
  - intros E. destruct (eqb x y) eqn:F; auto. apply eqb_eq in F. contradiction.
Qed.

Lemma eqb_dec {A} `{EqB A} (x y : A) : {x = y} + {x <> y}.
Proof.
  destruct (eqb x y) eqn:E.
  - left; apply eqb_eq; auto.
  - right; apply eqb_neq; auto.
Qed.

Lemma eqb_sym {A} `{EqB A} (x y : A) : eqb x y = eqb y x.
Proof.
  destruct (eqb x y) eqn:E; symmetry.
  - apply eqb_eq in E; subst; apply eqb_refl.
  - apply eqb_neq in E; apply eqb_neq; auto.
Qed.

Lemma mem_In {A} `{EqB A} (x : A) l : mem x l = true <-> In x l.
Proof.
  unfold mem; rewrite existsb_exists. split.
  - intros [y [I E]]. apply eqb_eq in E; subst; auto.
  - intros I; exists x; split; auto. apply eqb_refl.
Qed.

Lemma mem_nIn {A} `{EqB A} (x : A) l : mem x l = false <-> ~ In x l.
Proof.
  split; intros E.
  - intros I; apply mem_In in I; congruence.
  - destruct (mem x l) eqn:F; auto. apply mem_In in F; contradiction.
Qed.

(** ** Dictionaries *)
Section DictFacts.
  Context {K V : Type} `{EqB K}.
  Implicit Types (d : dict K V) (k : K).

  Lemma dget_dset_eq k v d : dget k (dset k v d) = Some v.
  Proof.
    induction d as [|[k' v'] r IH]; simpl.
    - now rewrite eqb_refl.
    - destruct (eqb k k') eqn:E; simpl; rewrite E; auto.
  Qed.

  Lemma dget_dset_neq k k' v d : k <> k' -> dget k (dset k' v d) = dget k d.
  Proof.
    intros N. induction d as [|[k2 v2] r IH]; simpl.
    - now rewrite (proj2 (eqb_neq k k') N).
    - destruct (eqb k' k2) eqn:E; simpl.
      + apply eqb_eq in E; subst. now rewrite (proj2 (eqb_neq k k2) N).
      + destruct (eqb k k2); auto.
  Qed.

  Lemma dget_dset k k' v d :
    dget k (dset k' v d) = if eqb k k' then Some v else dget k d.
  Proof.
    destruct (eqb k k') eqn:E.
    - apply eqb_eq in E; subst; apply dget_dset_eq.
    - apply eqb_neq in E; now apply dget_dset_neq.
  Qed.

  Lemma dget_In k v d : dget k d = Some v -> In (k, v) d.
  Proof.
    induction d as [|[k' v'] r IH]; simpl; try discriminate.
    destruct (eqb k k') eqn:E.
    - apply eqb_eq in E; subst. intros [= ->]; auto.
    - auto.
  Qed.

  Lemma dget_In_keys k v d : dget k d = Some v -> In k (dkeys d).
  Proof. intros E. apply dget_In in E. apply (in_map fst) in E; auto. Qed.

  Lemma dget_None k d : dget k d = None <-> ~ In k (dkeys d).
  Proof.
    induction d as [|[k' v'] r IH]; simpl.
    - tauto.
    - destruct (eqb k k') eqn:E.
      + apply eqb_eq in E; subst. split; [discriminate | tauto].
      + apply eqb_neq in E. rewrite IH. intuition.
  Qed.

  Lemma In_dget k v d : NoDup (dkeys d) -> In (k, v) d -> dget k d = Some v.
  Proof.
    induction d as [|[k' v'] r IH]; simpl; try tauto.
    intros ND I. inversion ND as [|? ? NI ND']; subst.
    destruct I as [E | I].
    - inversion E; subst. now rewrite eqb_refl.
    - destruct (eqb k k') eqn:E.
      + apply eqb_eq in E; subst. exfalso; apply NI. apply (in_map fst) in I; auto.
      + auto.
  Qed.

  Lemma dmem_In k d : dmem k d = true <-> In k (dkeys d).
  Proof.
    unfold dmem. destruct (dget k d) eqn:E.
    - apply dget_In_keys in E. tauto.
    - apply dget_None in E. split; [discriminate | tauto].
  Qed.

  Lemma dmem_false k d : dmem k d = false <-> ~ In k (dkeys d).
  Proof.
    rewrite <- dget_None. unfold dmem. destruct (dget k d); split; congruence.
  Qed.

  Lemma In_keys_dget k d : In k (dkeys d) -> exists v, dget k d = Some v.
  Proof.
    intros I. apply dmem_In in I. unfold dmem in I.
    destruct (dget k d); [eauto | discriminate].
  Qed.

  Lemma dkeys_dset k v d :
    dkeys (dset k v d) = if dmem k d then dkeys d else dkeys d ++ [k].
  Proof.
    unfold dmem. induction d as [|[k' v'] r IH]; simpl; auto.
    destruct (eqb k k') eqn:E; simpl; auto.
    rewrite IH. destruct (dget k r); auto.
  Qed.

  Lemma dkeys_dset_mem k v d : In k (dkeys d) -> dkeys (dset k v d) = dkeys d.
  Proof. intros I. rewrite dkeys_dset. apply dmem_In in I; now rewrite I. Qed.

  Lemma In_dkeys_dset k k' v d : In k (dkeys (dset k' v d)) <-> k = k' \/ In k (dkeys d).
  Proof.
    rewrite dkeys_dset. destruct (dmem k' d) eqn:E.
    - apply dmem_In in E. split; [auto | intros [-> | ]; auto].
    - rewrite in_app_iff; simpl. intuition.
  Qed.

  Lemma NoDup_dset k v d : NoDup (dkeys d) -> NoDup (dkeys (dset k v d)).
  Proof.
    intros ND. rewrite dkeys_dset. destruct (dmem k d) eqn:E; auto.
    apply dmem_false in E.
    apply NoDup_Add with (a := k) (l := dkeys d).
    - rewrite <- (app_nil_r (dkeys d)) at 1. apply Add_app.
    - auto.
  Qed.

  Lemma dset_same k v d : dget k d = Some v -> dset k v d = d.
  Proof.
    induction d as [|[k' v'] r IH]; simpl; try discriminate.
    destruct (eqb k k') eqn:E.
    - intros [= ->]; auto.
    - intros F; f_equal; auto.
  Qed.

  Lemma dset_dset k v v' d : dset k v (dset k v' d) = dset k v d.
  Proof.
    induction d as [|[k' w] r IH]; simpl.
    - now rewrite eqb_refl.
    - destruct (eqb k k') eqn:E; simpl; rewrite E; congruence.
  Qed.

  Lemma dset_fresh k v d : ~ In k (dkeys d) -> dset k v d = d ++ [(k, v)].
  Proof.
    induction d as [|[k' v'] r IH]; simpl; auto.
    intros N. rewrite (proj2 (eqb_neq k k')) by intuition. f_equal; auto.
  Qed.

  (** The sequential meaning of an in-place update. *)
  Lemma dset_split k v d :
    In k (dkeys d) -> exists a w b, d = a ++ (k, w) :: b /\ ~ In k (dkeys a)
                                    /\ dset k v d = a ++ (k, v) :: b.
  Proof.
    induction d as [|[k' v'] r IH]; simpl; try tauto.
    intros I. destruct (eqb k k') eqn:E.
    - apply eqb_eq in E; subst. exists [], v', r; simpl; auto.
    - apply eqb_neq in E. destruct IH as (a & w & b & -> & NI & ->).
      { destruct I; [congruence | auto]. }
      exists ((k', v') :: a), w, b; simpl; repeat split; auto.
      intros [? | ?]; [congruence | auto].
  Qed.

  Lemma dict_of_app (l : list (K * V)) d :
    NoDup (dkeys d ++ map fst l) ->
    fold_left (fun d kv => dset (fst kv) (snd kv) d) l d = d ++ l.
  Proof.
    revert d. induction l as [|[k v] r IH]; simpl; intros d ND.
    - now rewrite app_nil_r.
    - assert (NI : ~ In k (dkeys d)).
      { apply NoDup_remove_2 in ND. rewrite in_app_iff in ND. tauto. }
      rewrite dset_fresh by auto. rewrite IH.
      + now rewrite <- app_assoc.
      + unfold dkeys in *. rewrite map_app; simpl. now rewrite <- app_assoc.
  Qed.

  Lemma dict_of_NoDup (l : list (K * V)) : NoDup (map fst l) -> dict_of l = l.
  Proof. intros ND. unfold dict_of. now rewrite dict_of_app. Qed.
End DictFacts.

Lemma dkeys_dmap {K V W} (f : V -> W) (d : dict K V) : dkeys (dmap f d) = dkeys d.
Proof. unfold dkeys, dmap. rewrite map_map. now apply map_ext. Qed.

Lemma dget_dmap {K V W} `{EqB K} (f : V -> W) (d : dict K V) k :
  dget k (dmap f d) = option_map f (dget k d).
Proof.
  induction d as [|[k' v'] r IH]; simpl; auto.
  destruct (eqb k k'); auto.
Qed.

(** ** Lists *)
Lemma nth_error_upd_nth {A} n m (f : A -> A) l :
  nth_error (upd_nth n f l) m =
  if n =? m then option_map f (nth_error l m) else nth_error l m.
Proof.
  revert n m. induction l as [|x r IH]; simpl; intros [|n] [|m]; simpl; auto.
  destruct (n =? m); auto.
Qed.

Lemma length_upd_nth {A} n (f : A -> A) l : length (upd_nth n f l) = length l.
Proof. revert n; induction l; intros [|n]; simpl; auto. Qed.

Lemma nth_error_ext {A} (l m : list A) :
  (forall n, nth_error l n = nth_error m n) -> l = m.
Proof.
  revert m. induction l as [|x r IH]; intros [|y s] E; auto.
  - specialize (E 0); discriminate.
  - specialize (E 0); discriminate.
  - f_equal.
    + specialize (E 0); simpl in E; congruence.
    + apply IH. intros n. exact (E (S n)).
Qed.

Lemma length_tile {A} (l : list A) n : length (tile l n) = n * length l.
Proof.
  unfold tile. induction n; simpl; auto. rewrite app_length. now rewrite IHn.
Qed.

Lemma nth_error_tile {A} (l : list A) n i j :
  i < n -> j < length l -> nth_error (tile l n) (i * length l + j) = nth_error l j.
Proof.
  unfold tile. revert i. induction n; intros i Hi Hj; [lia|]. simpl.
  destruct i; simpl.
  - now rewrite nth_error_app1.
  - rewrite nth_error_app2 by lia.
    replace (length l + i * length l + j - length l) with (i * length l + j) by lia.
    apply IHn; lia.
Qed.

Lemma length_nprepeat {A} (l : list A) n : length (nprepeat l n) = length l * n.
Proof.
  unfold nprepeat. induction l; simpl; auto.
  rewrite app_length, repeat_length. now rewrite IHl.
Qed.

Lemma nth_error_repeat {A} (x : A) n i : i < n -> nth_error (repeat x n) i = Some x.
Proof. revert i; induction n; intros [|i] H; simpl; try lia; auto. apply IHn; lia. Qed.

Lemma nth_error_nprepeat {A} (l : list A) n i j :
  j < n -> nth_error (nprepeat l n) (i * n + j) = nth_error l i.
Proof.
  unfold nprepeat. revert i. induction l as [|x r IH]; intros i Hj; simpl.
  - rewrite (proj2 (nth_error_None (@nil A) _)) by (simpl; lia). now destruct i.
  - destruct i; simpl.
    + rewrite nth_error_app1 by (rewrite repeat_length; lia).
      now apply nth_error_repeat.
    + rewrite nth_error_app2 by (rewrite repeat_length; lia).
      rewrite repeat_length. replace (n + i * n + j - n) with (i * n + j) by lia.
      auto.
Qed.

Lemma list_eqb_nat l m : list_eqb Nat.eqb l m = true <-> l = m.
Proof.
  revert m; induction l as [|x r IH]; intros [|y s]; simpl; try (split; [discriminate|congruence]).
  - tauto.
  - rewrite andb_true_iff, Nat.eqb_eq, IH. split; [intros [-> ->]; auto | intros [= -> ->]; auto].
Qed.

Lemma list_eqb_nat_refl l : list_eqb Nat.eqb l l = true.
Proof. now apply list_eqb_nat. Qed.

Lemma mapM_ok_length {A B} (f : A -> res B) l m : mapM f l = Ok m -> length m = length l.
Proof.
  revert m; induction l as [|x r IH]; simpl; intros m E.
  - inversion E; auto.
  - destruct (f x); simpl in E; try discriminate.
    destruct (mapM f r) eqn:F; simpl in E; try discriminate.
    inversion E; subst; simpl. f_equal; auto.
Qed.

Lemma mapM_ok_nth {A B} (f : A -> res B) l m i x :
  mapM f l = Ok m -> nth_error l i = Some x -> exists y, f x = Ok y /\ nth_error m i = Some y.
Proof.
  revert m i; induction l as [|a r IH]; simpl; intros m i E N.
  - destruct i; discriminate.
  - destruct (f a) as [b|] eqn:Fa; simpl in E; try discriminate.
    destruct (mapM f r) as [bs|] eqn:Fr; simpl in E; try discriminate.
    inversion E; subst. destruct i; simpl in N.
    + inversion N; subst. exists b; auto.
    + destruct (IH bs i eq_refl N) as [y [? ?]]. exists y; auto.
Qed.

Lemma mapM_pure {A B} (f : A -> res B) (g : A -> B) l :
  (forall x, In x l -> f x = Ok (g x)) -> mapM f l = Ok (map g l).
Proof.
  induction l as [|x r IH]; simpl; intros E; auto.
  rewrite E by auto. simpl. rewrite IH by auto. auto.
Qed.

Lemma mapM_ext {A B} (f g : A -> res B) l :
  (forall x, In x l -> f x = g x) -> mapM f l = mapM g l.
Proof.
  induction l as [|x r IH]; simpl; intros E; auto.
  rewrite E by auto. now rewrite IH by auto.
Qed.

Lemma mapM_map {A B C} (f : B -> res C) (g : A -> B) l :
  mapM f (map g l) = mapM (fun x => f (g x)) l.
Proof. induction l; simpl; auto. now rewrite IHl. Qed.

(** ** Rational sums *)
Open Scope Q_scope.

Lemma qlt_lt a b : qlt a b = true <-> a < b.
Proof.
  unfold qlt. rewrite negb_true_iff. split; intros E.
  - apply Qnot_le_lt. intros F. apply Qle_bool_iff in F. congruence.
  - destruct (Qle_bool b a) eqn:F; auto. apply Qle_bool_iff in F. lra.
Qed.

Lemma qlt_false a b : qlt a b = false <-> b <= a.
Proof.
  unfold qlt. rewrite negb_false_iff. apply Qle_bool_iff.
Qed.

Lemma qsum_app a b : qsum (a ++ b) == qsum a + qsum b.
Proof. unfold qsum. induction a; simpl; [lra | rewrite IHa; lra]. Qed.

Lemma qsum_map_ext {A} (f g : A -> Q) l :
  (forall x, In x l -> f x == g x) -> qsum (map f l) == qsum (map g l).
Proof.
  induction l; simpl; intros E; [lra|].
  rewrite (E a) by auto. rewrite IHl by auto. lra.
Qed.

Lemma qsum_map_add {A} (f g : A -> Q) l :
  qsum (map (fun x => f x + g x) l) == qsum (map f l) + qsum (map g l).
Proof. induction l; simpl; [lra | rewrite IHl; lra]. Qed.

Lemma qsum_map_sub {A} (f g : A -> Q) l :
  qsum (map (fun x => f x - g x) l) == qsum (map f l) - qsum (map g l).
Proof. induction l; simpl; [lra | rewrite IHl; lra]. Qed.

Lemma qsum_map_opp {A} (f : A -> Q) l :
  qsum (map (fun x => - f x) l) == - qsum (map f l).
Proof. induction l; simpl; [lra | rewrite IHl; lra]. Qed.

Lemma qsum_map_scal {A} (c : Q) (f : A -> Q) l :
  qsum (map (fun x => c * f x) l) == c * qsum (map f l).
Proof. induction l; simpl; [lra | rewrite IHl; lra]. Qed.

Lemma qsum_map_zero {A} (f : A -> Q) l :
  (forall x, In x l -> f x == 0) -> qsum (map f l) == 0.
Proof. induction l; simpl; intros E; [lra|]. rewrite E, IHl by auto. lra. Qed.

Lemma qsum_nonneg l : (forall x, In x l -> 0 <= x) -> 0 <= qsum l.
Proof.
  induction l; simpl; intros E; [lra|].
  pose proof (E a (or_introl eq_refl)).
  assert (0 <= qsum l) by (apply IHl; auto). lra.
Qed.

Lemma qsum_flat_map {A} (f : A -> list Q) l :
  qsum (flat_map f l) == qsum (map (fun x => qsum (f x)) l).
Proof. induction l; simpl; [lra | rewrite qsum_app, IHl; lra]. Qed.

Lemma qsum_perm l m : Permutation l m -> qsum l == qsum m.
Proof. induction 1; simpl; try lra; rewrite ?IHPermutation; lra. Qed.

Lemma qsum_swap {A B} (f : A -> B -> Q) l m :
  qsum (map (fun x => qsum (map (f x) m)) l)
  == qsum (map (fun y => qsum (map (fun x => f x y) l)) m).
Proof.
  induction l as [|x r IH]; simpl.
  - induction m; simpl; lra.
  - rewrite IH. now rewrite <- qsum_map_add.
Qed.

(** A sum with a single possibly non-zero term. *)
Lemma qsum_single {A} `{EqB A} (f : A -> Q) l a :
  NoDup l -> In a l -> (forall x, In x l -> x <> a -> f x == 0) -> qsum (map f l) == f a.
Proof.
  induction l as [|x r IH]; simpl; intros ND I Z; [tauto|].
  inversion ND; subst. destruct (eqb_dec x a) as [->|N].
  - rewrite qsum_map_zero; [lra|]. intros y Iy. apply Z; auto.
    intros ->; contradiction.
  - rewrite Z by auto. rewrite IH; auto; [lra|]. destruct I; [congruence|auto].
Qed.

Lemma qsum_nth_split {A} (f : A -> Q) l i x :
  nth_error l i = Some x -> exists a b, l = a ++ x :: b /\ length a = i
    /\ qsum (map f l) == qsum (map f a) + f x + qsum (map f b).
Proof.
  intros E. destruct (nth_error_split _ _ E) as (a & b & -> & L).
  exists a, b. repeat split; auto. rewrite map_app, qsum_app; simpl. lra.
Qed.

Close Scope Q_scope.

(** ** tolist / np.array *)
Lemma nth_error_skipn_hd {A} (l : list A) i d : i < length l -> hd d (skipn i l) = nth i l d.
Proof. revert i; induction l; intros [|i] L; simpl in *; try lia; auto. apply IHl; lia. Qed.

Definition np_list : list json -> res (list ndarray) :=
  fix go (l : list json) : res (list ndarray) :=
    match l with
    | [] => Ok []
    | x :: r => let* a := np_array x in let* b := go r in Ok (a :: b)
    end.

Lemma np_list_mapM l : np_list l = mapM np_array l.
Proof. induction l; simpl; auto. destruct (np_array a); simpl; auto. now rewrite IHl. Qed.

Lemma np_array_list l :
  np_array (JList l) =
  let* sub := mapM np_array l in
  match sub with
  | [] => Ok (ND [0] [])
  | a :: rest =>
      if forallb (fun b => list_eqb Nat.eqb (shape b) (shape a)) rest
      then Ok (ND (length sub :: shape a) (flat_map data sub))
      else Err ValueError
  end.
Proof. rewrite <- np_list_mapM. reflexivity. Qed.

Lemma skipn_skipn {A} (l : list A) a b : skipn a (skipn b l) = skipn (b + a) l.
Proof. revert l; induction b; intros l; simpl; auto. destruct l; simpl; auto. now destruct a. Qed.

Lemma concat_chunks {A} (k n : nat) (d : list A) :
  length d = n * k ->
  flat_map (fun i => firstn k (skipn (i * k) d)) (seq 0 n) = d.
Proof.
  revert d. induction n; intros d L; simpl in *.
  - destruct d; simpl in *; auto; lia.
  - rewrite <- (firstn_skipn k d) at 2. f_equal.
    rewrite <- seq_shift, flat_map_concat_map, map_map, <- flat_map_concat_map.
    transitivity (flat_map (fun i => firstn k (skipn (i * k) (skipn k d))) (seq 0 n)).
    + rewrite !flat_map_concat_map. f_equal. apply map_ext. intros i.
      rewrite skipn_skipn. reflexivity.
    + apply IHn. rewrite skipn_length; lia.
Qed.

(** An array without empty axis is recovered from its nested list. *)
Lemma np_array_tolist (s : list nat) (d : list Q) :
  length d = size_of s -> Forall (fun n => 0 < n) s ->
  np_array (tolist s d) = Ok (ND s d).
Proof.
  revert d. induction s as [|n s IH]; intros d L P.
  - simpl in *. destruct d as [|q [|]]; simpl in *; try lia. reflexivity.
  - cbn [tolist]. rewrite np_array_list. rewrite mapM_map.
    rewrite (mapM_pure _ (fun i => ND s (firstn (size_of s) (skipn (i * size_of s) d)))).
    2: { intros i Hi. apply in_seq in Hi. apply IH.
         - rewrite firstn_length, skipn_length. simpl in L. rewrite L.
           apply Nat.min_l. change (size_of (n :: s)) with (n * size_of s) in L.
           assert (S i * size_of s <= n * size_of s) by (apply Nat.mul_le_mono_r; lia). simpl in *. lia.
         - now inversion P. }
    inversion P; subst. destruct n; [lia|].
    cbn [rbind].
    set (g := fun i : nat => ND s (firstn (size_of s) (skipn (i * size_of s) d))).
    change (map g (seq 0 (S n))) with (g 0 :: map g (seq 1 n)).
    cbn -[g]. rewrite map_length, seq_length.
    replace (forallb _ _) with true.
    2: { symmetry. apply forallb_forall. intros b Hb. apply in_map_iff in Hb.
         destruct Hb as [i [<- _]]. apply list_eqb_nat_refl. }
    f_equal. unfold g at 1; cbn [shape]. f_equal.
    transitivity (flat_map (fun i => firstn (size_of s) (skipn (i * size_of s) d)) (seq 0 (S n))).
    + cbn [seq flat_map]. f_equal. rewrite !flat_map_concat_map, map_map. reflexivity.
    + apply concat_chunks. exact L.
Qed.

Lemma nd_array_tolist a :
  nd_wf a -> Forall (fun n => 0 < n) (shape a) -> np_array (nd_tolist a) = Ok a.
Proof. intros. destruct a; unfold nd_tolist; apply np_array_tolist; auto. Qed.

(** ** Python indices *)
Lemma pyindex_nat n i : i < n -> pyindex n (Z.of_nat i) = Some i.
Proof.
  intros H. unfold pyindex.
  replace (0 <=? Z.of_nat i)%Z with true by (symmetry; apply Z.leb_le; lia).
  replace (Z.of_nat i <? Z.of_nat n)%Z with true by (symmetry; apply Z.ltb_lt; lia).
  simpl. now rewrite Nat2Z.id.
Qed.

Lemma pyindex_ge n z : (Z.of_nat n <= z)%Z -> pyindex n z = None.
Proof.
  intros H. unfold pyindex.
  replace (z <? Z.of_nat n)%Z with false by (symmetry; apply Z.ltb_ge; lia).
  rewrite andb_false_r.
  replace (z <? 0)%Z with false by (symmetry; apply Z.ltb_ge; lia).
  now rewrite andb_false_r.
Qed.

Lemma pyindex_lt n z k : pyindex n z = Some k -> k < n.
Proof.
  unfold pyindex.
  destruct ((0 <=? z)%Z && (z <? Z.of_nat n)%Z) eqn:E.
  - apply andb_true_iff in E as [A B]. apply Z.leb_le in A. apply Z.ltb_lt in B.
    intros [= <-]. lia.
  - destruct ((- Z.of_nat n <=? z)%Z && (z <? 0)%Z) eqn:F; [|discriminate].
    apply andb_true_iff in F as [A B]. apply Z.leb_le in A. apply Z.ltb_lt in B.
    intros [= <-]. lia.
Qed.
