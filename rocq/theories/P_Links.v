(** C46 exactly: which lists of stages [+] accepts, which ones the constructor accepts. *)
From Coq Require Import String Ascii List ZArith QArith Bool Arith Lia Permutation.
From Verif Require Import Base BaseFacts Frame Pipeline SpecWorkflow P_Plugs.
Import ListNotations.
Open Scope nat_scope.
Open Scope string_scope.
Open Scope list_scope.

Lemma nth_error_prefix {T} (a b : list T) i : i < length a -> nth_error (a ++ b) i = nth_error a i.
Proof. intros L. apply nth_error_app1. exact L. Qed.

Lemma offers_prefix pre rest n : offers (pre ++ rest) (length pre) n <-> offers pre (length pre) n.
Proof.
  unfold offers. split; intros (i & ins & outs & L & E & I & K); exists i, ins, outs.
  - rewrite nth_error_prefix in E by exact L. repeat (split; auto).
    intros j x y L1 L2 Ej. apply (K j x y L1 L2). rewrite nth_error_prefix by exact L2. exact Ej.
  - rewrite nth_error_prefix by exact L. repeat (split; auto).
    intros j x y L1 L2 Ej. rewrite nth_error_prefix in Ej by exact L2. apply (K j x y L1 L2 Ej).
Qed.

(** One more contract. *)
Lemma offers_snoc_needs pre ins outs n :
  offers (pre ++ [Needs ins outs]) (length (pre ++ [Needs ins outs])) n <->
  In n outs \/ (offers pre (length pre) n /\ ~ In n ins).
Proof.
  rewrite app_length. simpl. unfold offers. split.
  - intros (i & x & y & L & E & I & K). destruct (Nat.eq_dec i (length pre)) as [-> | N].
    + rewrite nth_error_app2, Nat.sub_diag in E by lia. simpl in E. injection E as <- <-. auto.
    + rewrite nth_error_prefix in E by lia. right. split.
      * exists i, x, y. split; [lia |]. repeat (split; auto).
        intros j a b L1 L2 Ej. apply (K j a b L1 ltac:(lia)). rewrite nth_error_prefix by exact L2. exact Ej.
      * apply (K (length pre) ins outs); try lia. rewrite nth_error_app2, Nat.sub_diag by lia. reflexivity.
  - intros [I | ((i & x & y & L & E & I & K) & J)].
    + exists (length pre), ins, outs. split; [lia |]. rewrite nth_error_app2, Nat.sub_diag by lia.
      repeat (split; auto). intros j a b L1 L2. lia.
    + exists i, x, y. split; [lia |]. rewrite nth_error_prefix by exact L. repeat (split; auto).
      intros j a b L1 L2 Ej. destruct (Nat.eq_dec j (length pre)) as [-> | N].
      * rewrite nth_error_app2, Nat.sub_diag in Ej by lia. simpl in Ej. injection Ej as <- <-. exact J.
      * rewrite nth_error_prefix in Ej by lia. apply (K j a b); auto. lia.
Qed.
Lemma offers_snoc_any pre n :
  offers (pre ++ [Anything]) (length (pre ++ [Anything])) n <-> offers pre (length pre) n.
Proof.
  rewrite app_length. simpl. unfold offers. split; intros (i & x & y & L & E & I & K); exists i, x, y.
  - assert (i <> length pre).
    { intros ->. rewrite nth_error_app2, Nat.sub_diag in E by lia. discriminate E. }
    rewrite nth_error_prefix in E by lia. split; [lia |]. repeat (split; auto).
    intros j a b L1 L2 Ej. apply (K j a b L1 ltac:(lia)). rewrite nth_error_prefix by exact L2. exact Ej.
  - split; [lia |]. rewrite nth_error_prefix by exact L. repeat (split; auto).
    intros j a b L1 L2 Ej. destruct (Nat.eq_dec j (length pre)) as [-> | N].
    + rewrite nth_error_app2, Nat.sub_diag in Ej by lia. discriminate Ej.
    + rewrite nth_error_prefix in Ej by lia. apply (K j a b); auto. lia.
Qed.

Definition restricted_in (pre : list contract) : Prop := exists i x y, nth_error pre i = Some (Needs x y).

(** What the sum built so far says of the stages it is built from. *)
Definition sums (h : lheap) (acc : plug) (pre : list contract) : Prop :=
  (p_free acc = false <-> restricted_in pre) /\
  (p_free acc = false -> forall n, In n (lget h (p_out acc)) <-> offers pre (length pre) n).

Lemma restricted_snoc pre c : restricted_in (pre ++ [c]) <-> restricted_in pre \/ c <> Anything.
Proof.
  unfold restricted_in. split.
  - intros (i & x & y & E). destruct (Nat.ltb_spec i (length pre)) as [L | L].
    + rewrite nth_error_prefix in E by exact L. left. eauto.
    + rewrite nth_error_app2 in E by exact L. right. intros ->.
      destruct (i - length pre) as [| k]; simpl in E; [discriminate E | destruct k; discriminate E].
  - intros [(i & x & y & E) | N].
    + exists i, x, y. rewrite nth_error_prefix; auto. apply nth_error_Some. congruence.
    + destruct c as [| x y]; [congruence |]. exists (length pre), x, y. rewrite nth_error_app2, Nat.sub_diag by lia. reflexivity.
Qed.

Lemma no_offers pre n : ~ restricted_in pre -> ~ offers pre (length pre) n.
Proof. intros N (i & x & y & _ & E & _). apply N. exists i, x, y. exact E. Qed.

Lemma sums_add h acc q pre : plug_ok h acc -> plug_ok h q -> sums h acc pre ->
  sums (fst (plug_add h acc q)) (snd (plug_add h acc q)) (pre ++ [view h q]).
Proof.
  intros (A1 & A2) (Q1 & Q2) (F & O). unfold sums. rewrite plug_add_free, restricted_snoc, andb_false_iff, F.
  split.
  { unfold view. destruct (p_free q); split; intros [K | K]; auto; try discriminate; try congruence.
    right. discriminate. }
  unfold plug_add, deepcopy, view. destruct (p_free acc) eqn:FA, (p_free q) eqn:FQ; cbn [negb].
  - intros [K | K]; [apply F in K |]; discriminate.
  - intros _ n. rewrite offers_snoc_needs.
    assert (NR : ~ offers pre (length pre) n) by (apply no_offers; intros R; apply F in R; discriminate).
    destruct (Nat.eqb_spec (p_in q) (p_out q)) as [X | X]; cbn [fst snd p_out].
    + rewrite lget_new, X. tauto.
    + rewrite lget_new2. tauto.
  - intros _ n. cbn [fst snd]. rewrite offers_snoc_any. apply O. reflexivity.
  - intros _ n. cbn [fst snd p_out]. rewrite offers_snoc_needs, lget_upd, Nat.eqb_refl by exact Q2.
    rewrite in_app_iff, filter_In, negb_true_iff, mem_nIn, (O eq_refl n). reflexivity.
Qed.

(** The test made on the next stage. *)
Lemma linkable_fed h acc q pre rest : sums h acc pre ->
  (linkable_to h acc q = true <-> fed (pre ++ view h q :: rest) (length pre)).
Proof.
  intros (F & O). unfold linkable_to, fed, view. rewrite nth_error_app2, Nat.sub_diag by lia. cbn [nth_error].
  destruct (p_free acc) eqn:FA.
  - split; auto. intros _ ins outs _ (i & x & y & L & E). exfalso.
    assert (R : true = false) by (apply F; exists i, x, y; rewrite nth_error_prefix in E by exact L; exact E). discriminate R.
  - destruct (p_free q) eqn:FQ; [split; [intros _ ins outs E; discriminate E | reflexivity] |].
    rewrite forallb_forall. split.
    + intros K ins outs E _ n I. injection E as <- <-. apply offers_prefix. apply (O eq_refl). apply mem_In. auto.
    + intros K n I. apply mem_In. apply (O eq_refl). eapply offers_prefix. eapply K; eauto.
      destruct (proj1 F eq_refl) as (i & x & y & E). exists i, x, y.
      assert (L : i < length pre) by (apply nth_error_Some; congruence).
      split; auto. rewrite nth_error_prefix by exact L. exact E.
Qed.

(** Stages that do not share their lists keep what they say. *)
Definition apart (q : plug) (qs : list plug) : Prop :=
  forall r, In r qs -> p_in r <> p_out q /\ p_out r <> p_out q.
Fixpoint all_apart (qs : list plug) : Prop :=
  match qs with [] => True | q :: r => apart q r /\ all_apart r end.

Lemma views_kept h acc q qs : apart q qs -> (forall r, In r qs -> plug_ok h r) ->
  map (view (fst (plug_add h acc q))) qs = map (view h) qs.
Proof.
  intros A W. apply map_ext_in. intros r I. destruct (A r I) as (N1 & N2). destruct (W r I) as (W1 & W2).
  unfold view. destruct (p_free r); auto.
  rewrite !plug_add_lget by assumption.
  destruct (Nat.eqb_spec (p_in r) (p_out q)); [congruence |]. destruct (Nat.eqb_spec (p_out r) (p_out q)); [congruence |].
  rewrite !andb_false_r. reflexivity.
Qed.

Lemma plus_loop_iff qs : forall h acc pre, plug_ok h acc -> (forall q, In q qs -> plug_ok h q) -> all_apart qs -> sums h acc pre ->
  (is_ok (plus_loop h acc qs) = true <-> forall k, length pre <= k -> fed (pre ++ map (view h) qs) k).
Proof.
  induction qs as [| q qs IH]; intros h acc pre Wa W A U; simpl.
  - rewrite app_nil_r. split; auto. intros _ k L ins outs E. exfalso.
    assert (k < length pre) by (apply nth_error_Some; congruence). lia.
  - destruct A as (A1 & A2). pose proof (linkable_fed h acc q pre (map (view h) qs) U) as Lk.
    assert (Wq : plug_ok h q) by (apply W; left; reflexivity).
    specialize (IH (fst (plug_add h acc q)) (snd (plug_add h acc q)) (pre ++ [view h q])).
    rewrite views_kept in IH; auto; [| intros r I; apply W; right; exact I].
    rewrite <- app_assoc in IH. simpl in IH.
    destruct (linkable_to h acc q).
    + rewrite IH; auto.
      * rewrite app_length. simpl. split; intros K k L.
        -- destruct (Nat.eq_dec k (length pre)) as [-> | N]; [apply Lk; reflexivity | apply K; lia].
        -- apply K. lia.
      * apply plug_add_ok; auto.
      * intros r I. eapply plug_ok_mono; [apply plug_add_length | apply W; right; exact I].
      * apply sums_add; auto.
    + split; [discriminate |]. intros K. exfalso. 
      assert (X : false = true) by (apply Lk; apply K; lia). discriminate X.
Qed.

Lemma ctor_loop_iff qs : forall h acc curr pre c, plug_ok h acc -> (forall q, In q qs -> plug_ok h q) -> all_apart qs ->
  sums h acc (pre ++ [c]) -> same_outs h acc curr -> (c = Anything <-> p_free curr = true) ->
  (is_ok (ctor_loop h acc curr qs) = true <->
   forall k, length pre < k -> after_contract (pre ++ c :: map (view h) qs) k -> fed (pre ++ c :: map (view h) qs) k).
Proof.
  induction qs as [| q qs IH]; intros h acc curr pre c Wa W A U So Fc; simpl.
  - split; auto. intros _ k L _ ins outs E. exfalso.
    assert (k < length (pre ++ [c])) by (apply nth_error_Some; congruence). rewrite app_length in *. simpl in *. lia.
  - destruct A as (A1 & A2). pose proof (linkable_fed h acc q (pre ++ [c]) (map (view h) qs) U) as Lk.
    rewrite app_length, <- app_assoc in Lk. simpl in Lk.
    assert (Wq : plug_ok h q) by (apply W; left; reflexivity).
    specialize (IH (fst (plug_add h acc q)) (snd (plug_add h acc q)) q (pre ++ [c]) (view h q)).
    rewrite views_kept in IH; auto; [| intros r I; apply W; right; exact I].
    rewrite app_length, <- !app_assoc in IH. simpl in IH.
    assert (Ac : after_contract (pre ++ c :: view h q :: map (view h) qs) (length pre + 1) <-> p_free curr = false).
    { unfold after_contract. split.
      - intros (i & x & y & E & N). assert (i = length pre) by lia. subst i.
        rewrite nth_error_app2, Nat.sub_diag in N by lia. simpl in N. injection N as ->.
        destruct (p_free curr); auto. exfalso. assert (Needs x y = Anything) by (apply Fc; reflexivity). discriminate.
      - intros K. exists (length pre). destruct c as [| x y].
        + exfalso. assert (p_free curr = true) by (apply Fc; reflexivity). congruence.
        + exists x, y. split; [lia |]. rewrite nth_error_app2, Nat.sub_diag by lia. reflexivity. }
    assert (Lc : linkable_to h curr q = true <-> (p_free curr = false -> fed (pre ++ c :: view h q :: map (view h) qs) (length pre + 1))).
    { destruct (p_free curr) eqn:FC.
      - unfold linkable_to. rewrite FC. split; auto. discriminate.
      - rewrite <- (linkable_same h acc curr q So FC). rewrite Lk. split; auto. }
    destruct (linkable_to h curr q).
    + rewrite IH; auto.
      * split; intros K k L Af.
        -- destruct (Nat.eq_dec k (length pre + 1)) as [-> | N]; [apply Lc; auto; apply Ac; auto | apply K; auto; lia].
        -- apply K; auto. lia.
      * apply plug_add_ok; auto.
      * intros r I. eapply plug_ok_mono; [apply plug_add_length | apply W; right; exact I].
      * pose proof (sums_add h acc q (pre ++ [c]) Wa Wq U) as X. rewrite <- app_assoc in X. exact X.
      * apply same_outs_add. exact Wq.
      * unfold view. destruct (p_free q); split; intros; auto; discriminate.
    + split; [discriminate |]. intros K. exfalso.
      assert (X : false = true).
      { apply Lc. intros FC. apply K; [lia |]. apply Ac. exact FC. }
      discriminate X.
Qed.

Lemma sums_one h p : plug_ok h p -> sums h p [view h p].
Proof.
  intros W. unfold sums, view. split.
  - unfold restricted_in. destruct (p_free p); split; intros K; auto; try discriminate.
    + destruct K as (i & x & y & E). destruct i as [| i]; simpl in E; [discriminate E | destruct i; discriminate E].
    + exists 0. simpl. eauto.
  - intros ->. intros n. simpl. split.
    + intros I. exists 0. do 2 eexists. split; [lia |]. split; [reflexivity |]. split; [exact I |]. intros; lia.
    + intros (i & x & y & L & E & I & _). destruct i; [| lia]. simpl in E. injection E as <- <-. exact I.
Qed.

Lemma separate_apart w l : separate w l -> all_apart (map (plug_of w) l).
Proof.
  intros (N & D). induction l as [| a l IH]; simpl; auto.
  simpl in N. inversion N as [| ? ? N1 N2]; subst. split.
  - intros r I. apply in_map_iff in I. destruct I as (b & <- & I). split.
    + intros E. apply (D a b); simpl; auto.
    + intros E. apply N1. apply in_map_iff. exists b. auto.
  - apply IH; auto. intros x y I J. apply D; right; assumption.
Qed.

Section Exact.
  Context (w : world) (l a b : nat) (rest : list nat).
  Hypothesis W : world_ok w.
  Hypothesis Ll : l < length (slists w).
  Hypothesis E : slist_at w l = a :: b :: rest.
  Hypothesis D : separate w (a :: b :: rest).
  (** What the stages say. *)
  Let cs := map (fun x => view (lists w) (plug_of w x)) (a :: b :: rest).

  Lemma all_ok x : In x (a :: b :: rest) -> plug_ok (lists w) (plug_of w x).
  Proof.
    intros I. apply plug_of_ok; auto. destruct W as (_ & W' & _). apply (W' (slist_at w l)); [| rewrite E; exact I].
    unfold slist_at. apply nth_In. exact Ll.
  Qed.

  Lemma cs_eq : cs = [view (lists w) (plug_of w a)] ++ map (view (lists w)) (map (plug_of w) (b :: rest)).
  Proof. unfold cs. simpl. rewrite map_map. reflexivity. Qed.

  (** [+] accepts the stages iff each stage with a contract, but the first one, gets all it
      asks for. *)
  Theorem C46_plus_exact : is_ok (snd (chain w a b rest)) = true <-> forall k, fed cs k.
  Proof.
    rewrite chain_ok. rewrite cs_eq.
    pose proof (separate_apart _ _ D) as A. simpl in A. destruct A as (_ & A).
    rewrite (plus_loop_iff _ _ _ [view (lists w) (plug_of w a)]).
    - split; intros K k; [| auto]. destruct k as [| k]; [| apply K; simpl; lia].
      intros ins outs _ (i & _ & _ & L & _). lia.
    - apply all_ok. left. reflexivity.
    - intros q I. apply in_map_iff in I. destruct I as (x & <- & I). apply all_ok. right. exact I.
    - exact A.
    - apply sums_one. apply all_ok. left. reflexivity.
  Qed.

  (** The constructor looks only at the stages directly after one with a contract. *)
  Theorem C46_constructor_exact :
    is_ok (snd (new_pipeline w l)) = true <-> forall k, after_contract cs k -> fed cs k.
  Proof.
    rewrite (new_pipeline_ok w l a (b :: rest) E). rewrite cs_eq.
    pose proof (separate_apart _ _ D) as A. simpl in A. destruct A as (_ & A).
    rewrite (ctor_loop_iff _ _ _ _ [] (view (lists w) (plug_of w a))).
    - split; intros K k; [| simpl; auto]. intros Af. destruct k as [| k]; [| apply K; simpl; auto; lia].
      intros ins outs _ (i & _ & _ & L & _). lia.
    - apply all_ok. left. reflexivity.
    - intros q I. apply in_map_iff in I. destruct I as (x & <- & I). apply all_ok. right. exact I.
    - exact A.
    - apply sums_one. apply all_ok. left. reflexivity.
    - intros F. auto.
    - unfold view. destruct (p_free (plug_of w a)); split; auto; discriminate.
  Qed.

  (** So both agree exactly if, whenever all stages directly after a contract are fed, the
      others are too. *)
  Theorem C46_same_exact :
    is_ok (snd (chain w a b rest)) = is_ok (snd (new_pipeline w l)) <->
    ((forall k, after_contract cs k -> fed cs k) -> forall k, ~ after_contract cs k -> fed cs k).
  Proof.
    pose proof C46_plus_exact as P. pose proof C46_constructor_exact as C.
    assert (Dec : forall k, after_contract cs k \/ ~ after_contract cs k).
    { intros [| k]; [right; intros (i & _ & _ & X & _); discriminate X |].
      destruct (nth_error cs k) as [[| x y] |] eqn:N.
      - right. intros (i & x & y & X & Y). injection X as <-. congruence.
      - left. exists k, x, y. auto.
      - right. intros (i & x & y & X & Y). injection X as <-. congruence. }
    split.
    - intros K Y k _. apply P. rewrite K. apply C. exact Y.
    - intros K. apply Bool.eq_iff_eq_true. rewrite P, C. split; [intros Y k _; apply Y |].
      intros Y k. destruct (Dec k) as [A | A]; [apply Y | apply K]; auto.
  Qed.
End Exact.

(** A renaming, a clipping, a renaming that needs another column: [+] refuses, the
    constructor accepts; with the column that the first one offers, both accept. *)
Example C46_exact_example :
  let w := run nothing [rename_op [("a", "b"); ("c", "e")]; clip_op; rename_op [("z", "d")]; rename_op [("e", "f")];
                        NewList [0; 1; 2]; NewList [0; 1; 3]] in
  let says l := map (fun x => view (lists w) (plug_of w x)) l in
  separate w [0; 1; 2] /\ separate w [0; 1; 3] /\
  says [0; 1; 2] = [Needs ["a"; "c"] ["b"; "e"]; Anything; Needs ["z"] ["d"]] /\
  ~ fed (says [0; 1; 2]) 2 /\ offers (says [0; 1; 3]) 2 "e" /\
  is_ok (snd (chain w 0 1 [2])) = false /\ is_ok (snd (new_pipeline w 0)) = true /\
  is_ok (snd (chain w 0 1 [3])) = true /\ is_ok (snd (new_pipeline w 1)) = true.
Proof.
  cbn. split; [| split].
  1, 2: split; [repeat constructor; simpl; intuition discriminate |];
        intros x y I J; cbn in I, J; intuition (subst; discriminate).
  split; [reflexivity |]. split.
  - intros K. destruct (K ["z"] ["d"] eq_refl) with (n := "z") as (i & x & y & L & N & I & _).
    + exists 0, ["a"; "c"], ["b"; "e"]. split; [lia | reflexivity].
    + left. reflexivity.
    + destruct i as [| [| i]]; [| discriminate N | lia]. injection N as <- <-. cbn in I. intuition discriminate.
  - split; [| repeat split; reflexivity].
    exists 0, ["a"; "c"], ["b"; "e"]. split; [lia |]. split; [reflexivity |]. split; [cbn; tauto |].
    intros j x y L1 L2 N. assert (j = 1) by lia. subst j. discriminate N.
Qed.

Print Assumptions C46_plus_exact.
Print Assumptions C46_constructor_exact.
Print Assumptions C46_same_exact.
