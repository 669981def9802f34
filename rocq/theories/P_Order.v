(** C37 exactly: what becomes of every query, and which orders of the axes agree. *)
From Coq Require Import String Ascii List ZArith QArith Bool Arith Lia Permutation.
From Verif Require Import Base BaseFacts Analyzer SpecAnalyzer AnalyzerFacts QueryFacts P_Query P_Reuse.
Import ListNotations.
Open Scope nat_scope.
Open Scope string_scope.
Open Scope list_scope.

(** The first argument selects nothing. *)
Definition void_first (q : query) : Prop := exists a x rest, q = (a, x) :: rest /\ void x.
(** A single cell is asked for and exists. *)
Definition one_cell (q : query) (tb : table) : Prop :=
  (forall a x, In (a, x) q -> ~ several x) /\ exists r, In r (tb_rows tb) /\ matches q r.

Lemma several_dec q ixs : Forall2 (fun ax i => ix_ok (fst ax) (snd ax) i) q ixs ->
  (exists a x, In (a, x) q /\ several x) \/ (forall a x, In (a, x) q -> ~ several x).
Proof.
  induction 1 as [| [a x] i q ixs K _ IH]; [right; intros a x [] |].
  destruct (is_alone i) eqn:A.
  - destruct IH as [(b & y & I & V) | N]; [left; exists b, y; split; [right |]; auto |].
    right. intros b y [X | I]; [| eauto]. injection X as <- <-. intros V. apply (xo_alone _ _ _ K) in V. simpl in V. congruence.
  - left. exists a, x. split; [left; reflexivity |]. apply (xo_alone _ _ _ K). exact A.
Qed.

Lemma void_first_dec q ixs : Forall2 (fun ax i => ix_ok (fst ax) (snd ax) i) q ixs -> void_first q \/ ~ void_first q.
Proof.
  intros O. inversion O as [| [a x] i q' ixs' K _]; subst; [right; intros (a & x & r & X & _); discriminate X |].
  destruct (is_alone i) eqn:A.
  - destruct (ix_index i) eqn:Ei.
    + left. exists a, x, q'. split; auto. apply (xo_void _ _ _ K A Ei).
    + right. intros (b & y & r & X & V). injection X as <- <- <-. destruct (xo_empty _ _ _ K V) as (_ & Z). simpl in Z. congruence.
  - right. intros (b & y & r & X & V). injection X as <- <- <-. destruct (xo_empty _ _ _ K V) as (Z & _). simpl in Z. congruence.
Qed.

Lemma match_dec el tb q ixs : keyed el tb -> whole el q -> Forall2 (fun ax i => ix_ok (fst ax) (snd ax) i) q ixs ->
  (exists r, In r (tb_rows tb) /\ matches q r) \/ (forall r, In r (tb_rows tb) -> ~ matches q r).
Proof.
  intros Ky Wh O. destruct (filter (fun r => forallb (fun i => ix_keeps i r) ixs) (tb_rows tb)) as [| r l] eqn:F.
  - right. intros r I M. assert (J : In r (filter (fun r => forallb (fun i => ix_keeps i r) ixs) (tb_rows tb)))
      by (apply (F_In el tb q ixs Ky Wh O); auto). rewrite F in J. exact J.
  - left. exists r. apply (F_In el tb q ixs Ky Wh O). rewrite F. left. reflexivity.
Qed.

Lemma first_not_void q : ~ void_first q -> forall a x rest, q = (a, x) :: rest -> ~ void x.
Proof. intros N a x rest E V. apply N. exists a, x, rest. auto. Qed.

(** Every query on the table of an element ends in one of two ways: IndexError, exactly when
    the first argument selects nothing or a single existing cell is asked for; else the
    table of the rows it asks for. *)
Theorem C37_outcome an el tb q : table_of an el = Some tb -> keyed el tb -> whole el q -> accepted q ->
  (answer an q = Err IndexError <-> void_first q \/ one_cell q tb) /\
  (~ (void_first q \/ one_cell q tb) -> exists f, answer an q = Ok (Some f) /\ answers q tb f).
Proof.
  intros T Ky Wh Ac. destruct (indexes_ok q Ac) as (ixs & E & O). unfold answer. rewrite E. cbn [rbind].
  rewrite (filter_table an el tb q ixs T Wh O).
  assert (Good : ~ (void_first q \/ one_cell q tb) -> exists f, pivot ixs tb = Ok f).
  { intros N. assert (NV : forall a x rest, q = (a, x) :: rest -> ~ void x) by (apply first_not_void; tauto).
    destruct (several_dec q ixs O) as [V | V]; [apply (pivot_total el tb q ixs); auto |].
    destruct (match_dec el tb q ixs Ky Wh O) as [M | M].
    - exfalso. apply N. right. split; auto.
    - apply (pivot_none el tb q ixs); auto. }
  split.
  - split.
    + intros X. destruct (void_first_dec q ixs O) as [V | V]; [auto |]. right.
      destruct (several_dec q ixs O) as [W | W].
      * exfalso. destruct (pivot_total el tb q ixs Ky Wh O W (first_not_void q V)) as (f & P). rewrite P in X. discriminate X.
      * split; auto. destruct (match_dec el tb q ixs Ky Wh O) as [M | M]; auto. exfalso.
        destruct (pivot_none el tb q ixs Ky Wh O M (first_not_void q V)) as (f & P). rewrite P in X. discriminate X.
    + intros [(a & x & rest & -> & V) | (NS & M)].
      * rewrite (pivot_eq el tb _ ixs Ky Wh O). inversion O as [| ? i ? ixs' K _]; subst. cbn [fst snd] in K.
        destruct (xo_empty _ _ _ K V) as (A & Ei). cbn [remove_useless]. rewrite A, Ei. reflexivity.
      * rewrite (pivot_fails el tb q ixs Ky Wh O NS M). reflexivity.
  - intros N. destruct (Good N) as (f & P). exists f. rewrite P. split; auto. eapply pivot_answers; eauto.
Qed.

(** Two orders of the same axes agree (the same failure, or the same rows and values)
    exactly when both or none of them begin with an argument that selects nothing. *)
Theorem C37_exact an el tb q q' : table_of an el = Some tb -> keyed el tb -> whole el q -> accepted q -> Permutation q q' ->
  (((exists f f', answer an q = Ok (Some f) /\ answer an q' = Ok (Some f') /\ same_answer q q' tb f f') \/
    (answer an q = Err IndexError /\ answer an q' = Err IndexError)) <->
   (void_first q <-> void_first q')).
Proof.
  intros T Ky Wh Ac P.
  assert (Wh' : whole el q') by (unfold whole in *; rewrite <- Wh; apply Permutation_map, Permutation_sym, P).
  assert (Ac' : accepted q') by (intros a x I; apply Ac; apply (Permutation_in _ (Permutation_sym P)); exact I).
  destruct (C37_outcome an el tb q T Ky Wh Ac) as (F & G). destruct (C37_outcome an el tb q' T Ky Wh' Ac') as (F' & G').
  assert (One : one_cell q tb <-> one_cell q' tb).
  { unfold one_cell. split; intros (A & r & J & M); split.
    - intros a x K. apply (A a x). apply (Permutation_in _ (Permutation_sym P)). exact K.
    - exists r. split; auto. exact (matches_perm q q' r P M).
    - intros a x K. apply (A a x). apply (Permutation_in _ P). exact K.
    - exists r. split; auto. exact (matches_perm q' q r (Permutation_sym P) M). }
  assert (No : forall p, void_first p -> (forall a x, In (a, x) p -> In (a, x) q) -> ~ one_cell q tb).
  { intros p (a & x & rest & -> & V) K (_ & r & _ & M). apply (V _ (M a x (K a x (or_introl eq_refl)))). }
  assert (In' : forall a x, In (a, x) q' -> In (a, x) q) by (intros a x; apply (Permutation_in _ (Permutation_sym P))).
  destruct (indexes_ok q Ac) as (ixs & _ & O). destruct (indexes_ok q' Ac') as (ixs' & _ & O').
  destruct (void_first_dec q ixs O) as [V | V], (void_first_dec q' ixs' O') as [V' | V'].
  - split; [tauto |]. intros _. right. split; [apply F | apply F']; auto.
  - split; [| tauto]. intros K. exfalso.
    assert (X : answer an q = Err IndexError) by (apply F; auto).
    assert (Y : answer an q' <> Err IndexError).
    { intros Y. apply F' in Y. destruct Y as [Y | Y]; [contradiction |]. apply One in Y. apply (No q V (fun a x I => I) Y). }
    destruct K as [(f & f' & K & _) | (_ & K)]; congruence.
  - split; [| tauto]. intros K. exfalso.
    assert (X : answer an q' = Err IndexError) by (apply F'; auto).
    assert (Y : answer an q <> Err IndexError).
    { intros Y. apply F in Y. destruct Y as [Y | Y]; [contradiction |]. apply (No q' V' In' Y). }
    destruct K as [(f & f' & _ & K & _) | (K & _)]; congruence.
  - split; [tauto |]. intros _.
    destruct (several_dec q ixs O) as [W | W].
    1: assert (N : ~ one_cell q tb) by (intros (A & _); destruct W as (a & x & I & S); apply (A a x I S)).
    2: destruct (match_dec el tb q ixs Ky Wh O) as [M | M];
       [right; split; [apply F | apply F']; right; [| apply One]; split; auto |
        assert (N : ~ one_cell q tb) by (intros (_ & r & I & K); apply (M r I K))].
    all: left; assert (N' : ~ one_cell q' tb) by (intros K; apply N; apply One; exact K);
      destruct G as (f & Hf & Af); [tauto |]; destruct G' as (f' & Hf' & Af'); [tauto |];
      exists f, f'; split; auto; split; auto; apply answers_same; auto.
Qed.

(** An empty tuple in the second place is harmless, in the first it is not. *)
Example C37_exact_example :
  whole ACons ask_none /\ accepted ask_none /\ Permutation ask_none ask_none' /\ keyed ACons (an_cons mix_an) /\
  void_first ask_none /\ ~ void_first ask_none'.
Proof.
  split; [perm_tac |]. split; [accepted_tac |]. split; [apply perm_swap |]. split; [apply mix_keyed |]. split.
  - exists ANetwork, (ITuple []), (tl ask_none). split; [reflexivity |]. intros c K. exact K.
  - intros (a & x & rest & E & V). injection E as <- <- <-. exact (V CNaN I).
Qed.

Print Assumptions C37_outcome.
Print Assumptions C37_exact.
