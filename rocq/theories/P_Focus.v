(** C52, C53: stages working scenario by scenario, and the fault stage. *)
From Coq Require Import String Ascii List ZArith QArith Bool Arith Lia Lqa Permutation.
From Verif Require Import Base BaseFacts Frame Pipeline SpecWorkflow P_Stages.
From Verif Require QueryFacts.
Import ListNotations.
Open Scope nat_scope.
Open Scope string_scope.
Open Scope list_scope.

(** ** The loop over the scenarios *)
Lemma fill_skip scn cols vals : (forall kc, In kc cols -> fst (fst kc) <> scn) -> fill scn cols vals = cols.
Proof.
  induction cols as [| [k c] r IH]; simpl; intros K; auto.
  destruct (label_eqb (fst k) scn) eqn:E.
  - apply label_eqb_eq in E. exfalso. apply (K (k, c)); auto.
  - rewrite IH; auto.
Qed.

Lemma fill_app_skip scn a b vals : (forall kc, In kc a -> fst (fst kc) <> scn) -> fill scn (a ++ b) vals = a ++ fill scn b vals.
Proof.
  induction a as [| [k c] r IH]; simpl; intros K; auto.
  destruct (label_eqb (fst k) scn) eqn:E.
  - apply label_eqb_eq in E. exfalso. apply (K (k, c)); auto.
  - rewrite IH; auto.
Qed.

Lemma fill_block scn outs z b : forall vals, length vals = length outs -> (forall kc, In kc b -> fst (fst kc) <> scn) ->
  fill scn (map (fun n => ((scn, n), z)) outs ++ b) vals = combine (map (fun n => (scn, n)) outs) vals ++ b.
Proof.
  induction outs as [| o r IH]; intros [| v vals] L K; simpl in *; try discriminate.
  - apply fill_skip. exact K.
  - assert (E : label_eqb scn scn = true) by (apply label_eqb_eq; reflexivity). rewrite E.
    rewrite IH by (auto; lia). reflexivity.
Qed.

Lemma list_eqb_string l m : list_eqb String.eqb l m = true <-> l = m.
Proof.
  revert m. induction l as [| x l IH]; intros [| y m]; simpl; split; try discriminate; auto.
  - intros K. apply andb_true_iff in K. destruct K as (A & B). apply String.eqb_eq in A. apply IH in B. congruence.
  - intros [= -> ->]. rewrite String.eqb_refl. simpl. apply IH. reflexivity.
Qed.
Lemma list_eqb_label l m : list_eqb label_eqb l m = true <-> l = m.
Proof.
  revert m. induction l as [| x l IH]; intros [| y m]; simpl; split; try discriminate; auto.
  - intros K. apply andb_true_iff in K. destruct K as (A & B). apply label_eqb_eq in A. apply IH in B. congruence.
  - intros [= -> ->]. rewrite (proj2 (label_eqb_eq y y) eq_refl). simpl. apply IH. reflexivity.
Qed.

Lemma nodupb_NoDup {A} `{EqB A} (l : list A) : nodupb l = true <-> NoDup l.
Proof.
  induction l as [| x r IH]; simpl; [split; auto; constructor |].
  rewrite andb_true_iff, negb_true_iff, mem_nIn, IH. split.
  - intros (N & M). constructor; auto.
  - intros N. inversion N; auto.
Qed.

Lemma align_cols_length strict outs n v vals : align_cols strict outs n v = Ok vals -> length vals = length outs.
Proof.
  unfold align_cols. destruct (strict && negb (Nat.eqb (length outs) (length (s_cols v)))); [discriminate |].
  destruct (list_eqb String.eqb outs (skeys v)) eqn:E.
  - apply list_eqb_string in E. intros K. apply mapM_ok_length in K. rewrite E. unfold skeys. rewrite map_length. exact K.
  - destruct (nodupb (skeys v)); [| discriminate]. apply mapM_ok_length.
Qed.

(** What one scenario contributes. *)
Definition block (strict : bool) (outs : list string) (p : label -> sframe -> res sframe) (f : frame) (scn : label)
  : res (label * list column) :=
  let* v := p scn (scenario_of f scn) in
  let* vals := align_cols strict outs (length (f_index f)) v in
  Ok (scn, vals).

Definition blocks_cols (outs : list string) (bl : list (label * list column)) : list ((label * string) * column) :=
  flat_map (fun b => combine (map (fun n => (fst b, n)) outs) (snd b)) bl.

Lemma grid_zeros (z : column) outs scns :
  map (fun k => (k, z)) (grid scns outs) = flat_map (fun s => map (fun n => ((s, n), z)) outs) scns.
Proof. unfold grid. induction scns as [| s r IH]; simpl; auto. rewrite map_app, map_map, IH. reflexivity. Qed.

Lemma focus_loop strict outs p f idx z : outs <> [] -> length idx = length (f_index f) ->
  forall todo D, NoDup todo -> (forall kc s, In kc D -> In s todo -> fst (fst kc) <> s) ->
  foldM (fun out scn => let* v := p scn (scenario_of f scn) in set_block strict outs out scn v) todo
        (Frame idx (D ++ flat_map (fun s => map (fun n => ((s, n), z)) outs) todo)) =
  let* bl := mapM (block strict outs p f) todo in Ok (Frame idx (D ++ blocks_cols outs bl)).
Proof.
  intros NE Li. induction todo as [| s r IH]; intros D N K; [reflexivity |].
  inversion N as [| ? ? N1 N2]; subst. cbn [foldM mapM].
  unfold block at 1. destruct (p s (scenario_of f s)) as [v | e]; [| reflexivity]. cbn [rbind].
  unfold set_block. destruct outs as [| o outs0]; [congruence |]. set (outs := o :: outs0) in *.
  cbn [f_index f_cols]. rewrite Li.
  destruct (align_cols strict outs (length (f_index f)) v) as [vals | e] eqn:A; [| reflexivity]. cbn [rbind].
  pose proof (align_cols_length _ _ _ _ _ A) as Lv.
  cbn [flat_map]. rewrite fill_app_skip by (intros kc I; apply (K kc s); auto; left; reflexivity).
  rewrite fill_block; [| exact Lv |].
  2:{ intros kc I. apply in_flat_map in I. destruct I as (y & J & I). apply in_map_iff in I.
      destruct I as (x & <- & _). simpl. intros ->. contradiction. }
  rewrite app_assoc. rewrite IH; [| exact N2 |].
  - destruct (mapM (block strict outs p f) r) as [bl | e]; cbn [rbind]; [| reflexivity].
    unfold blocks_cols. cbn [flat_map fst snd]. rewrite <- app_assoc. reflexivity.
  - intros kc y I J. apply in_app_iff in I. destruct I as [I | I].
    + apply (K kc y); auto. right. exact J.
    + apply (in_combine_l (map (fun n => (s, n)) outs) vals (fst kc) (snd kc)) in I; [| destruct kc; exact I] || idtac.
      destruct kc as [k c]. apply in_combine_l in I. apply in_map_iff in I. destruct I as (x & <- & _). simpl.
      intros ->. contradiction.
Qed.

Lemma focus_eq strict outs p f : outs <> [] ->
  focus strict outs p f =
  let* bl := mapM (block strict outs p f) (get_scenarios f) in Ok (Frame (range (length (f_index f))) (blocks_cols outs bl)).
Proof.
  intros NE. unfold focus. rewrite build_multi_index_grid, grid_zeros.
  rewrite <- (app_nil_l (flat_map _ _)). rewrite focus_loop.
  - reflexivity.
  - exact NE.
  - apply length_range.
  - apply NoDup_get_scenarios.
  - intros kc s [].
Qed.

Lemma In_blocks outs bl s o c : In ((s, o), c) (blocks_cols outs bl) <->
  exists vals j, In (s, vals) bl /\ nth_error outs j = Some o /\ nth_error vals j = Some c.
Proof.
  unfold blocks_cols. rewrite in_flat_map. split.
  - intros ([s' vals] & I & J). simpl in J.
    assert (X : exists j, nth_error (map (fun n => (s', n)) outs) j = Some (s, o) /\ nth_error vals j = Some c).
    { clear I. revert J. generalize (map (fun n => (s', n)) outs). intros l. revert vals.
      induction l as [| a l IH]; intros [| v vals]; simpl; try contradiction.
      intros [E | I]; [exists 0; injection E as -> ->; auto |].
      destruct (IH vals I) as (j & A & B). exists (S j). auto. }
    destruct X as (j & A & B). rewrite nth_error_map in A. destruct (nth_error outs j) as [x |] eqn:E; [| discriminate A].
    injection A as -> ->. exists vals, j. auto.
  - intros (vals & j & I & A & B). exists (s, vals). split; [exact I |]. simpl.
    clear I. revert vals j A B. induction outs as [| a outs IH]; intros vals j A B; [destruct j; discriminate A |].
    destruct vals as [| v vals]; [destruct j; discriminate B |].
    destruct j as [| j]; simpl in *; [left; congruence | right; apply (IH vals j); auto].
Qed.

Lemma mapM_In {A B} (g : A -> res B) l m y : mapM g l = Ok m -> In y m -> exists x, In x l /\ g x = Ok y.
Proof.
  revert m. induction l as [| a l IH]; simpl; intros m E I; [injection E as <-; contradiction |].
  destruct (g a) as [b | e] eqn:G; simpl in E; [| discriminate E].
  destruct (mapM g l) as [bs | e] eqn:M; simpl in E; [| discriminate E]. injection E as <-.
  destruct I as [<- | I]; [exists a; auto |]. destruct (IH bs eq_refl I) as (x & J & X). exists x. auto.
Qed.
Lemma mapM_In2 {A B} (g : A -> res B) l m x : mapM g l = Ok m -> In x l -> exists y, In y m /\ g x = Ok y.
Proof.
  revert m. induction l as [| a l IH]; simpl; intros m E I; [contradiction |].
  destruct (g a) as [b | e] eqn:G; simpl in E; [| discriminate E].
  destruct (mapM g l) as [bs | e] eqn:M; simpl in E; [| discriminate E]. injection E as <-.
  destruct I as [<- | I]; [exists b; simpl; auto |]. destruct (IH bs eq_refl I) as (y & J & X). exists y. simpl. auto.
Qed.

(** ** Rows and columns of a value *)
Lemma row_at_found idx c k l x : NoDup idx -> nth_error idx k = Some l -> nth_error c k = Some x -> row_at idx c l = x.
Proof.
  revert c k. induction idx as [| i idx IH]; intros c k N A B; [destruct k; discriminate A |].
  destruct c as [| y c]; [destruct k; discriminate B |]. inversion N as [| ? ? N1 N2]; subst. simpl.
  destruct k as [| k]; simpl in *.
  - injection A as ->. injection B as ->. rewrite (proj2 (label_eqb_eq l l) eq_refl). reflexivity.
  - destruct (label_eqb i l) eqn:E.
    + apply label_eqb_eq in E. subst. exfalso. apply N1. eapply nth_error_In. exact A.
    + eapply IH; eauto.
Qed.
Lemma row_at_absent idx c l : ~ In l idx -> row_at idx c l = None.
Proof.
  revert c. induction idx as [| i idx IH]; intros [| y c] N; simpl; auto.
  destruct (label_eqb i l) eqn:E; [apply label_eqb_eq in E; subst; exfalso; apply N; left; reflexivity |].
  apply IH. intros I. apply N. right. exact I.
Qed.

Lemma align_rows_ok n v c c' : length c = length (s_index v) -> align_rows n v c = Ok c' ->
  length c' = n /\ forall i, i < n -> nth_error c' i = Some (row_at (s_index v) c (LInt (Z.of_nat i))).
Proof.
  intros L. unfold align_rows. destruct (list_eqb label_eqb (s_index v) (range n)) eqn:E.
  - apply list_eqb_label in E. intros [= <-]. rewrite E in *. rewrite length_range in L. split; [exact L |].
    intros i Li. destruct (nth_error c i) as [x |] eqn:X; [| apply nth_error_None in X; lia].
    rewrite (row_at_found (range n) c i _ x (NoDup_range n) (nth_error_range n i Li) X). reflexivity.
  - destruct (nodupb (s_index v)); [| discriminate]. intros [= <-]. rewrite map_length, length_range. split; [reflexivity |].
    intros i Li. rewrite nth_error_map, nth_error_range by exact Li. reflexivity.
Qed.

Lemma skeys_nth v o c k : NoDup (skeys v) -> In (o, c) (s_cols v) -> nth_error (skeys v) k = Some o -> nth_error (s_cols v) k = Some (o, c).
Proof.
  intros N I E. apply In_nth_error in I. destruct I as (j & J).
  assert (X : nth_error (skeys v) j = Some o) by (unfold skeys; rewrite nth_error_map, J; reflexivity).
  assert (j = k). { apply (proj1 (NoDup_nth_error (skeys v)) N); [apply nth_error_Some; congruence | congruence]. }
  subst. exact J.
Qed.

Lemma dget_skeys v o c : NoDup (skeys v) -> In (o, c) (s_cols v) -> dget o (s_cols v) = Some c.
Proof. intros N I. apply (In_dget o c (s_cols v)); auto. Qed.

(** The columns put in place for one scenario: the column of that name, aligned row by row, or
    NaN. *)
Lemma align_cols_ok strict outs n v vals j o : NoDup (skeys v) -> align_cols strict outs n v = Ok vals ->
  nth_error outs j = Some o ->
  exists c', nth_error vals j = Some c' /\
    ((exists c, In (o, c) (s_cols v) /\ align_rows n v c = Ok c') \/ (~ In o (skeys v) /\ c' = repeat None n)).
Proof.
  intros N. unfold align_cols. destruct (strict && negb (Nat.eqb (length outs) (length (s_cols v)))); [discriminate |].
  destruct (list_eqb String.eqb outs (skeys v)) eqn:E.
  - apply list_eqb_string in E. subst outs. intros M O. unfold skeys in O. rewrite nth_error_map in O.
    destruct (nth_error (s_cols v) j) as [[o' c] |] eqn:X; [| discriminate O]. injection O as ->.
    destruct (mapM_ok_nth _ _ _ j _ M X) as (c' & B & A). simpl in *. exists c'. split; [exact A |].
    left. exists c. split; [eapply nth_error_In; exact X | exact B].
  - destruct (nodupb (skeys v)) eqn:D; [| discriminate]. intros M O.
    destruct (mapM_ok_nth _ _ _ j _ M O) as (c' & B & A). exists c'. split; [exact A |].
    destruct (dget o (s_cols v)) as [c |] eqn:G.
    + left. exists c. split; [apply dget_In; exact G | exact B].
    + right. apply dget_None in G. split; [exact G |]. injection B as <-. reflexivity.
Qed.

Lemma NoDup_nth_eq {A} (l : list A) i j x : NoDup l -> nth_error l i = Some x -> nth_error l j = Some x -> i = j.
Proof. intros N A1 B. apply (proj1 (NoDup_nth_error l) N); [apply nth_error_Some; congruence | congruence]. Qed.

Lemma blocks_keys strict outs p f l : forall bl, mapM (block strict outs p f) l = Ok bl -> map fst (blocks_cols outs bl) = grid l outs.
Proof.
  induction l as [| s r IH]; intros bl M; cbn [mapM] in M.
  - injection M as <-. reflexivity.
  - destruct (block strict outs p f s) as [b | e] eqn:Bk; cbn [rbind] in M; [| discriminate M].
    destruct (mapM (block strict outs p f) r) as [bl' | e]; cbn [rbind] in M; [| discriminate M]. injection M as <-.
    unfold block in Bk. destruct (p s (scenario_of f s)) as [v | e]; cbn [rbind] in Bk; [| discriminate Bk].
    destruct (align_cols strict outs (length (f_index f)) v) as [vs | e] eqn:A; cbn [rbind] in Bk; [| discriminate Bk].
    injection Bk as <-. unfold blocks_cols, grid. cbn [flat_map fst snd]. rewrite map_app.
    rewrite keys_combine by (rewrite map_length, (align_cols_length _ _ _ _ _ A); reflexivity).
    f_equal. apply (IH bl' eq_refl).
Qed.

(** C53, part one, for every frame and every row index: whatever comes back for a scenario is
    a function of what the stage computed on that scenario alone; row [i] of the result is the
    row of that value labelled [i], or NaN if it has none. *)
Theorem C53_any_rows_partial strict h st d f p g : st_body st = BFocus p ->
  let outs := lget h (p_out (st_plug st)) in
  NoDup outs -> outs <> [] ->
  snd (process strict h st d f) = Ok (Some (AMulti g)) ->
  length (f_index g) = length (f_index f) /\
  keys g = grid (get_scenarios f) outs /\
  forall scn, In scn (get_scenarios f) ->
    exists v, p scn (scenario_of f scn) = Ok v /\
      (NoDup (skeys v) -> sframe_ok v -> NoDup (s_index v) ->
       forall o c i, In ((scn, o), c) (f_cols g) -> i < length (f_index f) ->
         exists x, nth_error c i = Some x /\
           (forall y, cell_of v o (LInt (Z.of_nat i)) y -> x = y) /\
           ((forall y, ~ cell_of v o (LInt (Z.of_nat i)) y) -> x = None)).
Proof.
  intros B outs No NE E. unfold process in E. rewrite B in E. fold outs in E. unfold returns in E. cbn [snd] in E.
  rewrite focus_eq in E by exact NE.
  destruct (mapM (block strict outs p f) (get_scenarios f)) as [bl | e] eqn:M; cbn [rbind] in E; [| discriminate E].
  injection E as <-. cbn [f_index f_cols].
  assert (Lb : forall s vals, In (s, vals) bl -> In s (get_scenarios f) /\
            exists v, p s (scenario_of f s) = Ok v /\ align_cols strict outs (length (f_index f)) v = Ok vals).
  { intros s vals I. destruct (mapM_In _ _ _ _ M I) as (x & J & X). unfold block in X.
    destruct (p x (scenario_of f x)) as [v | e] eqn:P; cbn [rbind] in X; [| discriminate X].
    destruct (align_cols strict outs (length (f_index f)) v) as [vs | e] eqn:A; cbn [rbind] in X; [| discriminate X].
    injection X as <- <-. split; [exact J |]. exists v. auto. }
  split; [apply length_range |].
  split.
  { unfold keys. cbn [f_cols]. apply (blocks_keys strict outs p f _ bl M). }
  intros scn I. destruct (mapM_In2 _ _ _ _ M I) as ([s vals] & J & X).
  destruct (Lb s vals J) as (_ & v0 & P0 & A0).
  assert (s = scn).
  { unfold block in X. destruct (p scn (scenario_of f scn)); cbn [rbind] in X; [| discriminate X].
    destruct (align_cols strict outs (length (f_index f)) a); cbn [rbind] in X; [| discriminate X]. congruence. }
  subst s. exists v0. split; [exact P0 |]. intros Nk Ok_ Ni o c i K Li.
  apply In_blocks in K. destruct K as (vals' & j & J' & Oj & Vj).
  destruct (Lb scn vals' J') as (_ & v1 & P1 & A1). rewrite P0 in P1. injection P1 as <-. rewrite A0 in A1. injection A1 as <-.
  destruct (align_cols_ok _ _ _ _ _ j o Nk A0 Oj) as (c' & V' & W). rewrite Vj in V'. injection V' as <-.
  destruct W as [(c0 & C0 & R) | (Abs & ->)].
  - destruct (align_rows_ok _ _ c0 c (Ok_ (o, c0) C0) R) as (_ & Rw). exists (row_at (s_index v0) c0 (LInt (Z.of_nat i))).
    split; [apply Rw; exact Li |]. split.
    + intros y (c1 & k & C1 & K1 & K2).
      assert (c1 = c0).
      { pose proof (dget_skeys v0 o c1 Nk C1) as D1. pose proof (dget_skeys v0 o c0 Nk C0) as D0. congruence. }
      subst c1. apply (row_at_found _ _ k); auto.
    + intros Z. apply row_at_absent. intros Il. apply In_nth_error in Il. destruct Il as (k & K1).
      assert (Lk : k < length (s_index v0)) by (apply nth_error_Some; congruence).
      pose proof (Ok_ (o, c0) C0) as Lc0. simpl in Lc0.
      destruct (nth_error c0 k) as [x |] eqn:Ck; [| apply nth_error_None in Ck; lia].
      apply (Z x). exists c0, k. auto.
  - exists None. split; [apply nth_error_repeat; exact Li |]. split; [| auto].
    intros y (c1 & k & C1 & _). exfalso. apply Abs. unfold skeys. apply (in_map fst) in C1. exact C1.
Qed.

(** C53, part two: with rows numbered from 0, and a stage that gives back for each scenario
    the same rows and exactly its declared columns, the columns of a scenario in the result are
    those computed on that scenario. Missing: other row labels (below), stages with no output. *)
Theorem C53_scenarios_partial strict h st d f p : st_body st = BFocus p ->
  let outs := lget h (p_out (st_plug st)) in
  NoDup outs -> outs <> [] -> plain_rows f ->
  (forall scn, In scn (get_scenarios f) ->
     exists v, p scn (scenario_of f scn) = Ok v /\ s_index v = f_index f /\ sframe_ok v /\ Permutation (skeys v) outs) ->
  exists g, snd (process strict h st d f) = Ok (Some (AMulti g)) /\
    f_index g = f_index f /\ keys g = grid (get_scenarios f) outs /\
    forall scn v, In scn (get_scenarios f) -> p scn (scenario_of f scn) = Ok v ->
      forall o c, In ((scn, o), c) (f_cols g) <-> In (o, c) (s_cols v).
Proof.
  intros B outs No NE Pl Hp.
  assert (Al : forall scn v, In scn (get_scenarios f) -> p scn (scenario_of f scn) = Ok v ->
             exists vals, align_cols strict outs (length (f_index f)) v = Ok vals /\
               forall j o, nth_error outs j = Some o -> exists c, nth_error vals j = Some c /\ In (o, c) (s_cols v)).
  { intros scn v I P. destruct (Hp scn I) as (v' & P' & Iv & Sv & Pv). rewrite P in P'. injection P' as <-.
    assert (Nk : NoDup (skeys v)) by (eapply Permutation_NoDup; [apply Permutation_sym; exact Pv | exact No]).
    assert (Ar : forall c, align_rows (length (f_index f)) v c = Ok c).
    { intros c. unfold align_rows. rewrite Iv. unfold plain_rows in Pl. unfold range.
      rewrite (proj2 (list_eqb_label (f_index f) _) Pl). reflexivity. }
    assert (X : exists vals, align_cols strict outs (length (f_index f)) v = Ok vals).
    { unfold align_cols. pose proof (Permutation_length Pv) as Lp. unfold skeys in Lp. rewrite map_length in Lp.
      rewrite Lp, Nat.eqb_refl. rewrite andb_false_r.
      destruct (list_eqb String.eqb outs (skeys v)).
      - eexists. apply mapM_pure with (g := snd). intros nc _. apply Ar.
      - rewrite (proj2 (nodupb_NoDup (skeys v)) Nk).
        exists (map (fun o => match dget o (s_cols v) with Some c => c | None => [] end) outs).
        apply mapM_pure. intros o I'. apply (Permutation_in _ (Permutation_sym Pv)) in I'.
        destruct (In_keys_dget o (s_cols v) I') as (c & ->). apply Ar. }
    destruct X as (vals & A). exists vals. split; [exact A |]. intros j o Oj.
    destruct (align_cols_ok _ _ _ _ _ j o Nk A Oj) as (c & V & W). exists c. split; [exact V |].
    destruct W as [(c0 & C0 & R) | (Abs & _)].
    - rewrite Ar in R. injection R as <-. exact C0.
    - exfalso. apply Abs. apply (Permutation_in _ (Permutation_sym Pv)). eapply nth_error_In. exact Oj. }
  assert (M : exists bl, mapM (block strict outs p f) (get_scenarios f) = Ok bl).
  { clear - Al Hp. induction (get_scenarios f) as [| s r IH]; [exists []; reflexivity |].
    destruct IH as (bl & M).
    - intros scn I. apply Hp. right. exact I.
    - intros scn v I. apply Al. right. exact I.
    - destruct (Hp s (or_introl eq_refl)) as (v & P & _). destruct (Al s v (or_introl eq_refl) P) as (vals & A & _).
      exists ((s, vals) :: bl). cbn [mapM]. unfold block at 1. rewrite P. cbn [rbind]. rewrite A. cbn [rbind]. rewrite M. reflexivity. }
  destruct M as (bl & M).
  assert (G : snd (process strict h st d f) = Ok (Some (AMulti (Frame (range (length (f_index f))) (blocks_cols outs bl))))).
  { unfold process. rewrite B. fold outs. unfold returns. cbn [snd]. rewrite focus_eq by exact NE. rewrite M. reflexivity. }
  eexists. split; [exact G |].
  destruct (C53_any_rows_partial strict h st d f p _ B No NE G) as (_ & Kg & _).
  split; [cbn [f_index]; symmetry; exact Pl |]. split; [exact Kg |]. cbn [f_cols].
  intros scn v I P o c. destruct (Al scn v I P) as (vals & A & V). rewrite In_blocks.
  assert (Ib : In (scn, vals) bl).
  { destruct (mapM_In2 _ _ _ _ M I) as (y & J & X). unfold block in X. rewrite P in X. cbn [rbind] in X. rewrite A in X.
    cbn [rbind] in X. injection X as <-. exact J. }
  destruct (Hp scn I) as (v' & P' & Iv & Sv & Pv). rewrite P in P'. injection P' as <-.
  assert (Nk : NoDup (skeys v)) by (eapply Permutation_NoDup; [apply Permutation_sym; exact Pv | exact No]).
  split.
  - intros (vals' & j & J & Oj & Vj). destruct (mapM_In _ _ _ _ M J) as (x & _ & X). unfold block in X.
    destruct (p x (scenario_of f x)) as [v'' |] eqn:P''; cbn [rbind] in X; [| discriminate X].
    destruct (align_cols strict outs (length (f_index f)) v'') as [vs |] eqn:A''; cbn [rbind] in X; [| discriminate X].
    injection X as -> ->. rewrite P in P''. injection P'' as <-. rewrite A in A''. injection A'' as <-.
    destruct (V j o Oj) as (c' & Vc & Ic). rewrite Vj in Vc. injection Vc as <-. exact Ic.
  - intros Ic. assert (Io : In o outs) by (apply (Permutation_in _ Pv); unfold skeys; apply (in_map fst) in Ic; exact Ic).
    apply In_nth_error in Io. destruct Io as (j & Oj). destruct (V j o Oj) as (c' & Vc & Ic').
    assert (c' = c) by (pose proof (dget_skeys v o c Nk Ic); pose proof (dget_skeys v o c' Nk Ic'); congruence). subst c'.
    exists vals, j. auto.
Qed.

(** The stage of the documentation: d = quotient, computed scenario by scenario. *)
Definition half : label -> sframe -> res sframe :=
  fun _ v => match dget "a" (s_cols v) with
             | Some c => Ok (SFrame (s_index v) [("d", map (option_map (fun q => q / 2)%Q) c); ("a", c)])
             | None => Err KeyError
             end.

Example C53_example :
  let h := [["a"]; ["a"; "d"]] in let st := Stage (Plug false 0 1) (BFocus half) in
  NoDup (lget h 1) /\ lget h 1 <> [] /\ plain_rows table /\
  (forall scn, In scn (get_scenarios table) ->
     exists v, half scn (scenario_of table scn) = Ok v /\ s_index v = f_index table /\ sframe_ok v /\ Permutation (skeys v) ["a"; "d"]) /\
  exists g, snd (process true h st (fun _ => Draw [] [] []) table) = Ok (Some (AMulti g)) /\
    In ((LInt 1, "d"), [Some (5 / 2)%Q; Some (60 / 2)%Q]) (f_cols g).
Proof.
  split; [repeat constructor; simpl; intuition discriminate |]. split; [discriminate |]. split; [reflexivity |].
  split.
  - intros scn I. vm_compute in I. destruct I as [<- | [<- | []]]; (eexists; split; [reflexivity |]; split; [reflexivity |]; split;
      [intros nc J; simpl in J; destruct J as [<- | [<- | []]]; reflexivity | simpl; constructor]).
  - eexists. split; [reflexivity |]. simpl. tauto.
Qed.

(** The identity on a frame whose rows are labelled 1 and 2: the first row of the result is
    empty, the second holds what was in the first, the last value is lost. *)
Theorem C53_rows_refuted :
  exists h st f p g, st_body st = BFocus p /\ (forall scn v, p scn v = Ok v) /\
    lget h (p_out (st_plug st)) = ["a"] /\ frame_ok f /\ NoDup (f_index f) /\
    f_cols f = [((LInt 0, "a"), [Some 7%Q; Some 8%Q])] /\
    (forall strict d, snd (process strict h st d f) = Ok (Some (AMulti g))) /\
    f_cols g = [((LInt 0, "a"), [None; Some 7%Q])].
Proof.
  exists [["a"]; ["a"]], (Stage (Plug false 0 1) (BFocus (fun _ v => Ok v))),
    (Frame [LInt 1; LInt 2] [((LInt 0, "a"), [Some 7%Q; Some 8%Q])]), (fun _ v => Ok v),
    (Frame (range 2) [((LInt 0, "a"), [None; Some 7%Q])]).
  split; [reflexivity |]. split; [reflexivity |]. split; [reflexivity |].
  split; [intros kc [<- | []]; reflexivity |].
  split; [repeat constructor; simpl; intuition discriminate |].
  split; [reflexivity |]. split; [intros [|] d; reflexivity | reflexivity].
Qed.

(** Exactly which row labels are right whatever the data and the stage: 0, 1, 2, ... in order. *)
Theorem C53_rows_exact idx :
  ((forall strict h st d f p, st_body st = BFocus p -> f_index f = idx -> frame_ok f ->
      let outs := lget h (p_out (st_plug st)) in
      NoDup outs -> outs <> [] ->
      (forall scn, In scn (get_scenarios f) ->
         exists v, p scn (scenario_of f scn) = Ok v /\ s_index v = idx /\ sframe_ok v /\ Permutation (skeys v) outs) ->
      exists g, snd (process strict h st d f) = Ok (Some (AMulti g)) /\
        forall scn v, In scn (get_scenarios f) -> p scn (scenario_of f scn) = Ok v ->
          forall o c, In ((scn, o), c) (f_cols g) <-> In (o, c) (s_cols v)) <->
   idx = map (fun i => LInt (Z.of_nat i)) (seq 0 (length idx))).
Proof.
  split.
  - intros K.
    set (c := map (fun i => Some (inject_Z (Z.of_nat i))) (seq 0 (length idx)) : column).
    set (f := Frame idx [((LInt 0, "a"), c)]).
    assert (Lc : length c = length idx) by (unfold c; rewrite map_length, seq_length; reflexivity).
    set (st := Stage (Plug false 0 1) (BFocus (fun _ v => Ok v))). set (h := [["a"]; ["a"]]).
    set (v := SFrame idx [("a", c)]).
    assert (Sv : forall scn, In scn (get_scenarios f) -> scn = LInt 0 /\ scenario_of f scn = v).
    { intros scn I. vm_compute in I. destruct I as [<- | []]. split; reflexivity. }
    destruct (K true h st (fun _ => Draw [] [] []) f (fun _ v => Ok v) eq_refl eq_refl) as (g & E & R).
    + intros kc [<- | []]. exact Lc.
    + repeat constructor. simpl. tauto.
    + discriminate.
    + intros scn I. destruct (Sv scn I) as (_ & ->). exists v. split; auto. split; auto. split; [| apply Permutation_refl].
      intros nc [<- | []]. exact Lc.
    + assert (I0 : In (LInt 0) (get_scenarios f)) by (left; reflexivity).
      assert (Vc : In ((LInt 0, "a"), c) (f_cols g)) by (apply (R (LInt 0) v I0 eq_refl); left; reflexivity).
      unfold process in E. cbn [st_body st] in E. unfold returns in E. cbn [snd] in E.
      rewrite focus_eq in E by discriminate.
      change (get_scenarios f) with [LInt 0] in E. unfold block in E. cbn [mapM rbind] in E.
      change (scenario_of f (LInt 0)) with v in E. change (lget h (p_out (st_plug st))) with ["a"] in E.
      assert (Al : align_cols true ["a"] (length (f_index f)) v = (let* x := align_rows (length idx) v c in Ok [x])).
      { unfold align_cols. cbn. destruct (align_rows (length idx) v c); reflexivity. }
      rewrite Al in E. unfold align_rows in E. cbn [s_index v] in E.
      destruct (list_eqb label_eqb idx (range (length idx))) eqn:X.
      * clear - X. unfold range in X. revert X. generalize (map (fun i => LInt (Z.of_nat i)) (seq 0 (length idx))).
        induction idx as [| a l IH]; intros [| b m]; simpl; try discriminate; auto.
        intros X. apply andb_true_iff in X. destruct X as (X & Y). apply label_eqb_eq in X. subst. f_equal. apply IH. exact Y.
      * destruct (nodupb idx) eqn:N; cbn in E; [| discriminate E]. injection E as <-. cbn in Vc.
        destruct Vc as [Vc | []]. injection Vc as Vc.
        (* every label i is found, at place i *)
        apply nth_error_ext. intros i. destruct (Nat.ltb_spec i (length idx)) as [L | L].
        2:{ rewrite (proj2 (nth_error_None _ _) L). symmetry. apply nth_error_None. rewrite map_length, seq_length. exact L. }
        change (map (fun i => LInt (Z.of_nat i)) (seq 0 (length idx))) with (range (length idx)).
        rewrite nth_error_range by exact L.
        assert (Ci : nth_error (map (row_at idx c) (range (length idx))) i = Some (Some (inject_Z (Z.of_nat i)))).
        { rewrite Vc. unfold c. rewrite nth_error_map, (nth_error_nth' (seq 0 (length idx)) 0) by (rewrite seq_length; exact L).
          rewrite seq_nth by exact L. reflexivity. }
        rewrite nth_error_map, nth_error_range in Ci by exact L. cbn in Ci. injection Ci as Ci.
        assert (Row : forall l (m : column) x y, row_at l m x = Some y ->
                      exists k, nth_error l k = Some x /\ nth_error m k = Some (Some y)).
        { clear. induction l as [| a l IH]; intros [| b m] x y; simpl; try discriminate.
          destruct (label_eqb a x) eqn:Q.
          - intros ->. apply label_eqb_eq in Q. subst. exists 0. auto.
          - intros Z. destruct (IH m x y Z) as (k & A & B). exists (S k). auto. }
        destruct (Row _ _ _ _ Ci) as (k & A & B).
        assert (Lk : k < length idx) by (apply nth_error_Some; congruence).
        unfold c in B. rewrite nth_error_map, (nth_error_nth' (seq 0 (length idx)) 0) in B by (rewrite seq_length; exact Lk).
        rewrite seq_nth in B by exact Lk. cbn in B. injection B as B. assert (k = i) by lia. subst k. exact A.
  - intros Pl strict h st d f p B If Ff outs No NE Hp.
    destruct (C53_scenarios_partial strict h st d f p B No NE) as (g & E & _ & _ & R).
    + unfold plain_rows. rewrite If. exact Pl.
    + rewrite If. exact Hp.
    + exists g. auto.
Qed.

(** ** Fault *)
Lemma slice_covers h t bd : t < h -> (0 <= fst bd < Z.of_nat h)%Z -> (0 <= snd bd)%Z ->
  in_slice h (fst bd) (fst bd + snd bd) t = covers bd t.
Proof.
  destruct bd as [b x]. cbn [fst snd]. intros Lt Lb Lx. unfold in_slice, covers, slice_bound. cbn [fst snd].
  destruct (Z.ltb_spec b 0) as [K | _]; [lia |]. destruct (Z.ltb_spec (b + x) 0) as [K | _]; [lia |].
  f_equal.
  - destruct (Nat.leb_spec (Nat.min h (Z.to_nat b)) t) as [A | A]; symmetry; [apply Z.leb_le | apply Z.leb_gt]; lia.
  - destruct (Nat.ltb_spec t (Nat.min h (Z.to_nat (b + x)))) as [A | A]; symmetry; [apply Z.ltb_lt | apply Z.ltb_ge]; lia.
Qed.

Lemma fold_loss loss h t l : t < h -> (forall bd, In bd l -> (0 <= fst bd < Z.of_nat h)%Z /\ (0 <= snd bd)%Z) ->
  forall acc, (fold_left (fun a bd => add_loss loss h bd a) l acc t ==
               acc t + loss * inject_Z (Z.of_nat (length (filter (fun bd => covers bd t) l))))%Q.
Proof.
  intros Lt. induction l as [| bd l IH]; intros K acc; cbn [fold_left filter].
  - simpl. ring.
  - rewrite IH by (intros x I; apply K; right; exact I).
    destruct (K bd (or_introl eq_refl)) as (K1 & K2). unfold add_loss. rewrite slice_covers by assumption.
    destruct (covers bd t); [| reflexivity]. cbn [length]. rewrite Nat2Z.inj_succ, <- Z.add_1_r, inject_Z_plus. ring.
Qed.

Lemma fault_loss_spec loss h d dmin dmax t : legal_draw h dmin dmax d -> (0 <= dmin)%Z -> t < h ->
  (fault_loss loss h d t == loss * inject_Z (Z.of_nat (faults_at d t)))%Q.
Proof.
  intros (_ & _ & _ & Lb & Ld) Dm Lt. unfold fault_loss, faults_at.
  rewrite (fold_loss loss h t (combine (d_begin d) (d_duration d)) Lt); [ring |].
  intros [b x] I. pose proof (in_combine_l _ _ _ _ I) as I1. pose proof (in_combine_r _ _ _ _ I) as I2.
  simpl. specialize (Lb b I1). specialize (Ld x I2). lia.
Qed.

Lemma nth_sub_at g c t : nth_error (sub_at g c) t = option_map (option_map (fun q => (q - g t)%Q)) (nth_error c t).
Proof.
  unfold sub_at. rewrite nth_error_map.
  assert (X : forall s, nth_error (combine (seq s (length c)) c) t = option_map (fun x => (s + t, x)) (nth_error c t)).
  { revert t. induction c as [| x c IH]; intros t s; [destruct t; reflexivity |]. destruct t as [| t]; simpl.
    - rewrite Nat.add_0_r. reflexivity.
    - rewrite IH. destruct (nth_error c t); simpl; auto. rewrite Nat.add_succ_r. reflexivity. }
  rewrite X. destruct (nth_error c t); reflexivity.
Qed.
Lemma length_sub_at g c : length (sub_at g c) = length c.
Proof. unfold sub_at. rewrite map_length, combine_length, seq_length. apply Nat.min_id. Qed.

(** What becomes of the column quantity. *)
Definition faulted (loss : Q) (d : draw) (c c' : column) : Prop :=
  length c' = length c /\
  forall t, (nth_error c t = Some None -> nth_error c' t = Some None) /\
            (forall q, nth_error c t = Some (Some q) ->
               exists q', nth_error c' t = Some (Some q') /\ (q' == q - loss * inject_Z (Z.of_nat (faults_at d t)))%Q).

Lemma sub_faulted loss d c dmin dmax : legal_draw (length c) dmin dmax d -> (0 <= dmin)%Z ->
  faulted loss d c (sub_at (fault_loss loss (length c) d) c).
Proof.
  intros Ld Dm. split; [apply length_sub_at |]. intros t. rewrite nth_sub_at. split.
  - intros ->. reflexivity.
  - intros q E. rewrite E. simpl. eexists. split; [reflexivity |].
    assert (Lt : t < length c) by (apply nth_error_Some; congruence).
    rewrite (fault_loss_spec loss (length c) d dmin dmax t Ld Dm Lt). reflexivity.
Qed.

(** Consequences stated by the property: never higher, equal where no fault covers the time. *)
Lemma faulted_le loss d c c' t q q' : faulted loss d c c' -> (0 <= loss)%Q ->
  nth_error c t = Some (Some q) -> nth_error c' t = Some (Some q') -> (q' <= q)%Q.
Proof.
  intros (_ & F) L A B. destruct (proj2 (F t) q A) as (q2 & B2 & E). rewrite B in B2. injection B2 as <-. rewrite E.
  assert (Z : (0 <= inject_Z (Z.of_nat (faults_at d t)))%Q) by (change 0%Q with (inject_Z 0); rewrite <- Zle_Qle; lia).
  nra.
Qed.
Lemma faulted_same loss d c c' t q q' : faulted loss d c c' -> faults_at d t = 0 ->
  nth_error c t = Some (Some q) -> nth_error c' t = Some (Some q') -> (q' == q)%Q.
Proof.
  intros (_ & F) L A B. destruct (proj2 (F t) q A) as (q2 & B2 & E). rewrite B in B2. injection B2 as <-. rewrite E, L.
  change (inject_Z (Z.of_nat 0)) with 0%Q. ring.
Qed.

(** On one scenario, for every frame of a scenario having the column. *)
Theorem C52_scenario loss freq dmin dmax d v c :
  (0 <= freq)%Q -> (freq <= 1)%Q -> (0 <= dmin)%Z -> (dmin < dmax)%Z ->
  NoDup (skeys v) -> sframe_ok v -> In ("quantity", c) (s_cols v) -> legal_draw (length (s_index v)) dmin dmax d ->
  exists v' c', fault_scenario loss freq dmin dmax d v = Ok v' /\
    s_index v' = s_index v /\ skeys v' = skeys v /\ In ("quantity", c') (s_cols v') /\ faulted loss d c c' /\
    (forall o x, o <> "quantity" -> (In (o, x) (s_cols v') <-> In (o, x) (s_cols v))).
Proof.
  intros F0 F1 Dm Dx Nk Ok_ Ic Ld. unfold fault_scenario.
  rewrite (proj2 (qle_le 0 freq) F0), (proj2 (qle_le freq 1) F1). cbn [andb negb].
  destruct (Z.leb_spec dmax dmin) as [K | _]; [lia |]. rewrite andb_false_r.
  rewrite (dget_skeys v "quantity" c Nk Ic).
  set (c' := sub_at (fault_loss loss (length (s_index v)) d) c).
  exists (SFrame (s_index v) (dset "quantity" c' (s_cols v))), c'.
  split; [reflexivity |]. split; [reflexivity |].
  assert (Kd : In "quantity" (dkeys (s_cols v))) by (apply (in_map fst) in Ic; exact Ic).
  pose proof (dkeys_dset_mem "quantity" c' (s_cols v) Kd) as Ks.
  split; [exact Ks |].
  split.
  { apply dget_In. apply dget_dset_eq. }
  split.
  { pose proof (Ok_ _ Ic) as Lc. simpl in Lc. unfold c'. rewrite <- Lc in Ld |- *. apply (sub_faulted loss d c dmin dmax Ld Dm). }
  intros o x No. cbn [s_cols].
  assert (Ns : NoDup (dkeys (dset "quantity" c' (s_cols v)))) by (rewrite Ks; exact Nk).
  pose proof (dget_dset_neq o "quantity" c' (s_cols v) No) as G. split; intros I'.
  - apply dget_In. rewrite <- G. apply (In_dget o x _ Ns I').
  - apply dget_In. rewrite G. apply (In_dget o x _ Nk I').
Qed.

(** The positions of a slice, for bounds of either sign. *)
Theorem C52_slice h start stop t : t < h ->
  (in_slice h start stop t = true <->
   ((if (start <? 0)%Z then start + Z.of_nat h else start) <= Z.of_nat t <
    (if (stop <? 0)%Z then stop + Z.of_nat h else stop))%Z).
Proof.
  intros Lt. unfold in_slice, slice_bound. rewrite andb_true_iff, Nat.leb_le, Nat.ltb_lt.
  destruct (Z.ltb_spec start 0), (Z.ltb_spec stop 0); lia.
Qed.

Lemma slice_reaches h t bd : t < h -> (0 <= fst bd < Z.of_nat h)%Z ->
  in_slice h (fst bd) (fst bd + snd bd) t = reaches h bd t.
Proof.
  intros Lt Lb. apply eq_true_iff_eq. rewrite (C52_slice h _ _ t Lt). unfold reaches. rewrite andb_true_iff, Z.leb_le, Z.ltb_lt.
  destruct (Z.ltb_spec (fst bd) 0); [lia | tauto].
Qed.

(** Whatever the downtimes: what is lost at a time is [loss] for every drawn fault reaching it. *)
Theorem C52_any_downtime loss freq dmin dmax d v c t q :
  (0 <= freq)%Q -> (freq <= 1)%Q -> (dmin < dmax)%Z ->
  NoDup (skeys v) -> sframe_ok v -> In ("quantity", c) (s_cols v) -> legal_draw (length (s_index v)) dmin dmax d ->
  nth_error c t = Some (Some q) ->
  exists v' c' q', fault_scenario loss freq dmin dmax d v = Ok v' /\ s_index v' = s_index v /\ skeys v' = skeys v /\
    In ("quantity", c') (s_cols v') /\ length c' = length c /\ nth_error c' t = Some (Some q') /\
    (q' == q - loss * inject_Z (Z.of_nat (faults_reaching (length c) d t)))%Q.
Proof.
  intros F0 F1 Dx Nk Ok_ Ic Ld Eq. unfold fault_scenario.
  rewrite (proj2 (qle_le 0 freq) F0), (proj2 (qle_le freq 1) F1). cbn [andb negb].
  destruct (Z.leb_spec dmax dmin) as [K | _]; [lia |]. rewrite andb_false_r.
  rewrite (dget_skeys v "quantity" c Nk Ic).
  pose proof (Ok_ _ Ic) as Lc. simpl in Lc. rewrite <- Lc in Ld |- *.
  set (c' := sub_at (fault_loss loss (length c) d) c).
  exists (SFrame (s_index v) (dset "quantity" c' (s_cols v))), c', (q - fault_loss loss (length c) d t)%Q.
  split; [reflexivity |]. split; [reflexivity |].
  assert (Kd : In "quantity" (dkeys (s_cols v))) by (apply (in_map fst) in Ic; exact Ic).
  split; [exact (dkeys_dset_mem "quantity" c' (s_cols v) Kd) |]. split; [apply dget_In, dget_dset_eq |].
  split; [apply length_sub_at |]. split; [unfold c'; rewrite nth_sub_at, Eq; reflexivity |].
  assert (Lt : t < length c) by (apply nth_error_Some; congruence).
  assert (X : forall l, (forall bd, In bd l -> (0 <= fst bd < Z.of_nat (length c))%Z) -> forall acc,
    (fold_left (fun a bd => add_loss loss (length c) bd a) l acc t ==
     acc t + loss * inject_Z (Z.of_nat (length (filter (fun bd => reaches (length c) bd t) l))))%Q).
  { clear -Lt. induction l as [| bd l IH]; intros K acc; cbn [fold_left filter].
    - simpl. ring.
    - rewrite IH by (intros x I; apply K; right; exact I).
      unfold add_loss. rewrite (slice_reaches _ _ _ Lt (K bd (or_introl eq_refl))).
      destruct (reaches (length c) bd t); [| reflexivity]. cbn [length]. rewrite Nat2Z.inj_succ, <- Z.add_1_r, inject_Z_plus. ring. }
  unfold fault_loss, faults_reaching. rewrite X; [ring |].
  intros [b x] I. pose proof (in_combine_l _ _ _ _ I) as I1. simpl. destruct Ld as (_ & _ & _ & Lb & _). exact (Lb b I1).
Qed.

(** Two times with a fault at time 0 lasting -1 (the loss stops one time before the end), and
    one at time 1 lasting -3 (it stops at time 0, before it begins). *)
Example C52_any_downtime_example :
  let v := SFrame (range 2) [("quantity", [Some 9%Q; Some 7%Q])] in
  let d := Draw [true; true] [0%Z; 1%Z] [(-1)%Z; (-3)%Z] in
  legal_draw 2 (-3) 0 d /\ faults_reaching 2 d 0 = 1 /\ faults_reaching 2 d 1 = 0 /\
  exists v', fault_scenario 4 1 (-3) 0 d v = Ok v' /\ match dget "quantity" (s_cols v') with
    | Some [Some a; Some b] => (a == 5)%Q /\ (b == 7)%Q | _ => False end.
Proof.
  cbv zeta. split.
  { split; [reflexivity |]. split; [reflexivity |]. split; [reflexivity |]. split; intros b I; destruct I as [<- | [<- | []]]; simpl; lia. }
  split; [reflexivity |]. split; [reflexivity |].
  eexists. split; [reflexivity |]. vm_compute. split; reflexivity.
Qed.

(** An interval of downtimes without a value is refused as soon as a fault is drawn, and not
    even looked at when none is: then nothing changes. *)
Theorem C52_downtimes loss freq dmin dmax d v c :
  (0 <= freq)%Q -> (freq <= 1)%Q -> (dmax <= dmin)%Z ->
  NoDup (skeys v) -> sframe_ok v -> In ("quantity", c) (s_cols v) -> length (d_begin d) = count_true (d_flags d) ->
  (In true (d_flags d) -> fault_scenario loss freq dmin dmax d v = Err ValueError) /\
  (~ In true (d_flags d) -> exists v' c', fault_scenario loss freq dmin dmax d v = Ok v' /\ s_index v' = s_index v /\ skeys v' = skeys v /\
     In ("quantity", c') (s_cols v') /\ Forall2 (fun a b => match a, b with Some p, Some q => (p == q)%Q | None, None => True | _, _ => False end) c c').
Proof.
  intros F0 F1 Dx Nk Ok_ Ic Lb. unfold fault_scenario.
  rewrite (proj2 (qle_le 0 freq) F0), (proj2 (qle_le freq 1) F1). cbn [andb negb].
  rewrite (proj2 (Z.leb_le dmax dmin) Dx), andb_true_r. split; intros H.
  - assert (N : count_true (d_flags d) <> 0).
    { unfold count_true. intros E. apply length_zero_iff_nil in E. assert (X : In true (filter (fun b => b) (d_flags d))) by (apply filter_In; auto). rewrite E in X. exact X. }
    apply Nat.eqb_neq in N. rewrite N. reflexivity.
  - assert (N : count_true (d_flags d) = 0).
    { unfold count_true. destruct (filter (fun b => b) (d_flags d)) as [| b l] eqn:E; [reflexivity |]. exfalso.
      assert (X : In b (filter (fun b => b) (d_flags d))) by (rewrite E; left; reflexivity). apply filter_In in X as [X Y]. subst b. exact (H X). }
    rewrite N in *. cbn [Nat.eqb negb]. rewrite (dget_skeys v "quantity" c Nk Ic).
    eexists. exists (sub_at (fault_loss loss (length (s_index v)) d) c). split; [reflexivity |]. split; [reflexivity |].
    assert (Kd : In "quantity" (dkeys (s_cols v))) by (apply (in_map fst) in Ic; exact Ic).
    split; [exact (dkeys_dset_mem "quantity" _ (s_cols v) Kd) |]. split; [apply dget_In, dget_dset_eq |].
    unfold fault_loss. apply length_zero_iff_nil in Lb. rewrite Lb. cbn [combine fold_left]. unfold sub_at.
    clear Ic Ok_. generalize 0 as m. induction c as [| x c IH]; intros m; [constructor |]. cbn [length seq combine map]. constructor; [| apply IH].
    destruct x; cbn; [ring | exact Logic.I].
Qed.

(** Exactly which scenarios a fault stage accepts: the frequency is a probability, the interval of
    downtimes has a value or no fault is drawn, and there is a column of quantities. *)
Theorem C52_accepted loss freq dmin dmax d v :
  (exists v', fault_scenario loss freq dmin dmax d v = Ok v') <->
  ((0 <= freq)%Q /\ (freq <= 1)%Q) /\ (In true (d_flags d) -> (dmin < dmax)%Z) /\ In "quantity" (skeys v).
Proof.
  assert (N : count_true (d_flags d) = 0 <-> ~ In true (d_flags d)).
  { unfold count_true. split.
    - intros E H. apply length_zero_iff_nil in E. assert (X : In true (filter (fun b => b) (d_flags d))) by (apply filter_In; auto). rewrite E in X. exact X.
    - intros H. destruct (filter (fun b => b) (d_flags d)) as [| b l] eqn:E; [reflexivity |]. exfalso.
      assert (X : In b (filter (fun b => b) (d_flags d))) by (rewrite E; left; reflexivity). apply filter_In in X as [X Y]. subst b. exact (H X). }
  unfold fault_scenario. rewrite <- !qle_le.
  destruct (qle 0 freq) eqn:F0; [destruct (qle freq 1) eqn:F1 |]; cbn [andb negb];
    [| split; [intros [v' X]; discriminate | intros [[_ X] _]; discriminate] | split; [intros [v' X]; discriminate | intros [[X _] _]; discriminate]].
  destruct (Nat.eqb_spec (count_true (d_flags d)) 0) as [E|E]; cbn [andb negb].
  - apply N in E. unfold skeys. split.
    + intros [v' X]. split; [auto |]. split; [contradiction |]. destruct (dget "quantity" (s_cols v)) as [c|] eqn:G; [| discriminate].
      now apply dget_In, (in_map fst) in G.
    + intros (_ & _ & I). apply In_keys_dget in I as [c ->]. eauto.
  - destruct (Z.leb_spec dmax dmin) as [L|L].
    + split; [intros [v' X]; discriminate |]. intros (_ & X & _). exfalso. apply E, N. intros T. specialize (X T). lia.
    + unfold skeys. split.
      * intros [v' X]. split; [auto |]. split; [auto |]. destruct (dget "quantity" (s_cols v)) as [c|] eqn:G; [| discriminate].
        now apply dget_In, (in_map fst) in G.
      * intros (_ & _ & I). apply In_keys_dget in I as [c ->]. eauto.
Qed.
(** What refuses the others: the values first, then the missing column. *)
Theorem C52_refused loss freq dmin dmax d v e : fault_scenario loss freq dmin dmax d v = Err e ->
  e = if qle 0 freq && qle freq 1 && (negb (existsb (fun b => b) (d_flags d)) || (dmin <? dmax)%Z) then KeyError else ValueError.
Proof.
  assert (N : Nat.eqb (count_true (d_flags d)) 0 = negb (existsb (fun b => b) (d_flags d))).
  { unfold count_true. induction (d_flags d) as [| [|] l IH]; simpl; auto. }
  unfold fault_scenario. rewrite N, negb_involutive. rewrite Z.leb_antisym.
  destruct (qle 0 freq), (qle freq 1), (existsb (fun b => b) (d_flags d)), (dmin <? dmax)%Z; cbn [andb orb negb];
    try (intros H; inversion H; reflexivity); destruct (dget "quantity" (s_cols v)); intros H; inversion H; reflexivity.
Qed.
Example C52_accepted_example :
  (forall v', fault_scenario 2 (3 # 2) 1 3 (Draw [false] [] []) (SFrame (range 1) [("quantity", [Some 9%Q])]) <> Ok v') /\
  (exists v', fault_scenario 2 (1 # 2) 3 1 (Draw [false] [] []) (SFrame (range 1) [("quantity", [Some 9%Q])]) = Ok v') /\
  fault_scenario 2 (1 # 2) 3 1 (Draw [true] [0%Z] [1%Z]) (SFrame (range 1) [("quantity", [Some 9%Q])]) = Err ValueError /\
  fault_scenario 2 (1 # 2) 1 3 (Draw [true] [0%Z] [1%Z]) (SFrame (range 1) [("cost", [Some 9%Q])]) = Err KeyError.
Proof.
  split; [|split; [|split; reflexivity]].
  - intros v' H. assert (X : exists v', fault_scenario 2 (3 # 2) 1 3 (Draw [false] [] []) (SFrame (range 1) [("quantity", [Some 9%Q])]) = Ok v') by eauto.
    apply C52_accepted in X as [[_ X] _]. vm_compute in X. now apply X.
  - apply C52_accepted. split; [split; vm_compute; discriminate|]. split; [intros [X|[]]; discriminate | left; reflexivity].
Qed.

Lemma In_scenario_of f scn o c : In (o, c) (s_cols (scenario_of f scn)) <-> In ((scn, o), c) (f_cols f).
Proof.
  unfold scenario_of. cbn [s_cols]. rewrite in_map_iff. split.
  - intros ([[s n] x] & E & I). simpl in E. injection E as -> ->. apply filter_In in I. destruct I as (I & L).
    simpl in L. apply label_eqb_eq in L. subst. exact I.
  - intros I. exists ((scn, o), c). split; [reflexivity |]. apply filter_In. split; [exact I |]. simpl.
    apply label_eqb_eq. reflexivity.
Qed.
Lemma NoDup_scenario_of f scn : NoDup (keys f) -> NoDup (skeys (scenario_of f scn)).
Proof.
  unfold keys, skeys, scenario_of. cbn [s_cols]. induction (f_cols f) as [| [[s n] c] r IH]; simpl; intros N; [constructor |].
  inversion N as [| ? ? N1 N2]; subst. destruct (label_eqb s scn) eqn:E; simpl; auto. constructor; auto.
  apply label_eqb_eq in E. subst. intros I. apply N1. rewrite map_map in I. simpl in I.
  apply in_map_iff in I. destruct I as ([[s' n'] c'] & X & I). simpl in X. subst n'. apply filter_In in I. destruct I as (I & L).
  simpl in L. apply label_eqb_eq in L. subst. apply in_map_iff. exists ((scn, n), c'). auto.
Qed.

(** C52 on a whole frame: rows numbered from 0, in every scenario exactly the columns the
    stage gives out. Missing: other row labels and surplus columns, where it is false. *)
Theorem C52_fault_partial strict h st d f loss freq dmin dmax : st_body st = BFault loss freq dmin dmax ->
  let outs := lget h (p_out (st_plug st)) in
  (0 <= freq)%Q -> (freq <= 1)%Q -> (0 <= dmin)%Z -> (dmin < dmax)%Z ->
  NoDup outs -> In "quantity" outs ->
  plain_rows f -> frame_ok f -> NoDup (keys f) ->
  (forall scn m, In (scn, m) (keys f) -> forall n, In (scn, n) (keys f) <-> In n outs) ->
  (forall scn, In scn (get_scenarios f) -> legal_draw (length (f_index f)) dmin dmax (d scn)) ->
  exists g, snd (process strict h st d f) = Ok (Some (AMulti g)) /\
    f_index g = f_index f /\ NoDup (keys g) /\ Permutation (keys g) (keys f) /\
    forall scn o c, In ((scn, o), c) (f_cols f) ->
      exists c', In ((scn, o), c') (f_cols g) /\
        (o <> "quantity" -> c' = c) /\ (o = "quantity" -> faulted loss (d scn) c c').
Proof.
  intros B outs F0 F1 Dm Dx No Iq Pl Fo Nf Ev Ld.
  set (p := fun scn v => fault_scenario loss freq dmin dmax (d scn) v).
  assert (NE : outs <> []) by (intros E; rewrite E in Iq; contradiction).
  set (st' := Stage (st_plug st) (BFocus p)).
  assert (Pr : process strict h st d f = process strict h st' d f) by (unfold process; rewrite B; reflexivity).
  assert (Sf : forall scn, sframe_ok (scenario_of f scn)).
  { intros scn [n c] I. apply In_scenario_of in I. apply (Fo _ I). }
  assert (Hp : forall scn, In scn (get_scenarios f) -> exists v c c', p scn (scenario_of f scn) = Ok v /\
      In ((scn, "quantity"), c) (f_cols f) /\
      s_index v = f_index f /\ skeys v = skeys (scenario_of f scn) /\ In ("quantity", c') (s_cols v) /\ faulted loss (d scn) c c' /\
      (forall o x, o <> "quantity" -> (In (o, x) (s_cols v) <-> In ((scn, o), x) (f_cols f)))).
  { intros scn I. apply In_get_scenarios in I as I'. destruct I' as (m & J).
    pose proof (proj2 (Ev scn m J "quantity") Iq) as Q. unfold keys in Q. apply in_map_iff in Q. destruct Q as ([k c] & X & Q).
    simpl in X. subst k. pose proof (proj2 (In_scenario_of f scn "quantity" c) Q) as Q'.
    destruct (C52_scenario loss freq dmin dmax (d scn) (scenario_of f scn) c F0 F1 Dm Dx (NoDup_scenario_of f scn Nf) (Sf scn) Q' (Ld scn I))
      as (v & c' & E1 & E2 & E3 & E4 & E5 & E6).
    exists v, c, c'. split; [exact E1 |]. split; [exact Q |]. split; [exact E2 |]. split; [exact E3 |]. split; [exact E4 |].
    split; [exact E5 |]. intros o x Ne. rewrite (E6 o x Ne). apply In_scenario_of. }
  assert (Pm : forall scn, In scn (get_scenarios f) -> Permutation (skeys (scenario_of f scn)) outs).
  { intros scn I. apply In_get_scenarios in I. destruct I as (m & J). apply NoDup_Permutation; [apply NoDup_scenario_of; exact Nf | exact No |].
    intros n. rewrite <- (Ev scn m J n). unfold skeys. rewrite in_map_iff. unfold keys. rewrite in_map_iff. split.
    - intros ([n' c] & X & I). simpl in X. subst. apply In_scenario_of in I. exists ((scn, n), c). auto.
    - intros ([k c] & X & I). simpl in X. subst. exists (n, c). split; auto. apply In_scenario_of. exact I. }
  destruct (C53_scenarios_partial strict h st' d f p eq_refl No NE Pl) as (g & G & Ig & Kg & Cg).
  { intros scn I. destruct (Hp scn I) as (v & c & c' & E1 & Ec & E2 & E3 & E4 & E5 & E6). exists v.
    split; [exact E1 |]. split; [exact E2 |]. split.
    - intros [o x] Io. simpl. rewrite E2. destruct (String.string_dec o "quantity") as [-> | Ne].
      + assert (Nk : NoDup (skeys v)) by (rewrite E3; apply NoDup_scenario_of; exact Nf).
        assert (x = c') by (pose proof (dget_skeys v _ _ Nk Io); pose proof (dget_skeys v _ _ Nk E4); congruence). subst.
        destruct E5 as (E5 & _). rewrite E5. apply (Fo _ Ec).
      + apply (E6 o x Ne) in Io. apply (Fo _ Io).
    - rewrite E3. apply Pm. exact I. }
  exists g. rewrite Pr. split; [exact G |]. split; [exact Ig |].
  assert (NG : NoDup (keys g)) by (rewrite Kg; apply NoDup_grid; [apply NoDup_get_scenarios | exact No]).
  split; [exact NG |].
  split.
  { apply NoDup_Permutation; [exact NG | exact Nf |]. intros [scn n]. rewrite Kg. unfold grid. rewrite in_flat_map. split.
    - intros (s & I & J). apply in_map_iff in J. destruct J as (x & X & J). injection X as -> ->.
      apply In_get_scenarios in I. destruct I as (m & I). apply (proj2 (Ev scn m I n) J).
    - intros I. exists scn. split; [apply In_get_scenarios; exists n; exact I |]. apply in_map_iff. exists n. split; [reflexivity |].
      apply (proj1 (Ev scn n I n) I). }
  intros scn o c Ic.
  assert (Is : In scn (get_scenarios f)) by (apply In_get_scenarios; exists o; unfold keys; apply (in_map fst) in Ic; exact Ic).
  destruct (Hp scn Is) as (v & c0 & c' & E1 & Ec & E2 & E3 & E4 & E5 & E6).
  destruct (String.string_dec o "quantity") as [-> | Ne].
  - exists c'. split; [apply (Cg scn v Is E1); exact E4 |]. split; [congruence |]. intros _.
    assert (c0 = c).
    { pose proof (NoDup_scenario_of f scn Nf) as Ns. pose proof (proj2 (In_scenario_of f scn _ _) Ec) as A1.
      pose proof (proj2 (In_scenario_of f scn _ _) Ic) as A2.
      pose proof (dget_skeys _ _ _ Ns A1). pose proof (dget_skeys _ _ _ Ns A2). congruence. }
    subst. exact E5.
  - exists c. split; [apply (Cg scn v Is E1); apply E6; auto |]. split; [reflexivity | congruence].
Qed.

Definition two_scenarios : frame :=
  Frame (range 4) [((LInt 0, "quantity"), [Some 100%Q; Some 100%Q; Some 100%Q; Some 100%Q]);
                   ((LInt 1, "quantity"), [Some 50%Q; None; Some 50%Q; Some 50%Q])].
Definition some_draw : label -> draw :=
  fun s => if label_eqb s (LInt 0) then Draw [true; false; true; false] [1; 2]%Z [2; 5]%Z else Draw [false; false; false; false] [] [].

Example C52_example :
  let h := [["quantity"]; ["quantity"]] in let st := Stage (Plug false 0 1) (BFault 20 (1 # 10) 2 6) in
  NoDup (lget h 1) /\ plain_rows two_scenarios /\ frame_ok two_scenarios /\ NoDup (keys two_scenarios) /\
  (forall scn m, In (scn, m) (keys two_scenarios) -> forall n, In (scn, n) (keys two_scenarios) <-> In n (lget h 1)) /\
  (forall scn, In scn (get_scenarios two_scenarios) -> legal_draw 4 2 6 (some_draw scn)) /\
  exists g, snd (process true h st some_draw two_scenarios) = Ok (Some (AMulti g)) /\
    map (option_map Qred) (snd (nth 0 (f_cols g) ((LInt 9, ""), []))) = [Some 100%Q; Some 80%Q; Some 60%Q; Some 80%Q].
Proof.
  split; [repeat constructor; simpl; tauto |]. split; [reflexivity |].
  split; [intros kc I; simpl in I; destruct I as [<- | [<- | []]]; reflexivity |].
  split; [repeat constructor; simpl; intuition discriminate |].
  split.
  { intros scn m I n. simpl in I |- *. destruct I as [[= <- <-] | [[= <- <-] | []]]; split; intros J; intuition (try congruence); subst; auto. }
  split.
  { intros scn I. vm_compute in I. destruct I as [<- | [<- | []]]; (split; [reflexivity |]; split; [reflexivity |]; split; [reflexivity |]);
      split; intros x J; simpl in J; intuition (subst; simpl; lia). }
  eexists. split; [reflexivity |]. reflexivity.
Qed.

(** Downtimes from 6 to 2: nothing drawn, one fault drawn. *)
Example C52_downtimes_example : let v := SFrame (range 2) [("quantity", [Some 9%Q; Some 7%Q])] in
  fault_scenario 20 (1 # 2) 6 2 (Draw [false; false] [] []) v = Ok (SFrame (range 2) [("quantity", [Some (9 - 0)%Q; Some (7 - 0)%Q])]) /\
  fault_scenario 20 (1 # 2) 6 2 (Draw [false; true] [0%Z] [3%Z]) v = Err ValueError.
Proof. split; vm_compute; reflexivity. Qed.

(** Rows not numbered from 0, no fault drawn: values are lost. *)
Theorem C52_rows_refuted :
  exists h st f g, st_body st = BFault 20 0 2 6 /\ lget h (p_out (st_plug st)) = ["quantity"] /\ frame_ok f /\ NoDup (f_index f) /\
    f_cols f = [((LInt 0, "quantity"), [Some 100%Q; Some 100%Q])] /\
    (forall strict, snd (process strict h st (fun _ => Draw [false; false] [] []) f) = Ok (Some (AMulti g))) /\
    exists q, f_cols g = [((LInt 0, "quantity"), [None; q])].
Proof.
  exists [["quantity"]; ["quantity"]], (Stage (Plug false 0 1) (BFault 20 0 2 6)),
    (Frame [LInt 1; LInt 2] [((LInt 0, "quantity"), [Some 100%Q; Some 100%Q])]),
    (Frame (range 2) [((LInt 0, "quantity"), [None; Some (100 - 0)%Q])]).
  split; [reflexivity |]. split; [reflexivity |].
  split; [intros kc [<- | []]; reflexivity |].
  split; [repeat constructor; simpl; intuition discriminate |].
  split; [reflexivity |]. split; [intros [|]; reflexivity |]. eexists. reflexivity.
Qed.

(** A column beside quantity: refused by newer pandas, lost with older ones. *)
Theorem C52_surplus_refuted :
  exists h st f, st_body st = BFault 20 0 2 6 /\ lget h (p_out (st_plug st)) = ["quantity"] /\ frame_ok f /\ NoDup (keys f) /\ plain_rows f /\
    In ((LInt 0, "cost"), [Some 7%Q]) (f_cols f) /\
    snd (process true h st (fun _ => Draw [false] [] []) f) = Err ValueError /\
    exists g, snd (process false h st (fun _ => Draw [false] [] []) f) = Ok (Some (AMulti g)) /\ keys g = [(LInt 0, "quantity")].
Proof.
  exists [["quantity"]; ["quantity"]], (Stage (Plug false 0 1) (BFault 20 0 2 6)),
    (Frame (range 1) [((LInt 0, "quantity"), [Some 100%Q]); ((LInt 0, "cost"), [Some 7%Q])]).
  split; [reflexivity |]. split; [reflexivity |].
  split; [intros kc I; simpl in I; destruct I as [<- | [<- | []]]; reflexivity |].
  split; [repeat constructor; simpl; intuition discriminate |].
  split; [reflexivity |]. split; [simpl; tauto |]. split; [reflexivity |]. eexists. split; [reflexivity |]. reflexivity.
Qed.

(** A negative downtime: numpy reads the negative end of the slice from the end, and a fault
    that covers no time lowers quantities. *)
Theorem C52_negative_downtime_refuted :
  exists d v v' loss dmin dmax, (dmin < dmax)%Z /\ legal_draw 5 dmin dmax d /\ (forall t, t < 5 -> faults_at d t = 0) /\
    s_cols v = [("quantity", [Some 9%Q; Some 9%Q; Some 9%Q; Some 9%Q; Some 9%Q])] /\ s_index v = range 5 /\
    fault_scenario loss (1 # 2) dmin dmax d v = Ok v' /\
    map (fun nc => map (option_map Qred) (snd nc)) (s_cols v') = [[Some 9%Q; Some 9%Q; Some 7%Q; Some 7%Q; Some 9%Q]].
Proof.
  exists (Draw [false; false; true; false; false] [2%Z] [(-3)%Z]),
    (SFrame (range 5) [("quantity", [Some 9%Q; Some 9%Q; Some 9%Q; Some 9%Q; Some 9%Q])]).
  eexists. exists 2%Q, (-4)%Z, 0%Z.
  split; [lia |].
  split.
  { split; [reflexivity |]. split; [reflexivity |]. split; [reflexivity |]. split; intros x [<- | []]; simpl; lia. }
  split; [intros t L; do 5 (destruct t as [| t]; [reflexivity |]); lia |].
  split; [reflexivity |]. split; [reflexivity |]. split; reflexivity.
Qed.

Print Assumptions C53_any_rows_partial.
Print Assumptions C53_scenarios_partial.
Print Assumptions C53_rows_refuted.
Print Assumptions C53_rows_exact.
Print Assumptions C52_scenario.
Print Assumptions C52_slice.
Print Assumptions C52_any_downtime.
Print Assumptions C52_downtimes.
Print Assumptions C52_fault_partial.
Print Assumptions C52_rows_refuted.
Print Assumptions C52_surplus_refuted.
Print Assumptions C52_negative_downtime_refuted.
Print Assumptions C52_accepted.
Print Assumptions C52_refused.
