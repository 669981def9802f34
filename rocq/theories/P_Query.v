(** Properties C36-C39: queries on the tables of the analyzer. *)
From Coq Require Import String List ZArith QArith Bool Arith Lia Lqa Permutation Sorted.
From Verif Require Import Base BaseFacts Numeric Study Fluent SpecStudy Output LP SpecLP P_LP Analyzer SpecAnalyzer AnalyzerFacts QueryFacts P_Tables.
Import ListNotations.
Open Scope nat_scope.
Open Scope string_scope.
Open Scope list_scope.

(** ** Slices *)
Lemma range_count x d k : (0 < d)%Z -> (k < (x + d - 1) / d <-> k * d < x)%Z.
Proof.
  intros D. split; intros H.
  - pose proof (Z.mul_div_le (x + d - 1) d D). nia.
  - assert (k + 1 <= (x + d - 1) / d)%Z; [|lia]. apply Z.div_le_lower_bound; nia.
Qed.
Lemma py_range_up a b d : (0 < d)%Z -> exists l, py_range a b d = Ok l /\
  (forall i, In i l <-> exists k, (0 <= k)%Z /\ i = (a + k * d)%Z /\ (i < b)%Z) /\ NoDup l.
Proof.
  intros D. unfold py_range. destruct (Z.eqb_spec d 0); [lia|]. destruct (Z.ltb_spec 0 d); [|lia].
  eexists. split; [reflexivity|]. split.
  - intros i. rewrite in_map_iff. split.
    + intros (k & <- & I). apply in_seq in I. exists (Z.of_nat k). split; [lia|]. split; auto.
      assert (Z.of_nat k < (b - a + d - 1) / d)%Z by lia. apply range_count in H0; lia.
    + intros (k & K & -> & L). exists (Z.to_nat k). rewrite Z2Nat.id by auto. split; auto. apply in_seq.
      assert (k < (b - a + d - 1) / d)%Z by (apply range_count; lia). lia.
  - apply FinFun.Injective_map_NoDup; [|apply seq_NoDup]. intros i j E. nia.
Qed.

Definition good_arg (a : axis) (x : iarg) : Prop := closed x /\ match x with ISlice _ _ _ => a = ATime \/ a = AScn | _ => True end.

Record ix_ok (a : axis) (x : iarg) (i : index) : Prop := {
  xo_axis : ix_axis i = a;
  xo_keeps : forall r, is_label (cell_of (axis_column a) r) -> (ix_keeps i r = true <-> selects x (cell_of (axis_column a) r));
  xo_alone : is_alone i = false <-> several x;
  xo_void : is_alone i = true -> ix_index i = [] -> void x;
  xo_all : ix_all i = false -> forall r, ix_keeps i r = true -> mem (cell_of (axis_column a) r) (ix_index i) = true;
  xo_empty : void x -> is_alone i = true /\ ix_index i = []
}.

Lemma label_not_nan c : is_label c -> is_nan c = false. Proof. destruct c; simpl; tauto. Qed.

Lemma new_index_ok a x : good_arg a x -> exists i, new_index a x = Ok i /\ ix_ok a x i.
Proof.
  intros [C S]. destruct x as [|c|l|l|start stop step].
  - eexists. split; [reflexivity|]. constructor.
    + reflexivity.
    + intros r L. unfold ix_keeps. simpl. unfold ix_column. simpl. rewrite label_not_nan by auto. simpl. tauto.
    + unfold is_alone; simpl. tauto.
    + intros A; discriminate A.
    + intros A; discriminate A.
    + intros V. exfalso. exact (V CNaN I).
  - eexists. split; [reflexivity|]. constructor; auto.
    + intros r L. unfold ix_keeps, ix_column. cbn [ix_all ix_index ix_axis selects]. rewrite mem_In. simpl. split; [intros [->|[]] | intros ->]; auto.
    + unfold is_alone; simpl. split; [discriminate | tauto].
    + simpl. discriminate.
    + intros V. exfalso. exact (V c eq_refl).
  - eexists. split; [reflexivity|]. constructor; auto.
    + intros r L. unfold ix_keeps, ix_column. cbn [ix_all ix_index ix_axis]. destruct l as [|c l].
      * simpl. rewrite label_not_nan by auto. simpl. tauto.
      * cbn [List.length Nat.eqb selects]. rewrite mem_In. tauto.
    + unfold is_alone. destruct l as [|c [|d l]]; simpl; split; auto; try lia; try discriminate.
    + unfold is_alone. cbn [ix_index ix_all]. intros A ->. discriminate.
    + unfold ix_keeps, ix_column. cbn [ix_all ix_index ix_axis]. intros A r. rewrite A. auto.
    + intros V. destruct l as [|c l]; [destruct (V CNaN I) | destruct (V c); left; auto].
  - eexists. split; [reflexivity|]. constructor; auto.
    + intros r L. unfold ix_keeps, ix_column. cbn [ix_all ix_index ix_axis selects]. rewrite mem_In. tauto.
    + unfold is_alone. cbn [ix_all ix_index negb andb several]. rewrite Nat.leb_gt. lia.
    + cbn [ix_index]. intros _ -> c K. exact K.
    + intros V. destruct l as [|c l]; [|destruct (V c); left; auto]. auto.
  - destruct start as [b0|]; [|destruct C]. destruct stop as [e|]; [|destruct step; destruct C].
    set (d := match step with Some z => z | None => 1%Z end). assert (D : (0 < d)%Z) by (unfold d; destruct step; simpl in C; lia).
    destruct (py_range_up b0 e d D) as (l & E & R & ND).
    exists (Index a false (map CInt l)). split.
    { unfold new_index. fold d. rewrite E. destruct S as [->| ->]; reflexivity. }
    assert (SEL : forall c, selects (ISlice (Some b0) (Some e) step) c <-> In c (map CInt l)).
    { intros c. cbn [selects]. fold d. rewrite in_map_iff. split.
      - intros (i & k & -> & K & Ei & L). exists i. split; auto. apply R. eauto.
      - intros (i & <- & I). apply R in I as (k & K & Ei & L). exists i, k. auto. }
    constructor; auto.
    + intros r L. unfold ix_keeps, ix_column. cbn [ix_all ix_index ix_axis]. rewrite SEL. apply mem_In.
    + unfold is_alone. cbn [ix_all ix_index negb andb]. rewrite map_length, Nat.leb_gt. cbn [several]. split.
      * intros L. destruct l as [|i [|j l]]; simpl in L; try lia. exists (CInt i), (CInt j). rewrite !SEL. simpl. inversion ND; subst.
        split; [|auto]. intros X. injection X as ->. simpl in *. tauto.
      * intros (c & c' & N & A & B). rewrite SEL in A, B. destruct l as [|i [|j l]]; simpl in *; try tauto; try lia.
        destruct A as [<-|[]], B as [<-|[]]. congruence.
    + cbn [ix_index]. intros _ X c K. apply SEL in K. rewrite X in K. exact K.
    + intros V. destruct l as [|i l]; [auto|]. exfalso. apply (V (CInt i)). apply SEL. left; auto.
Qed.

Definition indexes_of (q : query) : res (list index) := mapM (fun ax => new_index (fst ax) (snd ax)) q.

Lemma indexes_ok q : accepted q -> exists ixs, indexes_of q = Ok ixs /\ Forall2 (fun ax i => ix_ok (fst ax) (snd ax) i) q ixs.
Proof.
  unfold indexes_of. induction q as [|[a x] q IH]; intros A; [exists []; auto|].
  destruct IH as (ixs & E & F). { intros b y I. apply A. now right. }
  destruct (new_index_ok a x (A a x (or_introl eq_refl))) as (i & Ei & Oi).
  exists (i :: ixs). split; [cbn [mapM fst snd]; rewrite Ei; cbn [rbind]; rewrite E; reflexivity | constructor; auto].
Qed.

(** ** C36 *)
Lemma map_ext_cells names (r r' : trow) : key_of names r = key_of names r' -> forall c, In c names -> cell_of c r = cell_of c r'.
Proof. unfold key_of. induction names as [|n l IH]; simpl; [tauto|]. intros E c [->|I]; [congruence|]. injection E as _ E. auto. Qed.

Section Answer.
  Variables (el : axis) (tb : table) (q : query) (ixs : list index).
  Hypotheses (Ky : keyed el tb) (Wh : whole el q) (OK : Forall2 (fun ax i => ix_ok (fst ax) (snd ax) i) q ixs).
  Let names := query_names q.
  Let five := ["network"; "node"; axis_column el; "scn"; "t"].
  Let F := filter (fun r => forallb (fun i => ix_keeps i r) ixs) (tb_rows tb).

  Lemma names_perm : Permutation names five.
  Proof. unfold names, query_names. rewrite <- map_map. change five with (map axis_column [ANetwork; ANode; el; AScn; ATime]). now apply Permutation_map. Qed.
  Lemma names_ix : map ix_column ixs = names.
  Proof. unfold names, query_names, ix_column. clear - OK. pose proof OK as O2; clear OK; induction O2 as [|ax i l m H _ IH]; auto. cbn [map]. f_equal; [now rewrite (xo_axis _ _ _ H) | exact IH]. Qed.
  Lemma lengths : List.length ixs = List.length q.
  Proof. clear - OK. pose proof OK as O2; clear OK; induction O2; simpl; auto. Qed.

  Lemma F_In r : In r F <-> In r (tb_rows tb) /\ matches q r.
  Proof.
    unfold F. rewrite filter_In. assert (X : In r (tb_rows tb) -> (forallb (fun i => ix_keeps i r) ixs = true <-> matches q r)).
    { intros I. assert (Lb : forall a x, In (a, x) q -> is_label (cell_of (axis_column a) r)).
      { intros a x J. apply (ky_labels _ _ Ky _ _ I). change five with five. apply (Permutation_in _ names_perm). unfold names, query_names. apply in_map_iff. exists (a, x). auto. }
      clear - OK Lb. unfold matches. pose proof OK as O2; clear OK; induction O2 as [|[a x] i l m H _ IH]; simpl.
      - split; auto. intros _ a x [].
      - rewrite andb_true_iff, IH by (intros; eapply Lb; right; eauto). rewrite (xo_keeps _ _ _ H r) by (eapply Lb; left; eauto). split.
        + intros [A B] b y [E|J]; [injection E as <- <-; auto | auto].
        + intros M. split; [apply M; left; auto | intros b y J; apply M; right; auto]. }
    split; intros [A B]; split; auto; now apply X.
  Qed.
  Lemma F_labels r : In r F -> labels_only (key_of names r).
  Proof.
    intros I. apply F_In in I as [I _]. unfold labels_only, key_of. apply Forall_map, Forall_forall. intros c J.
    apply (Permutation_in _ names_perm) in J. pose proof (ky_labels _ _ Ky r c I J) as L. destruct (cell_of c r); simpl in *; auto.
  Qed.
  Lemma F_unique : NoDup (map (key_of names) F).
  Proof.
    assert (U : NoDup (map (key_of five) F)).
    { pose proof (ky_unique _ _ Ky) as U. fold five in U. unfold F. clear - U. induction (tb_rows tb) as [|r l IH]; simpl; [constructor|].
      inversion U; subst. destruct (forallb _ _); simpl; auto. constructor; auto. intros I. apply H1. apply in_map_iff in I as (x & E & J). apply filter_In in J as [J _].
      rewrite <- E. now apply in_map. }
    clear - U Wh. pose proof names_perm as P. induction F as [|r l IH]; simpl; [constructor|]. inversion U as [|? ? NI U']; subst. constructor; auto.
    intros I. apply NI. apply in_map_iff in I as (r' & E & J). apply in_map_iff. exists r'. split; auto. change (key_of five r' = key_of five r). apply map_ext_in. intros c Ic.
    apply (map_ext_cells names r' r E). apply (Permutation_in _ (Permutation_sym P)). exact Ic.
  Qed.
  Lemma F_value r : In r F -> exists c v, In c (tb_cols tb) /\ ~ In c names /\ cell_of c r = CNum v.
  Proof.
    intros I. apply F_In in I as [I _]. destruct (ky_some _ _ Ky r I) as (c & v & A & B & C). exists c, v. split; auto. split; auto.
    intros J. apply B. apply (Permutation_in _ names_perm). exact J.
  Qed.

  Lemma row_lines : exists F', Permutation F' F /\ fr_rows (pivot_table names (Table (tb_cols tb) F)) =
      map (line names (tb_cols tb)) F' /\ StronglySorted before (map (key_of names) F').
  Proof.
    destruct (pivot_rows_perm names (tb_cols tb) F F_labels F_unique F_value) as (F' & P & E & S).
    exists F'. split; auto. split; auto.
    assert (LB : forall r, In r F' -> labels_only (key_of names r)) by (intros r I; apply F_labels; eapply Permutation_in; eauto).
    assert (ND : NoDup (map (key_of names) F')) by (eapply Permutation_NoDup; [apply Permutation_map, Permutation_sym, P | apply F_unique]).
    clear - S LB ND. induction F' as [|r l IH]; [constructor|]. cbn [map] in *. inversion S as [|? ? S' B]; inversion ND as [|? ? NI ND']; subst.
    constructor; [apply IH; auto; intros; apply LB; now right|]. apply Forall_forall. intros k I. pose proof I as I'. apply in_map_iff in I' as (r' & <- & I').
    rewrite Forall_forall in B. apply key_le_before; auto.
    - apply LB; now left.
    - apply LB; now right.
    - unfold key_of. now rewrite !map_length.
    - intros E. apply NI. now rewrite E.
  Qed.

  Lemma line_carries r : In r F -> carries q tb r (line names (tb_cols tb) r).
  Proof.
    intros I. split; [reflexivity|]. intros c Ic Nc. cbn [line snd]. exists (mean [cell_of c r]). split.
    - unfold values_of. assert (J : In c (filter (fun c => negb (mem c names)) (tb_cols tb))).
      { apply filter_In. split; auto. apply negb_true_iff. destruct (mem c names) eqn:M; auto. apply mem_In in M. tauto. }
      revert J. generalize (filter (fun c => negb (mem c names)) (tb_cols tb)). induction l as [|d l IH]; [destruct 1|]. cbn [map dget]. intros [->|J].
      + now rewrite (proj2 (eqb_eq c c) eq_refl).
      + destruct (eqb c d) eqn:E; [apply eqb_eq in E; now subst | auto].
    - apply mean_one. apply F_In in I as [I _]. apply (ky_values _ _ Ky r c I Ic). intros J. apply Nc. apply (Permutation_in _ (Permutation_sym names_perm)). exact J.
  Qed.

  Lemma lines_fit F' l : Permutation F' F -> In l (map (line names (tb_cols tb)) F') ->
    List.length (fst l) = List.length ixs /\
    forall j i, nth_error ixs j = Some i -> ix_all i = false -> mem (nth j (fst l) CNaN) (ix_index i) = true.
  Proof.
    intros P I. apply in_map_iff in I as (r & <- & I). cbn [line fst]. split.
    - unfold key_of. rewrite map_length, lengths. unfold names, query_names. apply map_length.
    - intros j i J A. apply (Permutation_in _ P) in I. unfold F in I. apply filter_In in I as [_ K].
      rewrite forallb_forall in K. specialize (K i (nth_error_In _ _ J)).
      assert (exists ax, nth_error q j = Some ax /\ ix_ok (fst ax) (snd ax) i) as (ax & Q & Oi).
      { clear - OK J. revert j J. pose proof OK as O2; clear OK; induction O2 as [|ax i' l m H _ IH]; intros [|j] J; try discriminate.
        - injection J as <-. exists ax. auto.
        - exact (IH j J). }
      unfold key_of. erewrite nth_error_default; [|rewrite nth_error_map; unfold names, query_names; rewrite nth_error_map, Q; reflexivity].
      apply (xo_all _ _ _ Oi A r K).
  Qed.

  Let tbF := Table (tb_cols tb) F.

  Lemma pivot_cols : forallb (fun i => mem (ix_column i) (tb_cols tb)) ixs = true.
  Proof.
    apply forallb_forall. intros i I. apply mem_In. apply (ky_cols _ _ Ky). apply (Permutation_in _ names_perm). rewrite <- names_ix. now apply in_map.
  Qed.
  Lemma pivot_eq : pivot ixs tb = remove_useless (pivot_table names tbF) ixs.
  Proof. unfold pivot. rewrite pivot_cols, names_ix. reflexivity. Qed.

  Lemma pivot_answers f : pivot ixs tb = Ok f -> answers q tb f.
  Proof.
    rewrite pivot_eq. destruct row_lines as (F' & P & E & S). intros R.
    assert (X : pivot_table names tbF = Frame names (map (line names (tb_cols tb)) F')).
    { rewrite <- E. unfold tbF. destruct (pivot_table names (Table (tb_cols tb) F)) as [lv rw] eqn:EP. unfold pivot_table in EP. injection EP as <- _. reflexivity. }
    rewrite X in R. apply remove_useless_ok in R as (pre & L & RW).
    - exists pre, F'. cbv zeta. split; [exact L|]. split; [|split; [|split]].
      + eapply NoDup_map_inv. eapply Permutation_NoDup; [apply Permutation_map, Permutation_sym, P | apply F_unique].
      + intros r. rewrite <- F_In. split; apply Permutation_in; auto. now apply Permutation_sym.
      + rewrite <- RW. assert (G : forall r, In r F' -> carries q tb r (line names (tb_cols tb) r)) by (intros r I; apply line_carries; eapply Permutation_in; eauto).
        clear - G. induction F' as [|r l IH]; [constructor|]. cbn [map]. constructor; [apply G; now left | apply IH; intros; apply G; now right].
      + rewrite <- RW, map_map. exact S.
    - unfold names, query_names. now rewrite map_length, lengths.
    - intros l I. now apply (lines_fit F' l P).
    - intros l j i I. now apply (lines_fit F' l P).
  Qed.

  Lemma pivot_table_eq : exists F', Permutation F' F /\ pivot_table names tbF = Frame names (map (line names (tb_cols tb)) F').
  Proof.
    destruct row_lines as (F' & P & E & S). exists F'. split; auto.
    rewrite <- E. unfold tbF. destruct (pivot_table names (Table (tb_cols tb) F)) as [lv rw] eqn:EP. unfold pivot_table in EP. injection EP as <- _. reflexivity.
  Qed.

  Lemma pivot_total : (exists a x, In (a, x) q /\ several x) -> (forall a x rest, q = (a, x) :: rest -> ~ void x) ->
    exists f, pivot ixs tb = Ok f.
  Proof.
    intros (a & x & I & Sv) NV. rewrite pivot_eq. destruct pivot_table_eq as (F' & P & ->). apply remove_useless_total.
    - clear - OK I Sv. pose proof OK as O2; clear OK; induction O2 as [|ax i l m H _ IH]; [destruct I|]. destruct I as [->|I].
      + exists i. split; [left; auto|]. now apply (xo_alone _ _ _ H).
      + destruct (IH I) as (i' & I' & A). exists i'. split; [right|]; auto.
    - intros i rest E A X. subst ixs. inversion OK as [|[b y] i' l m H O' E1 E2]; subst. apply (NV b y l); auto. now apply (xo_void _ _ _ H).
    - intros l J. now apply (lines_fit F' l P).
    - intros l j i J. now apply (lines_fit F' l P).
  Qed.

  Lemma pivot_fails : (forall a x, In (a, x) q -> ~ several x) -> (exists r, In r (tb_rows tb) /\ matches q r) -> pivot ixs tb = Err IndexError.
  Proof.
    intros NS (r & I & Mt). rewrite pivot_eq. destruct pivot_table_eq as (F' & P & ->). apply remove_useless_fail.
    - assert (J : In r F') by (apply (Permutation_in _ (Permutation_sym P)); apply F_In; auto). destruct F'; [destruct J | discriminate].
    - intros i J. clear - OK NS J. pose proof OK as O2; clear OK; induction O2 as [|[a x] i' l m H _ IH]; [destruct J|]. destruct J as [->|J].
      + destruct (is_alone i) eqn:A; auto. apply (xo_alone _ _ _ H) in A. destruct (NS a x); auto. left; auto.
      + apply IH; auto. intros b y K. apply (NS b y). now right.
    - intros l J. now apply (lines_fit F' l P).
    - intros l j i J. now apply (lines_fit F' l P).
  Qed.
End Answer.

Lemma check_index_In (q : query) ixs a : Forall2 (fun ax i => ix_ok (fst ax) (snd ax) i) q ixs -> check_index ixs a = true <-> In a (map fst q).
Proof.
  unfold check_index. induction 1 as [|ax i l m H _ IH]; simpl; [split; [discriminate | tauto]|]. rewrite orb_true_iff, IH, (xo_axis _ _ _ H).
  assert (X : axis_eqb (fst ax) a = true <-> fst ax = a) by (destruct (fst ax), a; simpl; split; intros; congruence). rewrite X. tauto.
Qed.

Lemma filter_table an el tb q ixs : table_of an el = Some tb -> whole el q -> Forall2 (fun ax i => ix_ok (fst ax) (snd ax) i) q ixs ->
  an_filter an ixs = (let* f := pivot ixs tb in Ok (Some f)).
Proof.
  intros T Wh O. unfold an_filter.
  assert (C : forall a, check_index ixs a = existsb (axis_eqb a) [ANetwork; ANode; el; AScn; ATime]).
  { intros a. apply eq_iff_eq_true. rewrite (check_index_In q ixs a O), existsb_exists. split.
    - intros I. exists a. split; [now apply (Permutation_in _ Wh) | destruct a; reflexivity].
    - intros (b & I & E). assert (a = b) by (destruct a, b; simpl in E; congruence). subst. now apply (Permutation_in _ (Permutation_sym Wh)). }
  rewrite !C. destruct el; simpl in T; try discriminate; injection T as <-; reflexivity.
Qed.

Lemma pivot_no_value ixs tb : pivot ixs tb <> Err ValueError.
Proof.
  unfold pivot. destruct (forallb _ ixs); [|discriminate].
  generalize (pivot_table (map ix_column ixs) (Table (tb_cols tb) (filter (fun r => forallb (fun i => ix_keeps i r) ixs) (tb_rows tb)))).
  induction ixs as [|i rest IH]; intros f; cbn [remove_useless]; [discriminate|].
  destruct (is_alone i); [|discriminate]. destruct (ix_index i) as [|x l]; [discriminate|].
  destruct (in_index x f); [apply IH | discriminate].
Qed.

(** The list of selections may be of any axes. It is refused exactly if one of
    network, node, scenario and time is missing; without any kind of element there
    is no answer. *)
Theorem C36_axes an q ixs : accepted q -> indexes_of q = Ok ixs ->
  (an_filter an ixs = Err ValueError <-> exists a, In a [ATime; ANode; ANetwork; AScn] /\ ~ In a (map fst q)) /\
  (an_filter an ixs = Ok None <->
     (forall a, In a [ATime; ANode; ANetwork; AScn] -> In a (map fst q)) /\
     (forall a, In a [ACons; AProd; AStor; ALink; ASrcConv; ADestConv] -> ~ In a (map fst q))).
Proof.
  intros Ac E. destruct (indexes_ok q Ac) as (ixs' & E' & O). rewrite E in E'. injection E' as <-.
  assert (C : forall a, {check_index ixs a = true /\ In a (map fst q)} + {check_index ixs a = false /\ ~ In a (map fst q)}).
  { intros a. pose proof (check_index_In q ixs a O) as H. destruct (check_index ixs a); [left | right]; split; auto.
    - now apply H.
    - intros I. apply H in I. discriminate. }
  assert (N : forall tb, (let* f := pivot ixs tb in Ok (Some f)) <> Err ValueError /\
                         (let* f := pivot ixs tb in Ok (Some f)) <> Ok None).
  { intros tb. pose proof (pivot_no_value ixs tb). destruct (pivot ixs tb); cbn; split; congruence. }
  unfold an_filter.
  destruct (C ATime) as [[-> T]|[-> T]], (C ANode) as [[-> D]|[-> D]], (C ANetwork) as [[-> W]|[-> W]], (C AScn) as [[-> Z]|[-> Z]]; cbn [andb].
  2-16: split; split; intros H; try discriminate; try reflexivity;
    try (destruct H as [H _]; exfalso;
         first [apply T; apply H; cbn; tauto | apply D; apply H; cbn; tauto | apply W; apply H; cbn; tauto | apply Z; apply H; cbn; tauto]);
    first [exists ATime; split; [cbn; tauto | assumption] | exists ANode; split; [cbn; tauto | assumption]
          | exists ANetwork; split; [cbn; tauto | assumption] | exists AScn; split; [cbn; tauto | assumption]].
  assert (L : forall a, In a [ATime; ANode; ANetwork; AScn] -> In a (map fst q)) by (cbn; intuition congruence).
  split.
  - split; [|intros (a & I & J); exfalso; auto].
    destruct (check_index ixs ACons); [intros H; exfalso; apply (proj1 (N _) H)|].
    destruct (check_index ixs AProd); [intros H; exfalso; apply (proj1 (N _) H)|].
    destruct (check_index ixs AStor); [intros H; exfalso; apply (proj1 (N _) H)|].
    destruct (check_index ixs ALink); [intros H; exfalso; apply (proj1 (N _) H)|].
    destruct (check_index ixs ASrcConv); [intros H; exfalso; apply (proj1 (N _) H)|].
    destruct (check_index ixs ADestConv); [intros H; exfalso; apply (proj1 (N _) H)|]. discriminate.
  - destruct (C ACons) as [[-> K]|[-> K1]]; [split; intros H; exfalso; [apply (proj2 (N _) H) | apply (proj2 H ACons); cbn; auto]|].
    destruct (C AProd) as [[-> K]|[-> K2]]; [split; intros H; exfalso; [apply (proj2 (N _) H) | apply (proj2 H AProd); cbn; auto]|].
    destruct (C AStor) as [[-> K]|[-> K3]]; [split; intros H; exfalso; [apply (proj2 (N _) H) | apply (proj2 H AStor); cbn; auto]|].
    destruct (C ALink) as [[-> K]|[-> K4]]; [split; intros H; exfalso; [apply (proj2 (N _) H) | apply (proj2 H ALink); cbn; auto]|].
    destruct (C ASrcConv) as [[-> K]|[-> K5]]; [split; intros H; exfalso; [apply (proj2 (N _) H) | apply (proj2 H ASrcConv); cbn; tauto]|].
    destruct (C ADestConv) as [[-> K]|[-> K6]]; [split; intros H; exfalso; [apply (proj2 (N _) H) | apply (proj2 H ADestConv); cbn; tauto]|].
    split; [intros _ | auto]. split; auto. intros a I J. cbn in I. intuition (subst; auto).
Qed.

(** A query with at least one axis left open, whose first argument selects something, returns
    exactly the selected rows. *)
Theorem C36_query_answers_partial an el tb q : table_of an el = Some tb -> keyed el tb -> whole el q -> accepted q ->
  (exists a x, In (a, x) q /\ several x) -> (forall a x rest, q = (a, x) :: rest -> ~ void x) ->
  exists ixs f, indexes_of q = Ok ixs /\ an_filter an ixs = Ok (Some f) /\ answers q tb f.
Proof.
  intros T Ky Wh Ac Sv NV. destruct (indexes_ok q Ac) as (ixs & E & O).
  destruct (pivot_total el tb q ixs Ky Wh O Sv NV) as (f & P). exists ixs, f. split; auto.
  rewrite (filter_table an el tb q ixs T Wh O), P. split; auto. now apply (pivot_answers el tb q ixs).
Qed.

(** Whatever is answered is right. *)
Theorem C36_query_answers_sound an el tb q ixs f : table_of an el = Some tb -> keyed el tb -> whole el q -> accepted q ->
  indexes_of q = Ok ixs -> an_filter an ixs = Ok f -> exists f', f = Some f' /\ answers q tb f'.
Proof.
  intros T Ky Wh Ac E H. destruct (indexes_ok q Ac) as (ixs' & E' & O). rewrite E in E'. injection E' as <-.
  rewrite (filter_table an el tb q ixs T Wh O) in H. destruct (pivot ixs tb) as [f'|] eqn:P; [|discriminate]. injection H as <-.
  exists f'. split; auto. now apply (pivot_answers el tb q ixs).
Qed.

(** Failures: every argument is one value and a row has them all. *)
Theorem C36_query_fully_specified an el tb q : table_of an el = Some tb -> keyed el tb -> whole el q -> accepted q ->
  (forall a x, In (a, x) q -> ~ several x) -> (exists r, In r (tb_rows tb) /\ matches q r) ->
  exists ixs, indexes_of q = Ok ixs /\ an_filter an ixs = Err IndexError.
Proof.
  intros T Ky Wh Ac NS M. destruct (indexes_ok q Ac) as (ixs & E & O). exists ixs. split; auto.
  rewrite (filter_table an el tb q ixs T Wh O), (pivot_fails el tb q ixs Ky Wh O NS M). reflexivity.
Qed.

(** Tables of an analyzer have unique keys. *)
Lemma keyed_faithful {E F} (gets : node -> list E) (getr : onode -> list F) el row s r cols rows :
  faithful gets getr (axis_column el) row s r rows ->
  incl ["network"; "node"; axis_column el; "scn"; "t"] cols ->
  (forall net nd e o scn t c, In c ["network"; "node"; axis_column el; "scn"; "t"] -> is_label (cell_of c (row net nd e o scn t))) ->
  (forall net nd e o scn t c, In c cols -> ~ In c ["network"; "node"; axis_column el; "scn"; "t"] ->
     exists q, cell_of c (row net nd e o scn t) = CNum q) ->
  (exists c, In c cols /\ ~ In c ["network"; "node"; axis_column el; "scn"; "t"]) ->
  keyed el (Table cols rows).
Proof.
  intros (_ & F2 & F3) C L V (c0 & I0 & N0). constructor; cbn [tb_cols tb_rows]; auto.
  - intros x c I J. destruct (F2 x I) as (net & nd & e & o & scn & t & _ & _ & _ & ->). now apply L.
  - intros x c I J N. destruct (F2 x I) as (net & nd & e & o & scn & t & _ & _ & _ & ->). destruct (V net nd e o scn t c J N) as (q & ->). exact Logic.I.
  - intros x I. destruct (F2 x I) as (net & nd & e & o & scn & t & _ & _ & _ & ->). destruct (V net nd e o scn t c0 I0 N0) as (q & Q). eauto.
Qed.

Ltac keyed_tac :=
  [> let z := fresh in let Iz := fresh in intros z Iz; simpl in Iz; simpl; tauto
   | intros net nd e o scn t c I; simpl in I; repeat (destruct I as [<-|I]; [exact Logic.I|]); destruct I
   | intros net nd e o scn t c I N; simpl in I; repeat (destruct I as [<-|I]; [first [eexists; reflexivity | exfalso; apply N; simpl; tauto]|]); destruct I
   | exists "cost"; split; [simpl; tauto | simpl; intros H; repeat (destruct H as [H|H]; [discriminate H|]); destruct H] ].

Theorem C36_tables_have_unique_keys bcast junk s r an : api_study s -> mirrors s r -> new_analyzer bcast junk s r = Ok an ->
  keyed ACons (an_cons an) /\ keyed AProd (an_prod an) /\ keyed ALink (an_link an) /\
  (storage_count s <= 1 -> keyed AStor (an_stor an)).
Proof.
  intros A M N. unfold new_analyzer in N.
  destruct (C33_tables_faithful bcast junk s r A M) as ((c1 & r1 & B1 & F1) & (c2 & r2 & B2 & F2) & (c3 & r3 & B3 & F3)).
  pose proof (build_consumption_eq s r bcast junk A M) as E1. rewrite B1 in E1. injection E1 as E1 _.
  pose proof (build_production_eq s r bcast junk A M) as E2. rewrite B2 in E2. injection E2 as E2 _.
  pose proof (build_link_eq s r bcast junk A M) as E3. rewrite B3 in E3. injection E3 as E3 _.
  rewrite B1, B2, B3 in N. cbn [rbind] in N.
  destruct (build_storage bcast junk s r) as [x|] eqn:B4; [|discriminate]. cbn [rbind] in N.
  destruct (build_src_converter bcast junk s r) as [v|]; [|discriminate]. cbn [rbind] in N.
  destruct (build_dest_converter bcast junk s r) as [d|]; [|discriminate]. cbn [rbind] in N. injection N as <-.
  cbn [an_cons an_prod an_link an_stor]. split; [|split; [|split]].
  - subst c1. eapply keyed_faithful; [exact F1|..]; keyed_tac.
  - subst c2. eapply keyed_faithful; [exact F2|..]; keyed_tac.
  - subst c3. eapply keyed_faithful; [exact F3|..]; keyed_tac.
  - intros L. destruct (C34_storage_table_partial bcast junk s r A M L) as (c4 & r4 & B & F4). rewrite B in B4. injection B4 as <-.
    assert (E4 : c4 = ["max_capacity"; "capacity"; "max_flow_in"; "flow_in"; "max_flow_out"; "flow_out"; "cost";
      "init_capacity"; "eff"; "name"; "node"; "network"; "t"; "scn"]).
    { rewrite (build_storage_eq s r bcast junk A M) in B; [now injection B|].
      unfold stors_of. rewrite <- (count_elements_eq n_stors on_stors s r M); auto. apply like_stors. }
    subst c4. eapply keyed_faithful; [exact F4|..]; keyed_tac.
Qed.

(** ** C37 *)
Lemma matches_perm q q' r : Permutation q q' -> matches q r -> matches q' r.
Proof. intros P M a x I. apply M. apply (Permutation_in _ (Permutation_sym P)). exact I. Qed.

Lemma combine_key q (r : trow) : combine (query_names q) (key_of (query_names q) r) = map (fun ax => (axis_column (fst ax), cell_of (axis_column (fst ax)) r)) q.
Proof. unfold query_names, key_of. induction q as [|ax q IH]; auto. cbn [map combine]. now rewrite IH. Qed.

Lemma same_cell_trans a b c : same_cell a b -> same_cell c b -> same_cell a c.
Proof. destruct a, b, c; simpl; intros; try congruence. lra. Qed.

Lemma answers_same q q' tb f f' : Permutation q q' -> answers q tb f -> answers q' tb f' -> same_answer q q' tb f f'.
Proof.
  intros P (d & rows & L & ND & In1 & C & _) (d' & rows' & L' & ND' & In2 & C' & _).
  assert (PR : Permutation rows' rows).
  { apply NoDup_Permutation; auto. intros x. rewrite In1, In2. split; intros [A B]; split; auto.
    - exact (matches_perm q' q x (Permutation_sym P) B).
    - exact (matches_perm q q' x P B). }
  destruct (Permutation_Forall2 PR C') as (lines & PL & CL). exists d, d', lines. split; auto. split; auto. split; [exact PL|].
  unfold completed. clear - P C CL. revert lines CL. induction C as [|r l rs ls [K V] _ IH]; intros lines CL; inversion CL as [|? l' ? ls' [K' V'] CL']; subst; constructor; auto.
  split.
  - rewrite K, K', !combine_key. now apply Permutation_map.
  - intros c Ic Nc. destruct (V c Ic Nc) as (v & E & S). destruct (V' c Ic) as (v' & E' & S').
    + intros I. apply Nc. unfold query_names in *. eapply Permutation_in; [apply Permutation_map, Permutation_sym, P | exact I].
    + exists v, v'. split; auto. split; auto. eapply same_cell_trans; eauto.
Qed.

Lemma pivot_none el tb q ixs : keyed el tb -> whole el q -> Forall2 (fun ax i => ix_ok (fst ax) (snd ax) i) q ixs ->
  (forall r, In r (tb_rows tb) -> ~ matches q r) -> (forall a x rest, q = (a, x) :: rest -> ~ void x) -> exists f, pivot ixs tb = Ok f.
Proof.
  intros Ky Wh O NM NV. rewrite (pivot_eq el tb q ixs Ky Wh O). destruct (pivot_table_eq el tb q ixs Ky Wh O) as (F' & P & ->).
  assert (E : F' = []).
  { destruct F' as [|r F']; auto. exfalso. assert (I : In r (r :: F')) by (left; auto). apply (Permutation_in _ P) in I.
    apply (F_In el tb q ixs Ky Wh O) in I as [I M]. exact (NM r I M). }
  subst F'. destruct ixs as [|i ixs].
  - inversion O; subst. apply Permutation_nil in Wh. discriminate.
  - cbn [remove_useless map]. destruct (is_alone i) eqn:A; [|eauto]. destruct (ix_index i) eqn:Ei; [|eexists; reflexivity].
    inversion O as [|[a x] ? ? ? H]; subst. exfalso. apply (NV a x l); auto. now apply (xo_void _ _ _ H).
Qed.

Theorem C37_axis_order_partial an el tb q q' : table_of an el = Some tb -> keyed el tb -> whole el q -> accepted q -> Permutation q q' ->
  (forall a x, In (a, x) q -> ~ void x) ->
  exists ixs ixs', indexes_of q = Ok ixs /\ indexes_of q' = Ok ixs' /\
  ((exists f f', an_filter an ixs = Ok (Some f) /\ an_filter an ixs' = Ok (Some f') /\ same_answer q q' tb f f') \/
   (an_filter an ixs = Err IndexError /\ an_filter an ixs' = Err IndexError)).
Proof.
  intros T Ky Wh Ac P NV.
  assert (Wh' : whole el q') by (unfold whole in *; rewrite <- Wh; apply Permutation_map, Permutation_sym, P).
  assert (Ac' : accepted q') by (intros a x I; apply Ac; apply (Permutation_in _ (Permutation_sym P)); exact I).
  destruct (indexes_ok q Ac) as (ixs & E & O). destruct (indexes_ok q' Ac') as (ixs' & E' & O').
  exists ixs, ixs'. split; auto. split; auto. rewrite (filter_table an el tb q ixs T Wh O), (filter_table an el tb q' ixs' T Wh' O').
  assert (H1 : forall a x rest, q = (a, x) :: rest -> ~ void x) by (intros a x rest X; apply (NV a x); rewrite X; left; auto).
  assert (H2 : forall a x rest, q' = (a, x) :: rest -> ~ void x).
  { intros a x rest X. apply (NV a x). apply (Permutation_in _ (Permutation_sym P)). rewrite X. left; auto. }
  assert (both : (exists f, pivot ixs tb = Ok f) -> (exists f, pivot ixs' tb = Ok f) ->
     exists f f', (let* f := pivot ixs tb in Ok (Some f)) = Ok (Some f) /\ (let* f := pivot ixs' tb in Ok (Some f)) = Ok (Some f') /\ same_answer q q' tb f f').
  { intros (f & Hf) (f' & Hf'). exists f, f'. rewrite Hf, Hf'. split; auto. split; auto.
    apply answers_same; auto; eapply pivot_answers; eauto. }
  destruct (existsb (fun i => negb (is_alone i)) ixs) eqn:X.
  - left. apply both.
    + apply (pivot_total el tb q ixs); auto. apply existsb_exists in X as (i & I & A). apply negb_true_iff in A.
      clear - O I A. induction O as [|[a x] i' l m H _ IH]; [destruct I|]. destruct I as [->|I].
      * exists a, x. split; [left; auto|]. now apply (xo_alone _ _ _ H).
      * destruct (IH I) as (b & y & J & K). exists b, y. split; [right|]; auto.
    + apply (pivot_total el tb q' ixs'); auto. apply existsb_exists in X as (i & I & A). apply negb_true_iff in A.
      assert (exists a x, In (a, x) q /\ several x) as (a & x & J & K).
      { clear - O I A. induction O as [|[a x] i' l m H _ IH]; [destruct I|]. destruct I as [->|I].
        * exists a, x. split; [left; auto|]. now apply (xo_alone _ _ _ H).
        * destruct (IH I) as (b & y & J & K). exists b, y. split; [right|]; auto. }
      exists a, x. split; auto. now apply (Permutation_in _ P).
  - assert (NS : forall a x, In (a, x) q -> ~ several x).
    { intros a x I S. assert (exists i, In i ixs /\ is_alone i = false) as (i & J & A).
      { clear - O I S. induction O as [|[b y] i' l m H _ IH]; [destruct I|]. destruct I as [Eq|I].
        - injection Eq as -> ->. exists i'. split; [left; auto|]. now apply (xo_alone _ _ _ H).
        - destruct (IH I) as (i & J & K). exists i. split; [right|]; auto. }
      assert (Y : existsb (fun i => negb (is_alone i)) ixs = true) by (apply existsb_exists; exists i; split; auto; now rewrite A). congruence. }
    destruct (existsb (fun r => forallb (fun i => ix_keeps i r) ixs) (tb_rows tb)) eqn:Y.
    + right. apply existsb_exists in Y as (r & I & K).
      assert (J : In r (filter (fun r => forallb (fun i => ix_keeps i r) ixs) (tb_rows tb))) by (apply filter_In; auto).
      apply (F_In el tb q ixs Ky Wh O) in J as [_ Mt]. split.
      * rewrite (pivot_fails el tb q ixs Ky Wh O NS); eauto.
      * rewrite (pivot_fails el tb q' ixs' Ky Wh' O'); eauto.
        -- intros a x J. apply NS with a. now apply (Permutation_in _ (Permutation_sym P)).
        -- exists r. split; auto. eapply matches_perm; eauto.
    + assert (NM : forall r, In r (tb_rows tb) -> ~ matches q r).
      { intros r I Mt. assert (J : In r (filter (fun r => forallb (fun i => ix_keeps i r) ixs) (tb_rows tb))) by (apply (F_In el tb q ixs Ky Wh O); auto).
        apply filter_In in J as [_ K]. assert (Z : existsb (fun r => forallb (fun i => ix_keeps i r) ixs) (tb_rows tb) = true) by (apply existsb_exists; eauto). congruence. }
      left. apply both.
      * apply (pivot_none el tb q ixs); auto.
      * apply (pivot_none el tb q' ixs'); auto. intros r I Mt. apply (NM r I). eapply matches_perm; [apply Permutation_sym, P | exact Mt].
Qed.
Print Assumptions C36_axes.
