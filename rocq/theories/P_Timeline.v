(** Monotone views and timelines of any analyzer, whatever its tables hold: C61. *)
From Coq Require Import String Ascii List ZArith QArith Bool Arith Lia Lqa Permutation Sorted.
Import ListNotations.
From Verif Require Import Base BaseFacts Numeric Study Fluent Output LP SpecStudy SpecLP StudyFacts LPReady
  Analyzer SpecAnalyzer AnalyzerFacts P_Tables P_Exact QueryFacts P_Query P_Reuse SumFacts P_Totals P_Cost Viewer ViewFacts SpecViewer P_Viewer.
Open Scope nat_scope.
Open Scope string_scope.
Open Scope list_scope.

Definition ixs_of (net nd : string) (el : axis) (name : string) (scn : index) : list index :=
  [Index ANetwork false [CStr net]; Index ANode false [CStr nd]; Index el false [CStr name]; scn; Index ATime true []].
Definition one_scn (z : Z) : index := Index AScn false [CInt z].
Definition all_scn : index := Index AScn true [].
Definition answered (r : res (option frame)) : res frame := match r with Ok (Some f) => Ok f | Ok None => Err TypeError | Err e => Err e end.
Ltac five_asked K := unfold is_kind, element_axes in K; cbn [In] in K; decompose [or] K; subst; try tauto; unfold fetch, sbind, an_network, slift, sret, ixs_of, all_scn, one_scn; cbn -[an_filter answered];
  match goal with |- context [an_filter ?an ?l] => destruct (an_filter an l) as [[|]|]; reflexivity end.
Lemma fetch_all an net nd el name : is_kind el -> fetch an (str net) [(ANode, str nd); (el, str name); (AScn, INone); (ATime, INone)] =
  answered (an_filter an (ixs_of net nd el name all_scn)).
Proof. intros K. five_asked K. Qed.
Lemma fetch_one an net nd el name z : is_kind el -> fetch an (str net) [(ANode, str nd); (el, str name); (AScn, int z); (ATime, INone)] =
  answered (an_filter an (ixs_of net nd el name (one_scn z))).
Proof. intros K. five_asked K. Qed.

(** Both filters read the same table. *)
Lemma filter_kind an net nd el name scn tb : ix_axis scn = AScn -> table_of an el = Some tb ->
  an_filter an (ixs_of net nd el name scn) = let* f := pivot (ixs_of net nd el name scn) tb in Ok (Some f).
Proof.
  intros Sc T. unfold an_filter, check_index, ixs_of. cbn [existsb ix_axis]. rewrite Sc. destruct el; try discriminate T; cbn in T; injection T as <-; reflexivity.
Qed.
Lemma kind_table an el : is_kind el -> exists tb, table_of an el = Some tb.
Proof. intros K. unfold is_kind, element_axes in K. cbn [In] in K. decompose [or] K; subst; try tauto; cbn; eauto. Qed.

Lemma NoDup_isort {A} (le : A -> A -> bool) l : NoDup l -> NoDup (isort le l).
Proof. intros N. eapply Permutation_NoDup; [apply Permutation_sym, isort_perm | exact N]. Qed.
Lemma Permutation_filter {A} (p : A -> bool) l m : Permutation l m -> Permutation (filter p l) (filter p m).
Proof.
  induction 1 as [|x l m P IH|x y l|l m k P1 IH1 P2 IH2]; cbn [filter]; auto.
  - destruct (p x); auto.
  - destruct (p x), (p y); auto. apply perm_swap.
  - eauto using Permutation_trans.
Qed.
Lemma mapM_perm {A B} (f : A -> res B) l m : Permutation l m -> forall y, mapM f l = Ok y -> exists y', mapM f m = Ok y' /\ Permutation y y'.
Proof.
  induction 1 as [|x l m P IH|a b l|l m k P1 IH1 P2 IH2]; cbn [mapM]; intros z E.
  - exists z. auto.
  - destruct (f x) as [u|]; [|discriminate]. cbn [rbind] in *. destruct (mapM f l) as [v|] eqn:El; [|discriminate]. cbn [rbind] in E. injection E as <-.
    destruct (IH v eq_refl) as (v' & -> & Pv). exists (u :: v'). split; auto.
  - destruct (f b) as [u|]; [|discriminate]. cbn [rbind] in *. destruct (f a) as [u'|]; [|discriminate]. cbn [rbind] in *. destruct (mapM f l) as [v|]; [|discriminate]. cbn [rbind] in *.
    injection E as <-. exists (u' :: u :: v). split; auto. apply perm_swap.
  - destruct (IH1 z E) as (y1 & E1 & Q1). destruct (IH2 y1 E1) as (y2 & E2 & Q2). eauto using Permutation_trans.
Qed.

Section Table.
  Variables (tb : table) (net nd name : string) (el : axis) (z : Z).
  Let names := ["network"; "node"; axis_column el; "scn"; "t"].
  Let vals := filter (fun c => negb (mem c names)) (tb_cols tb).
  Let rows scn := filter (fun r => forallb (fun i => ix_keeps i r) (ixs_of net nd el name scn)) (tb_rows tb).
  Let mine (k : list cell) := eqb (nth 3 k CNaN) (CInt z).
  Let val scn k : list cell * trow := (k, map (fun c => (c, mean (map (cell_of c) (group names (rows scn) k)))) vals).
  Let seen (l : list cell * trow) := existsb (fun cv => negb (is_nan (snd cv))) (snd l).
  Definition table_lines scn := filter seen (map (val scn) (group_keys names (rows scn))).

  Lemma keeps_all r : forallb (fun i => ix_keeps i r) (ixs_of net nd el name all_scn) = true <->
    cell_of "network" r = CStr net /\ cell_of "node" r = CStr nd /\ cell_of (axis_column el) r = CStr name /\ is_nan (cell_of "scn" r) = false /\ is_nan (cell_of "t" r) = false.
  Proof.
    unfold ixs_of, all_scn. cbn [forallb]. rewrite !andb_true_iff. unfold ix_keeps. cbn [ix_all ix_index]. unfold ix_column. cbn [ix_axis].
    rewrite !mem_In, !negb_true_iff. cbn [In axis_column]. intuition (congruence || auto).
  Qed.
  Lemma keeps_one r : forallb (fun i => ix_keeps i r) (ixs_of net nd el name (one_scn z)) = true <->
    forallb (fun i => ix_keeps i r) (ixs_of net nd el name all_scn) = true /\ cell_of "scn" r = CInt z.
  Proof.
    rewrite keeps_all. unfold ixs_of, one_scn. cbn [forallb]. rewrite !andb_true_iff. unfold ix_keeps. cbn [ix_all ix_index]. unfold ix_column. cbn [ix_axis].
    rewrite !mem_In, !negb_true_iff. cbn [In axis_column]. split; [intros H; decompose [and or] H; try tauto|intros H; decompose [and] H; auto 10]. 
    repeat split; try congruence. replace (cell_of "scn" r) with (CInt z) by congruence. reflexivity.
  Qed.
  Lemma rows_one r : In r (rows (one_scn z)) <-> In r (rows all_scn) /\ cell_of "scn" r = CInt z.
  Proof. unfold rows. rewrite !filter_In, keeps_one. tauto. Qed.
  Lemma mine_key r : mine (key_of names r) = true <-> cell_of "scn" r = CInt z.
  Proof. unfold mine, names, key_of. cbn [map nth]. apply eqb_eq. Qed.

  Lemma group_one k : mine k = true -> group names (rows (one_scn z)) k = group names (rows all_scn) k.
  Proof.
    intros Mk. unfold group, rows. induction (tb_rows tb) as [|r l IH]; auto. cbn [filter].
    destruct (forallb _ (ixs_of net nd el name all_scn)) eqn:F1.
    - destruct (forallb _ (ixs_of net nd el name (one_scn z))) eqn:F2.
      + cbn [filter]. now rewrite IH.
      + cbn [filter]. destruct (eqb (key_of names r) k) eqn:B; auto. apply eqb_eq in B. subst k. apply mine_key in Mk.
        assert (forallb (fun i => ix_keeps i r) (ixs_of net nd el name (one_scn z)) = true) by (apply keeps_one; auto). congruence.
    - destruct (forallb _ (ixs_of net nd el name (one_scn z))) eqn:F2; auto. apply keeps_one in F2 as [F2 _]. congruence.
  Qed.
  Lemma keys_one : Permutation (group_keys names (rows (one_scn z))) (filter mine (group_keys names (rows all_scn))).
  Proof.
    apply NoDup_Permutation.
    - apply NoDup_isort. apply unique_spec.
    - apply NoDup_filter, NoDup_isort. apply unique_spec.
    - intros k. rewrite filter_In. unfold group_keys.
      assert (X : forall rs, In k (isort key_le (unique (filter (fun k => negb (existsb is_nan k)) (map (key_of names) rs)))) <-> negb (existsb is_nan k) = true /\ exists r, In r rs /\ key_of names r = k).
      { intros rs. transitivity (In k (unique (filter (fun k => negb (existsb is_nan k)) (map (key_of names) rs)))).
        - split; apply Permutation_in; [|apply Permutation_sym]; apply isort_perm.
        - rewrite (proj2 (unique_spec _)), filter_In, in_map_iff. split; [intros ((r & <- & I) & N) | intros (N & r & I & <-)]; eauto. }
      rewrite !X. split.
      + intros (N & r & I & <-). apply rows_one in I as [I S]. split; [eauto | now apply mine_key].
      + intros ((N & r & I & <-) & Mk). split; auto. exists r. split; auto. apply rows_one. split; auto. now apply mine_key.
  Qed.
  Lemma lines_one : Permutation (table_lines (one_scn z)) (filter (fun l => mine (fst l)) (table_lines all_scn)).
  Proof.
    unfold table_lines. eapply Permutation_trans; [apply Permutation_filter, Permutation_map, keys_one|].
    generalize (group_keys names (rows all_scn)). induction l as [|k l IH]; auto. cbn [filter map]. destruct (mine k) eqn:Mk.
    - cbn [map filter]. assert (E : val (one_scn z) k = val all_scn k) by (unfold val; now rewrite group_one). rewrite E. destruct (seen (val all_scn k)); auto. cbn [filter]. change (mine (fst (val all_scn k))) with (mine k). rewrite Mk. auto.
    - destruct (seen (val all_scn k)); auto. cbn [filter]. change (mine (fst (val all_scn k))) with (mine k). rewrite Mk. auto.
  Qed.
  Lemma lines_key scn l : (forall r, In r (rows scn) -> In r (rows all_scn)) -> In l (table_lines scn) -> exists s t, fst l = [CStr net; CStr nd; CStr name; s; t].
  Proof.
    intros Sub I. unfold table_lines in I. apply filter_In in I as [I _]. apply in_map_iff in I as (k & <- & I). unfold val. cbn [fst]. unfold group_keys in I.
    apply (Permutation_in _ (isort_perm _ _)) in I. rewrite (proj2 (unique_spec _)) in I. apply filter_In in I as [I _]. apply in_map_iff in I as (r & <- & I).
    apply Sub in I. unfold rows in I. apply filter_In in I as [_ I]. apply keeps_all in I as (E1 & E2 & E3 & _). unfold key_of, names. cbn [map]. rewrite E1, E2, E3. eauto.
  Qed.
  Definition columns_there := forallb (fun c => mem c (tb_cols tb)) names.
  Lemma pivot_all : table_lines all_scn <> [] -> columns_there = true ->
    pivot (ixs_of net nd el name all_scn) tb = Ok (Frame ["scn"; "t"] (map (fun l => (skipn 3 (fst l), snd l)) (table_lines all_scn))).
  Proof.
    intros NE C. unfold pivot. replace (forallb _ (ixs_of net nd el name all_scn)) with columns_there by reflexivity. rewrite C.
    change (pivot_table _ _) with (Frame names (table_lines all_scn)).
    apply (remove_prefix AScn [Index ATime true []] [(ANetwork, CStr net); (ANode, CStr nd); (el, CStr name)]); auto.
    intros l I. destruct (lines_key all_scn l (fun _ H => H) I) as (s & t & ->). exists [s; t]. reflexivity.
  Qed.
  Lemma pivot_one : table_lines (one_scn z) <> [] -> columns_there = true ->
    pivot (ixs_of net nd el name (one_scn z)) tb = Ok (Frame ["t"] (map (fun l => (skipn 4 (fst l), snd l)) (table_lines (one_scn z)))).
  Proof.
    intros NE C. unfold pivot. replace (forallb _ (ixs_of net nd el name (one_scn z))) with columns_there by reflexivity. rewrite C.
    change (pivot_table _ _) with (Frame names (table_lines (one_scn z))).
    apply (remove_prefix ATime [] [(ANetwork, CStr net); (ANode, CStr nd); (el, CStr name); (AScn, CInt z)]); auto.
    intros l I. destruct (lines_key (one_scn z) l) as (s & t & E); auto. { intros r J. now apply rows_one in J. }
    apply (Permutation_in _ lines_one) in I. apply filter_In in I as [_ I]. rewrite E in *. unfold mine in I. cbn [nth] in I. apply eqb_eq in I. subst s. exists [t]. reflexivity.
  Qed.
  Lemma pivot_none : table_lines (one_scn z) = [] -> columns_there = true ->
    pivot (ixs_of net nd el name (one_scn z)) tb = Ok (Frame names []).
  Proof.
    intros E C. unfold pivot. replace (forallb _ (ixs_of net nd el name (one_scn z))) with columns_there by reflexivity. rewrite C.
    change (pivot_table _ _) with (Frame names (table_lines (one_scn z))). rewrite E. reflexivity.
  Qed.
  Lemma pivot_empty : table_lines all_scn = [] -> columns_there = true ->
    pivot (ixs_of net nd el name all_scn) tb = Ok (Frame names []).
  Proof.
    intros E C. unfold pivot. replace (forallb _ (ixs_of net nd el name all_scn)) with columns_there by reflexivity. rewrite C.
    change (pivot_table _ _) with (Frame names (table_lines all_scn)). rewrite E. reflexivity.
  Qed.
  Lemma pivot_missing scn : ix_axis scn = AScn -> columns_there = false -> pivot (ixs_of net nd el name scn) tb = Err KeyError.
  Proof.
    intros Sc C. unfold pivot. replace (forallb _ (ixs_of net nd el name scn)) with columns_there; [now rewrite C|].
    unfold columns_there, names, ixs_of. cbn [forallb]. unfold ix_column. cbn [ix_axis]. rewrite Sc. reflexivity.
  Qed.
End Table.

(** The monotone view of a scenario shows the values of its curve in the timeline, sorted; a
    scenario without curve shows nothing. Whatever the tables of the analyzer are. *)
Definition number (c : cell) : Prop := exists q, c = CNum q.
Definition decreasing (l : list cell) : Prop := StronglySorted (fun a b => exists p q, a = CNum p /\ b = CNum q /\ (q <= p)%Q) l.

Theorem C61_monotone_of_timeline an net nd el name col curves : is_kind el -> timeline an net nd el name col = Ok curves ->
  NoDup (map fst curves) /\
  (forall z y, In (CInt z, y) curves -> exists m, monotone an net nd el name col None (Some z) = Ok m /\ Permutation m y /\ (Forall number y -> decreasing m)) /\
  (forall z, ~ In (CInt z) (map fst curves) -> monotone an net nd el name col None (Some z) = Ok []).
Proof.
  intros K T. destruct (kind_table an el K) as (tb & Tb). unfold timeline in T. rewrite (fetch_all an net nd el name K), (filter_kind an net nd el name all_scn tb eq_refl Tb) in T.
  destruct (columns_there tb el) eqn:C; [|rewrite (pivot_missing tb net nd name el all_scn eq_refl C) in T; discriminate].
  destruct (table_lines tb net nd name el all_scn) as [|l0 ls0] eqn:L0.
  { rewrite (pivot_empty tb net nd name el L0 C) in T. cbn [rbind answered column fr_rows mapM] in T. unfold level_values in T. destruct (level_pos _ _); discriminate T. }
  assert (NE : table_lines tb net nd name el all_scn <> []) by (rewrite L0; discriminate).
  rewrite (pivot_all tb net nd name el NE C) in T. cbn [rbind answered] in T. clear L0.
  set (L := table_lines tb net nd name el all_scn) in *. set (F := Frame ["scn"; "t"] (map (fun l => (skipn 3 (fst l), snd l)) L)) in *.
  destruct (column col F) as [all|] eqn:Col; [|discriminate]. cbn [rbind] in T.
  unfold level_values in T. cbn [level_pos F fr_levels fr_rows] in T. change (String.eqb "scn" "scn") with true in T. cbn [rbind] in T.
  set (scns := unique (map (fun l : list cell * trow => nth 0 (fst l) CNaN) (map (fun l => (skipn 3 (fst l), snd l)) L))) in *.
  destruct (unique_spec (map (fun l : list cell * trow => nth 0 (fst l) CNaN) (map (fun l => (skipn 3 (fst l), snd l)) L))) as (ND & Scn). fold scns in ND, Scn.
  assert (T' : mapM (fun s => if in_index s F then let* y := column col (frame_loc s F) in Ok (s, y) else Err KeyError) scns = Ok curves) by (destruct scns; [discriminate | exact T]). clear T.
  assert (Key : forall l, In l L -> exists s t, fst l = [CStr net; CStr nd; CStr name; s; t]).
  { intros l I. apply (lines_key tb net nd name el all_scn); auto. }
  assert (Loc : forall z, fr_rows (frame_loc (CInt z) F) = map (fun l => (skipn 4 (fst l), snd l)) (filter (fun l => eqb (nth 3 (fst l) CNaN) (CInt z)) L)).
  { intros z. unfold frame_loc, F. cbn [fr_rows]. clear - Key. induction L as [|l L IH]; auto. cbn [map flat_map filter]. rewrite IH by (intros; apply Key; now right).
    destruct (Key l (or_introl eq_refl)) as (s & t & E). destruct l as [k row]. cbn [fst] in E. subst k. cbn [skipn fst snd nth]. destruct (eqb s (CInt z)); reflexivity. }
  assert (Fst : map fst curves = scns).
  { clear - T'. revert curves T'. induction scns as [|s l IH]; intros curves T; cbn [mapM] in T; [injection T as <-; reflexivity|].
    destruct (in_index s F); [|discriminate]. destruct (column col (frame_loc s F)); [|discriminate]. cbn [rbind] in T. destruct (mapM _ l) as [v|] eqn:El; [|discriminate]. cbn [rbind] in T. injection T as <-. cbn [map fst]. now rewrite (IH v). }
  split; [now rewrite Fst|]. split.
  - intros z y I.
    assert (Y : column col (frame_loc (CInt z) F) = Ok y /\ In (CInt z) scns).
    { split; [|rewrite <- Fst; apply in_map_iff; eexists; split; [|exact I]; reflexivity].
      clear - T' I. revert curves T' I. induction scns as [|s l IH]; intros curves T I; cbn [mapM] in T; [injection T as <-; destruct I|].
      destruct (in_index s F); [|discriminate]. destruct (column col (frame_loc s F)) as [y'|] eqn:Cy; [|discriminate]. cbn [rbind] in T. destruct (mapM _ l) as [v|] eqn:El; [|discriminate]. cbn [rbind] in T. injection T as <-.
      destruct I as [I|I]; [injection I as -> ->; exact Cy | exact (IH v eq_refl I)]. }
    destruct Y as (Y & Is). unfold column in Y. rewrite Loc in Y.
    pose proof (lines_one tb net nd name el z) as P. fold L in P.
    destruct (mapM_perm _ _ _ (Permutation_sym (Permutation_map (fun l : list cell * trow => (skipn 4 (fst l), snd l)) P)) y Y) as (y' & E' & P').
    assert (NE1 : table_lines tb net nd name el (one_scn z) <> []).
    { intros Z. rewrite Z in P. apply Permutation_nil in P. apply Scn in Is. rewrite map_map in Is. apply in_map_iff in Is as (l & E & Il). cbn [fst] in E.
      destruct (Key l Il) as (s & t & Ek). rewrite Ek in E. cbn in E. subst s. assert (In l []) as []. rewrite <- P. apply filter_In. rewrite Ek. split; auto. cbn [nth]. now apply eqb_eq. }
    exists (draw_monotone y'). unfold monotone. rewrite (fetch_one an net nd el name z K), (filter_kind an net nd el name (one_scn z) tb eq_refl Tb), (pivot_one tb net nd name el z NE1 C).
    cbn [rbind answered]. unfold column. cbn [fr_rows]. rewrite E'. cbn [rbind]. split; auto. split.
    + eapply Permutation_trans; [apply C61_drawn_cells | now apply Permutation_sym].
    + intros Nu. assert (exists l, y' = map CNum l) as (l & ->).
      { apply (Permutation_Forall P') in Nu. clear - Nu. induction Nu as [|c l (q & ->) _ (l' & ->)]; [now exists [] | now exists (q :: l')]. }
      destruct (C61_drawn_series l) as (l' & -> & _ & So). unfold decreasing. clear - So. induction So as [|a l S IH Fa]; cbn [map]; constructor; auto.
      rewrite Forall_map. eapply Forall_impl; [|exact Fa]. intros b Le. cbn beta in Le |- *. eauto.
  - intros z NI. rewrite Fst in NI.
    assert (Z : table_lines tb net nd name el (one_scn z) = []).
    { apply Permutation_nil. eapply Permutation_trans; [apply Permutation_sym|]. 2: apply Permutation_sym. 2: apply (lines_one tb net nd name el z).
      fold L. replace (filter _ L) with (@nil (list cell * trow)); auto. symmetry. destruct (filter _ L) as [|l ls] eqn:Fl; auto. exfalso. apply NI, Scn.
      assert (Il : In l (filter (fun l => eqb (nth 3 (fst l) CNaN) (CInt z)) L)) by (rewrite Fl; now left). apply filter_In in Il as [Il El]. apply eqb_eq in El.
      rewrite map_map. apply in_map_iff. exists l. split; auto. cbn [fst]. destruct (Key l Il) as (s & t & Ek). rewrite Ek in *. exact El. }
    unfold monotone. rewrite (fetch_one an net nd el name z K), (filter_kind an net nd el name (one_scn z) tb eq_refl Tb), (pivot_none tb net nd name el z Z C). reflexivity.
Qed.

(** The table of the sources is wrong for a converter with two of them: the timeline at the
    second source has one curve of two scenarios. The monotone view shows that curve. *)
Example C61_monotone_of_timeline_example : is_kind ASrcConv /\ timeline band_an "gas" "i" ASrcConv "mixer" "flow" = Ok [(CInt 1, [CNum (2 # 2); CNum (0 # 2)])] /\
  monotone band_an "gas" "i" ASrcConv "mixer" "flow" None (Some 1%Z) = Ok [CNum (2 # 2); CNum (0 # 2)] /\
  monotone band_an "gas" "i" ASrcConv "mixer" "flow" None (Some 0%Z) = Ok [] /\
  timeline band_an "gas" "g" ASrcConv "plant" "flow" = Ok [(CInt 0, [CNum 10; CNum 18]); (CInt 1, [CNum 18; CNum 4])] /\
  monotone band_an "gas" "g" ASrcConv "plant" "flow" None (Some 0%Z) = Ok [CNum 18; CNum 10].
Proof. split; [unfold is_kind; cbn; auto 10|]. repeat split; vm_compute; reflexivity. Qed.

Print Assumptions C61_monotone_of_timeline.
