(** Stacked view of a node: C59, C65. *)
From Coq Require Import String Ascii List ZArith QArith Bool Arith Lia Lqa Permutation Sorted.
Import ListNotations.
From Verif Require Import Base BaseFacts Numeric Study Fluent Output LP SpecStudy SpecLP StudyFacts LPFacts LPResult LPReady P_LP
  Analyzer SpecAnalyzer AnalyzerFacts P_Tables P_Exact QueryFacts P_Query P_Reuse SumFacts SpecTotals P_Totals P_Cost Viewer ViewFacts SpecViewer P_Viewer P_Map.
Open Scope nat_scope.
Open Scope string_scope.
Open Scope list_scope.

Lemma Permutation_flat {A B} (f : A -> list B) l m : Permutation l m -> Permutation (flat_map f l) (flat_map f m).
Proof.
  induction 1 as [|x l m P IH|x y l|l m k P1 IH1 P2 IH2]; cbn [flat_map]; auto.
  - now apply Permutation_app_head.
  - rewrite !app_assoc. apply Permutation_app_tail, Permutation_app_comm.
  - eauto using Permutation_trans.
Qed.
Lemma NoDup_flat {A B} (f : A -> list B) l : NoDup l -> (forall x, In x l -> NoDup (f x)) -> (forall x y z, In x l -> In y l -> In z (f x) -> In z (f y) -> x = y) -> NoDup (flat_map f l).
Proof.
  induction l as [|x l IH]; intros N F D; cbn [flat_map]; [constructor|]. inversion N as [|? ? NI N']; subst.
  assert (G : NoDup (flat_map f l)). { apply IH; auto. - intros; apply F; now right. - intros y y' z I J; apply D; now right. }
  assert (X : forall z, In z (f x) -> ~ In z (flat_map f l)).
  { intros z I J. apply in_flat_map in J as (y & Iy & J). assert (x = y) by (apply (D x y z); [left | right | |]; auto). now subst. }
  specialize (F x (or_introl eq_refl)). clear - G X F. induction (f x) as [|a m IHm]; auto. inversion F; subst. cbn. constructor.
  - rewrite in_app_iff. intros [I|I]; auto. apply (X a); simpl; auto.
  - apply IHm; auto. intros z I. apply X. now right.
Qed.

Lemma insert_In {A} (le : A -> A -> bool) x z l : In z (insert le x l) -> z = x \/ In z l.
Proof.
  induction l as [|y l IH]; cbn [insert In]; [intros [<-|[]]; auto|]. destruct (le x y); cbn [In]; [intros [<-|J]; auto|]. intros [<-|J]; auto. destruct (IH J); auto.
Qed.

(** A permutation of the lines of times is put back in order. *)
Lemma sort_back lv h (v : nat -> trow) l : Permutation l (map (fun k => ([CInt (Z.of_nat k)], v k)) (seq 0 h)) ->
  sort_index (Frame lv l) = Frame lv (map (fun k => ([CInt (Z.of_nat k)], v k)) (seq 0 h)).
Proof.
  intros P. unfold sort_index. cbn [fr_levels fr_rows]. f_equal. set (g := fun k => ([CInt (Z.of_nat k)], v k)) in *.
  assert (Inj : forall a b, g a = g b -> a = b). { intros a b E. unfold g in E. injection E as E _. lia. }
  assert (P' : Permutation (isort line_le l) (map g (seq 0 h))) by (eapply Permutation_trans; [apply isort_perm | exact P]).
  assert (N : NoDup (isort line_le l)).
  { eapply Permutation_NoDup; [apply Permutation_sym; exact P'|]. apply FinFun.Injective_map_NoDup; [exact Inj | apply seq_NoDup]. }
  assert (G : forall x, In x (isort line_le l) -> exists k, x = g k).
  { intros x I. apply (Permutation_in _ P') in I. apply in_map_iff in I as (k & <- & _). eauto. }
  apply (sorted_unique (fun a b => exists i j, i < j /\ a = g i /\ b = g j)).
  - intros x (i & j & L & -> & E). apply Inj in E. lia.
  - intros x y (i & j & L & -> & ->) (i' & j' & L' & E1 & E2). apply Inj in E1. apply Inj in E2. lia.
  - assert (So : StronglySorted (fun a b => line_le a b = true) (isort line_le l)).
    { assert (X : forall m, (forall x, In x m -> exists k, x = g k) -> StronglySorted (fun a b => line_le a b = true) (isort line_le m)).
      { assert (Tot : forall a b, line_le (g a) (g b) = (a <=? b)%nat).
        { intros a b. unfold g, line_le. cbn [fst key_le]. destruct (eqb (CInt (Z.of_nat a)) (CInt (Z.of_nat b))) eqn:E.
          - apply eqb_eq in E. injection E as E. symmetry. apply Nat.leb_le. lia.
          - cbn. destruct (Nat.leb_spec a b); [apply Z.leb_le; lia | apply Z.leb_gt; lia]. }
        induction m as [|x m IH]; intros H; [constructor|]. unfold isort in *. cbn [fold_right]. specialize (IH ltac:(intros; apply H; now right)).
        destruct (H x (or_introl eq_refl)) as (kx & ->).
        assert (H' : forall x, In x (fold_right (insert line_le) [] m) -> exists k, x = g k).
        { intros y I. apply H. right. apply (Permutation_in _ (isort_perm line_le m)). exact I. }
        revert IH H'. generalize (fold_right (insert line_le) [] m). clear - Tot. intros k IH H'. induction IH as [|y m So IH Fa]; [repeat constructor|]. cbn [insert]. destruct (H' y (or_introl eq_refl)) as (ky & ->). rewrite Tot.
        destruct (Nat.leb_spec kx ky).
        - constructor; [constructor; auto|]. constructor; [rewrite Tot; now apply Nat.leb_le|]. rewrite Forall_forall in *. intros z I. destruct (H' z (or_intror I)) as (kz & ->).
          specialize (Fa _ I). rewrite Tot in *. apply Nat.leb_le in Fa. apply Nat.leb_le. lia.
        - constructor; [apply IH; intros; apply H'; now right|]. rewrite Forall_forall in *. intros z I.
          apply insert_In in I as I'.
          destruct I' as [->|I']; [rewrite Tot; apply Nat.leb_le; lia | auto]. }
      apply X. intros x I. apply G. eapply Permutation_in; [apply Permutation_sym, isort_perm | exact I]. }
    clear P P'. revert N G So. generalize (isort line_le l). intros k N G So. induction So as [|x m So IH Fa]; constructor.
    + inversion N; apply IH; auto. intros; apply G; now right.
    + rewrite Forall_forall in *. intros y I. destruct (G x (or_introl eq_refl)) as (i & ->). destruct (G y (or_intror I)) as (j & ->). exists i, j. split; auto.
      specialize (Fa _ I). unfold g, line_le in Fa. cbn [fst key_le] in Fa. assert (i <> j) by (intros ->; inversion N; auto).
      destruct (eqb (CInt (Z.of_nat i)) (CInt (Z.of_nat j))) eqn:E; [apply eqb_eq in E; injection E as E; lia|]. cbn in Fa. apply Z.leb_le in Fa. lia.
  - apply sorted_seq. intros i j L1 L2. exists i, j. repeat split; auto; lia.
  - intros x. split; apply Permutation_in; auto. now apply Permutation_sym.
Qed.

Section Extract.
  Variables (X : Type) (an : analyzer) (el : axis) (n h : nat) (els : list X) (row : X -> nat -> nat -> trow) (knet knode kname : X -> string) (cols : list string) (sur : list trow).
  Hypotheses (Sh : shelf an el n h els row knet knode kname cols sur) (Pn : 0 < n) (Ph : 0 < h) (Nm : axis_column el = "name").
  Variables (by_cost : list (list cell * trow) -> list (list cell * trow)).
  Hypothesis (Bc : forall l, Permutation (by_cost l) l).
  Variables (net nd : string) (scn : nat).
  Hypotheses (Ls : scn < n) (Cl : forall rw, In rw sur -> cell_of "scn" rw = CNaN \/ key_of ["network"; "node"] rw <> [CStr net; CStr nd]).
  Variables (col : string) (f : X -> nat -> nat -> Q).
  Hypotheses (Cin : In col cols) (Cout : ~ In col ["network"; "node"; axis_column el; "scn"; "t"]) (Val : forall x scn t, In x els -> cell_of col (row x scn t) = CNum (f x scn t)).

  Let here (x : X) : bool := String.eqb (knet x) net && String.eqb (knode x) nd.
  Lemma here_iff x : In x (filter here els) <-> In x els /\ knet x = net /\ knode x = nd.
  Proof. rewrite filter_In. unfold here. rewrite andb_true_iff, !String.eqb_eq. tauto. Qed.
  Lemma els_once : NoDup els.
  Proof.
    clear Val. assert (D0 : els = [] \/ els <> []) by (clear; destruct els; [left | right]; congruence). destruct D0 as [E|NE]; [rewrite E; constructor|].
    pose proof (ky_unique _ _ (sh_keyed _ _ _ _ _ _ _ _ _ _ _ Sh NE)) as N. cbn [tb_rows] in N. apply NoDup_map_inv in N. clear - N Pn Ph.
    induction els as [|x l IH]; [constructor|]. unfold blocks in *. cbn [flat_map] in N. assert (I0 : In (row x 0 0) (grid n h (row x))) by (apply grid_In; exists 0, 0; auto).
    assert (D : forall A (u v : list A) z, NoDup (u ++ v) -> In z u -> ~ In z v).
    { intros A u v z. induction u as [|a u IHu]; cbn; [tauto|]. intros M [<-|J] K; inversion M; subst; [apply H1, in_or_app; auto | apply IHu; auto]. }
    constructor; [|apply IH; clear - N; induction (grid n h (row x)) as [|a u IHu]; auto; inversion N; auto].
    intros J. apply (D _ _ _ _ N I0). apply in_flat_map. eauto.
  Qed.
  Lemma here_same x y : In x (filter here els) -> In y (filter here els) -> kname x = kname y -> x = y.
  Proof.
    intros I J E. apply here_iff in I as (I & I1 & I2). apply here_iff in J as (J & J1 & J2). apply (same_element X an el n h els row knet knode kname cols sur Sh Pn Ph); congruence.
  Qed.

  Let names := ["network"; "scn"; "node"; axis_column el; "t"].
  Let cells x t := snd (line names cols (row x scn t)).
  Let lines_at (x : X) := map (fun t => ([CStr (kname x); CInt (Z.of_nat t)], cells x t)) (seq 0 h).

  Lemma whole_node : whole el [(ANetwork, str net); (AScn, int (Z.of_nat scn)); (ANode, str nd); (el, INone); (ATime, INone)].
  Proof.
    unfold whole. cbn [map fst]. apply perm_skip. transitivity [ANode; AScn; el; ATime]; [apply perm_swap|]. apply perm_skip. apply perm_swap.
  Qed.

  Lemma node_fetch : filter here els <> [] -> exists rows,
    fetch an (str net) [(AScn, int (Z.of_nat scn)); (ANode, str nd); (el, INone); (ATime, INone)] = Ok (Frame ["name"; "t"] rows) /\
    Permutation rows (flat_map lines_at (filter here els)).
  Proof.
    intros NE. assert (Hx : exists x, In x (filter here els)) by (destruct (filter here els) as [|x l]; [congruence | exists x; now left]).
    destruct Hx as (x & Ix). pose proof Ix as Ix'. apply here_iff in Ix' as (Ie & E1 & E2).
    assert (Mt : forall y s' t, matches [(ANetwork, str net); (AScn, int (Z.of_nat scn)); (ANode, str nd); (el, INone); (ATime, INone)] (row y s' t) <-> knet y = net /\ knode y = nd /\ s' = scn).
    { intros y s' t. unfold matches. split.
      - intros H. assert (H1 := H ANetwork (str net) ltac:(simpl; tauto)). assert (H2 := H AScn (int (Z.of_nat scn)) ltac:(simpl; tauto)). assert (H3 := H ANode (str nd) ltac:(simpl; tauto)).
        cbn [selects axis_column str int] in *. rewrite (cell_net X an el n h els row knet knode kname cols sur Sh) in H1.
        rewrite (cell_scn X an el n h els row knet knode kname cols sur Sh) in H2. rewrite (cell_node X an el n h els row knet knode kname cols sur Sh) in H3.
        injection H1. injection H2. injection H3. intros. repeat split; auto. lia.
      - intros (F1 & F2 & ->) a y' I. simpl in I. repeat (destruct I as [I|I]; [injection I as <- <-; cbn [selects axis_column str int]; try exact Logic.I|]); [| | |destruct I].
        + rewrite (cell_net X an el n h els row knet knode kname cols sur Sh). now rewrite F1.
        + now rewrite (cell_scn X an el n h els row knet knode kname cols sur Sh).
        + rewrite (cell_node X an el n h els row knet knode kname cols sur Sh). now rewrite F2. }
    destruct (fetch_some X an el n h els row knet knode kname cols sur Sh [(ANetwork, CStr net); (AScn, CInt (Z.of_nat scn)); (ANode, CStr nd)] el [(ATime, INone)] net
      [(AScn, int (Z.of_nat scn)); (ANode, str nd); (el, INone); (ATime, INone)]) as (target & F & IN & St).
    - reflexivity.
    - exact whole_node.
    - intros b y [I|[]]. congruence.
    - intros c I. simpl in I. destruct I as [I|[I|[I|[]]]]; try discriminate I. injection I as <-. eauto.
    - intros rw Ir. destruct (Cl rw Ir) as [E|E]; [now left | right]. intros Z. apply E. assert (H1 := Z ANetwork (str net) ltac:(simpl; tauto)). assert (H3 := Z ANode (str nd) ltac:(simpl; tauto)).
      cbn [selects axis_column str] in H1, H3. unfold key_of. cbn [map]. now rewrite H1, H3.
    - exists x, scn, 0. split; auto. split; auto. split; auto. apply (Mt x scn 0). auto.
    - rewrite F. eexists. split; [cbn [query_names map fst axis_column]; rewrite Nm; reflexivity|].
      assert (P : Permutation target (flat_map (fun x => map (row x scn) (seq 0 h)) (filter here els))).
      { apply NoDup_Permutation.
        - clear - St. induction St as [|a l So IH Fa]; constructor; auto. intros I. rewrite Forall_forall in Fa. apply (before_irr _ (Fa _ I)).
        - apply NoDup_flat.
          + apply NoDup_filter, els_once.
          + intros y _. apply FinFun.Injective_map_NoDup; [|apply seq_NoDup]. intros a b E. assert (E' : cell_of "t" (row y scn a) = cell_of "t" (row y scn b)) by (now rewrite E).
            rewrite !(cell_t X an el n h els row knet knode kname cols sur Sh) in E'. injection E'. lia.
          + intros y y' z I J K K'. apply in_map_iff in K as (a & <- & _). apply in_map_iff in K' as (b & E & _). apply here_same; auto.
            assert (E' : cell_of (axis_column el) (row y' scn b) = cell_of (axis_column el) (row y scn a)) by (now rewrite E).
            rewrite !(cell_name X an el n h els row knet knode kname cols sur Sh) in E'. now injection E'.
        - intros z. rewrite IN, in_flat_map. split.
          + intros ((y & s' & t & Iy & L1 & L2 & ->) & H). apply (Mt y s' t) in H as (F1 & F2 & ->). exists y. split; [apply here_iff; auto|]. apply in_map_iff. exists t. split; auto. apply in_seq. lia.
          + intros (y & Iy & J). apply here_iff in Iy as (Iy & F1 & F2). apply in_map_iff in J as (t & <- & J). apply in_seq in J. split; [exists y, scn, t; repeat split; auto; lia|]. apply (Mt y scn t). auto. }
      unfold lines_of. eapply Permutation_trans; [apply Permutation_map, P|]. rewrite map_flat_map.
      assert (E : forall l, flat_map (fun y => map (fun z => (key_of (query_names [(el, INone); (ATime, INone)]) z, snd (line (query_names (ones [(ANetwork, CStr net); (AScn, CInt (Z.of_nat scn)); (ANode, CStr nd)] ++ [(el, INone); (ATime, INone)])) cols z))) (map (row y scn) (seq 0 h))) l = flat_map lines_at l).
      { induction l as [|y l IH]; auto. cbn [flat_map]. rewrite IH. f_equal. rewrite map_map. unfold lines_at. apply map_ext. intros t.
        cbn [query_names map fst axis_column key_of]. rewrite (cell_name X an el n h els row knet knode kname cols sur Sh), (cell_t X an el n h els row knet knode kname cols sur Sh). reflexivity. }
      rewrite E. reflexivity.
  Qed.

  Lemma loc_lines y : In y (filter here els) -> forall rows, Permutation rows (flat_map lines_at (filter here els)) ->
    Permutation (fr_rows (frame_loc (CStr (kname y)) (Frame ["name"; "t"] rows))) (map (fun t => ([CInt (Z.of_nat t)], cells y t)) (seq 0 h)).
  Proof.
    intros Iy rows P. unfold frame_loc. cbn [fr_rows]. eapply Permutation_trans; [apply Permutation_flat, P|].
    pose proof (NoDup_filter here els_once) as N. pose proof here_same as Hs. revert Iy N Hs. generalize (filter here els).
    assert (Same : forall l, (forall x, In x l -> kname x <> kname y) -> flat_map (fun l : list cell * trow => match fst l with c :: kk => if eqb c (CStr (kname y)) then [(kk, snd l)] else [] | [] => [] end) (flat_map lines_at l) = []).
    { induction l as [|x l IH]; intros H; auto. cbn [flat_map]. rewrite flat_map_app, IH by (intros; apply H; now right). rewrite app_nil_r. unfold lines_at.
      generalize (seq 0 h). induction l0 as [|t m IHm]; auto. cbn [map flat_map fst snd]. rewrite (proj2 (eqb_neq _ _)); [exact IHm|]. intros E. injection E. apply H. now left. }
    induction l as [|x l IH]; intros Iy N Hs; [destruct Iy|]. inversion N as [|? ? NI N']; subst. cbn [flat_map]. rewrite flat_map_app. destruct Iy as [->|Iy].
    - rewrite Same; [|intros x I E; apply NI; rewrite <- (Hs x y); [auto | now right | now left | auto]]. rewrite app_nil_r. unfold lines_at.
      generalize (seq 0 h). induction l0 as [|t m IHm]; auto. cbn [map flat_map fst snd]. rewrite eqb_refl. cbn [app]. now constructor.
    - replace (flat_map _ (lines_at x)) with (@nil (list cell * trow)).
      + cbn [app]. apply IH; auto. intros a b I J. apply Hs; now right.
      + symmetry. rewrite <- (app_nil_r (lines_at x)). change (lines_at x ++ []) with (flat_map lines_at [x]). apply Same. intros x' [<-|[]] E. apply NI. rewrite (Hs x y); auto; [now left | now right].
  Qed.

  Definition layer (x : X) : cell * list cell := (CStr (kname x), map (fun t => CNum (norm (f x scn t))) (seq 0 h)).
  Lemma extract_ok sort : filter here els <> [] -> exists xs, Permutation xs (filter here els) /\
    extract by_cost an net nd (Z.of_nat scn) el col sort = Ok (map layer xs).
  Proof.
    intros NE. destruct (node_fetch NE) as (rows & F & P). unfold extract. rewrite F. cbn [rbind fr_levels fr_rows].
    set (rows' := if sort then by_cost rows else rows). assert (P' : Permutation rows' (flat_map lines_at (filter here els))) by (unfold rows'; destruct sort; [eapply Permutation_trans; [apply Bc | exact P] | exact P]).
    replace (if sort then Frame ["name"; "t"] (by_cost rows) else Frame ["name"; "t"] rows) with (Frame ["name"; "t"] rows') by (unfold rows'; destruct sort; reflexivity).
    unfold level_values. cbn [fr_levels level_pos]. change (String.eqb "name" "name") with true. cbn [rbind fr_rows].
    destruct (unique_spec (map (fun l : list cell * trow => nth 0 (fst l) CNaN) rows')) as (Nu & Iu).
    set (ids := unique (map (fun l : list cell * trow => nth 0 (fst l) CNaN) rows')) in *.
    assert (Ids : forall c, In c ids <-> exists x, In x (filter here els) /\ c = CStr (kname x)).
    { intros c. rewrite Iu, in_map_iff. split.
      - intros (l & <- & I). apply (Permutation_in _ P') in I. apply in_flat_map in I as (x & Ix & I). unfold lines_at in I. apply in_map_iff in I as (t & <- & _). exists x. auto.
      - intros (x & Ix & ->). exists ([CStr (kname x); CInt (Z.of_nat 0)], cells x 0). split; auto. eapply Permutation_in; [apply Permutation_sym, P'|]. apply in_flat_map. exists x. split; auto.
        unfold lines_at. apply in_map_iff. exists 0. split; auto. apply in_seq. lia. }
    destruct (preimages (fun x => In x (filter here els)) (fun x => CStr (kname x)) ids) as (xs & Ex & Fx).
    { intros c I. apply Ids in I as (x & Ix & ->). eauto. }
    rewrite Forall_forall in Fx. exists xs. split.
    - apply NoDup_Permutation; [|apply NoDup_filter, els_once|].
      + rewrite Ex in Nu. now apply NoDup_map_inv in Nu.
      + intros x. split; [apply Fx|]. intros Ix. assert (J : In (CStr (kname x)) ids) by (apply Ids; eauto). rewrite Ex in J. apply in_map_iff in J as (y & E & Iy). injection E as E.
        rewrite (here_same x y); auto.
    - rewrite Ex. rewrite mapM_map. clear Ex Nu Iu Ids. induction xs as [|x xs IH]; auto. cbn [mapM map]. 
      replace (in_index (CStr (kname x)) (Frame ["name"; "t"] rows')) with true.
      2:{ symmetry. unfold in_index. apply existsb_exists. exists ([CStr (kname x); CInt (Z.of_nat 0)], cells x 0). split; [|cbn; now rewrite String.eqb_refl].
          cbn [fr_rows]. eapply Permutation_in; [apply Permutation_sym, P'|]. apply in_flat_map. exists x. split; [apply Fx; now left|]. unfold lines_at. apply in_map_iff. exists 0. split; auto. apply in_seq. lia. }
      pose proof (loc_lines x (Fx x (or_introl eq_refl)) rows' P') as L. destruct (frame_loc (CStr (kname x)) (Frame ["name"; "t"] rows')) as [lv ls] eqn:El. cbn [fr_rows] in L.
      rewrite (sort_back lv h (cells x) ls L). unfold cells at 1.
      rewrite (column_lines names cols col lv (fun t => [CInt (Z.of_nat t)]) (row x scn)); auto.
      2:{ intros I. apply Cout. unfold names in I. simpl in *. tauto. }
      cbn [rbind]. rewrite IH by (intros; apply Fx; now right). cbn [rbind]. unfold layer. do 3 f_equal. apply map_ext. intros t. rewrite Val, mean_norm; auto.
      assert (J := Fx x (or_introl eq_refl)). now apply here_iff in J.
  Qed.
End Extract.

(** ** Layers *)
Definition shown (h : nat) (nf : string * (nat -> Q)) (cl : cell * list cell) : Prop := fst cl = CStr (fst nf) /\ shows (snd cl) (map (snd nf) (seq 0 h)).
Definition thick (l : list (string * (nat -> Q))) (t : nat) : Q := qsum (map (fun nf => snd nf t) l).

Lemma shows_plus : forall a b u v, shows a u -> shows b v -> List.length a = List.length b -> shows (zip_cells Qplus a b) (map (fun p => fst p + snd p)%Q (combine u v)).
Proof.
  unfold shows, zip_cells. intros a b u v H. revert b v. induction H as [|c q a u Hc H IH]; intros [|d b] v K L; try discriminate L; inversion K as [|? q' ? ? Hd K']; subst; cbn; constructor; auto.
  destruct Hc as (x & -> & Ex). destruct Hd as (y & -> & Ey). exists (x + y)%Q. cbn. split; auto. now rewrite Ex, Ey.
Qed.

Lemma layers_run h l ls : Forall2 (shown h) ls l -> forall below stack done, shows stack (map below (seq 0 h)) -> exists st curves,
  foldM (fun '(stack, done) (nd : cell * list cell) => let* stack := add_layer stack (snd nd) in Ok (stack, done ++ [(fst nd, stack)])) l (stack, done) = Ok (st, done ++ curves) /\ piled h below ls curves.
Proof.
  induction 1 as [|[name f] [c y] ls l (Hc & Hy) F IH]; intros below stack done Hs.
  - exists stack, []. split; [cbn; now rewrite app_nil_r | exact Logic.I].
  - cbn [fst snd] in *. cbn [foldM]. pose proof (Forall2_len _ _ _ Hy) as L1. pose proof (Forall2_len _ _ _ Hs) as L2. rewrite map_length, seq_length in L1, L2.
    assert (Ea : add_layer stack y = Ok (zip_cells Qplus stack y)) by (unfold add_layer; now rewrite L1, L2, Nat.eqb_refl). cbn [snd fst]. rewrite Ea. cbn [rbind].
    assert (Hz : shows (zip_cells Qplus stack y) (map (fun t => (below t + f t)%Q) (seq 0 h))).
    { pose proof (shows_plus _ _ _ _ Hs Hy ltac:(lia)) as X. rewrite combine_map2, map_map in X. exact X. }
    destruct (IH (fun t => (below t + f t)%Q) _ (done ++ [(c, zip_cells Qplus stack y)]) Hz) as (st & curves & E & P).
    exists st, ((c, zip_cells Qplus stack y) :: curves). split; [rewrite E; now rewrite <- app_assoc|]. cbn [piled]. auto.
Qed.
Lemma layers_ok h l ls : Forall2 (shown h) ls l -> exists curves, layers h l = Ok curves /\ piled h (fun _ => 0%Q) ls curves.
Proof.
  intros F. assert (Z : shows (repeat (CNum 0) h) (map (fun _ => 0%Q) (seq 0 h))).
  { rewrite <- (repeat_map 0%Q (seq 0 h)), seq_length. clear. induction h; cbn; constructor; auto. exists 0%Q. split; reflexivity. }
  destruct (layers_run h l ls F (fun _ => 0%Q) (repeat (CNum 0) h) [] Z) as (st & curves & E & P).
  exists curves. split; auto. unfold layers. rewrite E. reflexivity.
Qed.
Lemma shows_nth y f h t : shows y (map f (seq 0 h)) -> t < h -> exists v, nth_error y t = Some v /\ holds v (f t).
Proof.
  intros S L. assert (E : nth_error (map f (seq 0 h)) t = Some (f t)). { rewrite (map_nth_error f t (seq 0 h) (d := t)); auto. rewrite (nth_error_nth' _ 0) by (rewrite seq_length; auto). now rewrite seq_nth. }
  unfold shows in S. assert (X : exists v, nth_error y t = Some v).
  { destruct (nth_error y t) eqn:N; eauto. apply nth_error_None in N. apply Forall2_len in S. rewrite map_length, seq_length in S. lia. }
  destruct X as (v & N). destruct (Forall2_get _ _ _ _ _ S N) as (q & Eq & H). rewrite E in Eq. injection Eq as <-. eauto.
Qed.
Lemma holds_eq c q q' : (q == q')%Q -> holds c q -> holds c q'.
Proof. intros E (x & -> & H). exists x. split; auto. now rewrite H. Qed.
Lemma piled_top h t : t < h -> forall ls below curves, piled h below ls curves -> ls <> [] -> exists c0 y v, last curves c0 = (fst (last curves c0), y) /\ 
  curves <> [] /\ nth_error y t = Some v /\ holds v (below t + thick ls t)%Q.
Proof.
  intros L. induction ls as [|[name f] ls IH]; intros below [|[c y] curves] P NE; try congruence; try (destruct P).
  destruct H0 as (Sy & P). destruct ls as [|nf ls].
  - destruct curves; [|destruct P]. destruct (shows_nth _ _ _ _ Sy L) as (v & N & Hv). exists (c, y), y, v. cbn [last fst]. split; auto. split; [discriminate|]. split; auto.
    eapply holds_eq; [|exact Hv]. unfold thick; cbn; ring.
  - destruct (IH _ curves P ltac:(discriminate)) as (c0 & y' & v & E1 & E2 & N & Hv). exists c0, y', v. destruct curves as [|cy curves]; [congruence|]. cbn [last] in *. split; auto. split; [discriminate|].
    split; auto. eapply holds_eq; [|exact Hv]. unfold thick; cbn; ring.
Qed.
Lemma last_any {A} (l : list A) d d' : l <> [] -> last l d = last l d'.
Proof. induction l as [|a [|b l] IH]; intros NE; try congruence; auto. cbn [last] in *. apply IH. discriminate. Qed.
Lemma piled_height h t ls curves : t < h -> piled h (fun _ => 0%Q) ls curves -> top_height t curves (thick ls t).
Proof.
  intros L P. destruct ls as [|nf ls].
  - destruct curves; [reflexivity | destruct P].
  - destruct (piled_top h t L _ _ curves P ltac:(discriminate)) as (c0 & y & v & E1 & E2 & N & Hv). unfold top_height. destruct curves as [|cy curves]; [congruence|].
    rewrite (last_any (cy :: curves) cy c0) by discriminate. rewrite E1. cbn [snd]. exists v. split; auto. eapply holds_eq; [|exact Hv]. ring.
Qed.
Lemma height_eq t curves q q' : (q == q')%Q -> top_height t curves q -> top_height t curves q'.
Proof. intros E. destruct curves; cbn [top_height]; [now rewrite E|]. intros (v & N & H). exists v. split; auto. eapply holds_eq; eauto. Qed.

(** ** The layers of elements *)
Section Extracted.
  Variables (X : Type) (an : analyzer) (el : axis) (n h : nat) (els : list X) (row : X -> nat -> nat -> trow) (knet knode kname : X -> string) (cols : list string) (sur : list trow).
  Hypotheses (Sh : els <> [] -> shelf an el n h els row knet knode kname cols sur) (Pn : 0 < n) (Ph : 0 < h) (Nm : axis_column el = "name").
  Variables (by_cost : list (list cell * trow) -> list (list cell * trow)).
  Hypothesis (Bc : forall l, Permutation (by_cost l) l).
  Variables (net nd : string) (scn : nat).
  Hypotheses (Ls : scn < n) (Cl : forall rw, In rw sur -> cell_of "scn" rw = CNaN \/ key_of ["network"; "node"] rw <> [CStr net; CStr nd]).
  Variables (col : string) (f : X -> nat -> nat -> Q).
  Hypotheses (Cin : In col cols) (Cout : ~ In col ["network"; "node"; "name"; "scn"; "t"]) (Val : forall x scn t, In x els -> cell_of col (row x scn t) = CNum (f x scn t)).
  Definition here (x : X) : bool := String.eqb (knet x) net && String.eqb (knode x) nd.
  Variables (count : nat) (P : string -> (nat -> nat -> Q) -> Prop).
  Hypotheses (Cn : count <> 0 <-> exists x, In x els /\ knet x = net /\ knode x = nd)
    (HP : forall name F, P name F <-> exists x, (In x els /\ knet x = net /\ knode x = nd) /\ name = kname x /\ F = f x).

  Lemma extracted sort : exists p cl, extract_if by_cost count an net nd (Z.of_nat scn) el col sort = Ok cl /\ Forall2 (shown h) p cl /\ listed P scn p /\
    forall t, (thick p t == qsum (map (fun x => if here x then f x scn t else 0) els))%Q.
  Proof.
    assert (Hi : forall x, In x (filter here els) <-> In x els /\ knet x = net /\ knode x = nd). { intros x. rewrite filter_In. unfold here. rewrite andb_true_iff, !String.eqb_eq. tauto. }
    unfold extract_if. destruct (Nat.ltb_spec 0 count) as [L|L].
    - destruct (proj1 Cn ltac:(lia)) as (x0 & I0). assert (NE : els <> []) by (intros E; rewrite E in I0; destruct I0 as ([] & _)). apply Hi in I0.
      assert (NF : filter here els <> []) by (intros E; rewrite E in I0; destruct I0). specialize (Sh NE).
      destruct (extract_ok X an el n h els row knet knode kname cols sur Sh Pn Ph Nm by_cost Bc net nd scn Ls Cl col f Cin ltac:(now rewrite Nm) Val sort NF) as (xs & Px & E). fold here in Px. rewrite E.
      exists (map (fun x => (kname x, f x scn)) xs). eexists. split; [reflexivity|]. split; [|split].
      + clear. induction xs as [|x xs IH]; constructor; auto. split; auto. cbn [fst snd layer]. rewrite <- (map_map (f x scn) (fun q => CNum (norm q))). apply shows_norm.
      + split.
        * rewrite map_map. cbn [fst].
          assert (N : NoDup xs). { eapply Permutation_NoDup; [apply Permutation_sym, Px|]. apply NoDup_filter. apply (els_once X an el n h els row knet knode kname cols sur Sh Pn Ph). }
          assert (Hx : forall x, In x xs -> In x (filter here els)) by (intros x; apply Permutation_in; auto).
          clear - Sh Pn Ph N Hx. induction N as [|x xs NI N IH]; cbn [map]; constructor; auto.
          -- intros I. apply in_map_iff in I as (y & Ey & Iy). apply NI. rewrite (here_same X an el n h els row knet knode kname cols sur Sh Pn Ph net nd x y); auto; apply Hx; [now left | now right].
          -- apply IH. intros; apply Hx; now right.
        * intros name g. rewrite in_map_iff. split.
          -- intros (x & Ex & Ix). injection Ex as <- <-. exists (f x). split; auto. apply HP. exists x. split; auto. apply Hi. eapply Permutation_in; eauto.
          -- intros (F & HF & ->). apply HP in HF as (x & Ix & -> & ->). exists x. split; auto. eapply Permutation_in; [apply Permutation_sym, Px|]. now apply Hi.
      + intros t. unfold thick. rewrite map_map. cbn [snd]. rewrite <- qsum_filter. apply qsum_perm. now apply Permutation_map.
    - exists [], []. assert (NI : forall x, ~ (In x els /\ knet x = net /\ knode x = nd)). { intros x I. assert (count <> 0) by (apply Cn; eauto). lia. }
      split; auto. split; auto. split.
      + split; [constructor|]. intros name g. split; [intros []|]. intros (F & HF & _). apply HP in HF as (x & Ix & _). destruct (NI x Ix).
      + intros t. unfold thick. cbn [map qsum fold_right]. symmetry. apply qsum_zero_all. intros x I. unfold here.
        destruct (String.eqb (knet x) net) eqn:E1; [|reflexivity]. destruct (String.eqb (knode x) nd) eqn:E2; [|reflexivity]. apply String.eqb_eq in E1. apply String.eqb_eq in E2. destruct (NI x); auto.
  Qed.
End Extracted.

Lemma listed_iff P P' scn l : (forall name F, P name F <-> P' name F) -> listed P scn l -> listed P' scn l.
Proof.
  intros H (N & L). split; auto. intros name f. rewrite L. split; intros (F & HF & ->); exists F; split; auto; now apply H.
Qed.
Lemma pair_eqb_iff a b c d : pair_eqb (a, b) (c, d) = String.eqb a c && String.eqb b d.
Proof. reflexivity. Qed.

Section Groups.
  Variables (s : study) (r : result) (bcast : bool) (junk : nat -> string -> nat -> cell) (an : analyzer).
  Hypotheses (Api : api_study s) (M : mirrors s r) (New : new_analyzer bcast junk s r = Ok an).
  Local Notation h := (st_horizon s).
  Local Notation n := (st_nb_scn s).
  Variables (by_cost : list (list cell * trow) -> list (list cell * trow)).
  Hypothesis (Bc : forall l, Permutation (by_cost l) l).
  Variables (net nd : string) (scn : nat) (nn : node) (rn : onode).
  Hypotheses (Ls : scn < n) (Nn : node_at s net nd = Some nn) (Nr : rnode_at r net nd = Some rn).

  Lemma elem_group {E F} (gets : node -> list E) (getr : onode -> list F) els row cols sur (name : E -> string) el col (f : E -> F -> nat -> nat -> Q) :
    shelf an el n h els (erow row) enet enode (ename name) cols sur -> axis_column el = "name" ->
    (forall rw, In rw sur -> cell_of "scn" rw = CNaN \/ key_of ["network"; "node"] rw <> [CStr net; CStr nd]) ->
    filter (here _ enet enode net nd) els = filter (here _ enet enode net nd) (elements gets getr s r) ->
    (forall n rn, node_like s n rn -> List.length (gets n) = List.length (getr rn)) -> In col cols -> ~ In col ["network"; "node"; "name"; "scn"; "t"] ->
    (forall k d e o scn t, cell_of col (row k d e o scn t) = CNum (f e o scn t)) ->
    forall sort, exists p cl, extract_if by_cost (List.length (gets nn)) an net nd (Z.of_nat scn) el col sort = Ok cl /\ Forall2 (shown h) p cl /\
      listed (fun nm G => exists e o, is_element gets getr s r net nd e o /\ nm = name e /\ G = f e o) scn p /\
      forall t, (thick p t == total (fun eo => f (fst eo) (snd eo) scn t) (combine (gets nn) (getr rn)))%Q.
  Proof.
    intros Sh Nm Cl Same Len Ci Co Val sort. destruct (api_facts s Api) as (W & _). destruct (dims_pos s Api) as (Pn & Ph).
    assert (Hi : forall l (x : string * string * E * F), In x (filter (here _ enet enode net nd) l) <-> In x l /\ enet x = net /\ enode x = nd).
    { intros l x. rewrite filter_In. unfold here. rewrite andb_true_iff, !String.eqb_eq. tauto. }
    assert (Sm : forall x, (In x els /\ enet x = net /\ enode x = nd) <-> (In x (elements gets getr s r) /\ enet x = net /\ enode x = nd)) by (intros x; now rewrite <- !Hi, Same).
    destruct (extracted _ an el n h els (erow row) enet enode (ename name) cols sur (fun _ => Sh) Pn Ph Nm by_cost Bc net nd scn Ls Cl col
      (fun x => f (snd (fst x)) (snd x)) Ci Co) with (count := List.length (gets nn)) (sort := sort)
      (P := fun nm G => exists e o, is_element gets getr s r net nd e o /\ nm = name e /\ G = f e o) as (p & cl & Ex & Fs & Li & Th).
    - intros [[[k d] e] o] s' t _. apply Val.
    - split.
      + intros Z. pose proof (Len _ _ (mirror_like s r M _ _ _ _ Nn Nr)) as L. destruct (gets nn) as [|e es] eqn:Ge; [simpl in Z; lia|]. destruct (getr rn) as [|o os] eqn:Go; [discriminate|].
        exists (net, nd, e, o). apply Sm. split; [|split; reflexivity]. apply (is_element_In gets getr s r W M). exists nn, rn, 0. rewrite Ge, Go. auto.
      + intros (x & I). apply Sm in I. destruct x as [[[k d] e] o]. destruct I as (I & E1 & E2). unfold enet, enode in *. cbn [fst snd] in *. subst k d. apply (is_element_In gets getr s r W M) in I as (n' & rn' & i & N1 & _ & X & _).
        assert (n' = nn) by congruence. subst n'. intros Z. destruct (gets nn); [destruct i; discriminate | discriminate].
    - intros nm G. split.
      + intros (e & o & I & -> & ->). exists (net, nd, e, o). split; [|split; reflexivity]. apply Sm. split; [now apply (is_element_In gets getr s r W M) | split; reflexivity].
      + intros (x & I & -> & ->). apply Sm in I. destruct x as [[[k d] e] o]. destruct I as (I & E1 & E2). unfold enet, enode in *. cbn [fst snd] in *. subst k d. exists e, o. split; [now apply (is_element_In gets getr s r W M) in I | split; reflexivity].
    - exists p, cl. split; auto. split; auto. split; auto. intros t. rewrite Th. pose proof (sum_node s r Api M gets getr net nd (fun e o => f e o scn t)) as X. rewrite Nn, Nr in X. rewrite <- X.
      rewrite <- qsum_filter, Same, qsum_filter. apply qsum_map_ext. intros x _. unfold here, enet, enode. rewrite andb_comm. reflexivity.
  Qed.

  Lemma total_r {A B} (g : B -> Q) (l : list A) (m : list B) : List.length l = List.length m -> (total (fun eo => g (snd eo)) (combine l m) == total g m)%Q.
  Proof. intros L. rewrite (total_combine_r g l m L). reflexivity. Qed.

  Lemma prod_group kind : In kind ["used"; "avail"] -> exists p cl, extract_if by_cost (List.length (n_prods nn)) an net nd (Z.of_nat scn) AProd kind true = Ok cl /\
    Forall2 (shown h) p cl /\ listed (fun name => quantity s r net nd AProd name kind) scn p /\ (kind = "used" -> forall t, (thick p t == produced scn rn t)%Q).
  Proof.
    intros K. pose proof (shelf_prod s r bcast junk an Api M New) as Sh. pose proof (Forall2_len _ _ _ (nl_prods _ _ _ (mirror_like s r M _ _ _ _ Nn Nr))) as L.
    destruct K as [<-|[<-|[]]].
    - destruct (elem_group n_prods on_prods _ prod_row prod_cols [] p_name AProd "used" (fun _ o => entry (op_qty o)) Sh eq_refl ltac:(intros ? []) eq_refl (like_prods s)) with (sort := true) as (p & cl & E & Fs & Li & Th).
      + unfold prod_cols. simpl. tauto.
      + simpl. intuition discriminate.
      + reflexivity.
      + exists p, cl. split; auto. split; auto. split.
        * revert Li. apply listed_iff. intros nm G. split; [intros (e & o & I & -> & ->); now constructor|]. intros Q0. inversion Q0; subst; eauto 6.
        * intros _ t. rewrite Th. now apply (total_r (fun o => entry (op_qty o) scn t)).
    - destruct (elem_group n_prods on_prods _ prod_row prod_cols [] p_name AProd "avail" (fun p _ => value (p_qty p)) Sh eq_refl ltac:(intros ? []) eq_refl (like_prods s)) with (sort := true) as (p & cl & E & Fs & Li & Th).
      + unfold prod_cols. simpl. tauto.
      + simpl. intuition discriminate.
      + reflexivity.
      + exists p, cl. split; auto. split; auto. split; [|discriminate].
        revert Li. apply listed_iff. intros nm G. split; [intros (e & o & I & -> & ->); econstructor; eauto|]. intros Q0. inversion Q0; subst; eauto 6.
  Qed.
  Lemma cons_group kind : In kind ["given"; "asked"] -> exists p cl, extract_if by_cost (List.length (n_cons nn)) an net nd (Z.of_nat scn) ACons kind true = Ok cl /\
    Forall2 (shown h) p cl /\ listed (fun name => quantity s r net nd ACons name kind) scn p /\ (kind = "given" -> forall t, (thick p t == served scn rn t)%Q).
  Proof.
    intros K. pose proof (shelf_cons s r bcast junk an Api M New) as Sh. pose proof (Forall2_len _ _ _ (nl_cons _ _ _ (mirror_like s r M _ _ _ _ Nn Nr))) as L.
    destruct K as [<-|[<-|[]]].
    - destruct (elem_group n_cons on_cons _ cons_row cons_cols [] c_name ACons "given" (fun _ o => entry (oc_qty o)) Sh eq_refl ltac:(intros ? []) eq_refl (like_cons s)) with (sort := true) as (p & cl & E & Fs & Li & Th).
      + unfold cons_cols. simpl. tauto.
      + simpl. intuition discriminate.
      + reflexivity.
      + exists p, cl. split; auto. split; auto. split.
        * revert Li. apply listed_iff. intros nm G. split; [intros (e & o & I & -> & ->); econstructor; eauto|]. intros Q0. inversion Q0; subst; eauto 6.
        * intros _ t. rewrite Th. now apply (total_r (fun o => entry (oc_qty o) scn t)).
    - destruct (elem_group n_cons on_cons _ cons_row cons_cols [] c_name ACons "asked" (fun p _ => value (c_qty p)) Sh eq_refl ltac:(intros ? []) eq_refl (like_cons s)) with (sort := true) as (p & cl & E & Fs & Li & Th).
      + unfold cons_cols. simpl. tauto.
      + simpl. intuition discriminate.
      + reflexivity.
      + exists p, cl. split; auto. split; auto. split; [|discriminate].
        revert Li. apply listed_iff. intros nm G. split; [intros (e & o & I & -> & ->); econstructor; eauto|]. intros Q0. inversion Q0; subst; eauto 6.
  Qed.
  Lemma kept_here : storages_kept s net nd -> filter (here _ enet enode net nd) (kept (stors_of s r)) = filter (here _ enet enode net nd) (stors_of s r).
  Proof.
    intros K. destruct (api_facts s Api) as (W & _).
    assert (Hi : forall l (x : string * string * storage * ostorage), In x (filter (here _ enet enode net nd) l) -> In x l /\ enet x = net /\ enode x = nd).
    { intros l x. rewrite filter_In. unfold here. rewrite andb_true_iff, !String.eqb_eq. tauto. }
    assert (None : n_stors nn = [] -> forall x, In x (stors_of s r) -> here _ enet enode net nd x = true -> False).
    { intros Z x I H. destruct (Hi (stors_of s r) x) as (_ & E1 & E2); [now apply filter_In|]. destruct x as [[[k d] e] o]. unfold enet, enode in *. cbn [fst snd] in *. subst k d.
      apply (is_element_In n_stors on_stors s r W M) in I as (n' & rn' & i & N1 & _ & X & _). assert (n' = nn) by congruence. subst n'. rewrite Z in X. destruct i; discriminate. }
    destruct (K nn Nn) as [Z|(e & Es & La)].
    - transitivity (@nil (string * string * storage * ostorage)); [|symmetry]; apply filter_none; intros x I; destruct (here _ _ _ _ _ x) eqn:H; auto; exfalso; apply (None Z x); auto. now apply kept_In.
    - pose proof (Forall2_len _ _ _ (nl_stors _ _ _ (mirror_like s r M _ _ _ _ Nn Nr))) as L. rewrite Es in L. destruct (on_stors rn) as [|o [|? ?]] eqn:Eo; try discriminate L.
      assert (El : is_element n_stors on_stors s r net nd e o) by (exists nn, rn, 0; rewrite Es, Eo; auto).
      rewrite (stor_last s r Api M net nd e o El La). cbn [filter]. unfold here at 1. unfold enet, enode. cbn [fst snd]. rewrite !String.eqb_refl. cbn [andb].
      assert (Only : forall x, In x (filter (here _ enet enode net nd) (stors_of s r)) <-> x = (net, nd, e, o)).
      { intros x. split.
        - intros I. apply Hi in I as (I & E1 & E2). destruct x as [[[k d] e'] o']. unfold enet, enode in *. cbn [fst snd] in *. subst k d.
          apply (is_element_In n_stors on_stors s r W M) in I as (n' & rn' & i & N1 & N2 & X & Y). assert (n' = nn) by congruence. assert (rn' = rn) by congruence. subst n' rn'. rewrite Es in X. rewrite Eo in Y.
          destruct i as [|i]; [cbn in X, Y; congruence | destruct i; discriminate].
        - intros ->. apply filter_In. split; [now apply (is_element_In n_stors on_stors s r W M)|]. unfold here, enet, enode. cbn [fst snd]. now rewrite !String.eqb_refl. }
      assert (ND : NoDup (stors_of s r)).
      { eapply NoDup_map_inv. apply (NoDup_ids n_stors on_stors s_name s r Api M). intros a b nn' H. eapply wf_stors, wf_node; eauto. }
      apply (NoDup_filter (here _ enet enode net nd)) in ND. fold (@enet storage ostorage) (@enode storage ostorage). revert ND Only. generalize (filter (here _ enet enode net nd) (stors_of s r)). intros l ND Only.
      destruct l as [|x [|y l]].
      + destruct (proj2 (Only _) eq_refl).
      + f_equal. symmetry. apply Only. now left.
      + assert (x = y) by (transitivity (net, nd, e, o); [|symmetry]; apply Only; simpl; auto). subst y. inversion ND as [|? ? NI _]. destruct NI. now left.
  Qed.
  Lemma stor_clean : unwritten junk s -> forall rw, In rw (stor_surplus s r junk) -> cell_of "scn" rw = CNaN \/ key_of ["network"; "node"] rw <> [CStr net; CStr nd].
  Proof.
    intros Un rw I. right. assert (In net (dkeys (st_networks s))) as J.
    { unfold node_at in Nn. destruct (dget net (st_networks s)) as [ns|] eqn:D; [|discriminate]. apply dget_In in D. apply in_map_iff. exists (net, ns). auto. }
    destruct (surplus_strange s r M junk net nd "" Un J rw I) as (D & _). intros Z. unfold key_of in Z. cbn [map] in Z. congruence.
  Qed.
  Lemma stor_group : unwritten junk s -> storages_kept s net nd ->
    (exists p cl, extract_if by_cost (List.length (n_stors nn)) an net nd (Z.of_nat scn) AStor "flow_out" true = Ok cl /\
       Forall2 (shown h) p cl /\ listed (stor_flow s r net nd "flow_out") scn p /\ forall t, (thick p t == withdrawn scn rn t)%Q) /\
    exists p cl, extract_if by_cost (List.length (n_stors nn)) an net nd (Z.of_nat scn) AStor "flow_in" true = Ok cl /\
       Forall2 (shown h) p cl /\ listed (stor_flow s r net nd "flow_in") scn p /\ forall t, (thick p t == stored scn rn t)%Q.
  Proof.
    intros Un Ke. pose proof (shelf_stor s r bcast junk an Api M New) as Sh. pose proof (Forall2_len _ _ _ (nl_stors _ _ _ (mirror_like s r M _ _ _ _ Nn Nr))) as L. split.
    - destruct (elem_group n_stors on_stors _ stor_row stor_cols _ s_name AStor "flow_out" (fun _ o => entry (os_flow_out o)) Sh eq_refl (stor_clean Un) (kept_here Ke) (like_stors s)) with (sort := true) as (p & cl & E & Fs & Li & Th).
      + unfold stor_cols. simpl. tauto.
      + simpl. intuition discriminate.
      + reflexivity.
      + exists p, cl. split; auto. split; auto. split.
        * revert Li. apply listed_iff. intros nm G. split; [intros (e & o & I & -> & ->); econstructor; eauto|]. intros Q0. inversion Q0; subst; eauto 6.
        * intros t. rewrite Th. now apply (total_r (fun o => entry (os_flow_out o) scn t)).
    - destruct (elem_group n_stors on_stors _ stor_row stor_cols _ s_name AStor "flow_in" (fun _ o => entry (os_flow_in o)) Sh eq_refl (stor_clean Un) (kept_here Ke) (like_stors s)) with (sort := true) as (p & cl & E & Fs & Li & Th).
      + unfold stor_cols. simpl. tauto.
      + simpl. intuition discriminate.
      + reflexivity.
      + exists p, cl. split; auto. split; auto. split.
        * revert Li. apply listed_iff. intros nm G. split; [intros (e & o & I & -> & ->); econstructor; eauto|]. intros Q0. inversion Q0; subst; eauto 6.
        * intros t. rewrite Th. now apply (total_r (fun o => entry (os_flow_in o) scn t)).
  Qed.

  (** Converters. *)
  Lemma rconvs_eq : r_converters r = map (fun x => (fst (fst x), snd x)) (convs_of s r).
  Proof.
    unfold convs_of. rewrite map_map. cbn [fst snd]. pose proof (mr_convs _ _ M) as C. induction C as [|[k v] [k' rv] l m (E & _) C IH]; auto. cbn [combine map fst snd] in *. subst k'. now rewrite <- IH.
  Qed.
  Lemma dest_group count : analysable s -> counts (fed_by net nd) s count ->
    exists p cl, extract_if by_cost count an net nd (Z.of_nat scn) ADestConv "flow" false = Ok cl /\ Forall2 (shown h) p cl /\
      listed (conv_flow s r net nd ADestConv) scn p /\ forall t, (thick p t == received s r scn net nd t)%Q.
  Proof.
    intros (Co & Fit & Le) (names & _ & <- & Hn). destruct (api_facts s Api) as (W & _). destruct (dims_pos s Api) as (Pn & Ph). destruct (convs_facts s r Api M) as (CF & CE). rewrite Forall_forall in CF.
    assert (Sh' : exists sur, (convs_of s r <> [] -> shelf an ADestConv n h (convs_of s r) drow dnet dnode dname cols8 sur) /\ forall rw, In rw sur -> cell_of "scn" rw = CNaN).
    { destruct (convs_of s r) as [|x0 l0] eqn:E0; [exists []; split; [congruence | intros ? []]|]. rewrite <- E0.
      destruct (shelf_dest s r bcast junk an Api M New Co Le) as (sur & Sh & Cl); [congruence|]. exists sur. auto. }
    destruct Sh' as (sur & Sh & Cl).
    destruct (extracted _ an ADestConv n h (convs_of s r) drow dnet dnode dname cols8 sur Sh Pn Ph eq_refl by_cost Bc net nd scn Ls (fun rw I => or_introl (Cl rw I)) "flow" (fun x => entry (ov_dest (snd x))))
      with (count := List.length names) (sort := false) (P := conv_flow s r net nd ADestConv) as (p & cl & Ex & Fs & Li & Th).
    - unfold cols8. simpl. tauto.
    - simpl. intuition discriminate.
    - reflexivity.
    - split.
      + intros Z. destruct names as [|name names]; [simpl in Z; lia|]. destruct (proj1 (Hn name) (or_introl eq_refl)) as (v & V & E1 & E2). 
        pose proof V as V'. apply dget_In in V'. rewrite CE in V'. apply in_map_iff in V' as ([[a' v'] rv] & E & J). cbn [fst] in E. injection E as -> ->. exists (name, v, rv). auto.
      + intros ([[name v] rv] & I & E1 & E2) Z. destruct (CF _ I) as [V _ _ _]. cbn [fst snd] in V. assert (J : In name names) by (apply Hn; exists v; split; auto; split; auto). destruct names; [destruct J | discriminate].
    - intros nm G. split.
      + intros Q0. inversion Q0; subst. exists (nm, v, rv). split; [split; [now apply convs_In | split; reflexivity]|]. split; [|reflexivity]. unfold dname. cbn [fst snd]. symmetry. apply (wf_vname _ _ _ (wf_conv _ W _ _ H)).
      + intros ([[name v] rv] & (I & E1 & E2) & -> & ->). destruct (CF _ I) as [V R _ _]. cbn [fst snd] in V, R. unfold dname. cbn [fst snd]. rewrite (wf_vname _ _ _ (wf_conv _ W _ _ V)). econstructor; eauto.
    - exists p, cl. split; auto. split; auto. split; auto. intros t. rewrite Th. unfold received, total. rewrite rconvs_eq, map_map. apply qsum_map_ext. intros x I. destruct (CF _ I) as [V _ _ _].
      cbn [fst snd]. unfold goes_to. rewrite V. reflexivity.
  Qed.
  (** The sources of a converter. *)
  Lemma srcs_dget x k q a : conv_facts s r x -> In (k, q, a) (srcs_of x) <-> dget k (v_src (snd (fst x))) = Some q /\ dget k (ov_src (snd x)) = Some a.
  Proof.
    intros [V R (_ & _ & N3) _]. destruct (api_facts s Api) as (W & _). pose proof (wf_once _ _ _ (wf_conv _ W _ _ V)) as ND. unfold srcs_of. revert N3 ND. unfold dkeys.
    generalize (v_src (snd (fst x))) (ov_src (snd x)). intros l m N3. induction N3 as [|[k1 q1] [k2 a1] l m (E & _) N3 IH]; intros ND.
    - cbn. split; [intros [] | intros [E _]; discriminate].
    - cbn [fst] in E. subst k2. cbn [map fst] in ND. inversion ND as [|? ? NI ND']; subst. cbn [combine map In fst snd dget]. destruct (eqb k k1) eqn:B.
      + apply eqb_eq in B. subst k1. split.
        * intros [I|I]; [injection I as -> ->; auto|]. exfalso. apply NI. apply in_map_iff in I as ([[k' q'] [k'' a']] & I & J). cbn [fst snd] in I. injection I as -> -> ->.
          apply in_combine_l in J. apply in_map_iff. exists (k, q). auto.
        * intros [E1 E2]. injection E1 as ->. injection E2 as ->. auto.
      + apply eqb_neq in B. rewrite <- (IH ND'). split; [intros [I|I]; auto; injection I as -> _ _; congruence | auto].
  Qed.
  Lemma srcs_total x (g : string * string -> ndarray -> Q) : conv_facts s r x -> (total (fun ka => g (fst ka) (snd ka)) (ov_src (snd x)) == qsum (map (fun ka => g (fst (fst ka)) (snd ka)) (srcs_of x)))%Q.
  Proof.
    intros [_ _ (_ & _ & N3) _]. unfold srcs_of, total. revert N3. generalize (v_src (snd (fst x))) (ov_src (snd x)). intros l m N3.
    induction N3 as [|[k1 q1] [k2 a1] l m (E & _) N3 IH]; [reflexivity|]. cbn [fst] in E. subst k2. cbn [combine map qsum fold_right fst snd] in *. rewrite IH. reflexivity.
  Qed.
  Lemma src_right x ka : sources_right s net nd -> In x (convs_of s r) -> conv_facts s r x -> In ka (srcs_of x) -> fst (fst ka) = (net, nd) -> right s x = true.
  Proof.
    intros Sr I Fx J E. destruct ka as [[k q] a]. cbn [fst] in E. subst k. apply (srcs_dget x _ _ _ Fx) in J as (J & _). destruct Fx as [V _ _ _]. unfold right, nsrc. apply orb_true_iff.
    destruct Sr as [Sr|Sr]; [left; now apply Nat.eqb_eq | right]. apply Nat.leb_le. rewrite (Sr _ _ V); auto. unfold feeds. apply dget_In in J. apply in_map_iff. eexists. split; [|exact J]. reflexivity.
  Qed.
  Lemma src_group count : analysable s -> sources_right s net nd -> counts (feeds net nd) s count ->
    exists p cl, extract_if by_cost count an net nd (Z.of_nat scn) ASrcConv "flow" false = Ok cl /\ Forall2 (shown h) p cl /\
      listed (conv_flow s r net nd ASrcConv) scn p /\ forall t, (thick p t == sent r scn net nd t)%Q.
  Proof.
    intros (Co & Fit & Le) Sr (names & _ & <- & Hn). destruct (api_facts s Api) as (W & _). destruct (dims_pos s Api) as (Pn & Ph). destruct (convs_facts s r Api M) as (CF & CE). rewrite Forall_forall in CF.
    assert (Sh' : exists sur, (right_sources s r <> [] -> shelf an ASrcConv n h (right_sources s r) srow snet snode sname scols8 sur) /\
      forall rw, In rw sur -> cell_of "scn" rw = CNaN \/ key_of ["network"; "node"] rw <> [CStr net; CStr nd]).
    { destruct (convs_of s r) as [|x0 l0] eqn:E0.
      - exists []. split; [|intros ? []]. intros NE. destruct NE. unfold right_sources. now rewrite E0.
      - destruct (shelf_src s r bcast junk an Api M New Co Fit) as (sur & Sh & Cl); [congruence|]. exists sur. split; auto. intros rw I. right.
        destruct (Cl rw I) as (x & ka & Ix & Wr & Ik & E1 & E2 & _). unfold key_of. cbn [map]. rewrite E1, E2. intros Z. injection Z as Z1 Z2.
        rewrite (src_right x ka) in Wr; auto; [discriminate | apply CF; now rewrite <- E0 |]. destruct ka as [[[? ?] ?] ?]. cbn [fst snd] in *. now subst. }
    destruct Sh' as (sur & Sh & Cl).
    assert (In_src : forall x ka, In (x, ka) (right_sources s r) /\ fst (fst ka) = (net, nd) <-> In x (convs_of s r) /\ In ka (srcs_of x) /\ fst (fst ka) = (net, nd)).
    { intros x ka. rewrite right_In. unfold sources_of. rewrite in_flat_map. split.
      - intros (((x' & I & J) & _) & E). apply in_map_iff in J as (ka' & E' & J). injection E' as -> ->. auto.
      - intros (I & J & E). split; auto. split; [exists x; split; auto; apply in_map_iff; eauto|]. apply (src_right x ka); auto. }
    assert (Pair : forall y : string * converter * oconverter * (string * string * numval * ndarray), (snet y = net /\ snode y = nd) <-> fst (fst (snd y)) = (net, nd)).
    { intros [x [[[k1 k2] q] a]]. unfold snet, snode. cbn [fst snd]. split; [intros [-> ->]; auto | intros E; injection E as -> ->; auto]. }
    destruct (extracted _ an ASrcConv n h (right_sources s r) srow snet snode sname scols8 sur Sh Pn Ph eq_refl by_cost Bc net nd scn Ls Cl "flow" (fun y => entry (snd (snd y))))
      with (count := List.length names) (sort := false) (P := conv_flow s r net nd ASrcConv) as (p & cl & Ex & Fs & Li & Th).
    - unfold scols8. simpl. tauto.
    - simpl. intuition discriminate.
    - reflexivity.
    - split.
      + intros Z. destruct names as [|name names]; [simpl in Z; lia|]. destruct (proj1 (Hn name) (or_introl eq_refl)) as (v & V & Fe).
        pose proof V as V'. apply dget_In in V'. rewrite CE in V'. apply in_map_iff in V' as ([[a' v'] rv] & E & J). cbn [fst] in E. injection E as -> ->.
        destruct (CF _ J) as [_ _ (_ & _ & N3) _]. cbn [fst snd] in N3. unfold feeds, dkeys in Fe. apply in_map_iff in Fe as ([k q] & Ek & Ik). cbn [fst] in Ek. subst k.
        apply In_nth_error in Ik as (i & Ei). destruct (Forall2_get _ _ _ _ _ N3 Ei) as ([k' a] & Eo & (K & _)). cbn [fst] in K. subst k'.
        assert (X : In ((net, nd), q, a) (srcs_of (name, v, rv))).
        { unfold srcs_of. cbn [fst snd]. apply in_map_iff. exists (((net, nd), q), ((net, nd), a)). split; auto. apply (nth_error_In _ i). clear - Ei Eo. revert i Ei Eo. generalize (v_src v) (ov_src rv). 
          induction d as [|y l IH]; intros [|y' m] [|i] E1 E2; try discriminate; cbn in *; [congruence | auto]. }
        exists ((name, v, rv), ((net, nd), q, a)). rewrite Pair. apply In_src. auto.
      + intros ([x ka] & I & E) Z. apply Pair in E. destruct (proj1 (In_src x ka) (conj I E)) as (Ix & Ik & _). destruct ka as [[k q] a]. cbn [fst snd] in E. subst k. pose proof (CF _ Ix) as Fx. apply (srcs_dget x _ _ _ Fx) in Ik as (Ik & _). destruct Fx as [V _ _ _].
        assert (K : In (fst (fst x)) names). { apply Hn. exists (snd (fst x)). split; auto. unfold feeds. apply dget_In in Ik. apply in_map_iff. exists ((net, nd), q). auto. }
        destruct names; [destruct K | discriminate].
    - intros nm G. split.
      + intros Q0. inversion Q0 as [v q a nm' HS|]; subst. destruct HS as (rv & V & R & D1 & D2). pose proof (convs_In s r Api M nm v rv V R) as I.
        exists ((nm, v, rv), ((net, nd), q, a)). split; [|split; [unfold sname; cbn [fst snd]; symmetry; apply (wf_vname _ _ _ (wf_conv _ W _ _ V)) | reflexivity]].
        rewrite Pair. apply In_src. split; auto. split; auto. apply (srcs_dget (nm, v, rv) _ _ _ (CF _ I)). auto.
      + intros ([x ka] & (I & E) & -> & ->). apply Pair in E. destruct (proj1 (In_src x ka) (conj I E)) as (Ix & Ik & _). destruct ka as [[k q] a]. cbn [fst snd] in E. subst k. pose proof (CF _ Ix) as Fx. apply (srcs_dget x _ _ _ Fx) in Ik as (D1 & D2).
        destruct Fx as [V R _ _]. destruct x as [[name v] rv]. unfold sname. cbn [fst snd] in *. rewrite (wf_vname _ _ _ (wf_conv _ W _ _ V)). apply (F_src s r net nd v q a name). exists rv. auto.
    - exists p, cl. split; auto. split; auto. split; auto. intros t. rewrite Th. unfold sent. change (total ?f (r_converters r)) with (qsum (map f (r_converters r))). rewrite rconvs_eq, map_map.
      unfold right_sources. rewrite qsum_map_flat_map, qsum_filter. apply qsum_map_ext. intros x I. cbn [fst snd]. rewrite (srcs_total x (fun k a => if pair_eqb k (net, nd) then entry a scn t else 0%Q) (CF _ I)).
      rewrite map_map. cbn [fst snd]. assert (Hh : forall ka : string * string * numval * ndarray, here _ snet snode net nd (x, ka) = pair_eqb (fst (fst ka)) (net, nd)).
      { intros [[[k1 k2] q] a]. unfold here, snet, snode. cbn [fst snd]. symmetry. apply pair_eqb_iff. }
      destruct (right s x) eqn:R; [apply qsum_map_ext; intros ka _; now rewrite Hh|]. symmetry. apply qsum_zero_all. intros ka J. cbn [fst snd].
      destruct (pair_eqb (fst (fst ka)) (net, nd)) eqn:B; [|reflexivity]. rewrite (src_right x ka) in R; auto; [discriminate|]. destruct ka as [[[k1 k2] q] a]. cbn [fst snd] in *. rewrite pair_eqb_iff in B.
      apply andb_true_iff in B as [B1 B2]. apply String.eqb_eq in B1. apply String.eqb_eq in B2. now subst.
  Qed.

  Lemma exchange_layer name (f g : nat -> Q) : (forall t, t < h -> (f t == g t)%Q) -> exists p, Forall2 (shown h) p (append_if name (map f (seq 0 h))) /\ unless_zero h name g p /\
    forall t, t < h -> (thick p t == g t)%Q.
  Proof.
    intros E. unfold append_if. destruct (forallb (fun q => Qeq_bool q 0) (map f (seq 0 h))) eqn:B.
    - assert (Z : forall t, t < h -> (g t == 0)%Q).
      { intros t L. rewrite forallb_forall in B. specialize (B (f t)). rewrite <- E by auto. apply Qeq_bool_iff, B, in_map, in_seq. lia. }
      exists []. split; [constructor|]. split; [left; auto|]. intros t L. rewrite (Z t L). reflexivity.
    - exists [(name, g)]. split; [|split].
      + constructor; [|constructor]. split; auto. cbn [fst snd]. clear B. assert (X : forall m k, k + m <= h -> shows (map CNum (map f (seq k m))) (map g (seq k m))).
        { induction m as [|m IH]; intros k L; cbn [seq map]; constructor; [exists (f k); split; auto; apply E; lia|]. apply IH. lia. }
        apply X. lia.
      + right. split; auto. assert (X : exists q, In q (map f (seq 0 h)) /\ Qeq_bool q 0 = false).
        { clear - B. induction (map f (seq 0 h)) as [|q l IH]; [discriminate|]. cbn [forallb] in B. apply andb_false_iff in B as [B|B]; [exists q; split; auto; now left|]. destruct (IH B) as (q' & I & H). exists q'. split; auto. now right. }
        destruct X as (q & I & Hq). apply in_map_iff in I as (t & <- & I). apply in_seq in I. exists t. split; [lia|]. rewrite <- E by lia. intros Z. apply Qeq_bool_iff in Z. congruence.
      + intros t L. unfold thick. cbn. ring.
  Qed.

  (** The data of the stack. *)
  Lemma stack_data_ok kp kc : unwritten junk s -> storages_kept s net nd -> analysable s -> sources_right s net nd -> In kp ["used"; "avail"] -> In kc ["given"; "asked"] -> exists areas lines,
    stack by_cost an net nd (Z.of_nat scn) kp kc = Ok (areas, lines) /\ stack_of s r net nd scn kp kc areas lines /\
    (kp = "used" -> forall t, t < h -> top_height t areas (produced scn rn t + withdrawn scn rn t + received s r scn net nd t + positive (- balance r net nd scn t))) /\
    (kc = "given" -> forall t, t < h -> top_height t (rev lines) (served scn rn t + stored scn rn t + sent r scn net nd t + positive (balance r net nd scn t))).
  Proof.
    intros Un Ke An Sr Kp Kc. destruct (api_facts s Api) as (W & _).
    assert (Es : an_study an = s) by (destruct (analyzer_tables s r bcast junk an Api M New) as (E & _); exact E).
    destruct (node_elements_ok s net nd nn W Nn) as (size & En & (n' & i & o & N' & Ci & Co & ->)). assert (n' = nn) by congruence. subst n'.
    destruct (prod_group kp Kp) as (p & cp & E1 & F1 & L1 & T1). destruct (stor_group Un Ke) as ((x & cx & E2 & F2 & L2 & T2) & (x' & cx' & E5 & F5 & L5 & T5)).
    destruct (dest_group o An Co) as (v & cv & E3 & F3 & L3 & T3). destruct (cons_group kc Kc) as (c & cc & E4 & F4 & L4 & T4). destruct (src_group i An Sr Ci) as (v' & cv' & E6 & F6 & L6 & T6).
    destruct (balance_of s r bcast junk an Api M New net nd) as (g & Eb & Hb).
    destruct (exchange_layer "import" (fun t => (- qmin (g scn t) 0)%Q) (fun t => positive (- balance r net nd scn t))) as (im & Fi & Ui & Ti).
    { intros t L. pose proof (Hb scn t Ls L) as Hg. unfold qmin, positive. destruct (qlt 0 (g scn t)) eqn:B; [apply qlt_lt in B | apply qlt_false in B];
        destruct (Qle_bool 0 (- balance r net nd scn t)) eqn:B2; try (apply Qle_bool_iff in B2); try (assert (B3 : ~ (0 <= - balance r net nd scn t)%Q) by (intros Z; apply Qle_bool_iff in Z; congruence)); lra. }
    destruct (exchange_layer "export" (fun t => (qmax (g scn t) 0)%Q) (fun t => positive (balance r net nd scn t))) as (ex & Fe & Ue & Te).
    { intros t L. pose proof (Hb scn t Ls L) as Hg. unfold qmax, positive. destruct (qlt (g scn t) 0) eqn:B; [apply qlt_lt in B | apply qlt_false in B];
        destruct (Qle_bool 0 (balance r net nd scn t)) eqn:B2; try (apply Qle_bool_iff in B2); try (assert (B3 : ~ (0 <= balance r net nd scn t)%Q) by (intros Z; apply Qle_bool_iff in Z; congruence)); lra. }
    unfold stack, stack_data. rewrite Es. cbn [elements_inside]. rewrite En. cbn [rbind nth]. rewrite E1. cbn [rbind]. rewrite E2. cbn [rbind]. rewrite E3. cbn [rbind]. rewrite Eb. cbn [rbind].
    rewrite nd_row_garr by auto. cbn [rbind]. rewrite E4. cbn [rbind]. rewrite E5. cbn [rbind]. rewrite E6. cbn [rbind fst snd]. rewrite !map_map.
    destruct (layers_ok h (cp ++ cx ++ cv ++ append_if "import" (map (fun t => (- qmin (g scn t) 0)%Q) (seq 0 h))) (p ++ x ++ v ++ im)) as (areas & -> & Pa); [repeat apply Forall2_app; auto|].
    destruct (layers_ok h (cc ++ cx' ++ cv' ++ append_if "export" (map (fun t => (qmax (g scn t) 0)%Q) (seq 0 h))) (c ++ x' ++ v' ++ ex)) as (lines & -> & Pl); [repeat apply Forall2_app; auto|].
    cbn [rbind]. exists areas, (rev lines). split; auto. rewrite rev_involutive.
    assert (App : forall a b t, (thick (a ++ b) t == thick a t + thick b t)%Q) by (intros a b t; unfold thick; rewrite map_app; apply qsum_app).
    split; [|split].
    - constructor; [exists p, x, v, im; auto | exists c, x', v', ex; rewrite rev_involutive; auto].
    - intros K t L. eapply height_eq; [|apply (piled_height h t _ _ L Pa)]. rewrite !App, (T1 K), T2, T3, Ti by auto. ring.
    - intros K t L. eapply height_eq; [|apply (piled_height h t _ _ L Pl)]. rewrite !App, (T4 K), T5, T6, Te by auto. ring.
  Qed.
End Groups.

Lemma positive_diff q : (positive q - positive (- q) == q)%Q.
Proof.
  unfold positive. destruct (Qle_bool 0 q) eqn:B; destruct (Qle_bool 0 (- q)) eqn:C; try apply Qle_bool_iff in B; try apply Qle_bool_iff in C;
    try (assert (~ (0 <= q)%Q) by (intros Z; apply Qle_bool_iff in Z; congruence)); try (assert (~ (0 <= - q)%Q) by (intros Z; apply Qle_bool_iff in Z; congruence)); lra.
Qed.

(** Whatever the result, the curves are those of the elements of the node. *)
Theorem C65_stack_partial bcast junk s r an by_cost net nd scn kp kc : api_study s -> mirrors s r -> new_analyzer bcast junk s r = Ok an ->
  (forall l, Permutation (by_cost l) l) -> has_node s net nd -> scn < st_nb_scn s -> unwritten junk s -> storages_kept s net nd -> well_read bcast s -> sources_right s net nd ->
  In kp ["used"; "avail"] -> In kc ["given"; "asked"] ->
  exists areas lines, stack by_cost an net nd (Z.of_nat scn) kp kc = Ok (areas, lines) /\ stack_of s r net nd scn kp kc areas lines.
Proof.
  intros A M N B Hn Ls Un Ke Wr Sr Kp Kc. unfold has_node in Hn. destruct (node_at s net nd) as [nn|] eqn:Nn; [|congruence]. destruct (mirror_node_l s r M net nd nn Nn) as (rn & Nr & _).
  destruct (stack_data_ok s r bcast junk an A M N by_cost B net nd scn nn rn Ls Nn Nr kp kc Un Ke (well_read_analysable bcast junk s r an A M Wr N) Sr Kp Kc) as (areas & lines & E & S & _). eauto.
Qed.

(** Demand lines are above supply areas by the energy on links of the node to itself. *)
Theorem C59_stack_with_loops bcast junk answer s r an by_cost net nd scn : api_study s -> plain_sources s -> solved answer s r -> new_analyzer bcast junk s r = Ok an ->
  (forall l, Permutation (by_cost l) l) -> scn < st_nb_scn s -> feasible_answer answer s scn -> unwritten junk s -> storages_kept s net nd -> well_read bcast s -> sources_right s net nd ->
  forall rn, rnode_at r net nd = Some rn ->
  exists areas lines, stack by_cost an net nd (Z.of_nat scn) "used" "given" = Ok (areas, lines) /\
    forall t, t < st_horizon s -> exists q, top_height t areas q /\ top_height t (rev lines) (q + looped scn nd rn t).
Proof.
  intros A P SV N B Ls Fe Un Ke Wr Sr rn Nr. destruct (C27_result_mirrors_study_any_names answer s r A SV) as (M & _). destruct (mirror_node_r s r M net nd rn Nr) as (nn & Nn & _).
  destruct (stack_data_ok s r bcast junk an A M N by_cost B net nd scn nn rn Ls Nn Nr "used" "given" Un Ke (well_read_analysable bcast junk s r an A M Wr N) Sr ltac:(simpl; auto) ltac:(simpl; auto)) as (areas & lines & E & _ & Ha & Hl).
  exists areas, lines. split; auto. intros t L. specialize (Ha eq_refl t L). specialize (Hl eq_refl t L). eexists. split; [exact Ha|]. eapply height_eq; [|exact Hl].
  pose proof (C16_nodal_balance_with_loops answer s r scn A P SV Ls Fe t net nd rn L Nr) as Bal. pose proof (positive_diff (balance r net nd scn t)) as D.
  unfold balance in D at 3. rewrite Nr in D. lra.
Qed.

Theorem C59_stack_partial bcast junk answer s r an by_cost net nd scn : api_study s -> plain_sources s -> no_self_link s -> solved answer s r -> new_analyzer bcast junk s r = Ok an ->
  (forall l, Permutation (by_cost l) l) -> scn < st_nb_scn s -> feasible_answer answer s scn -> unwritten junk s -> storages_kept s net nd -> well_read bcast s -> sources_right s net nd -> has_node s net nd ->
  exists areas lines, stack by_cost an net nd (Z.of_nat scn) "used" "given" = Ok (areas, lines) /\
    forall t, t < st_horizon s -> exists q, top_height t areas q /\ top_height t (rev lines) q.
Proof.
  intros A P NS SV N B Ls Fe Un Ke Wr Sr Hn. destruct (C27_result_mirrors_study_any_names answer s r A SV) as (M & _). unfold has_node in Hn. destruct (node_at s net nd) as [nn|] eqn:Nn; [|congruence].
  destruct (mirror_node_l s r M net nd nn Nn) as (rn & Nr & Like).
  destruct (C59_stack_with_loops bcast junk answer s r an by_cost net nd scn A P SV N B Ls Fe Un Ke Wr Sr rn Nr) as (areas & lines & E & H). exists areas, lines. split; auto.
  intros t L. destruct (H t L) as (q & Ha & Hl). exists q. split; auto. eapply height_eq; [|exact Hl].
  assert (Z : (looped scn nd rn t == 0)%Q).
  { unfold looped, total. apply qsum_zero_all. intros o I. apply In_nth_error in I as (i & Ei). pose proof (nl_links _ _ _ Like) as FL.
    destruct (nth_error (n_links nn) i) as [l|] eqn:El.
    - destruct (Forall2_get _ _ _ _ _ FL El) as (o' & Eo & (D & _)). assert (o' = o) by congruence. subst o'. rewrite D.
      rewrite (proj2 (String.eqb_neq (l_dest l) nd)); [reflexivity|]. apply (NS net nd nn l Nn). eapply nth_error_In; eauto.
    - apply nth_error_None in El. apply Forall2_len in FL. assert (nth_error (on_links rn) i <> None) by congruence. apply nth_error_Some in H0. lia. }
  lra.
Qed.

(** No order. *)
Definition as_is (l : list (list cell * trow)) := l.

Example C59_example : exists areas lines, stack as_is band_an "elec" "b" 1 "used" "given" = Ok (areas, lines) /\
  top_height 0 areas 9 /\ top_height 1 areas 7 /\ top_height 0 (rev lines) 9 /\ top_height 1 (rev lines) 7 /\ List.length areas = 2 /\ List.length lines = 2.
Proof. do 2 eexists. split; [vm_compute; reflexivity|]. repeat split; try reflexivity; eexists; (split; [vm_compute; reflexivity|]); eexists; split; reflexivity. Qed.
Lemma band_stored : storages_kept band "elec" "b".
Proof. intros nn N. right. destruct band_last as (x & _ & _ & _ & _ & La & On). eauto. Qed.
Lemma band_sourced : sources_right band "elec" "b".
Proof. right. intros name v V Fe. unfold conv_at in V. apply dget_In in V. destruct V as [E|[E|[]]]; injection E as <- <-; vm_compute in Fe; [reflexivity|]. destruct Fe as [Fe|[Fe|[]]]; discriminate. Qed.
Example C59_hypotheses : api_study band /\ plain_sources band /\ no_self_link band /\ solved band_answer band band_result /\ new_analyzer true no_junk band band_result = Ok band_an /\
  feasible_answer band_answer band 1 /\ unwritten no_junk band /\ storages_kept band "elec" "b" /\ well_read true band /\ sources_right band "elec" "b" /\ has_node band "elec" "b".
Proof.
  split; [apply band_api|]. split; [apply plainb_ok; vm_compute; reflexivity|]. split; [apply no_self_linkb_ok; vm_compute; reflexivity|]. split; [apply band_solved|]. split; [apply band_an_new|]. split; [apply band_feasible; lia|].
  split; [apply band_unwritten|]. split; [apply band_stored|]. split; [left; apply band_refuses|]. split; [apply band_sourced|]. vm_compute. discriminate.
Qed.
Example C65_example : exists areas lines, stack as_is mix_an "elec" "a" 0 "avail" "asked" = Ok (areas, lines) /\
  map fst areas = [CStr "cell"; CStr "plant"; CStr "import"] /\ map fst (rev lines) = [CStr "load"; CStr "cell"].
Proof. do 2 eexists. split; [vm_compute; reflexivity|]. split; reflexivity. Qed.

(** Refuted by a link of a node to itself. *)
Definition loop_an : analyzer := Eval vm_compute in match new_analyzer true no_junk loop loop_result with Ok a => a | Err _ => mix_an end.
Theorem C59_stack_refuted : exists answer s r an net nd areas lines, api_study s /\ plain_sources s /\ solved answer s r /\ new_analyzer true no_junk s r = Ok an /\
  feasible_answer answer s 0 /\ unwritten no_junk s /\ storages_kept s net nd /\ well_read true s /\ sources_right s net nd /\ has_node s net nd /\
  stack as_is an net nd 0 "used" "given" = Ok (areas, lines) /\ top_height 0 areas 0 /\ top_height 0 (rev lines) 10.
Proof.
  exists loop_answer, loop, loop_result, loop_an, "net", "a". do 2 eexists. split; [apply loop_api|]. split; [apply loop_plain|]. split; [apply loop_solved|]. split; [vm_compute; reflexivity|].
  split; [apply loop_feasible|]. split; [right; intros; discriminate|]. split; [intros nn N; vm_compute in N; injection N as <-; left; reflexivity|].
  split; [right; split; [intros ? ? V; vm_compute in V; discriminate|]; split; [intros [|? ?] ? ? V; vm_compute in V; discriminate | vm_compute; lia]|]. split; [left; reflexivity|]. split; [vm_compute; discriminate|]. split; [vm_compute; reflexivity|].
  split; [reflexivity|]. eexists. split; [reflexivity|]. eexists. split; reflexivity.
Qed.

(** Refuted by two storages: the first one serves the load, its area is not drawn. *)
Definition duo_calls : list call := [OnStudy_network "net"; OnSel 0 (MNode "a"); OnSel 1 (MConsumption "load" (jn 1000) (jn 10));
  OnSel 2 (MStorage "first" (jn 10) (jn 10) (jn 10) (jn 0) 10 (jn 1)); OnSel 3 (MStorage "second" (jn 10) (jn 10) (jn 10) (jn 0) 0 (jn 1))].
Definition duo : study := Eval vm_compute in w_study (run (start 1 1 None) duo_calls).
Lemma duo_api : api_study duo.
Proof. exists 1, 1, None, duo_calls. split; [lia|]. split; [lia|]. split; [plain_tac | vm_compute; reflexivity]. Qed.
Definition duo_x (v : var) : Q := match v with VOut _ _ 0 _ => 10 | _ => 0 end%Q.
Definition duo_answer (_ : nat) (_ : solver) : var -> Q := duo_x.
Definition duo_result : result := Eval vm_compute in
  match solve_lp duo_answer [0] no_bench duo with Ok r => r | Err _ => Result [] [] no_bench end.
Definition duo_an : analyzer := Eval vm_compute in match new_analyzer true no_junk duo duo_result with Ok a => a | Err _ => mix_an end.
Theorem C59_stack_refuted_by_storages : exists answer s r an net nd areas lines, api_study s /\ plain_sources s /\ no_self_link s /\ solved answer s r /\
  new_analyzer true no_junk s r = Ok an /\ feasible_answer answer s 0 /\ unwritten no_junk s /\ well_read true s /\ sources_right s net nd /\ has_node s net nd /\
  stack as_is an net nd 0 "used" "given" = Ok (areas, lines) /\ top_height 0 areas 0 /\ top_height 0 (rev lines) 10.
Proof.
  exists duo_answer, duo, duo_result, duo_an, "net", "a". do 2 eexists. split; [apply duo_api|]. split; [apply plainb_ok; vm_compute; reflexivity|]. split; [apply no_self_linkb_ok; vm_compute; reflexivity|].
  split; [exists [0], no_bench; split; [reflexivity | vm_compute; reflexivity]|]. split; [vm_compute; reflexivity|].
  split; [apply satb_ok; vm_compute; reflexivity|]. split; [right; intros; discriminate|]. split; [right; split; [intros ? ? V; vm_compute in V; discriminate|]; split; [intros [|? ?] ? ? V; vm_compute in V; discriminate | vm_compute; lia]|]. split; [left; reflexivity|].
  split; [vm_compute; discriminate|]. split; [vm_compute; reflexivity|].
  split; eexists; (split; [reflexivity|]); eexists; split; reflexivity.
Qed.
(** Refuted by a converter with two sources: in the second scenario a line of energy that was not sent. *)
Theorem C59_stack_refuted_by_sources : exists answer s r an net nd areas lines, api_study s /\ plain_sources s /\ no_self_link s /\ solved answer s r /\
  new_analyzer true no_junk s r = Ok an /\ feasible_answer answer s 1 /\ unwritten no_junk s /\ storages_kept s net nd /\ well_read true s /\ has_node s net nd /\
  stack as_is an net nd 1 "used" "given" = Ok (areas, lines) /\ top_height 0 areas 0 /\ top_height 0 (rev lines) 1.
Proof.
  exists band_answer, band, band_result, band_an, "gas", "i". do 2 eexists. destruct C59_hypotheses as (H1 & H2 & H3 & H4 & H5 & H6 & H7 & _ & H9 & _).
  do 7 (split; [assumption|]). split; [intros nn N; vm_compute in N; injection N as <-; left; reflexivity|]. split; [assumption|]. split; [vm_compute; discriminate|]. split; [vm_compute; reflexivity|].
  split; eexists; (split; [reflexivity|]); eexists; split; reflexivity.
Qed.

(** The curves have the names of the layers. *)
Lemma piled_names h : forall ls below curves, piled h below ls curves -> map fst curves = map (fun l => CStr (fst l)) ls.
Proof.
  induction ls as [|[name f] ls IH]; intros below [|[c y] curves] P; try destruct P; auto. destruct H0 as (_ & P). cbn [map fst]. rewrite (IH _ _ P). congruence.
Qed.
(** Refuted by two storages: no area for the first. *)
Theorem C65_stack_refuted : exists s r an net nd areas lines, api_study s /\ mirrors s r /\ new_analyzer true no_junk s r = Ok an /\ has_node s net nd /\ unwritten no_junk s /\
  well_read true s /\ sources_right s net nd /\ stack as_is an net nd 0 "used" "given" = Ok (areas, lines) /\ ~ stack_of s r net nd 0 "used" "given" areas lines.
Proof.
  exists duo, duo_result, duo_an, "net", "a". do 2 eexists. split; [apply duo_api|].
  split; [apply (C27_result_mirrors_study_any_names duo_answer duo duo_result duo_api); exists [0], no_bench; split; [reflexivity | vm_compute; reflexivity]|]. split; [vm_compute; reflexivity|].
  split; [vm_compute; discriminate|]. split; [right; intros; discriminate|]. split; [right; split; [intros ? ? V; vm_compute in V; discriminate|]; split; [intros [|? ?] ? ? V; vm_compute in V; discriminate | vm_compute; lia]|]. split; [left; reflexivity|].
  split; [vm_compute; reflexivity|]. intros [(p & x & v & i & _ & (_ & Lx) & _ & _ & P) _].
  assert (El : exists e o, is_element n_stors on_stors duo duo_result "net" "a" e o /\ s_name e = "first").
  { do 2 eexists. split; [do 2 eexists; exists 0; split; [reflexivity|]; split; [reflexivity|]; split; reflexivity | reflexivity]. }
  destruct El as (e & o & El & Nm). pose proof (proj2 (Lx "first" (entry (os_flow_out o) 0))) as J.
  assert (K : In ("first", entry (os_flow_out o) 0) x). { apply J. exists (entry (os_flow_out o)). split; auto. rewrite <- Nm. now apply S_out. }
  apply piled_names in P. cbn [map fst] in P. assert (I : In (CStr "first") [CStr "second"]).
  { rewrite P. apply in_map_iff. exists ("first", entry (os_flow_out o) 0). split; auto. apply in_or_app. right. apply in_or_app. now left. }
  destruct I as [I|[]]. discriminate.
Qed.

Print Assumptions C65_stack_refuted.
Print Assumptions C59_stack_refuted_by_sources.
Print Assumptions C65_stack_partial.
Print Assumptions C59_stack_with_loops.
Print Assumptions C59_stack_partial.
Print Assumptions C59_stack_refuted.
Print Assumptions C59_stack_refuted_by_storages.
