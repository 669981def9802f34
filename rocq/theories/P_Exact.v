(** The exact content of the tables of storages and of converters, for every study: C34 and C35
    beyond the cases in which the tables are right. *)
From Coq Require Import String List ZArith QArith Bool Arith Lia Lqa Permutation.
From Verif Require Import Base BaseFacts Numeric SpecNumeric NumericFacts Study Fluent SpecStudy StudyFacts Output Json SpecJson JsonFacts P_Json
  LP SpecLP LPFacts LPBuild LPSat LPResult LPSolve LPReady LPMore P_LP Analyzer SpecAnalyzer AnalyzerFacts P_Tables.
Import ListNotations.
Open Scope nat_scope.
Open Scope string_scope.
Open Scope list_scope.

(** ** Filling the same block again and again *)
Lemma cell_of_map (f : string -> cell) cols c : In c cols -> cell_of c (map (fun c => (c, f c)) cols) = f c.
Proof.
  unfold cell_of. induction cols as [|a l IH]; simpl; [tauto|]. intros I. destruct (String.eqb c a) eqn:E.
  - apply String.eqb_eq in E. now subst.
  - apply IH. destruct I as [->|I]; auto. now rewrite String.eqb_refl in E.
Qed.

Section Last.
  Context {E F : Type} (gets : node -> list E) (getr : onode -> list F) (s : study) (r : result).
  Variables (bcast : bool) (junk : nat -> string -> nat -> cell) (j : nat) (cols : list string)
    (asg : string -> string -> E -> F -> list (string * colval)) (row : string -> string -> E -> F -> nat -> nat -> trow).
  Local Notation h := (st_horizon s).
  Local Notation n := (st_nb_scn s).

  Definition shaped (x : trow) : Prop := x = map (fun c => (c, cell_of c x)) cols.

  Hypotheses (W : study_wf s) (M : mirrors s r)
    (L : forall n rn, node_like s n rn -> List.length (gets n) = List.length (getr rn))
    (A1 : forall net nd e o, In (net, nd, e, o) (elements gets getr s r) ->
       Forall (fun x => mem (fst x) cols = true /\ val_fits (h * n) (snd x)) (asg net nd e o))
    (A2 : forall net nd e o scn t f, In (net, nd, e, o) (elements gets getr s r) -> scn < n -> t < h ->
       apply_asg (asg net nd e o) (scn * h + t) (map (fun c => (c, f c)) cols) = row net nd e o scn t)
    (A3 : forall net nd e o scn t, shaped (row net nd e o scn t)).

  Lemma fill_any p e B C : at_position gets s p e -> In e (elements gets getr s r) ->
    List.length B = h * n -> Forall shaped B ->
    fill gets s bcast asg (Table cols (B ++ C), 0) p 0 = Ok (Table cols (block s row e ++ C), 0).
  Proof.
    intros (P1 & P2 & P3 & P4) I LB Sh. destruct p as [[[net nd] i] o], e as [[[net' nd'] e] o']. cbn [fst snd] in *. subst net' nd' o'.
    unfold fill. rewrite P4. cbn [rbind].
    pose proof (loc_sets_block bcast cols [] C (asg net nd e o) B) as X. cbn [List.length app] in X.
    replace ((0 + 1) * h * n) with (0 + List.length B) by (rewrite LB; lia). replace (0 * h * n) with 0 by lia.
    rewrite X by (rewrite LB; now apply A1). cbn [rbind]. do 4 f_equal.
    assert (EB : B = map (fun k => map (fun c => (c, cell_of c (nth k B []))) cols) (seq 0 (h * n))).
    { rewrite <- LB. clear - Sh. induction Sh as [|x B S Sh IH]; auto. cbn [List.length seq map nth]. f_equal; [exact S|].
      rewrite <- seq_shift, map_map. exact IH. }
    rewrite EB. unfold block. rewrite mapi_from_map, mapi_from_seq, grid_seq. cbn [fst snd]. apply grid_ext. intros scn t H1 H2.
    rewrite !Nat.add_0_l. now apply A2.
  Qed.

  Lemma block_shaped e : Forall shaped (block s row e).
  Proof. apply Forall_forall. intros x I. unfold block in I. apply grid_In in I as (scn & t & _ & _ & ->). apply A3. Qed.

  Lemma fill_again : forall ps els, Forall2 (at_position gets s) ps els -> incl els (elements gets getr s r) ->
    forall e0 B C, List.length B = h * n -> Forall shaped B -> (els = [] -> B = block s row e0) ->
    foldM (fun st p => fill gets s bcast asg st p 0) ps (Table cols (B ++ C), 0) = Ok (Table cols (block s row (last els e0) ++ C), 0).
  Proof.
    induction 1 as [|p e ps els P F2 IH]; intros I e0 B C LB Sh E0.
    - cbn [foldM last]. now rewrite E0.
    - cbn [foldM]. rewrite (fill_any p e) by (auto; apply I; simpl; auto). cbn [rbind].
      replace (last (e :: els) e0) with (last els e).
      + apply (IH ltac:(intros x Hx; apply I; simpl; auto) e).
        * unfold block. now rewrite grid_length, Nat.mul_comm.
        * apply block_shaped.
        * reflexivity.
      + clear. revert e. induction els as [|a l IH]; intros e; auto. cbn [last]. destruct l; auto. exact (IH e).
  Qed.

  Theorem build_table_last els e : elements gets getr s r = els ++ [e] ->
    build_table bcast junk j cols 0 gets getr asg s r =
    Ok (Table cols (block s row e ++ map (fun k => map (fun c => (c, junk j c k)) cols) (seq (n * h) (n * h * List.length els)))).
  Proof.
    intros EL. unfold build_table. rewrite each_element_flat.
    pose proof (foldM_fill gets s bcast asg 0) as FF. rewrite FF. unfold new_table.
    rewrite (count_elements_eq gets getr s r M L).
    pose proof (fill_again _ _ (positions_elements gets getr s r W M L) (incl_refl _) e) as X.
    rewrite EL at 1. rewrite app_length. cbn [List.length]. replace (n * h * (List.length els + 1)) with (n * h + n * h * List.length els) by lia.
    rewrite seq_app, map_app. rewrite X.
    - cbn [rbind fst Nat.add]. rewrite EL, last_last. reflexivity.
    - rewrite map_length, seq_length. lia.
    - apply Forall_map, Forall_forall. intros k _. unfold shaped. apply map_ext_in. intros c I. now rewrite cell_of_map.
    - rewrite EL. intros Z. now destruct els.
  Qed.
End Last.

(** ** The last element *)
Lemma flat_map_last {A B} (f : A -> list B) l : forall ys x, flat_map f l = ys ++ [x] ->
  exists l1 a l2 zs, l = l1 ++ a :: l2 /\ f a = zs ++ [x] /\ Forall (fun b => f b = []) l2.
Proof.
  induction l as [|a l IH]; intros ys x H.
  - now destruct ys.
  - cbn [flat_map] in H. destruct (flat_map f l) as [|b m] eqn:Em using rev_ind.
    + rewrite app_nil_r in H. exists [], a, l, ys. split; auto. split; auto. apply Forall_forall. intros c I.
      destruct (f c) as [|y k] eqn:Ec; auto. exfalso. assert (In y (flat_map f l)) by (apply in_flat_map; exists c; rewrite Ec; simpl; auto).
      rewrite Em in *. auto.
    + rewrite app_assoc in H. apply app_inj_tail in H as [H ->]. destruct (IH m x eq_refl) as (l1 & a' & l2 & zs & -> & H1 & H2).
      exists (a :: l1), a', l2, zs. auto.
Qed.

Section LastElement.
  Context {E F : Type} (gets : node -> list E) (getr : onode -> list F) (s : study) (r : result).
  Hypotheses (M : mirrors s r) (L : forall n rn, node_like s n rn -> List.length (gets n) = List.length (getr rn)).

  Lemma fst_combine {A B} (P : A -> B -> Prop) l m : Forall2 P l m -> l = map fst (combine l m).
  Proof. induction 1; simpl; congruence. Qed.

  Lemma elements_last els net nd e o : elements gets getr s r = els ++ [(net, nd, e, o)] -> last_element gets s net nd e.
  Proof.
    intros H. unfold elements in H. apply flat_map_last in H as (l1 & [[k ns] [k' rns]] & l2 & zs & E1 & E2 & E3).
    pose proof (mr_nodes _ _ M) as N. pose proof (fst_combine _ _ _ N) as FC. rewrite E1 in FC. rewrite map_app in FC. cbn [map fst] in FC.
    assert (I : In ((k, ns), (k', rns)) (combine (st_networks s) (r_networks r))) by (rewrite E1; apply in_or_app; simpl; auto).
    pose proof (Forall2_combine _ _ _ _ _ N I) as [K N2]. cbn [fst snd] in *. subst k'.
    apply flat_map_last in E2 as (m1 & [[d n] [d' rn]] & m2 & ws & E4 & E5 & E6). cbn [fst snd] in *.
    pose proof (fst_combine _ _ _ N2) as FD. rewrite E4 in FD. rewrite map_app in FD. cbn [map fst] in FD.
    assert (J : In ((d, n), (d', rn)) (combine ns rns)) by (rewrite E4; apply in_or_app; simpl; auto).
    pose proof (Forall2_combine _ _ _ _ _ N2 J) as [K LK]. cbn [fst snd] in *. subst d'.
    assert (X : k = net /\ d = nd /\ exists l, gets n = l ++ [e]).
    { specialize (L _ _ LK). revert ws E5 L. generalize (getr rn). generalize (gets n). clear.
      induction l as [|a l IH]; intros m ws X L; [now destruct ws|]. destruct m as [|b m]; [discriminate|].
      cbn [combine map fst snd] in X. destruct ws as [|w ws].
      - injection X as -> -> -> -> X. apply map_eq_nil in X. destruct l, m; try discriminate. repeat split. now exists [].
      - injection X as _ X. destruct (IH m ws X) as (-> & -> & l' & ->); [now injection L|]. repeat split. now exists (a :: l'). }
    destruct X as (-> & -> & l & G).
    assert (Z : forall rns' ns', Forall2 (fun (kd : string * node) (kr : string * onode) => fst kr = fst kd /\ node_like s (snd kd) (snd kr)) ns' rns' ->
       forall A (k : string), Forall (fun dd : string * node * (string * onode) => map (fun eo => (k, fst (fst dd), fst eo, snd eo))
         (combine (gets (snd (fst dd))) (getr (snd (snd dd)))) = []) A -> incl A (combine ns' rns') ->
       forall d x, In (d, x) (map fst A) -> gets x = []).
    { intros rns' ns' F2 A k FA IA d x Ix. apply in_map_iff in Ix as ([[d0 x0] [d1 rx]] & X & Ix). cbn [fst] in X. injection X as -> ->.
      rewrite Forall_forall in FA. specialize (FA _ Ix). cbn [fst snd] in FA. apply map_eq_nil in FA.
      pose proof (Forall2_combine _ _ _ _ _ F2 (IA _ Ix)) as [_ LX]. cbn [fst snd] in LX. specialize (L _ _ LX).
      destruct (gets x), (getr rx); try discriminate; auto. }
    exists (map fst l1), ns, (map fst l2), (map fst m1), n, (map fst m2), l. split; auto. split; auto. split; auto. split.
    - intros k m d x I1 I2. apply in_map_iff in I1 as ([[k0 m0] [k1 rm]] & X & I1). cbn [fst] in X. injection X as -> ->.
      rewrite Forall_forall in E3. specialize (E3 _ I1). cbn [fst snd] in E3.
      assert (I3 : In ((k, m), (k1, rm)) (combine (st_networks s) (r_networks r))) by (rewrite E1; apply in_or_app; simpl; auto).
      pose proof (Forall2_combine _ _ _ _ _ N I3) as [_ N3]. cbn [fst snd] in N3.
      apply (Z rm m N3 (combine m rm) k) with (d := d); auto using incl_refl.
      + apply Forall_forall. intros dd I4. clear - E3 I4. revert I4. induction (combine m rm) as [|a q IH]; [contradiction|].
        cbn [flat_map] in E3. apply app_eq_nil in E3 as [Ea Eq]. intros [->|I4]; auto.
      + rewrite <- (fst_combine _ _ _ N3). auto.
    - apply (Z rns ns N2 m2 net); auto. intros y Iy. rewrite E4. apply in_or_app. simpl. auto.
  Qed.
End LastElement.

(** ** C34: the storage table of every study *)
Definition storage_columns : list string :=
  ["max_capacity"; "capacity"; "max_flow_in"; "flow_in"; "max_flow_out"; "flow_out"; "cost";
   "init_capacity"; "eff"; "name"; "node"; "network"; "t"; "scn"].

(** There is only one last element. *)
Lemma last_split {A} (P : A -> Prop) (a b : A) : forall l1 l2 m1 m2, l1 ++ a :: l2 = m1 ++ b :: m2 -> P a -> P b ->
  (forall x, In x l2 -> ~ P x) -> (forall x, In x m2 -> ~ P x) -> l1 = m1 /\ a = b /\ l2 = m2.
Proof.
  induction l1 as [|x l1 IH]; intros l2 [|y m1] m2 E Pa Pb L M; cbn [app] in E.
  - injection E as <- <-. auto.
  - injection E as <- ->. exfalso. apply (L b); auto. apply in_or_app. simpl. auto.
  - injection E as -> <-. exfalso. apply (M a); auto. apply in_or_app. simpl. auto.
  - injection E as -> E. destruct (IH _ _ _ E Pa Pb L M) as (-> & -> & ->). auto.
Qed.
Lemma last_element_unique {E} (gets : node -> list E) s net nd e net' nd' e' : last_element gets s net nd e -> last_element gets s net' nd' e' ->
  net = net' /\ nd = nd' /\ e = e'.
Proof.
  intros (a1 & ns & a2 & b1 & n & b2 & l & E1 & E2 & E3 & Z1 & Z2) (c1 & ns' & c2 & d1 & n' & d2 & l' & E1' & E2' & E3' & Z1' & Z2').
  rewrite E1 in E1'. apply (last_split (fun kn => exists d x, In (d, x) (snd kn) /\ gets x <> [])) in E1' as (_ & X & _).
  - injection X as -> ->. split; auto. rewrite E2 in E2'. apply (last_split (fun dx => gets (snd dx) <> [])) in E2' as (_ & X & _).
    + injection X as -> ->. split; auto. rewrite E3 in E3'. apply app_inj_tail in E3' as [_ ->]. auto.
    + cbn [snd]. rewrite E3. now destruct l.
    + cbn [snd]. rewrite E3'. now destruct l'.
    + intros [d x] I H. apply H. cbn [snd]. eauto.
    + intros [d x] I H. apply H. cbn [snd]. eauto.
  - exists nd, n. cbn [snd]. split; [rewrite E2; apply in_or_app; simpl; auto | rewrite E3; now destruct l].
  - exists nd', n'. cbn [snd]. split; [rewrite E2'; apply in_or_app; simpl; auto | rewrite E3'; now destruct l'].
  - intros [k m] I (d & x & J & H). apply H. eapply Z1; eauto.
  - intros [k m] I (d & x & J & H). apply H. eapply Z1'; eauto.
Qed.

Section Storages.
  Variables (s : study) (r : result) (bcast : bool) (junk : nat -> string -> nat -> cell).
  Hypotheses (Api : api_study s) (M : mirrors s r).
  Let W : study_wf s := proj1 (api_facts s Api).
  Local Notation h := (st_horizon s).
  Local Notation n := (st_nb_scn s).

  Lemma build_storage_last els net nd e o : stors_of s r = els ++ [(net, nd, e, o)] ->
    build_storage bcast junk s r = Ok (Table storage_columns (block s stor_row (net, nd, e, o) ++
      map (fun k => map (fun c => (c, junk 2 c k)) storage_columns) (seq (n * h) (n * h * List.length els)))).
  Proof.
    intros EL.
    assert (K : forall net nd e o, In (net, nd, e, o) (stors_of s r) -> (os_name o = s_name e /\ has_dims s (os_capacity o) /\ has_dims s (os_flow_in o) /\ has_dims s (os_flow_out o)) /\ (nv_canon (st_horizon s) (st_nb_scn s) (s_capacity e) /\ nv_canon (st_horizon s) (st_nb_scn s) (s_flow_in e) /\ nv_canon (st_horizon s) (st_nb_scn s) (s_flow_out e) /\ nv_canon (st_horizon s) (st_nb_scn s) (s_cost e) /\ nv_canon (st_horizon s) (st_nb_scn s) (s_eff e))).
    { intros net' nd' e' o' I. apply (element_facts s r Api M n_stors on_stors net' nd' e' o' (fun e o => os_name o = s_name e /\ has_dims s (os_capacity o) /\ has_dims s (os_flow_in o) /\ has_dims s (os_flow_out o)) (fun e => nv_canon (st_horizon s) (st_nb_scn s) (s_capacity e) /\ nv_canon (st_horizon s) (st_nb_scn s) (s_flow_in e) /\ nv_canon (st_horizon s) (st_nb_scn s) (s_flow_out e) /\ nv_canon (st_horizon s) (st_nb_scn s) (s_cost e) /\ nv_canon (st_horizon s) (st_nb_scn s) (s_eff e))) in I; auto.
      - intros n' rn [_ _ H _]; exact H.
      - intros n' [_ _ H _]; exact H.
      - apply like_stors. }
    unfold build_storage. apply build_table_last; auto.
    - apply like_stors.
    - intros net' nd' e' o' I. destruct (K net' nd' e' o' I) as ((N & D & D1 & D2) & C1 & C2 & C3 & C4 & C5).
      repeat constructor; cbn [fst snd]; auto using fits_flatten, fits_data, fits_t, fits_scn, canon_ok.
    - intros net' nd' e' o' scn t k I S T. destruct (K net' nd' e' o' I) as ((N & D & D1 & D2) & C1 & C2 & C3 & C4 & C5).
      unfold labels, stor_row, when. cbn -[val_at floats ints tile nprepeat Nat.mul Nat.add Z.of_nat].
      rewrite ?flatten_at with (h := h) (n := n) by (auto using canon_ok). rewrite ?data_at by auto. rewrite ?t_at, ?scn_at by auto.
      cbn [val_at]. rewrite N. reflexivity.
    - reflexivity.
  Qed.

  Lemma stors_length : List.length (stors_of s r) = storage_count s.
  Proof. unfold stors_of. rewrite <- (count_elements_eq n_stors on_stors s r M); auto. apply like_stors. Qed.
End Storages.

(** Exactly: the rows of the last storage, then the rows that nothing wrote. *)
Theorem C34_storage_table_exact bcast junk s r : api_study s -> mirrors s r -> 0 < storage_count s ->
  exists net nd e o surplus, last_element n_stors s net nd e /\ is_element n_stors on_stors s r net nd e o /\
    build_storage bcast junk s r = Ok (Table storage_columns
      (flat_map (fun scn => map (stor_row net nd e o scn) (seq 0 (st_horizon s))) (seq 0 (st_nb_scn s)) ++ surplus)) /\
    List.length surplus = st_nb_scn s * st_horizon s * (storage_count s - 1) /\
    (forall k x c, nth_error surplus k = Some x -> In c storage_columns -> cell_of c x = junk 2 c (st_nb_scn s * st_horizon s + k)).
Proof.
  intros A M P. destruct (api_facts s A) as (W & _). pose proof (stors_length s r M) as SL.
  destruct (stors_of s r) as [|[[[net nd] e] o] els _] eqn:EL using rev_ind; [simpl in SL; lia|].
  exists net, nd, e, o. eexists. split; [|split; [|split; [|split]]].
  - apply (elements_last n_stors on_stors s r M (like_stors s) els net nd e o EL).
  - apply (is_element_In n_stors on_stors s r W M). unfold stors_of in EL. rewrite EL. apply in_or_app. simpl. auto.
  - rewrite (build_storage_last s r bcast junk A M els net nd e o EL). reflexivity.
  - rewrite map_length, seq_length. rewrite app_length in SL. cbn in SL. f_equal. lia.
  - intros k x c K I. rewrite nth_error_map in K.
    destruct (nth_error (seq _ _) k) as [i|] eqn:Ei; [|discriminate]. cbn [option_map] in K.
    assert (Ex : x = map (fun c => (c, junk 2 c i)) storage_columns) by congruence. rewrite Ex. clear K Ex.
    assert (i = st_nb_scn s * st_horizon s + k).
    { assert (Lk : k < List.length (seq (st_nb_scn s * st_horizon s) (st_nb_scn s * st_horizon s * List.length els))) by (apply nth_error_Some; congruence).
      rewrite seq_length in Lk. apply (nth_error_nth _ _ 0) in Ei. rewrite seq_nth in Ei by auto. auto. }
    subst i. apply cell_of_map with (f := fun c => junk 2 c (st_nb_scn s * st_horizon s + k)). exact I.
Qed.

(** ** C35: the table of destinations of every study *)
Lemma set_from_length k a b c v rows : List.length (set_from k a b c v rows) = List.length rows.
Proof. revert k. induction rows as [|x rows IH]; intros k; cbn [set_from List.length]; auto. Qed.
Lemma loc_set_result bcast a b tb asg : loc_set bcast a b tb asg = Err ValueError \/
  exists tb', loc_set bcast a b tb asg = Ok tb' /\ List.length (tb_rows tb') = List.length (tb_rows tb).
Proof.
  destruct asg as [col v]. unfold loc_set.
  assert (P : forall f, List.length (set_from 0 a b col f (tb_rows (if mem col (tb_cols tb) then tb
     else Table (tb_cols tb ++ [col]) (map (fun r => r ++ [(col, CNaN)]) (tb_rows tb))))) = List.length (tb_rows tb)).
  { intros f. rewrite set_from_length. destruct (mem _ _); cbn [tb_rows]; rewrite ?map_length; auto. }
  destruct v as [c|l]; [right; eexists; split; [reflexivity | apply P]|].
  destruct (Nat.eqb _ _); [right; eexists; split; [reflexivity | apply P]|].
  destruct (_ && _); [right; eexists; split; [reflexivity | apply P] | auto].
Qed.
Lemma loc_sets_result bcast a b l : forall tb, loc_sets bcast a b tb l = Err ValueError \/
  exists tb', loc_sets bcast a b tb l = Ok tb' /\ List.length (tb_rows tb') = List.length (tb_rows tb).
Proof.
  unfold loc_sets. induction l as [|asg l IH]; intros tb; cbn [foldM]; [right; eauto|].
  destruct (loc_set_result bcast a b tb asg) as [->|(tb' & -> & L)]; auto. cbn [rbind].
  destruct (IH tb') as [->|(tb2 & -> & L2)]; auto. right. exists tb2. split; auto. congruence.
Qed.
Lemma loc_sets_wrong bcast a b tb l1 col v l2 : (bcast = false \/ List.length v <> 1) ->
  List.length v <> Nat.min b (List.length (tb_rows tb)) - a ->
  loc_sets bcast a b tb (l1 ++ (col, VArray v) :: l2) = Err ValueError.
Proof.
  intros B L. rewrite loc_sets_app. destruct (loc_sets_result bcast a b l1 tb) as [->|(tb' & -> & L')]; auto. cbn [rbind].
  unfold loc_sets. cbn [foldM]. unfold loc_set. rewrite L', (proj2 (Nat.eqb_neq _ _) L).
  destruct B as [->|B]; [reflexivity|]. rewrite (proj2 (Nat.eqb_neq _ _) B), andb_false_r. reflexivity.
Qed.

Lemma foldM_fails {A S} (f : S -> A -> res S) (Inv : S -> Prop) e a : forall l s,
  (forall s b, Inv s -> In b l -> f s b = Err e \/ exists s', f s b = Ok s' /\ Inv s') ->
  In a l -> (forall s, Inv s -> f s a = Err e) -> Inv s -> foldM f l s = Err e.
Proof.
  induction l as [|b l IH]; intros s H I Fa V; [destruct I|]. cbn [foldM]. destruct I as [->|I]; [now rewrite Fa|].
  destruct (H s b V (or_introl eq_refl)) as [->|(s' & -> & V')]; auto. cbn [rbind]. apply IH; auto. intros s0 c V0 Ic. apply H; simpl; auto.
Qed.

Section Converters.
  Variables (s : study) (r : result) (bcast : bool) (junk : nat -> string -> nat -> cell).
  Hypotheses (Api : api_study s) (M : mirrors s r) (Co : complete s) (Ref : refuses bcast s).
  Local Notation h := (st_horizon s).
  Local Notation n := (st_nb_scn s).

  Lemma hn_pos : 0 < h * n.
  Proof. pose proof (api_facts s Api) as (_ & _ & A & B). nia. Qed.

  Lemma build_dest_fails : count_sources s < List.length (st_converters s) -> build_dest_converter bcast junk s r = Err ValueError.
  Proof.
    intros L. destruct (convs_facts s r Api M) as [F E]. pose proof hn_pos as P.
    set (c := count_sources s) in *. destruct (nth_error (st_converters s) c) as [[name v]|] eqn:N; [|apply nth_error_None in N; lia].
    assert (facts : forall name v, In (name, v) (st_converters s) -> exists rv co mx, conv_facts s r (name, v, rv) /\ v_cost v = Some co /\ v_max v = Some mx).
    { intros name' v' I. rewrite E in I. apply in_map_iff in I as ([[a b] rv] & X & I). cbn [fst] in X. injection X as -> ->.
      rewrite Forall_forall in F. pose proof (F _ I) as X. destruct (Co name' v' (cf_conv _ _ _ X)) as [A B].
      destruct (v_cost v') as [co|] eqn:Ec, (v_max v') as [mx|] eqn:Em; try congruence. eauto 8. }
    unfold build_dest_converter. fold cols6.
    apply (foldM_fails (dest_body s r bcast) (fun tb => List.length (tb_rows tb) = h * n * c) ValueError (c, (name, v))).
    - intros tb [i [nm w]] Inv I. apply in_combine_r in I. destruct (facts nm w I) as (rv & co & mx & X & Ec & Em).
      rewrite (dest_body_eq s r bcast i nm w rv co mx tb X Ec Em).
      destruct (loc_sets_result bcast (i * h * n) ((i + 1) * h * n) (dest_asg s w rv (flatten co) (flatten mx)) tb) as [->|(tb' & -> & L')]; auto.
      right. exists tb'. split; auto. congruence.
    - clear - N L. assert (G : forall (l : list (string * converter)) b k, nth_error l k = Some (name, v) -> In (b + k, (name, v)) (combine (seq b (List.length l)) l)).
      { induction l as [|a l IH]; intros b [|k] K; try discriminate; cbn [List.length seq combine].
        - injection K as ->. left. f_equal. lia.
        - right. replace (b + S k) with (S b + k) by lia. now apply IH. }
      exact (G _ 0 c N).
    - intros tb Inv. apply nth_error_In in N. destruct (facts name v N) as (rv & co & mx & X & Ec & Em).
      rewrite (dest_body_eq s r bcast c name v rv co mx tb X Ec Em).
      assert (Lc : List.length (flatten co) = h * n).
      { destruct X as [_ _ _ [_ K1 _]]. cbn [fst snd] in K1. rewrite Ec in K1. cbn [onv_canon] in K1. rewrite (flatten_length h n co); [lia | now apply canon_ok]. }
      apply (loc_sets_wrong bcast _ _ tb [_] "cost" (map CNum (flatten co))); rewrite map_length, Lc.
      + destruct Ref as [Rf|Rf]; [auto | right; lia].
      + rewrite Inv. nia.
    - unfold new_table. cbn [tb_rows]. now rewrite map_length, seq_length.
  Qed.

  (** Sources. *)
  Local Notation conv := (string * converter * oconverter)%type.
  Definition nsrc (x : conv) : nat := List.length (v_src (snd (fst x))).
  Definition src_asg (mx q : numval) (net nd : string) (a : ndarray) : list (string * colval) :=
    [("network", VScalar (CStr net)); ("node", VScalar (CStr nd)); ("max", floats (flatten mx)); ("ratio", floats (flatten q)); ("flow", floats (data a))].
  Lemma src_inner_eq name v rv mx i net nd q a tb st : conv_facts s r (name, v, rv) -> v_max v = Some mx -> dget (net, nd) (ov_src rv) = Some a ->
    src_inner s r bcast (name, v) (tb, st) (i, ((net, nd), q)) =
    let* tb := loc_sets bcast st (st + h * n * (i + 1)) tb (src_asg mx q net nd a) in Ok (tb, st + h * n * (i + 1)).
  Proof.
    intros [_ R _ _] Em G. cbn [fst snd] in R. unfold src_inner. cbn [fst snd]. rewrite Em. cbn [oflatten]. unfold dlook at 1. unfold rconv_at in R. rewrite R.
    change (src_asg mx q net nd a) with
      ([("network", VScalar (CStr net)); ("node", VScalar (CStr nd))] ++ [("max", floats (flatten mx)); ("ratio", floats (flatten q))] ++ [("flow", floats (data a))]).
    rewrite !loc_sets_app. destruct (loc_sets _ _ _ tb _) as [tb2|]; auto. cbn [rbind].
    rewrite !loc_sets_app. destruct (loc_sets _ _ _ tb2 _) as [tb3|]; auto. cbn [rbind].
    unfold dlook. rewrite G. cbn [rbind]. destruct (loc_sets _ _ _ tb3 _) as [tb4|]; auto.
  Qed.

  (** The first two sources of a converter. *)
  Lemma two_sources x : conv_facts s r x -> 2 <= nsrc x -> exists name v rv mx k1 q1 a1 k2 q2 a2 l,
    x = (name, v, rv) /\ v_max v = Some mx /\ nv_canon h n mx /\ v_src v = (k1, q1) :: (k2, q2) :: l /\
    dget k1 (ov_src rv) = Some a1 /\ dget k2 (ov_src rv) = Some a2 /\ nv_canon h n q1 /\ nv_canon h n q2 /\ has_dims s a1 /\ has_dims s a2 /\
    exists m, srcs_of x = (k1, q1, a1) :: (k2, q2, a2) :: m.
  Proof.
    intros X L. destruct x as [[name v] rv]. unfold nsrc in L. cbn [fst snd] in L.
    destruct (Co name v (cf_conv _ _ _ X)) as [_ NM]. destruct (v_max v) as [mx|] eqn:Em; [|congruence].
    pose proof (wf_once _ _ _ (wf_conv _ (proj1 (api_facts s Api)) _ _ (cf_conv _ _ _ X))) as ND. cbn [fst snd] in ND.
    destruct X as [V R (N1 & N2 & N3) [K0 K1 K2]]. cbn [fst snd] in *. rewrite Em in K2. cbn [onv_canon] in K2.
    remember (v_src v) as l eqn:El. remember (ov_src rv) as l0 eqn:El0.
    destruct N3 as [|[k1 q1] [k1' a1] l1 m1 [E1 D1] N3]; [simpl in L; lia|].
    destruct N3 as [|[k2 q2] [k2' a2] l2 m2 [E2 D2] N3]; [simpl in L; lia|]. cbn [fst snd] in *. subst k1' k2'.
    exists name, v, rv, mx, k1, q1, a1, k2, q2, a2, l2. repeat (split; [now auto|]).
    split; [rewrite <- El0; cbn [dget]; now rewrite (proj2 (eqb_eq k1 k1) eq_refl)|].
    split. { rewrite <- El0. cbn [dget]. destruct (eqb k2 k1) eqn:Ek.
      - apply eqb_eq in Ek. subst. inversion ND as [|? ? NI _]; subst. exfalso. apply NI. left. reflexivity.
      - now rewrite (proj2 (eqb_eq k2 k2) eq_refl). }
    split; [apply (K0 k1); simpl; auto|]. split; [apply (K0 k2); simpl; auto|]. split; auto. split; auto.
    eexists. unfold srcs_of. cbn [fst snd]. rewrite <- El, <- El0. cbn [combine map fst snd]. reflexivity.
  Qed.

  Lemma src_body_fails x rows st c : conv_facts s r x -> 2 <= nsrc x -> 3 <= nsrc x + c -> List.length rows = st + h * n * (nsrc x + c) ->
    src_body s r bcast (Table scols8 rows, st) (fst x) = Err ValueError.
  Proof.
    intros X L2 L3 LR. destruct (two_sources x X L2) as (name & v & rv & mx & [n1 d1] & q1 & a1 & [n2 d2] & q2 & a2 & l & -> & Em & Km & El & G1 & G2 & _).
    pose proof hn_pos as P. unfold src_body, nsrc in *. cbn [fst snd] in *. rewrite El in *. cbn [List.length] in *.
    destruct (loc_sets_result bcast st (st + h * n * S (S (List.length l))) (src_head s v) (Table scols8 rows)) as [->|(tb1 & -> & L1)]; auto.
    cbn [rbind seq combine foldM]. rewrite (src_inner_eq name v rv mx 0 n1 d1 q1 a1) by auto.
    destruct (loc_sets_result bcast st (st + h * n * (0 + 1)) (src_asg mx q1 n1 d1 a1) tb1) as [->|(tb2 & -> & Lb2)]; auto.
    cbn [rbind]. rewrite (src_inner_eq name v rv mx 1 n2 d2 q2 a2) by auto. unfold src_asg.
    match goal with |- context [loc_sets bcast ?a ?b tb2 ?l] => assert (Z : loc_sets bcast a b tb2 l = Err ValueError) end; [|now rewrite Z].
    apply (loc_sets_wrong bcast _ _ tb2 [_; _] "max" (map CNum (flatten mx))); rewrite map_length, (flatten_length h n mx) by now apply canon_ok.
    - destruct Ref as [Rf|Rf]; [auto | right; lia].
    - rewrite Lb2, L1. cbn [tb_rows]. rewrite LR. assert (h * n * (S (S (List.length l)) + c) >= h * n * 3) by nia. lia.
  Qed.

  (** A converter without source touches nothing, wherever the count stands. *)
  Lemma set_from_none c v a rows : forall k, set_from k a a c v rows = rows.
  Proof.
    induction rows as [|x rows IH]; intros k; cbn [set_from]; auto. rewrite IH. destruct (_ && _) eqn:E; auto.
    apply andb_true_iff in E as [E1 E2]. apply Nat.leb_le in E1. apply Nat.ltb_lt in E2. lia.
  Qed.
  Lemma loc_set_none st col v rows : mem col scols8 = true -> (exists c, v = VScalar c) \/ v = VArray [] ->
    loc_set bcast st st (Table scols8 rows) (col, v) = Ok (Table scols8 rows).
  Proof.
    intros I V. unfold loc_set. cbn [tb_cols tb_rows]. rewrite I. cbn [tb_cols tb_rows].
    destruct V as [(c & ->)| ->]; rewrite !set_from_none; auto. replace (Nat.min st (List.length rows) - st) with 0 by lia. reflexivity.
  Qed.
  Lemma src_body_none x rows st : nsrc x = 0 -> src_body s r bcast (Table scols8 rows, st) (fst x) = Ok (Table scols8 rows, st).
  Proof.
    intros Z. unfold nsrc in Z. unfold src_body. destruct x as [[name v] rv]. cbn [fst snd] in *. destruct (v_src v) as [|a l] eqn:El; [|discriminate].
    cbn [List.length seq combine foldM]. unfold src_head. rewrite El. cbn [List.length]. rewrite !Nat.mul_0_r, Nat.add_0_r.
    assert (T : ints (tile (seq 0 h) 0) = VArray []) by reflexivity. rewrite T.
    assert (R : ints (nprepeat (seq 0 n) 0) = VArray []). { unfold ints. pose proof (length_nprepeat (seq 0 n) 0) as Y. rewrite Nat.mul_0_r in Y. now destruct (nprepeat (seq 0 n) 0). }
    rewrite R. unfold loc_sets. cbn [foldM]. rewrite (loc_set_none st "name") by (eauto; reflexivity). cbn [rbind].
    rewrite (loc_set_none st "t") by (eauto; reflexivity). cbn [rbind]. rewrite (loc_set_none st "scn") by (eauto; reflexivity). reflexivity.
  Qed.

  (** Two sources, at the end of the table: the times are right, the scenarios are those of a
      single block twice as long. *)
  Definition late (i scn : nat) : nat := (i * n + scn) / 2.
  Definition tblock0 (x : conv) : list trow :=
    flat_map (fun ik : nat * (string * string * numval * ndarray) => let ka := snd ik in grid n h (fun scn t =>
      dset "scn" (CInt (Z.of_nat (late (fst ik) scn))) (src_row0 (snd (fst x)) (fst (fst (fst ka))) (snd (fst (fst ka))) (snd (fst ka)) (snd ka) scn t)))
      (combine (seq 0 (nsrc x)) (srcs_of x)).
  Lemma loc_set_clip a b tb asg : List.length (tb_rows tb) <= b -> loc_set bcast a b tb asg = loc_set bcast a (List.length (tb_rows tb)) tb asg.
  Proof.
    intros L. destruct asg as [col v]. unfold loc_set. rewrite Nat.min_id, (Nat.min_r _ _ L).
    assert (E : forall c f rows k, k + List.length rows <= b -> set_from k a b c f rows = set_from k a (k + List.length rows) c f rows).
    { clear. intros c f rows. induction rows as [|x rows IH]; intros k L; cbn [set_from List.length]; auto. cbn [List.length] in L.
      rewrite IH by lia. replace (k + S (List.length rows)) with (S k + List.length rows) by lia.
      replace (Nat.ltb k b) with true by (symmetry; apply Nat.ltb_lt; lia). replace (Nat.ltb k (S k + List.length rows)) with true by (symmetry; apply Nat.ltb_lt; lia). reflexivity. }
    assert (E2 : forall f, set_from 0 a b col f (tb_rows (if mem col (tb_cols tb) then tb else Table (tb_cols tb ++ [col]) (map (fun r => r ++ [(col, CNaN)]) (tb_rows tb)))) =
       set_from 0 a (List.length (tb_rows tb)) col f (tb_rows (if mem col (tb_cols tb) then tb else Table (tb_cols tb ++ [col]) (map (fun r => r ++ [(col, CNaN)]) (tb_rows tb))))).
    { intros f. destruct (mem _ _); cbn [tb_rows]; (etransitivity; [apply E; rewrite ?map_length; exact L | rewrite ?map_length; reflexivity]). }
    destruct v as [c|l]; now rewrite !E2.
  Qed.
  Lemma loc_sets_clip a b l : forall tb, List.length (tb_rows tb) <= b -> loc_sets bcast a b tb l = loc_sets bcast a (List.length (tb_rows tb)) tb l.
  Proof.
    unfold loc_sets. induction l as [|asg l IH]; intros tb L; cbn [foldM]; auto. rewrite (loc_set_clip a b tb asg L).
    destruct (loc_set_result bcast a (List.length (tb_rows tb)) tb asg) as [->|(tb' & -> & E)]; auto. cbn [rbind]. rewrite IH by lia. now rewrite E.
  Qed.

  Lemma two_t i scn t : i < 2 -> scn < n -> t < h -> val_at (ints (tile (seq 0 h) (n * 2))) (i * (h * n) + (scn * h + t)) = CInt (Z.of_nat t).
  Proof. intros Hi Hs Ht. replace (i * (h * n) + (scn * h + t)) with ((i * n + scn) * h + t) by lia. apply t_at; auto. destruct i as [|[|i]]; lia. Qed.
  Lemma two_scn i scn t : i < 2 -> scn < n -> t < h -> val_at (ints (nprepeat (seq 0 n) (h * 2))) (i * (h * n) + (scn * h + t)) = CInt (Z.of_nat (late i scn)).
  Proof.
    intros Hi Hs Ht. unfold late. set (m := i * n + scn). pose proof (Nat.div_mod m 2 ltac:(lia)) as D. pose proof (Nat.mod_upper_bound m 2 ltac:(lia)) as U.
    replace (i * (h * n) + (scn * h + t)) with (m / 2 * (h * 2) + (m mod 2 * h + t)) by (subst m; nia).
    apply scn_at; [|nia]. apply Nat.div_lt_upper_bound; [lia|]. subst m. destruct i as [|[|i]]; lia.
  Qed.

  Lemma src_body_two x rows a : conv_facts s r x -> nsrc x = 2 ->
    src_body s r bcast (Table scols8 (rows ++ map (jr8s junk) (seq a (h * n * 2))), List.length rows) (fst x) =
    Ok (Table scols8 (rows ++ tblock0 x), List.length rows + h * n * 3).
  Proof.
    intros X L2. destruct (two_sources x X) as (name & v & rv & mx & [n1 d1] & q1 & a1 & [n2 d2] & q2 & a2 & l & -> & Em & Km & El & G1 & G2 & Q1 & Q2 & D1 & D2 & m & Sr); [lia|].
    unfold nsrc in L2. cbn [fst snd] in L2. rewrite El in L2. destruct l; [|discriminate].
    unfold tblock0, nsrc. rewrite Sr. cbn [fst snd]. rewrite El. cbn [List.length seq combine flat_map fst snd]. rewrite app_nil_r.
    unfold src_body. cbn [fst snd]. rewrite El. cbn [List.length seq combine foldM]. pose proof hn_pos as P.
    set (B := map (jr8s junk) (seq a (h * n * 2))). assert (LB : List.length B = h * n * 2) by (subst B; now rewrite map_length, seq_length).
    pose proof (loc_sets_block bcast scols8 rows [] (src_head s v) B) as Hd. rewrite app_nil_r, LB in Hd. rewrite Hd; clear Hd.
    2:{ unfold src_head. rewrite El. cbn [List.length]. repeat constructor; cbn [fst snd].
        - replace (h * n * 2) with (h * (n * 2)) by lia. apply fits_t.
        - replace (h * n * 2) with (h * 2 * n) by lia. apply fits_scn. }
    cbn [rbind]. rewrite app_nil_r. unfold B. rewrite mapi_from_map, mapi_from_seq.
    replace (h * n * 2) with (h * n + h * n) by lia. rewrite seq_app, map_app. cbn [Nat.add].
    set (g := fun i => apply_asg (src_head s v) i (jr8s junk (a + i))).
    set (B1 := map g (seq 0 (h * n))). set (B2 := map g (seq (h * n) (h * n))).
    assert (L1 : List.length B1 = h * n) by (subst B1; now rewrite map_length, seq_length).
    assert (L2' : List.length B2 = h * n) by (subst B2; now rewrite map_length, seq_length).
    rewrite (src_inner_eq name v rv mx 0 n1 d1 q1 a1) by auto. cbn [Nat.add]. rewrite Nat.mul_1_r. rewrite <- L1 at 1.
    rewrite (loc_sets_block bcast scols8 rows B2 (src_asg mx q1 n1 d1 a1) B1).
    2:{ rewrite L1. unfold src_asg. repeat constructor; cbn [fst snd]; auto using fits_flatten, fits_data, canon_ok. }
    cbn [rbind]. set (C1 := mapi_from 0 (apply_asg (src_asg mx q1 n1 d1 a1)) B1).
    assert (LC : List.length C1 = h * n) by (subst C1; now rewrite mapi_from_length).
    rewrite (src_inner_eq name v rv mx 1 n2 d2 q2 a2) by auto. cbn [Nat.add].
    rewrite (loc_sets_clip _ (List.length rows + h * n + h * n * 2)).
    2:{ cbn [tb_rows]. rewrite !app_length. lia. }
    cbn [tb_rows]. rewrite (app_assoc rows C1 B2). rewrite (app_length (rows ++ C1)).
    assert (EL : List.length rows + h * n = List.length (rows ++ C1)) by (rewrite app_length; lia). rewrite EL.
    pose proof (loc_sets_block bcast scols8 (rows ++ C1) [] (src_asg mx q2 n2 d2 a2) B2) as H2. rewrite !app_nil_r in H2. rewrite H2; clear H2.
    2:{ rewrite L2'. unfold src_asg. repeat constructor; cbn [fst snd]; auto using fits_flatten, fits_data, canon_ok. }
    cbn [rbind]. rewrite <- app_assoc. rewrite <- EL. f_equal. f_equal; [|lia]. f_equal. f_equal. f_equal.
    - subst C1 B1. rewrite mapi_from_map, mapi_from_seq, grid_seq. apply grid_ext. intros scn t H1 H2.
      rewrite !Nat.add_0_l. unfold g, src_head. rewrite El. cbn [List.length].
      unfold jr8s, src_row0, when, src_asg, scols6. rewrite Em.
      cbn -[val_at floats ints tile nprepeat Nat.mul Nat.add Z.of_nat late].
      pose proof (two_t 0 scn t) as T1. pose proof (two_scn 0 scn t) as T2. rewrite Nat.mul_0_l, Nat.add_0_l in T1, T2. rewrite T1, T2 by lia.
      rewrite ?flatten_at with (h := h) (n := n) by (auto using canon_ok). rewrite ?data_at by auto.
      cbn [val_at ovalue]. reflexivity.
    - subst B2. rewrite mapi_from_map, mapi_from_seq, grid_seq. apply grid_ext. intros scn t H1 H2.
      rewrite !Nat.add_0_l. unfold g, src_head. rewrite El. cbn [List.length].
      unfold jr8s, src_row0, when, src_asg, scols6. rewrite Em.
      cbn -[val_at floats ints tile nprepeat Nat.mul Nat.add Z.of_nat late].
      pose proof (two_t 1 scn t) as T1. pose proof (two_scn 1 scn t) as T2. rewrite Nat.mul_1_l in T1, T2. rewrite T1, T2 by lia.
      rewrite ?flatten_at with (h := h) (n := n) by (auto using canon_ok). rewrite ?data_at by auto.
      cbn [val_at ovalue]. reflexivity.
  Qed.

  (** The rows of one converter: the scenario of the [i]-th source out of [k] is [(i * n + scn) / k]. *)
  Definition late_row (v : converter) (i : nat) (net nd : string) (q : numval) (a : ndarray) (scn t : nat) : trow :=
    dset "scn" (CInt (Z.of_nat ((i * n + scn) / List.length (v_src v)))) (src_row v net nd q a scn t).
  Definition ublock (x : conv) : list trow :=
    flat_map (fun ik : nat * (string * string * numval * ndarray) =>
      grid n h (late_row (snd (fst x)) (fst ik) (fst (fst (fst (snd ik)))) (snd (fst (fst (snd ik)))) (snd (fst (snd ik))) (snd (snd ik))))
      (combine (seq 0 (nsrc x)) (srcs_of x)).
  Definition divide (row : trow) : trow := dset "max" (cell_div (cell_of "max" row) (cell_of "ratio" row)) row.
  Lemma srcs_length x : conv_facts s r x -> List.length (srcs_of x) = nsrc x.
  Proof. intros [_ _ (_ & _ & N3) _]. unfold srcs_of, nsrc. rewrite map_length, combine_length. rewrite (Forall2_len _ _ _ N3). apply Nat.min_id. Qed.
  Lemma divide_one x : conv_facts s r x -> nsrc x <= 1 -> map divide (sblock0 s x) = ublock x.
  Proof.
    intros X L. unfold sblock0, ublock. pose proof (srcs_length x X) as SL. unfold late_row. fold (nsrc x). destruct (srcs_of x) as [|ka [|kb m]]; cbn [List.length] in SL; rewrite <- SL in *; [reflexivity| |lia].
    cbn [seq combine flat_map fst snd]. rewrite !app_nil_r, map_grid. apply grid_ext. intros scn t _ _. rewrite Nat.mul_0_l, Nat.add_0_l, Nat.div_1_r.
    unfold divide, src_row0, src_row, when, cell_of, cell_div. simpl. destruct (Qeq_bool _ 0); reflexivity.
  Qed.
  Lemma divide_two x : nsrc x = 2 -> map divide (tblock0 x) = ublock x.
  Proof.
    intros L. unfold tblock0, ublock. cbv zeta. induction (combine (seq 0 (nsrc x)) (srcs_of x)) as [|ka m IH]; auto. cbn [flat_map].
    etransitivity; [apply map_app|]. f_equal; [|exact IH].
    etransitivity; [apply map_grid|]. apply grid_ext. intros scn t _ _. unfold late_row, late. fold (nsrc x). rewrite L.
    unfold divide, src_row0, src_row, when, cell_of, cell_div. simpl. destruct (Qeq_bool _ 0); reflexivity.
  Qed.
  Lemma divide_ones xs : Forall (conv_facts s r) xs -> Forall (fun x => nsrc x <= 1) xs -> map divide (flat_map (sblock0 s) xs) = flat_map ublock xs.
  Proof. induction 1; intros F; auto. inversion F; subst. cbn [flat_map]. rewrite map_app, divide_one, IHForall; auto. Qed.

  Lemma src_count_app xs ys : src_count (xs ++ ys) = src_count xs + src_count ys.
  Proof. unfold src_count. now rewrite map_app, list_sum_app. Qed.
  Lemma src_count_cons x ys : src_count (x :: ys) = nsrc x + src_count ys.
  Proof. reflexivity. Qed.
  Lemma src_count_none ys : Forall (fun y => nsrc y = 0) ys -> src_count ys = 0.
  Proof. induction 1 as [|y ys H _ IH]; auto. now rewrite src_count_cons, H, IH. Qed.

  Lemma counts_cases : forall (l : list conv),
    Forall (fun x => nsrc x <= 1) l \/
    (exists xs x ys, l = xs ++ x :: ys /\ Forall (fun x => nsrc x <= 1) xs /\ nsrc x = 2 /\ Forall (fun y => nsrc y = 0) ys) \/
    (exists xs x ys, l = xs ++ x :: ys /\ Forall (fun x => nsrc x <= 1) xs /\ 2 <= nsrc x /\ 3 <= nsrc x + src_count ys).
  Proof.
    induction l as [|x l IH]; [left; constructor|]. destruct (le_lt_dec (nsrc x) 1) as [L|L].
    - destruct IH as [H|[(xs & y & ys & -> & H1 & H2 & H3)|(xs & y & ys & -> & H1 & H2 & H3)]].
      + left. constructor; auto.
      + right. left. exists (x :: xs), y, ys. repeat split; auto.
      + right. right. exists (x :: xs), y, ys. repeat split; auto.
    - right. destruct (le_lt_dec (nsrc x + src_count l) 2) as [L2|L2].
      + left. exists [], x, l. repeat split; auto; [lia|]. assert (Z : src_count l = 0) by lia. clear - Z.
        induction l as [|a l IH]; constructor; rewrite src_count_cons in Z; [|apply IH]; lia.
      + right. exists [], x, l. repeat split; auto.
  Qed.
  Lemma fit_iff : sources_fit (source_counts s) <->
    (Forall (fun x => nsrc x <= 1) (convs_of s r) \/
     exists xs x ys, convs_of s r = xs ++ x :: ys /\ Forall (fun x => nsrc x <= 1) xs /\ nsrc x = 2 /\ Forall (fun y => nsrc y = 0) ys).
  Proof.
    assert (E : source_counts s = map nsrc (convs_of s r)).
    { unfold source_counts. rewrite (proj2 (convs_facts s r Api M)) at 1. rewrite map_map. reflexivity. }
    rewrite E. split.
    - intros F. destruct (counts_cases (convs_of s r)) as [H|[H|(xs & x & ys & Ex & _ & H2 & H3)]]; auto. exfalso.
      rewrite Ex, map_app in F. cbn [map] in F. destruct (F _ _ _ eq_refl) as [H|[H HA]]; [lia|].
      assert (Z : src_count ys = 0); [|lia]. apply src_count_none. apply Forall_forall. intros y I. rewrite Forall_forall in HA. symmetry. apply HA. now apply in_map.
    - intros [H|(xs & x & ys & -> & H1 & H2 & H3)] before k after Eq.
      + left. rewrite Forall_forall in H. assert (I : In k (map nsrc (convs_of s r))) by (rewrite Eq; apply in_or_app; simpl; auto).
        apply in_map_iff in I as (x & <- & I). auto.
      + rewrite map_app in Eq. cbn [map] in Eq. rewrite H2 in Eq.
        assert (H1' : Forall (fun k => k <= 1) (map nsrc xs)) by (apply Forall_map; auto). assert (H3' : Forall (eq 0) (map nsrc ys)) by (apply Forall_map; eapply Forall_impl; [|exact H3]; cbn; auto).
        revert before Eq H1'. clear - H3'. induction (map nsrc xs) as [|a l IH]; intros [|b before] Eq F; cbn [app] in Eq.
        * injection Eq as <- <-. auto.
        * injection Eq as _ Eq. left. rewrite Forall_forall in H3'. rewrite <- (H3' k); auto. rewrite Eq. apply in_or_app. simpl. auto.
        * injection Eq as -> _. left. inversion F; auto.
        * injection Eq as _ Eq. inversion F; subst. eapply IH; eauto.
  Qed.

  Lemma src_none_all : forall ys rows st, Forall (fun y => nsrc y = 0) ys -> foldM (src_body s r bcast) (map fst ys) (Table scols8 rows, st) = Ok (Table scols8 rows, st).
  Proof. induction ys as [|y ys IH]; intros rows st F; auto. inversion F; subst. cbn [map foldM]. rewrite src_body_none by auto. cbn [rbind]. auto. Qed.

  Lemma build_src_unfold : build_src_converter bcast junk s r =
    let* out := foldM (src_body s r bcast) (st_converters s) (new_table (junk 5) scols6 (h * n * count_sources s), 0) in
    Ok (Table (tb_cols (fst out)) (map divide (tb_rows (fst out)))).
  Proof. reflexivity. Qed.

  Lemma build_src_fits : sources_fit (source_counts s) -> exists cols, build_src_converter bcast junk s r = Ok (Table cols (flat_map ublock (convs_of s r))) /\
    (convs_of s r <> [] -> cols = scols8).
  Proof.
    intros Fit. apply fit_iff in Fit. destruct (convs_facts s r Api M) as [F E]. destruct (convs_of s r) as [|c0 cs] eqn:EV.
    { exists scols6. split; [|congruence]. rewrite build_src_unfold, E. cbn [map foldM rbind fst]. pose proof (src_sources s r Api M) as Z. rewrite EV in Z. rewrite Z.
      cbn. rewrite Nat.mul_0_r. reflexivity. }
    exists scols8. split; [|auto]. rewrite build_src_unfold. rewrite (src_start s r bcast junk Api M) by (rewrite EV; discriminate). rewrite EV. clear EV E.
    destruct Fit as [L|(xs & x & ys & Ex & L & L2 & L0)].
    - pose proof (src_all s r bcast junk Co (c0 :: cs) F L [] [] 0) as Y. rewrite !app_nil_r in Y. cbn [app List.length] in Y. rewrite Y. clear Y.
      cbn [rbind fst tb_cols tb_rows]. now rewrite divide_ones.
    - rewrite Ex in *. apply Forall_app in F as [F1 F2]. inversion F2 as [|? ? X F3]; subst.
      rewrite map_app, foldM_app. cbn [map foldM]. rewrite src_count_app, src_count_cons, L2, (src_count_none ys L0), Nat.add_0_r.
      rewrite Nat.mul_add_distr_l, seq_app, map_app. cbn [Nat.add].
      pose proof (src_all s r bcast junk Co xs F1 L [] (map (jr8s junk) (seq (h * n * src_count xs) (h * n * 2))) 0) as Y. cbn [app List.length Nat.add] in Y. rewrite Y. clear Y.
      cbn [rbind].
      assert (LX : List.length (flat_map (sblock0 s) xs) = h * n * src_count xs).
      { clear - F1. induction F1 as [|y l Y _ IH]; [cbn; lia|]. cbn [flat_map]. rewrite app_length, IH, (sblock0_length s r) by auto. rewrite src_count_cons. unfold nsrc. lia. }
      rewrite <- LX. rewrite src_body_two by auto. cbn [rbind]. rewrite src_none_all by auto. cbn [rbind fst tb_cols tb_rows].
      rewrite map_app, divide_ones, divide_two by auto. do 2 f_equal. rewrite flat_map_app. cbn [flat_map]. f_equal.
      replace (flat_map ublock ys) with (@nil trow); [now rewrite app_nil_r|]. clear - L0. induction L0 as [|y l Y _ IH]; auto. cbn [flat_map]. rewrite <- IH. unfold ublock. now rewrite Y.
  Qed.

  Lemma build_src_fails : ~ sources_fit (source_counts s) -> build_src_converter bcast junk s r = Err ValueError.
  Proof.
    intros NF. destruct (convs_facts s r Api M) as [F E]. rewrite fit_iff in NF.
    destruct (counts_cases (convs_of s r)) as [H|[H|(xs & x & ys & Ex & L & L2 & L3)]]; [exfalso; auto | exfalso; auto|].
    rewrite build_src_unfold. rewrite (src_start s r bcast junk Api M) by (rewrite Ex; now destruct xs).
    rewrite Ex in *. apply Forall_app in F as [F1 F2]. inversion F2 as [|? ? X F3]; subst.
    rewrite map_app, foldM_app. cbn [map foldM]. rewrite src_count_app, src_count_cons.
    rewrite Nat.mul_add_distr_l, seq_app, map_app. cbn [Nat.add].
    pose proof (src_all s r bcast junk Co xs F1 L [] (map (jr8s junk) (seq (h * n * src_count xs) (h * n * (nsrc x + src_count ys)))) 0) as Y. cbn [app List.length Nat.add] in Y. rewrite Y. clear Y.
    cbn [rbind].
    assert (LX : List.length (flat_map (sblock0 s) xs) = h * n * src_count xs).
    { clear - F1. induction F1 as [|y l Y _ IH]; [cbn; lia|]. cbn [flat_map]. rewrite app_length, IH, (sblock0_length s r) by auto. rewrite src_count_cons. unfold nsrc. lia. }
    rewrite (src_body_fails x _ _ (src_count ys)); auto. rewrite app_length, LX, map_length, seq_length. reflexivity.
  Qed.
End Converters.

Theorem C35_dest_table_exact bcast junk s r : api_study s -> mirrors s r -> complete s ->
  (List.length (st_converters s) <= list_sum (source_counts s) -> exists cols rows surplus,
     build_dest_converter bcast junk s r = Ok (Table cols (rows ++ surplus)) /\ faithful_dest s r rows /\
     List.length surplus = st_horizon s * st_nb_scn s * (list_sum (source_counts s) - List.length (st_converters s)) /\
     (forall x, In x surplus -> cell_of "scn" x = CNaN /\ cell_of "t" x = CNaN)) /\
  (refuses bcast s -> list_sum (source_counts s) < List.length (st_converters s) -> build_dest_converter bcast junk s r = Err ValueError).
Proof.
  intros A M Co. split.
  - intros L. destruct (build_dest_eq s r bcast junk A M Co L) as (cols & B & _). do 3 eexists. split; [exact B|]. split; [now apply faithful_dests|]. split.
    + rewrite map_length, seq_length. f_equal. change (count_sources s) with (list_sum (source_counts s)). f_equal.
      rewrite (proj2 (convs_facts s r A M)). now rewrite map_length.
    + intros x I. apply in_map_iff in I as (k & <- & _). split; reflexivity.
  - intros Rf L. now apply build_dest_fails.
Qed.

(** ** C35: the table of sources of every study *)
Lemma srcs_nth s r name v rv i net nd q a : conv_facts s r (name, v, rv) ->
  nth_error (srcs_of (name, v, rv)) i = Some (net, nd, q, a) <-> nth_error (v_src v) i = Some ((net, nd), q) /\ nth_error (ov_src rv) i = Some ((net, nd), a).
Proof.
  intros [_ _ (_ & _ & N3) _]. cbn [fst snd] in N3. unfold srcs_of. cbn [fst snd]. revert i.
  induction N3 as [|[k x] [k' y] l m [K _] _ IH]; intros i; cbn [combine map].
  - destruct i; cbn; split; intros H; try discriminate; destruct H; discriminate.
  - cbn [fst snd] in *. subst k'. destruct i as [|i]; cbn [nth_error]; [|apply IH]. destruct k. split.
    + intros H. injection H as -> -> -> ->. auto.
    + intros [H H']. injection H as -> -> ->. injection H' as ->. reflexivity.
Qed.
Lemma combine_seq_In {A} (l : list A) : forall b i x, In (i, x) (combine (seq b (List.length l)) l) <-> b <= i /\ nth_error l (i - b) = Some x.
Proof.
  induction l as [|a l IH]; intros b i x; cbn [List.length seq combine].
  - split; [intros [] | intros [_ H]; destruct (i - b); discriminate].
  - cbn [In]. rewrite IH. split.
    + intros [H|[L H]]; [injection H as <- <-; split; [lia | now rewrite Nat.sub_diag]|]. split; [lia|]. replace (i - b) with (S (i - S b)) by lia. exact H.
    + intros [L H]. destruct (Nat.eq_dec i b) as [->|Ne].
      * rewrite Nat.sub_diag in H. left. injection H as <-. reflexivity.
      * right. split; [lia|]. replace (i - b) with (S (i - S b)) in H by lia. exact H.
Qed.

Lemma ublock_In s r x y : conv_facts s r x -> In y (ublock s x) <-> exists i net nd q a scn t,
  nth_error (srcs_of x) i = Some (net, nd, q, a) /\ scn < st_nb_scn s /\ t < st_horizon s /\
  y = relabelled ((i * st_nb_scn s + scn) / nsrc x) (src_row (snd (fst x)) net nd q a scn t).
Proof.
  intros X. unfold ublock. rewrite <- (srcs_length s r x X), in_flat_map. split.
  - intros ([i [[[net nd] q] a]] & I & J). apply combine_seq_In in I as [_ I]. rewrite Nat.sub_0_r in I. apply grid_In in J as (scn & t & S & T & ->).
    exists i, net, nd, q, a, scn, t. repeat split; auto. unfold late_row. cbn [fst snd]. rewrite (srcs_length s r x X). reflexivity.
  - intros (i & net & nd & q & a & scn & t & N & S & T & ->). exists (i, (net, nd, q, a)). split; [apply combine_seq_In; rewrite Nat.sub_0_r; split; [lia | auto]|].
    apply grid_In. exists scn, t. repeat split; auto. unfold late_row. cbn [fst snd]. rewrite (srcs_length s r x X). reflexivity.
Qed.

(** One source of a converter: the [i]-th. *)
Definition source_at (s : study) (r : result) (name : string) (v : converter) (i : nat) (net nd : string) (q : numval) (a : ndarray) : Prop :=
  is_source s r name v net nd q a /\ nth_error (v_src v) i = Some ((net, nd), q).

Lemma source_at_srcs s r name v i net nd q a : api_study s -> mirrors s r ->
  source_at s r name v i net nd q a <-> exists rv, In (name, v, rv) (convs_of s r) /\ nth_error (srcs_of (name, v, rv)) i = Some (net, nd, q, a).
Proof.
  intros A M. destruct (api_facts s A) as (W & _). destruct (convs_facts s r A M) as [F _]. rewrite Forall_forall in F. split.
  - intros ((rv & V & R & Gq & Ga) & N). exists rv. pose proof (convs_In s r A M _ _ _ V R) as I. split; auto. pose proof (F _ I) as X. apply (srcs_nth s r); auto. split; auto.
    destruct X as [_ _ (_ & _ & N3) _]. cbn [fst snd] in N3.
    destruct (Forall2_get _ _ _ _ _ N3 N) as ([k o] & O & [K _]). cbn [fst snd] in K. subst k. rewrite O. do 2 f_equal.
    assert (ND : NoDup (dkeys (ov_src rv))).
    { replace (dkeys (ov_src rv)) with (dkeys (v_src v)); [apply (wf_once _ _ _ (wf_conv _ W _ _ V))|]. clear - N3. induction N3 as [|x y l m [H _] _ IH]; auto. simpl. now rewrite H, IH. }
    apply nth_error_In in O. pose proof (In_dget _ _ _ ND O) as Y. rewrite Y in Ga. now injection Ga.
  - intros (rv & I & N). pose proof (F _ I) as X. apply (srcs_nth s r) in N as [Nq Na]; auto. split; auto.
    destruct X as [V R (_ & _ & N3) _]. cbn [fst snd] in *. exists rv. split; auto. split; auto.
    assert (ND := wf_once _ _ _ (wf_conv _ W _ _ V)). split; (apply In_dget; [|eapply nth_error_In; eauto]); auto.
    replace (dkeys (ov_src rv)) with (dkeys (v_src v)); auto. clear - N3. induction N3 as [|x y l m [H _] _ IH]; auto. simpl. now rewrite H, IH.
Qed.

(** Exactly: the row of the [i]-th of [k] sources carries the scenario [(i * n + scn) / k]. *)
Theorem C35_src_table_exact bcast junk s r : api_study s -> mirrors s r -> complete s ->
  (sources_fit (source_counts s) -> exists cols rows, build_src_converter bcast junk s r = Ok (Table cols rows) /\
     List.length rows = st_horizon s * st_nb_scn s * list_sum (source_counts s) /\
     forall x, In x rows <-> exists name v i net nd q a scn t, source_at s r name v i net nd q a /\ scn < st_nb_scn s /\ t < st_horizon s /\
       x = relabelled ((i * st_nb_scn s + scn) / List.length (v_src v)) (src_row v net nd q a scn t)) /\
  (refuses bcast s -> ~ sources_fit (source_counts s) -> build_src_converter bcast junk s r = Err ValueError).
Proof.
  intros A M Co. destruct (convs_facts s r A M) as [F E]. split.
  - intros Fit. destruct (build_src_fits s r bcast junk A M Co Fit) as (cols & B & _). exists cols. eexists. split; [exact B|]. split.
    + change (list_sum (source_counts s)) with (count_sources s). rewrite (src_sources s r A M). clear - F. induction F as [|x l X _ IH]; [cbn; lia|].
      cbn [flat_map]. rewrite app_length, IH, src_count_cons. unfold ublock. rewrite <- (srcs_length s r x X). rewrite Nat.mul_add_distr_l. f_equal.
      generalize 0. induction (srcs_of x) as [|ka m IHm]; intros b; cbn [List.length seq combine flat_map]; [lia|]. rewrite app_length, IHm, grid_length. lia.
    + intros x. rewrite in_flat_map. rewrite Forall_forall in F. split.
      * intros ([[name v] rv] & I & J). apply (ublock_In s r) in J as (i & net & nd & q & a & scn & t & N & S & T & ->); auto.
        exists name, v, i, net, nd, q, a, scn, t. split; [apply source_at_srcs; eauto | auto].
      * intros (name & v & i & net & nd & q & a & scn & t & So & S & T & ->). apply source_at_srcs in So as (rv & I & N); auto.
        exists (name, v, rv). split; auto. apply (ublock_In s r); auto. exists i, net, nd, q, a, scn, t. auto.
  - intros Rf NF. now apply build_src_fails.
Qed.

Lemma ublock_same s r x : conv_facts s r x ->
  (forall i scn, i < nsrc x -> scn < st_nb_scn s -> (i * st_nb_scn s + scn) / nsrc x = scn) -> ublock s x = sblock s x.
Proof.
  intros X G. unfold ublock, sblock, late_row. fold (nsrc x). pose proof (srcs_length s r x X) as SL. replace (seq 0 (nsrc x)) with (seq 0 (List.length (srcs_of x))) by now rewrite SL.
  assert (G2 : forall i scn, 0 <= i < 0 + List.length (srcs_of x) -> scn < st_nb_scn s -> (i * st_nb_scn s + scn) / nsrc x = scn) by (intros i scn L; apply G; lia).
  clear G X SL. revert G2. generalize (nsrc x). generalize 0. induction (srcs_of x) as [|ka m IH]; intros b k G; auto. cbn [List.length seq combine flat_map fst snd] in *. f_equal.
  - apply grid_ext. intros scn t Ls Lt. rewrite G by lia. reflexivity.
  - apply IH. intros i scn Li Ls. apply G; lia.
Qed.

(** So the table is right exactly for one scenario or at most one source by converter. *)
Theorem C35_src_faithful_iff bcast junk s r cols rows : api_study s -> mirrors s r -> complete s -> sources_fit (source_counts s) ->
  build_src_converter bcast junk s r = Ok (Table cols rows) ->
  (faithful_src s r rows <-> st_nb_scn s = 1 \/ Forall (fun k => k <= 1) (source_counts s)).
Proof.
  intros A M Co Fit B. destruct (convs_facts s r A M) as [F E]. pose proof (api_facts s A) as (W & _ & Ph & Pn).
  destruct (build_src_fits s r bcast junk A M Co Fit) as (cols' & B' & _). rewrite B in B'. injection B' as _ ->. rewrite Forall_forall in F.
  assert (Ik : forall x, In x (convs_of s r) -> In (nsrc x) (source_counts s)). { intros x I. unfold source_counts. rewrite E, map_map. exact (in_map nsrc _ _ I). }
  split.
  - intros (H & _). destruct (le_lt_dec (st_nb_scn s) 1) as [L|L]; [left; lia|]. right. apply Forall_forall. intros k Ikk.
    destruct (le_lt_dec k 1) as [Lk|Lk]; auto. exfalso. unfold source_counts in Ikk. rewrite E, map_map in Ikk. apply in_map_iff in Ikk as (x & Ek & I).
    change (nsrc x = k) in Ek. pose proof (F _ I) as X.
    destruct (two_sources s r A Co x X) as (name & v & rv & mx & [n1 d1] & q1 & a1 & k2 & q2 & a2 & l & -> & _ & _ & Es & _ & _ & _ & _ & _ & _ & m & Sr); [lia|].
    assert (So : source_at s r name v 0 n1 d1 q1 a1). { apply source_at_srcs; auto. exists rv. split; auto. now rewrite Sr. }
    specialize (H name v n1 d1 q1 a1 (st_nb_scn s - 1) 0 (proj1 So) ltac:(lia) Ph). apply in_flat_map in H as (y & Iy & J).
    apply (ublock_In s r) in J as (i & net & nd & q & a & scn & t & N & S & T & Eq); auto. destruct y as [[name' v'] rv']. cbn [fst snd] in *.
    assert (So' : source_at s r name' v' i net nd q a) by (apply source_at_srcs; eauto).
    assert (K := f_equal (key_of ["network"; "node"; "name"; "scn"]) Eq). cbn in K. injection K as K1 K2 K3 K4. subst net nd.
    destruct So as ((rv1 & V1 & _) & N1). destruct So' as ((rv2 & V2 & _) & N2).
    assert (v' = v). { pose proof (wf_vname _ _ _ (wf_conv _ W _ _ V1)). pose proof (wf_vname _ _ _ (wf_conv _ W _ _ V2)). congruence. } subst v'.
    assert (i = 0). { pose proof (wf_once _ _ _ (wf_conv _ W _ _ V1)) as ND. unfold dkeys in ND.
      apply (proj1 (NoDup_nth_error _) ND); [apply nth_error_Some; rewrite nth_error_map, N2; discriminate|]. rewrite !nth_error_map, N1, N2. reflexivity. }
    subst i. unfold nsrc in *. cbn [fst snd] in *.
    assert (Q : (0 * st_nb_scn s + scn) / List.length (v_src v) < st_nb_scn s - 1).
    { apply Nat.div_lt_upper_bound; [lia|]. nia. }
    apply Nat2Z.inj in K4. lia.
  - intros H. replace (flat_map (ublock s) (convs_of s r)) with (flat_map (sblock s) (convs_of s r)); [now apply faithful_sources|].
    symmetry. apply flat_map_ext_in. intros x I. apply (ublock_same s r); auto. intros i scn Li Ls.
    destruct H as [H|H].
    + assert (scn = 0) by lia. subst scn. rewrite Nat.add_0_r, H, Nat.mul_1_r. now apply Nat.div_small.
    + rewrite Forall_forall in H. specialize (H _ (Ik _ I)). assert (i = 0) by lia. assert (E1 : nsrc x = 1) by lia. subst i. rewrite E1. cbn [Nat.mul Nat.add]. apply Nat.div_1_r.
Qed.

(** ** C67: which studies can be analysed *)
Lemma foldM_step {A S} (f : S -> A -> res S) l : forall s s' a, foldM f l s = Ok s' -> In a l -> exists s1 s2, f s1 a = Ok s2.
Proof.
  induction l as [|b l IH]; intros s s' a H I; [destruct I|]. cbn [foldM] in H. destruct (f s b) as [s1|] eqn:E; [|discriminate]. cbn [rbind] in H.
  destruct I as [->|I]; eauto.
Qed.
Lemma In_combine_seq {A} (a : A) l : forall b, In a l -> exists i, In (i, a) (combine (seq b (List.length l)) l).
Proof. induction l as [|x l IH]; intros b I; [destruct I|]. cbn [List.length seq combine]. destruct I as [->|I]; [exists b; simpl; auto|]. destruct (IH (S b) I) as (i & J). exists i. simpl. auto. Qed.
Lemma dest_complete bcast junk s r tb : api_study s -> build_dest_converter bcast junk s r = Ok tb -> complete s.
Proof.
  intros A B name v V. unfold build_dest_converter in B. apply dget_In in V.
  destruct (In_combine_seq _ _ 0 V) as (i & I). destruct (foldM_step _ _ _ _ _ B I) as (s1 & s2 & H). cbn [fst snd] in H.
  destruct (loc_sets _ _ _ s1 _) as [t1|]; [|discriminate]. cbn [rbind] in H. destruct (v_cost v) as [co|]; [|discriminate]. cbn [oflatten rbind] in H.
  destruct (loc_sets _ _ _ t1 _) as [t2|]; [|discriminate]. cbn [rbind] in H. destruct (v_max v) as [mx|]; [|discriminate]. split; discriminate.
Qed.

Theorem C67_analyzer_exists_iff bcast junk s r : api_study s -> mirrors s r -> refuses bcast s ->
  ((exists an, new_analyzer bcast junk s r = Ok an) <->
   (forall name v, conv_at s name = Some v -> v_cost v <> None /\ v_max v <> None) /\
   sources_fit (source_counts s) /\ List.length (st_converters s) <= list_sum (source_counts s)).
Proof.
  intros A M Rf. unfold new_analyzer. destruct (api_facts s A) as (W & _). split.
  - intros (an & N).
    destruct (build_consumption bcast junk s r) as [x1|]; [|discriminate]. cbn [rbind] in N.
    destruct (build_production bcast junk s r) as [x2|]; [|discriminate]. cbn [rbind] in N.
    destruct (build_storage bcast junk s r) as [x3|]; [|discriminate]. cbn [rbind] in N.
    destruct (build_link bcast junk s r) as [x4|]; [|discriminate]. cbn [rbind] in N.
    destruct (build_src_converter bcast junk s r) as [v|] eqn:Bs; [|discriminate]. cbn [rbind] in N.
    destruct (build_dest_converter bcast junk s r) as [d|] eqn:Bd; [|discriminate]. clear N.
    pose proof (dest_complete bcast junk s r d A Bd) as Co. split; [exact Co|]. split.
    + destruct (counts_cases (convs_of s r)) as [H|[H|H]]; [apply (fit_iff s r A M); auto | apply (fit_iff s r A M); auto|]. exfalso.
      assert (NF : ~ sources_fit (source_counts s)); [|rewrite (proj2 (C35_src_table_exact bcast junk s r A M Co) Rf NF) in Bs; discriminate].
      intros Fit. destruct H as (xs & x & ys & Ex & H1 & H2 & H3).
      assert (Cnt : source_counts s = map nsrc (convs_of s r)). { unfold source_counts. rewrite (proj2 (convs_facts s r A M)) at 1. rewrite map_map. reflexivity. }
      rewrite Cnt, Ex, map_app in Fit. cbn [map] in Fit.
      destruct (Fit _ _ _ eq_refl) as [L|[L Z]]; [lia|]. assert (src_count ys = 0); [|lia]. apply src_count_none. apply Forall_forall. intros y I.
      rewrite Forall_forall in Z. symmetry. apply Z. now apply in_map.
    + destruct (le_lt_dec (List.length (st_converters s)) (list_sum (source_counts s))) as [L|L]; auto.
      rewrite (proj2 (C35_dest_table_exact bcast junk s r A M Co) Rf L) in Bd. discriminate.
  - intros (Co & Fit & Le). rewrite (build_consumption_eq s r bcast junk A M), (build_production_eq s r bcast junk A M), (build_link_eq s r bcast junk A M). cbn [rbind].
    destruct (build_src_fits s r bcast junk A M Co Fit) as (cs & -> & _). destruct (proj1 (C35_dest_table_exact bcast junk s r A M Co) Le) as (cd & rd & sd & -> & _).
    assert (St : exists t, build_storage bcast junk s r = Ok t).
    { destruct (storage_count s) as [|k] eqn:K.
      - destruct (C34_storage_table_partial bcast junk s r A M) as (c & rw & B & _); [lia | eauto].
      - destruct (C34_storage_table_exact bcast junk s r A M) as (net & nd & e & o & su & _ & _ & B & _); [lia | eauto]. }
    destruct St as (st & ->). cbn [rbind]. eauto.
Qed.

Lemma well_read_analysable bcast junk s r an : api_study s -> mirrors s r -> well_read bcast s -> new_analyzer bcast junk s r = Ok an -> analysable s.
Proof. intros A M [Rf|H] N; auto. apply (C67_analyzer_exists_iff bcast junk s r A M Rf). eauto. Qed.

(** ** Examples *)
Example C34_exact_example : api_study twin /\ mirrors twin twin_result /\ storage_count twin = 2 /\
  exists x y, build_storage false (fun j c k => CNum (inject_Z (Z.of_nat k))) twin twin_result = Ok (Table storage_columns [x; y]) /\
    cell_of "name" x = CStr "right" /\ cell_of "name" y = CNum 1 /\ cell_of "t" y = CNum 1.
Proof.
  split; [apply twin_api|]. split; [apply (solved_facts _ _ _ twin_api twin_plain twin_solved)|]. split; [reflexivity|]. do 2 eexists. split; [vm_compute; reflexivity|]. repeat split; vm_compute; reflexivity.
Qed.

(** Two sources and one scenario. *)
Definition duet_calls : list call :=
  [ OnStudy_network "gas"; OnSel 0 (MNode "g"); OnSel 1 (MToConverter "plant" (jn 1));
    OnSel 2 (MNode "h"); OnSel 3 (MToConverter "plant" (jn 2));
    OnSel 4 (MNetwork "elec"); OnSel 5 (MNode "a"); OnSel 6 (MConverter "plant" "elec" "a" (jn 9) (jn 4)) ].
Definition duet : study := Eval vm_compute in w_study (run (start 2 1 None) duet_calls).
Lemma duet_api : api_study duet.
Proof. exists 2, 1, None, duet_calls. split; [lia|]. split; [lia|]. split; [plain_tac | vm_compute; reflexivity]. Qed.
Definition duet_result : result := Eval vm_compute in
  match solve_lp zero_answer [0] no_bench duet with Ok r => r | Err _ => Result [] [] no_bench end.
Lemma duet_solved : solved zero_answer duet duet_result.
Proof. exists [0], no_bench. split; [apply Permutation_refl | vm_compute; reflexivity]. Qed.
Lemma duet_mirrors : mirrors duet duet_result.
Proof. apply (C27_result_mirrors_study_any_names zero_answer duet duet_result duet_api duet_solved). Qed.

Lemma fit_two l : Forall (fun k => k <= 1) l -> sources_fit (l ++ [2]).
Proof.
  intros F before k after E. destruct after as [|b after _] using rev_ind.
  - apply app_inj_tail in E as [_ <-]. auto.
  - left. change (k :: after ++ [b]) with ((k :: after) ++ [b]) in E. rewrite app_assoc in E. apply app_inj_tail in E as [-> _].
    apply Forall_app in F as [_ F]. now inversion F.
Qed.
Example C35_exact_example : api_study duet /\ mirrors duet duet_result /\ complete duet /\ refuses true duet /\
  source_counts duet = [2] /\ sources_fit (source_counts duet) /\
  (exists cols rows, build_src_converter true no_junk duet duet_result = Ok (Table cols rows) /\ List.length rows = 4 /\ faithful_src duet duet_result rows) /\
  (exists cols rows, build_dest_converter true no_junk duet duet_result = Ok (Table cols rows) /\ List.length rows = 4) /\
  (exists an, new_analyzer true no_junk duet duet_result = Ok an).
Proof.
  assert (Co : complete duet) by (apply complete_usable, usableb_ok; vm_compute; reflexivity).
  assert (Fit : sources_fit (source_counts duet)) by exact (fit_two [] ltac:(constructor)).
  split; [apply duet_api|]. split; [apply duet_mirrors|]. split; auto. split; [right; vm_compute; lia|]. split; [reflexivity|]. split; auto.
  split; [|split].
  - destruct (build_src_converter true no_junk duet duet_result) as [[cols rows]|] eqn:B; [|vm_compute in B; discriminate].
    exists cols, rows. split; auto. split; [vm_compute in B; injection B as <- <-; reflexivity|].
    apply (C35_src_faithful_iff true no_junk duet duet_result cols rows duet_api duet_mirrors Co Fit B). left. reflexivity.
  - do 2 eexists. split; vm_compute; reflexivity.
  - eexists. vm_compute. reflexivity.
Qed.
(** Two storages, a converter with one source and another with two, two scenarios. *)
Definition band_calls : list call :=
  [ OnStudy_network "elec";
    OnSel 0 (MNode "a");
    OnSel 1 (MStorage "cell" (jn 6) (jn 4) (jn 4) (jn 1) 2%Q (PJson (JNum (1 # 2))));
    OnSel 2 (MNode "b");
    OnSel 3 (MConsumption "load" (jn 1000) (jm [[10; 20]; [5; 7]]%Z));
    OnSel 4 (MStorage "pile" (jn 10) (jn 5) (jn 5) (jn 1) 4%Q (PJson (JNum 1)));
    OnSel 5 (MNetwork "gas");
    OnSel 6 (MNode "g");
    OnSel 7 (MProduction "well" (jn 10) (jn 30));
    OnSel 8 (MToConverter "plant" (PJson (JNum (1 # 2))));
    OnSel 9 (MNode "h");
    OnSel 10 (MProduction "bore" (jn 5) (jn 30));
    OnSel 11 (MToConverter "mixer" (PJson (JNum 1)));
    OnSel 12 (MNode "i");
    OnSel 13 (MProduction "pump" (jn 5) (jn 30));
    OnSel 14 (MToConverter "mixer" (PJson (JNum 1)));
    OnSel 15 (MConverter "plant" "elec" "b" (jn 9) (jn 4));
    OnSel 16 (MConverter "mixer" "elec" "a" (jn 9) (jn 4)) ].
Definition band : study := Eval vm_compute in w_study (run (start 2 2 None) band_calls).
Lemma band_api : api_study band.
Proof. exists 2, 2, None, band_calls. split; [lia|]. split; [lia|]. split; [plain_tac | vm_compute; reflexivity]. Qed.
Definition band_x (scn : nat) (v : var) : Q :=
  match v, scn with
  | VDest "mixer" 0, 0 | VSrc "mixer" _ _ 0, 0 | VProd _ "h" _ 0, 0 | VProd _ "i" _ 0, 0 | VIn _ "a" _ 0, 0 => 2%Q
  | VCap _ "a" _ _, 0 => 3%Q
  | VCap _ "a" _ _, _ => 2%Q
  | VDest "plant" 0, 0 => 5%Q
  | VDest "plant" 0, _ | VDest "plant" 1, 0 => 9%Q
  | VDest "plant" 1, _ => 2%Q
  | VSrc "plant" _ _ 0, 0 | VProd _ "g" _ 0, 0 => 10%Q
  | VSrc "plant" _ _ 0, _ | VProd _ "g" _ 0, _ | VSrc "plant" _ _ 1, 0 | VProd _ "g" _ 1, 0 => 18%Q
  | VSrc "plant" _ _ 1, _ | VProd _ "g" _ 1, _ => 4%Q
  | VOut _ "b" _ _, 0 => 2%Q
  | VOut _ "b" _ 1, _ => 5%Q
  | VIn _ "b" _ 0, S _ => 4%Q
  | VCap _ "b" _ 0, 0 => 2%Q
  | VCap _ "b" _ 0, _ => 8%Q
  | VCap _ "b" _ 1, S _ => 3%Q
  | VLol _ _ _ 0, 0 => 3%Q
  | VLol _ _ _ 1, 0 => 9%Q
  | _, _ => 0%Q
  end.
Definition band_answer (scn : nat) (_ : solver) : var -> Q := band_x scn.
Lemma band_feasible scn : scn < 2 -> feasible_answer band_answer band scn.
Proof. intros S. unfold feasible_answer. apply satb_ok. destruct scn as [|[|]]; try lia; vm_compute; reflexivity. Qed.
Definition band_result : result := Eval vm_compute in
  match solve_lp band_answer [1; 0] no_bench band with Ok r => r | Err _ => Result [] [] no_bench end.
Lemma band_solved : solved band_answer band band_result.
Proof. exists [1; 0], no_bench. split; [apply perm_swap | vm_compute; reflexivity]. Qed.
Lemma band_mirrors : mirrors band band_result.
Proof. apply (C27_result_mirrors_study_any_names band_answer band band_result band_api band_solved). Qed.
Lemma band_refuses : refuses true band. Proof. right. vm_compute. lia. Qed.
Lemma band_unwritten : unwritten no_junk band. Proof. right. intros k net _. discriminate. Qed.
Lemma band_last : exists x o, is_element n_stors on_stors band band_result "elec" "b" x o /\ s_name x = "pile" /\ s_init x = 4%Q /\
  last_element n_stors band "elec" "b" x /\ (forall nn, node_at band "elec" "b" = Some nn -> n_stors nn = [x]).
Proof.
  do 2 eexists. split; [do 2 eexists; exists 0; split; [reflexivity|]; split; [reflexivity|]; split; reflexivity|]. split; [reflexivity|]. split; [reflexivity|]. split.
  - exists []. do 2 eexists. eexists [_]. do 2 eexists. exists []. split; [reflexivity|]. split; [reflexivity|]. split; [reflexivity|]. split.
    + intros k m d y [E|[]] I. injection E as <- <-. simpl in I. repeat (destruct I as [I|I]; [injection I as <- <-; reflexivity|]). destruct I.
    + intros d y [].
  - intros nn N. injection N as <-. reflexivity.
Qed.
Lemma band_first : exists x o, is_element n_stors on_stors band band_result "elec" "a" x o /\ s_name x = "cell" /\ ~ last_element n_stors band "elec" "a" x.
Proof.
  do 2 eexists. split; [do 2 eexists; exists 0; split; [reflexivity|]; split; [reflexivity|]; split; reflexivity|]. split; [reflexivity|].
  intros La. destruct band_last as (y & _ & _ & _ & _ & La' & _). destruct (last_element_unique n_stors band _ _ _ _ _ _ La La') as (_ & H & _). discriminate.
Qed.

(** The other cases: two sources and two scenarios, three sources, no source. *)
Example C35_exact_bad_example :
  sources_fit (source_counts blend) /\ st_nb_scn blend = 2 /\
  (exists cols x1 x2 x3 x4, build_src_converter true no_junk blend blend_result = Ok (Table cols [x1; x2; x3; x4]) /\
     map (key_of ["node"; "scn"]) [x1; x2; x3; x4] = [[CStr "g"; CInt 0]; [CStr "g"; CInt 0]; [CStr "h"; CInt 1]; [CStr "h"; CInt 1]]) /\
  ~ sources_fit (source_counts triple) /\ refuses true triple /\
  list_sum (source_counts idle) < List.length (st_converters idle) /\ refuses true idle.
Proof.
  split; [exact (fit_two [] ltac:(constructor))|]. split; [reflexivity|]. split; [do 5 eexists; split; vm_compute; reflexivity|].
  split. { intros H. specialize (H [] 3 [] eq_refl). destruct H as [H|[H _]]; lia. }
  split; [right; vm_compute; lia|]. split; [vm_compute; lia|]. right. vm_compute. lia.
Qed.
Example C67_example : (exists an, new_analyzer true no_junk mix mix_result = Ok an) /\ refuses true mix /\ source_counts mix = [1].
Proof. split; [eexists; vm_compute; reflexivity|]. split; [right; vm_compute; lia | reflexivity]. Qed.

Print Assumptions C34_storage_table_exact.
Print Assumptions C35_dest_table_exact.
Print Assumptions C35_src_table_exact.
Print Assumptions C35_src_faithful_iff.
Print Assumptions C67_analyzer_exists_iff.
