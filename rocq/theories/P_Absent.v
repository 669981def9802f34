(** C85: views of what a study does not have. *)
From Coq Require Import String Ascii List ZArith QArith Bool Arith Lia Lqa Permutation Sorted.
From Verif Require Import Base BaseFacts Numeric Study Fluent Output LP SpecStudy SpecLP StudyFacts LPFacts LPResult LPReady P_LP
  Analyzer SpecAnalyzer AnalyzerFacts P_Tables P_Exact QueryFacts P_Query P_Reuse SumFacts SpecTotals P_Totals P_Cost Viewer ViewFacts SpecViewer P_Viewer.
Import ListNotations.
Open Scope nat_scope.
Open Scope string_scope.
Open Scope list_scope.

(** ** Specification *)

(** The names of the loads, of the productions and the ends of the links of a node. *)
Definition names_of (el : axis) (n : node) : list string :=
  match el with
  | ACons => map c_name (n_cons n)
  | AProd => map p_name (n_prods n)
  | ALink => map l_dest (n_links n)
  | _ => []
  end.
Definition has_element (s : study) (el : axis) (net nd name : string) : Prop :=
  exists n, node_at s net nd = Some n /\ In name (names_of el n).
Definition inside (m : nat) (z : Z) : Prop := (0 <= z < Z.of_nat m)%Z.
(** Positions an array of [m] accepts, from its end for negative ones. *)
Definition reaches (m : nat) (z : Z) : Prop := (- Z.of_nat m <= z < Z.of_nat m)%Z.

(** ** Lemmas *)
Section Absent.
  Variables (s : study) (r : result) (bcast : bool) (junk : nat -> string -> nat -> cell) (an : analyzer).
  Hypotheses (Api : api_study s) (M : mirrors s r) (New : new_analyzer bcast junk s r = Ok an).
  Local Notation h := (st_horizon s).
  Local Notation n := (st_nb_scn s).
  Let W : study_wf s := proj1 (api_facts s Api).

  (** Every row of a table is of an element, a scenario and a time of the study. *)
  Lemma rows_inside el tb rw : In el [ACons; AProd; ALink] -> table_of an el = Some tb -> In rw (tb_rows tb) ->
    exists net nd name scn t, has_element s el net nd name /\ scn < n /\ t < h /\
      key_of ["network"; "node"; axis_column el; "scn"; "t"] rw = [CStr net; CStr nd; CStr name; CInt (Z.of_nat scn); CInt (Z.of_nat t)].
  Proof.
    intros K T I.
    destruct K as [<-|[<-|[<-|[]]]].
    - pose proof (shelf_cons s r bcast junk an Api M New) as Sh. rewrite (sh_table _ _ _ _ _ _ _ _ _ _ _ Sh) in T. injection T as <-. cbn [tb_rows] in I.
      rewrite app_nil_r in I. apply blocks_In in I as (y & scn & t & Iy & L1 & L2 & ->). destruct y as [[[net nd] c] o].
      apply (is_element_In n_cons on_cons s r W M) in Iy. destruct Iy as (nn & rn & i & N & _ & C & _).
      exists net, nd, (c_name c), scn, t. split; [| split; [exact L1 | split; [exact L2 | apply (sh_keys _ _ _ _ _ _ _ _ _ _ _ Sh)]]].
      exists nn. split; [exact N |]. cbn. apply in_map. eapply nth_error_In; eauto.
    - pose proof (shelf_prod s r bcast junk an Api M New) as Sh. rewrite (sh_table _ _ _ _ _ _ _ _ _ _ _ Sh) in T. injection T as <-. cbn [tb_rows] in I.
      rewrite app_nil_r in I. apply blocks_In in I as (y & scn & t & Iy & L1 & L2 & ->). destruct y as [[[net nd] c] o].
      apply (is_element_In n_prods on_prods s r W M) in Iy. destruct Iy as (nn & rn & i & N & _ & C & _).
      exists net, nd, (p_name c), scn, t. split; [| split; [exact L1 | split; [exact L2 | apply (sh_keys _ _ _ _ _ _ _ _ _ _ _ Sh)]]].
      exists nn. split; [exact N |]. cbn. apply in_map. eapply nth_error_In; eauto.
    - pose proof (shelf_link s r bcast junk an Api M New) as Sh. rewrite (sh_table _ _ _ _ _ _ _ _ _ _ _ Sh) in T. injection T as <-. cbn [tb_rows] in I.
      rewrite app_nil_r in I. apply blocks_In in I as (y & scn & t & Iy & L1 & L2 & ->). destruct y as [[[net nd] c] o].
      apply (is_element_In n_links on_links s r W M) in Iy. destruct Iy as (nn & rn & i & N & _ & C & _).
      exists net, nd, (l_dest c), scn, t. split; [| split; [exact L1 | split; [exact L2 | apply (sh_keys _ _ _ _ _ _ _ _ _ _ _ Sh)]]].
      exists nn. split; [exact N |]. cbn. apply in_map. eapply nth_error_In; eauto.
  Qed.

  Definition scn_time (a b : axis) : Prop := a = AScn /\ b = ATime \/ a = ATime /\ b = AScn.
  (** A query that no row matches is answered by a frame without lines. *)
  Lemma absent_fetch el net nd name a b ia ib ja jb : In el [ACons; AProd; ALink] -> scn_time a b ->
    new_index a ia = Ok ja -> new_index b ib = Ok jb -> ix_axis ja = a -> ix_axis jb = b ->
    (forall rw tb, table_of an el = Some tb -> In rw (tb_rows tb) -> cell_of "network" rw = CStr net -> cell_of "node" rw = CStr nd -> cell_of (axis_column el) rw = CStr name ->
       ix_keeps ja rw = true -> ix_keeps jb rw = true -> False) ->
    fetch an (str net) [(ANode, str nd); (el, str name); (a, ia); (b, ib)] = Ok (Frame ["network"; "node"; axis_column el; axis_column a; axis_column b] []).
  Proof.
    intros K Ab Na Nb Ea Eb NR. destruct (analyzer_tables s r bcast junk an Api M New) as (_ & _ & Tc & Tp & Tl & _).
    assert (K' : is_kind el) by (destruct K as [<-|[<-|[<-|[]]]]; unfold is_kind; cbn; tauto).
    set (ixs := [Index ANetwork false [CStr net]; Index ANode false [CStr nd]; Index el false [CStr name]; ja; jb]).
    apply (fetch_eq an el _ _ ixs); [exact K' | destruct Ab as [[-> ->]|[-> ->]]; [apply whole_series | apply whole_series'] | |].
    - unfold indexes_of. cbn [mapM fst snd]. rewrite Na, Nb. unfold ixs. destruct K as [<-|[<-|[<-|[]]]]; reflexivity.
    - assert (P : forall tb, table_of an el = Some tb -> incl ["network"; "node"; axis_column el; "scn"; "t"] (tb_cols tb) ->
        pivot ixs tb = Ok (Frame ["network"; "node"; axis_column el; axis_column a; axis_column b] [])).
      { intros tb T C. unfold pivot. replace (filter _ (tb_rows tb)) with (@nil trow).
        2:{ symmetry. apply filter_none. intros rw I. destruct (forallb (fun i => ix_keeps i rw) ixs) eqn:F; auto. exfalso. rewrite forallb_forall in F.
            pose proof (F _ (or_introl eq_refl)) as H1. pose proof (F _ (or_intror (or_introl eq_refl))) as H2. pose proof (F _ (or_intror (or_intror (or_introl eq_refl)))) as H3.
            unfold ix_keeps in H1, H2, H3. cbn [ix_all ix_index] in H1, H2, H3. apply mem_In in H1 as [H1|[]]. apply mem_In in H2 as [H2|[]]. apply mem_In in H3 as [H3|[]].
            apply (NR rw tb T I); [now symmetry | now symmetry | now symmetry | apply F; unfold ixs; simpl; tauto | apply F; unfold ixs; simpl; tauto]. }
        assert (G : forallb (fun i => mem (ix_column i) (tb_cols tb)) ixs = true).
        { apply forallb_forall. intros i I. apply mem_In, C. unfold ixs in I. cbn [In] in I. unfold ix_column.
          destruct I as [<-|[<-|[<-|[<-|[<-|[]]]]]]; cbn [ix_axis]; rewrite ?Ea, ?Eb; destruct Ab as [[-> ->]|[-> ->]]; cbn; tauto. }
        rewrite G. unfold ixs. cbn [map]. unfold ix_column. rewrite Ea, Eb. reflexivity. }
      assert (E : an_filter an ixs = match table_of an el with Some tb => let* f := pivot ixs tb in Ok (Some f) | None => Ok None end).
      { unfold an_filter, check_index, ixs. cbn [existsb ix_axis]. rewrite Ea, Eb.
        destruct Ab as [[-> ->]|[-> ->]]; destruct K as [<-|[<-|[<-|[]]]]; reflexivity. }
      rewrite E. destruct K as [<-|[<-|[<-|[]]]]; cbn [table_of] in *; rewrite (P _ eq_refl); try reflexivity; rewrite ?Tc, ?Tp, ?Tl; intros c I; cbn in *; tauto.
  Qed.

  Lemma int_index a z : new_index a (int z) = Ok (Index a false [CInt z]). Proof. reflexivity. Qed.
  Lemma all_index a : new_index a INone = Ok (Index a true []). Proof. reflexivity. Qed.

  Section Of.
    Variables (el : axis) (net nd name : string).
    Hypothesis K : In el [ACons; AProd; ALink].
    Lemma absent_t z : ~ has_element s el net nd name \/ ~ inside h z ->
      fetch an (str net) [(ANode, str nd); (el, str name); (ATime, int z); (AScn, INone)] = Ok (Frame ["network"; "node"; axis_column el; "t"; "scn"] []).
    Proof.
      intros A. apply (absent_fetch el net nd name ATime AScn (int z) INone _ _ K (or_intror (conj eq_refl eq_refl)) (int_index _ _) (all_index _) eq_refl eq_refl).
      intros rw tb T I E1 E2 E3 B _. destruct (rows_inside el tb rw K T I) as (net' & nd' & name' & scn & t & H & L1 & L2 & Ky).
      unfold key_of in Ky. cbn [map] in Ky. injection Ky as Y1 Y2 Y3 _ Y5. rewrite E1 in Y1. rewrite E2 in Y2. rewrite E3 in Y3. injection Y1 as <-. injection Y2 as <-. injection Y3 as <-.
      destruct A as [A|A]; [exact (A H) |]. unfold ix_keeps in B. cbn [ix_all ix_index] in B. apply mem_In in B as [B|[]]. unfold ix_column in B. cbn in B. rewrite Y5 in B.
      injection B as ->. apply A. unfold inside. lia.
    Qed.
    Lemma absent_scn z : ~ has_element s el net nd name \/ ~ inside n z ->
      fetch an (str net) [(ANode, str nd); (el, str name); (AScn, int z); (ATime, INone)] = Ok (Frame ["network"; "node"; axis_column el; "scn"; "t"] []).
    Proof.
      intros A. apply (absent_fetch el net nd name AScn ATime (int z) INone _ _ K (or_introl (conj eq_refl eq_refl)) (int_index _ _) (all_index _) eq_refl eq_refl).
      intros rw tb T I E1 E2 E3 B _. destruct (rows_inside el tb rw K T I) as (net' & nd' & name' & scn & t & H & L1 & L2 & Ky).
      unfold key_of in Ky. cbn [map] in Ky. injection Ky as Y1 Y2 Y3 Y4 _. rewrite E1 in Y1. rewrite E2 in Y2. rewrite E3 in Y3. injection Y1 as <-. injection Y2 as <-. injection Y3 as <-.
      destruct A as [A|A]; [exact (A H) |]. unfold ix_keeps in B. cbn [ix_all ix_index] in B. apply mem_In in B as [B|[]]. unfold ix_column in B. cbn in B. rewrite Y4 in B.
      injection B as ->. apply A. unfold inside. lia.
    Qed.
    Lemma absent_all : ~ has_element s el net nd name ->
      fetch an (str net) [(ANode, str nd); (el, str name); (AScn, INone); (ATime, INone)] = Ok (Frame ["network"; "node"; axis_column el; "scn"; "t"] []).
    Proof.
      intros A. apply (absent_fetch el net nd name AScn ATime INone INone _ _ K (or_introl (conj eq_refl eq_refl)) (all_index _) (all_index _) eq_refl eq_refl).
      intros rw tb T I E1 E2 E3 _ _. destruct (rows_inside el tb rw K T I) as (net' & nd' & name' & scn & t & H & L1 & L2 & Ky).
      unfold key_of in Ky. cbn [map] in Ky. injection Ky as Y1 Y2 Y3 _ _. rewrite E1 in Y1. rewrite E2 in Y2. rewrite E3 in Y3. injection Y1 as <-. injection Y2 as <-. injection Y3 as <-.
      exact (A H).
    Qed.
  End Of.
End Absent.

Lemma pyindex_out m z : ~ reaches m z -> pyindex m z = None.
Proof.
  unfold reaches, pyindex. intros H. destruct (Z.leb_spec 0 z), (Z.ltb_spec z (Z.of_nat m)); cbn [andb]; try lia;
    destruct (Z.leb_spec (- Z.of_nat m) z), (Z.ltb_spec z 0); cbn [andb]; try lia; reflexivity.
Qed.
Lemma pyindex_in m z : reaches m z -> exists k, k < m /\ pyindex m z = Some k.
Proof.
  unfold reaches, pyindex. intros H. destruct (Z.leb_spec 0 z), (Z.ltb_spec z (Z.of_nat m)); cbn [andb]; try lia;
    destruct (Z.leb_spec (- Z.of_nat m) z), (Z.ltb_spec z 0); cbn [andb]; try lia; eexists; (split; [| reflexivity]); lia.
Qed.

(** ** C85 *)

(** The columns the views of each kind can draw. *)
Definition drawable (el : axis) : list string :=
  match el with ACons => ["asked"; "given"] | AProd | ALink => ["avail"; "used"] | _ => [] end.

(** No point at all is drawn for an unknown element, time or scenario. *)
Theorem C85_monotone bcast junk s r an : api_study s -> mirrors s r -> new_analyzer bcast junk s r = Ok an ->
  forall el net nd name col z, In el [ACons; AProd; ALink] -> In col (drawable el) ->
  (~ has_element s el net nd name \/ ~ inside (st_horizon s) z -> monotone an net nd el name col (Some z) None = Ok []) /\
  (~ has_element s el net nd name \/ ~ inside (st_nb_scn s) z -> monotone an net nd el name col None (Some z) = Ok []).
Proof.
  intros A M N el net nd name col z K _. split; intros H; unfold monotone.
  - rewrite (absent_t s r bcast junk an A M N el net nd name K z H). reflexivity.
  - rewrite (absent_scn s r bcast junk an A M N el net nd name K z H). reflexivity.
Qed.

(** The other views raise: a position the array of remaining capacities does not have, or a
    mean over nothing; a curve for none of the scenarios. *)
Theorem C85_gaussian bcast junk s r an : api_study s -> mirrors s r -> new_analyzer bcast junk s r = Ok an ->
  forall el net nd name col z, In el [ACons; AProd; ALink] -> In col (drawable el) ->
  (~ has_element s el net nd name \/ ~ inside (st_horizon s) z ->
     (reaches (st_horizon s) z -> gaussian an net nd el name col (Some z) None = Err ValueError) /\
     (~ reaches (st_horizon s) z -> gaussian an net nd el name col (Some z) None = Err IndexError)) /\
  (~ has_element s el net nd name \/ ~ inside (st_nb_scn s) z ->
     (reaches (st_nb_scn s) z -> gaussian an net nd el name col None (Some z) = Err ValueError) /\
     (~ reaches (st_nb_scn s) z -> gaussian an net nd el name col None (Some z) = Err IndexError)).
Proof.
  intros A M N el net nd name col z K _. destruct (remaining_of s r bcast junk an A M N net) as (g & R & _). split; intros H; split; intros B; unfold gaussian, opt.
  - rewrite (absent_t s r bcast junk an A M N el net nd name K z H). cbn [rbind column mapM fr_rows]. rewrite R. cbn [rbind].
    destruct (pyindex_in _ _ B) as (k & L & E). unfold nd_col, garr. cbn [shape data]. rewrite E, (mapM_all _ (fun i => g i k)); [reflexivity |].
    intros i I. apply in_seq in I. unfold lnth. now rewrite nth_error_grid by lia.
  - rewrite (absent_t s r bcast junk an A M N el net nd name K z H). cbn [rbind column mapM fr_rows]. rewrite R. cbn [rbind].
    unfold nd_col, garr. cbn [shape data]. now rewrite (pyindex_out _ _ B).
  - rewrite (absent_scn s r bcast junk an A M N el net nd name K z H). cbn [rbind column mapM fr_rows]. rewrite R. cbn [rbind].
    destruct (pyindex_in _ _ B) as (k & L & E). unfold nd_row, garr. cbn [shape data]. rewrite E. reflexivity.
  - rewrite (absent_scn s r bcast junk an A M N el net nd name K z H). cbn [rbind column mapM fr_rows]. rewrite R. cbn [rbind].
    unfold nd_row, garr. cbn [shape data]. now rewrite (pyindex_out _ _ B).
Qed.
Theorem C85_timeline bcast junk s r an : api_study s -> mirrors s r -> new_analyzer bcast junk s r = Ok an ->
  forall el net nd name col, In el [ACons; AProd; ALink] -> In col (drawable el) ->
  ~ has_element s el net nd name -> timeline an net nd el name col = Err ZeroDivisionError.
Proof.
  intros A M N el net nd name col K _ H. unfold timeline. rewrite (absent_all s r bcast junk an A M N el net nd name K H).
  cbn [rbind column mapM fr_rows]. destruct K as [<-|[<-|[<-|[]]]]; reflexivity.
Qed.

(** A study with times 0 and 1: time 2, time -1, and a load it does not have. *)
Example C85_example : api_study mix /\ mirrors mix mix_result /\ new_analyzer true no_junk mix mix_result = Ok mix_an /\ st_horizon mix = 2 /\
  has_element mix ACons "elec" "a" "load" /\ ~ has_element mix ACons "elec" "a" "lamp" /\
  ~ inside 2 2 /\ ~ reaches 2 2 /\ ~ inside 2 (-1) /\ reaches 2 (-1) /\
  (exists q, monotone mix_an "elec" "a" ACons "load" "asked" (Some 1%Z) None = Ok q /\ q <> []) /\
  monotone mix_an "elec" "a" ACons "load" "asked" (Some 2%Z) None = Ok [] /\
  gaussian mix_an "elec" "a" ACons "load" "asked" (Some 2%Z) None = Err IndexError /\
  gaussian mix_an "elec" "a" ACons "load" "asked" (Some (-1)%Z) None = Err ValueError /\
  timeline mix_an "elec" "a" ACons "lamp" "asked" = Err ZeroDivisionError.
Proof.
  split; [apply mix_api |]. split; [apply mix_mirrors |]. split; [apply mix_an_new |]. split; [reflexivity |].
  split. { eexists. split; [vm_compute; reflexivity | vm_compute; tauto]. }
  split. { intros (n & N & I). vm_compute in N. injection N as <-. vm_compute in I. repeat (destruct I as [I|I]; [discriminate I |]). exact I. }
  unfold inside, reaches. split; [lia |]. split; [lia |]. split; [lia |]. split; [lia |].
  split. { eexists. split; [vm_compute; reflexivity | discriminate]. }
  repeat split; vm_compute; reflexivity.
Qed.

Print Assumptions C85_monotone.
Print Assumptions C85_gaussian.
Print Assumptions C85_timeline.
