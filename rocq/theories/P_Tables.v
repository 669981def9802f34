(** Properties C33-C35: the flat tables of the analyzer. *)
From Coq Require Import String List ZArith QArith Bool Arith Lia Lqa Permutation.
From Verif Require Import Base BaseFacts Numeric Study Fluent SpecStudy StudyFacts Output Json SpecJson JsonFacts P_Json
  LP SpecLP LPFacts LPBuild LPSat LPResult LPSolve LPReady LPMore P_LP Analyzer SpecAnalyzer AnalyzerFacts.
Import ListNotations.
Open Scope nat_scope.
Open Scope string_scope.
Open Scope list_scope.

(** ** Keys *)
Lemma NoDup_grid {A} n h (f : nat -> nat -> A) (p q : A -> nat) :
  (forall a b, a < n -> b < h -> p (f a b) = a /\ q (f a b) = b) -> NoDup (grid n h f).
Proof.
  intros H. unfold grid. apply (NoDup_flat_map_by _ p (fun a => a)).
  - rewrite map_id. apply seq_NoDup.
  - intros a I. apply in_seq in I. apply NoDup_nth_error. rewrite map_length, seq_length. intros i j Li E.
    rewrite !nth_error_map in E. rewrite (nth_error_seq0 h i) in E by lia.
    destruct (nth_error (seq 0 h) j) as [k|] eqn:Ej; [|discriminate]. simpl in E.
    assert (Lj : j < h) by (rewrite <- (seq_length h 0); apply nth_error_Some; congruence).
    rewrite nth_error_seq0 in Ej by lia. injection Ej as <-. injection E as E.
    destruct (H a i) as [_ A1]; [lia|lia|]. destruct (H a j) as [_ A2]; [lia|lia|]. rewrite E in A1. lia.
  - intros a y I J. apply in_seq in I. apply in_map_iff in J as (b & <- & J). apply in_seq in J. apply H; lia.
Qed.

Definition cell_nat (c : cell) : nat := match c with CInt z => Z.to_nat z | _ => 0 end.
Definition id3 (k : list cell) : list cell := firstn 3 k.

Lemma NoDup_blocks {A} (l : list A) (key : A -> list cell) n h :
  NoDup (map key l) -> (forall x, In x l -> List.length (key x) = 3) ->
  NoDup (flat_map (fun x => grid n h (fun scn t => key x ++ [CInt (Z.of_nat scn); CInt (Z.of_nat t)])) l).
Proof.
  intros ND L. apply (NoDup_flat_map_by _ id3 key); auto.
  - intros x I. specialize (L x I). destruct (key x) as [|a [|b [|c [|]]]]; try discriminate.
    apply (NoDup_grid _ _ _ (fun k => cell_nat (nth 3 k CNaN)) (fun k => cell_nat (nth 4 k CNaN))).
    intros i j _ _. cbn [app nth cell_nat]. now rewrite !Nat2Z.id.
  - intros x y I J. specialize (L x I). apply grid_In in J as (scn & t & _ & _ & ->). destruct (key x) as [|a [|b [|c [|]]]]; try discriminate. reflexivity.
Qed.

Lemma map_flat_map {A B C} (g : B -> C) (f : A -> list B) l : map g (flat_map f l) = flat_map (fun x => map g (f x)) l.
Proof. induction l; simpl; auto. now rewrite map_app, IHl. Qed.
Lemma flat_map_ext_in {A B} (f g : A -> list B) l : (forall x, In x l -> f x = g x) -> flat_map f l = flat_map g l.
Proof. induction l; simpl; auto. intros H. rewrite H, IHl; auto. Qed.

Section Faithful.
  Context {E F : Type} (gets : node -> list E) (getr : onode -> list F) (name : E -> string) (element : string)
    (row : string -> string -> E -> F -> nat -> nat -> trow) (s : study) (r : result).
  Hypotheses (Api : api_study s) (M : mirrors s r)
    (N : forall net nd n, node_at s net nd = Some n -> NoDup (map name (gets n)))
    (R : forall net nd e o scn t, key_of ["network"; "node"; element; "scn"; "t"] (row net nd e o scn t) =
       [CStr net; CStr nd; CStr (name e)] ++ [CInt (Z.of_nat scn); CInt (Z.of_nat t)]).
  Let W : study_wf s := proj1 (api_facts s Api).

  Lemma NoDup_ids : NoDup (map (fun e : string * string * E * F => [CStr (fst (fst (fst e))); CStr (snd (fst (fst e))); CStr (name (snd (fst e)))])
    (elements gets getr s r)).
  Proof.
    unfold elements. rewrite map_flat_map. pose proof (mr_nodes _ _ M) as MN.
    apply (NoDup_flat_map_by _ (fun k => nth 0 k CNaN) (fun kk => CStr (fst (fst kk)))).
    - assert (X : map (fun kk : (string * network) * (string * onetwork) => CStr (fst (fst kk))) (combine (st_networks s) (r_networks r)) =
                  map CStr (dkeys (st_networks s))).
      { clear - MN. induction MN as [|a b l m _ _ IH]; auto. simpl. now rewrite IH. }
      rewrite X. apply FinFun.Injective_map_NoDup; [congruence | apply W].
    - intros [[net ns] [net' rns]] I. cbn [fst snd].
      pose proof (Forall2_combine _ _ _ _ _ MN I) as [_ F2]. cbn [fst snd] in F2.
      assert (G : dget net (st_networks s) = Some ns) by (apply In_dget; [apply W | eapply in_combine_l; eauto]).
      assert (NDn : NoDup (dkeys ns)) by (eapply wf_nodes; eauto).
      rewrite map_flat_map. apply (NoDup_flat_map_by _ (fun k => nth 1 k CNaN) (fun dd => CStr (fst (fst dd)))).
      + assert (X : map (fun dd : (string * node) * (string * onode) => CStr (fst (fst dd))) (combine ns rns) = map CStr (dkeys ns)).
        { clear - F2. induction F2 as [|a b l m _ _ IH]; auto. simpl. now rewrite IH. }
        rewrite X. apply FinFun.Injective_map_NoDup; [congruence | exact NDn].
      + intros [[nd n] [nd' rn]] J. cbn [fst snd]. pose proof (in_combine_l _ _ _ _ J) as J1.
        assert (Hn : node_at s net nd = Some n) by (unfold node_at; rewrite G; now apply In_dget).
        specialize (N _ _ _ Hn). rewrite map_map. cbn [fst snd]. revert N. generalize (getr rn) (gets n). clear.
        intros m l. revert m. induction l as [|e l IH]; intros [|o m] N; try constructor.
        * inversion N as [|? ? NI N']; subst. intros I. apply NI. apply in_map_iff in I as ([e' o'] & X & I). injection X as X. cbn [fst] in X.
          rewrite <- X. apply in_map. eapply in_combine_l; eauto.
        * apply IH. now inversion N.
      + intros [[nd n] [nd' rn]] y J K. cbn [fst snd] in *. rewrite map_map in K. apply in_map_iff in K as (eo & <- & _). reflexivity.
    - intros [[net ns] [net' rns]] y I J. cbn [fst snd] in *. apply in_map_iff in J as (k & <- & J). apply in_flat_map in J as (dd & _ & J).
      apply in_map_iff in J as (eo & <- & _). reflexivity.
  Qed.

  Lemma faithful_blocks (L : forall n rn, node_like s n rn -> List.length (gets n) = List.length (getr rn)) :
    faithful gets getr element row s r (flat_map (block s row) (elements gets getr s r)).
  Proof.
    split; [|split].
    - intros net nd e o scn t I S T. apply (is_element_In _ _ _ _ W M) in I. apply in_flat_map. exists (net, nd, e, o). split; auto.
      unfold block. cbn [fst snd]. apply grid_In. eauto.
    - intros x I. apply in_flat_map in I as ([[[net nd] e] o] & I & J). unfold block in J. cbn [fst snd] in J. apply grid_In in J as (scn & t & S & T & ->).
      apply (is_element_In _ _ _ _ W M) in I. exists net, nd, e, o, scn, t. auto.
    - rewrite map_flat_map. erewrite flat_map_ext_in.
      2:{ intros e _. unfold block. rewrite map_grid. apply grid_ext. intros scn t _ _. apply R. }
      apply (NoDup_blocks _ (fun e : string * string * E * F => [CStr (fst (fst (fst e))); CStr (snd (fst (fst e))); CStr (name (snd (fst e)))])).
      + apply NoDup_ids.
      + reflexivity.
  Qed.
End Faithful.

(** ** C33 *)
Theorem C33_tables_faithful bcast junk s r : api_study s -> mirrors s r ->
  (exists cols rows, build_consumption bcast junk s r = Ok (Table cols rows) /\ faithful n_cons on_cons "name" cons_row s r rows) /\
  (exists cols rows, build_production bcast junk s r = Ok (Table cols rows) /\ faithful n_prods on_prods "name" prod_row s r rows) /\
  (exists cols rows, build_link bcast junk s r = Ok (Table cols rows) /\ faithful n_links on_links "dest" link_row s r rows).
Proof.
  intros A M. destruct (api_facts s A) as (W & _). split; [|split].
  - do 2 eexists. split; [apply (build_consumption_eq s r bcast junk A M)|].
    apply (faithful_blocks n_cons on_cons c_name); auto.
    + intros net nd n H. eapply wf_cons, wf_node; eauto.
    + apply like_cons.
  - do 2 eexists. split; [apply (build_production_eq s r bcast junk A M)|].
    apply (faithful_blocks n_prods on_prods p_name); auto.
    + intros net nd n H. eapply wf_prods, wf_node; eauto.
    + apply like_prods.
  - do 2 eexists. split; [apply (build_link_eq s r bcast junk A M)|].
    apply (faithful_blocks n_links on_links l_dest); auto.
    + intros net nd n H. eapply wf_links, wf_node; eauto.
    + apply like_links.
Qed.

(** ** C34 *)
Theorem C34_storage_table_partial bcast junk s r : api_study s -> mirrors s r -> storage_count s <= 1 ->
  exists cols rows, build_storage bcast junk s r = Ok (Table cols rows) /\ faithful n_stors on_stors "name" stor_row s r rows.
Proof.
  intros A M L. destruct (api_facts s A) as (W & _). do 2 eexists. split; [apply (build_storage_eq s r bcast junk A M)|].
  - unfold stors_of. rewrite <- (count_elements_eq n_stors on_stors s r M); auto. apply like_stors.
  - apply (faithful_blocks n_stors on_stors s_name); auto.
    + intros net nd n H. eapply wf_stors, wf_node; eauto.
    + apply like_stors.
Qed.

(** ** C35 *)
Lemma complete_usable s : usable_converters s -> complete s.
Proof. intros U name v V. destruct (U name v V) as (A & B & _). auto. Qed.

Lemma convs_ids s r : api_study s -> mirrors s r ->
  NoDup (map (fun x : string * converter * oconverter => v_name (snd (fst x))) (convs_of s r)).
Proof.
  intros A M. destruct (api_facts s A) as (W & _). destruct (convs_facts s r A M) as [F E].
  replace (map _ (convs_of s r)) with (dkeys (st_converters s)); [apply W|].
  rewrite E. unfold dkeys. rewrite map_map. apply map_ext_in. intros x I. rewrite Forall_forall in F. destruct (F x I) as [V _ _ _].
  symmetry. eapply wf_vname, (wf_conv _ W); eauto.
Qed.

Lemma list_sum_ge {A} (f : A -> nat) l : (forall x, In x l -> 1 <= f x) -> List.length l <= list_sum (map f l).
Proof. induction l as [|a l IH]; cbn [map list_sum fold_right List.length]; intros H; [lia|]. specialize (IH (fun x I => H x (or_intror I))). specialize (H a (or_introl eq_refl)). unfold list_sum in IH. lia. Qed.
Lemma list_sum_one {A} (f : A -> nat) l : (forall x, In x l -> f x = 1) -> list_sum (map f l) = List.length l.
Proof. induction l as [|a l IH]; cbn [map list_sum fold_right List.length]; intros H; auto. specialize (IH (fun x I => H x (or_intror I))). rewrite (H a (or_introl eq_refl)). unfold list_sum in IH. lia. Qed.

(** Destination side: the rows of all the converters. *)
Lemma faithful_dests s r : api_study s -> mirrors s r -> faithful_dest s r (flat_map (dblock s) (convs_of s r)).
Proof.
  intros A M. destruct (convs_facts s r A M) as [F E]. split; [|split].
  - intros name v rv scn t V R S T. apply in_flat_map. exists (name, v, rv). split; [now apply convs_In|]. unfold dblock. cbn [fst snd]. apply grid_In. eauto.
  - intros x I. apply in_flat_map in I as ([[name v] rv] & I & J). rewrite Forall_forall in F. destruct (F _ I) as [V R _ _]. cbn [fst snd] in *.
    unfold dblock in J. apply grid_In in J as (scn & t & S & T & ->). exists name, v, rv, scn, t. auto.
  - rewrite map_flat_map. erewrite flat_map_ext_in.
    2:{ intros e _. unfold dblock. rewrite map_grid. reflexivity. }
    apply (NoDup_blocks _ (fun x : string * converter * oconverter => [CStr (v_dnet (snd (fst x))); CStr (v_dnode (snd (fst x))); CStr (v_name (snd (fst x)))])).
    + pose proof (convs_ids s r A M) as ND. rewrite <- (map_map (fun x => [CStr (v_dnet (snd (fst x))); CStr (v_dnode (snd (fst x))); CStr (v_name (snd (fst x)))]) (fun x => x)), map_id.
      apply (NoDup_map_inv (fun k => nth 2 k CNaN)). rewrite map_map. cbn [nth].
      rewrite <- (map_map (fun x : string * converter * oconverter => v_name (snd (fst x))) CStr). apply FinFun.Injective_map_NoDup; [congruence | auto].
    + reflexivity.
Qed.

(** Destination side: the rows are there; when some converter has several sources, surplus rows
    without scenario and time follow. *)
Theorem C35_dest_table_partial bcast junk s r : api_study s -> mirrors s r -> complete s ->
  (forall name v, conv_at s name = Some v -> v_src v <> []) ->
  exists cols rows surplus, build_dest_converter bcast junk s r = Ok (Table cols (rows ++ surplus)) /\ faithful_dest s r rows /\
    (forall x, In x surplus -> cell_of "scn" x = CNaN /\ cell_of "t" x = CNaN) /\
    ((forall name v, conv_at s name = Some v -> List.length (v_src v) = 1) -> surplus = []).
Proof.
  intros A M Co NE. destruct (api_facts s A) as (W & _). destruct (convs_facts s r A M) as [F E].
  assert (INC : forall kv, In kv (st_converters s) -> conv_at s (fst kv) = Some (snd kv)).
  { intros [k v] I. apply In_dget; auto. apply W. }
  destruct (build_dest_eq s r bcast junk A M Co) as (cols & B & _).
  { unfold count_sources. apply list_sum_ge. intros kv I. specialize (NE _ _ (INC _ I)). destruct (v_src (snd kv)); [congruence | simpl; lia]. }
  exists cols, (flat_map (dblock s) (convs_of s r)). eexists. split; [exact B|]. split; [|split].
  - now apply faithful_dests.
  - intros x I. apply in_map_iff in I as (k & <- & _). split; reflexivity.
  - intros One. replace (count_sources s) with (List.length (convs_of s r)); [now rewrite Nat.sub_diag, Nat.mul_0_r|].
    unfold count_sources. rewrite list_sum_one; [rewrite E; now rewrite map_length|]. intros kv I. apply (One _ _ (INC _ I)).
Qed.

(** Source side: the rows of all the sources. *)
Lemma faithful_sources s r : api_study s -> mirrors s r -> faithful_src s r (flat_map (sblock s) (convs_of s r)).
Proof.
  intros A M. destruct (api_facts s A) as (W & _). destruct (convs_facts s r A M) as [F E].
  assert (IS : forall name v rv net nd q a, In (name, v, rv) (convs_of s r) -> In (net, nd, q, a) (srcs_of (name, v, rv)) ->
     is_source s r name v net nd q a).
  { intros name v rv net nd q a I J. rewrite Forall_forall in F. destruct (F _ I) as [V R (_ & _ & F2) _]. cbn [fst snd] in *.
    pose proof (wf_once _ _ _ (wf_conv _ W _ _ V)) as ND.
    assert (KE : dkeys (ov_src rv) = dkeys (v_src v)). { clear - F2. induction F2 as [|a b l m [H _] _ IH]; auto. simpl. now rewrite H, IH. }
    unfold srcs_of in J. cbn [fst snd] in J. apply in_map_iff in J as ([[k q'] [k' a']] & X & J). cbn [fst snd] in X. injection X as -> -> ->.
    pose proof (Forall2_combine _ _ _ _ _ F2 J) as [K _]. cbn [fst] in K. subst k'.
    exists rv. split; auto. split; auto. split; (apply In_dget; [rewrite ?KE; auto|]).
    - eapply in_combine_l; eauto.
    - eapply in_combine_r; eauto. }
  split; [|split].
  - intros name v net nd q a scn t (rv & V & R & Gq & Ga) S T. pose proof (convs_In s r A M _ _ _ V R) as I.
    apply in_flat_map. exists (name, v, rv). split; auto. unfold sblock. cbn [fst snd]. apply in_flat_map. exists (net, nd, q, a).
    split; [|cbn [fst snd]; apply grid_In; eauto].
    rewrite Forall_forall in F. destruct (F _ I) as [_ _ (_ & _ & F2) _]. cbn [fst snd] in *. unfold srcs_of. cbn [fst snd].
    apply in_map_iff. exists (((net, nd), q), ((net, nd), a)). split; auto.
    clear - F2 Gq Ga. revert Gq Ga. induction F2 as [|[k x] [k' y] l m [K _] _ IH]; cbn [dget combine]; [discriminate|].
    cbn [fst snd] in *. subst k'. destruct (eqb (net, nd) k) eqn:Ek.
    + apply eqb_eq in Ek. subst. intros G G'. injection G as ->. injection G' as ->. left. reflexivity.
    + intros G G'. right. auto.
  - intros x I. apply in_flat_map in I as ([[name v] rv] & I & J). unfold sblock in J. apply in_flat_map in J as ([[[net nd] q] a] & J & K).
    cbn [fst snd] in K. apply grid_In in K as (scn & t & S & T & ->). exists name, v, net, nd, q, a, scn, t. split; auto. eapply IS; eauto.
  - rewrite map_flat_map. erewrite flat_map_ext_in.
    2:{ intros x _. unfold sblock. rewrite map_flat_map. apply flat_map_ext_in. intros ka _. rewrite map_grid. reflexivity. }
    assert (EQ : flat_map (fun x : string * converter * oconverter => flat_map (fun ka : string * string * numval * ndarray =>
          grid (st_nb_scn s) (st_horizon s) (fun scn t => key_of ["network"; "node"; "name"; "scn"; "t"]
            (src_row (snd (fst x)) (fst (fst (fst ka))) (snd (fst (fst ka))) (snd (fst ka)) (snd ka) scn t))) (srcs_of x)) (convs_of s r) =
      flat_map (fun k => grid (st_nb_scn s) (st_horizon s) (fun scn t => (fun k => k) k ++ [CInt (Z.of_nat scn); CInt (Z.of_nat t)]))
        (flat_map (fun x : string * converter * oconverter => map (fun ka : string * string * numval * ndarray =>
            [CStr (fst (fst (fst ka))); CStr (snd (fst (fst ka))); CStr (v_name (snd (fst x)))]) (srcs_of x)) (convs_of s r))).
    { clear. induction (convs_of s r) as [|x l IH]; auto. cbn [flat_map]. rewrite flat_map_app, <- IH. f_equal.
      induction (srcs_of x) as [|ka m IHm]; auto. cbn [map flat_map]. rewrite <- IHm. reflexivity. }
    rewrite EQ. apply NoDup_blocks.
    + rewrite map_id. apply (NoDup_flat_map_by _ (fun k => nth 2 k CNaN) (fun x : string * converter * oconverter => CStr (v_name (snd (fst x))))).
      * rewrite <- (map_map (fun x : string * converter * oconverter => v_name (snd (fst x))) CStr).
        apply FinFun.Injective_map_NoDup; [congruence | now apply convs_ids].
      * intros [[name v] rv] I. rewrite Forall_forall in F. destruct (F _ I) as [V _ (_ & _ & F2) _]. cbn [fst snd] in *.
        pose proof (wf_once _ _ _ (wf_conv _ W _ _ V)) as ND. unfold srcs_of. cbn [fst snd].
        rewrite map_map. cbn [fst snd]. apply (NoDup_map_inv (fun k => (nth 0 k CNaN, nth 1 k CNaN))). rewrite map_map. cbn [nth].
        rewrite <- (map_map (fun ko : (string * string * numval) * (string * string * ndarray) => fst (fst ko)) (fun k => (CStr (fst k), CStr (snd k)))).
        apply FinFun.Injective_map_NoDup; [intros [a b] [c d]; cbn; congruence|].
        replace (map _ (combine _ _)) with (dkeys (v_src v)); auto.
        clear - F2. unfold dkeys. induction F2; cbn [combine map]; auto. now rewrite IHF2.
      * intros x y I J. apply in_map_iff in J as (ka & <- & _). reflexivity.
    + intros k I. apply in_flat_map in I as (x & _ & J). apply in_map_iff in J as (ka & <- & _). reflexivity.
Qed.

(** Converters with at most one source. *)
Theorem C35_src_table_partial bcast junk s r : api_study s -> mirrors s r -> complete s ->
  (forall name v, conv_at s name = Some v -> List.length (v_src v) <= 1) ->
  exists cols rows, build_src_converter bcast junk s r = Ok (Table cols rows) /\ faithful_src s r rows.
Proof.
  intros A M Co One. destruct (build_src_eq s r bcast junk A M Co One) as (cols & B & _).
  do 2 eexists. split; [exact B|]. now apply faithful_sources.
Qed.

(** ** Examples and counterexamples *)
Lemma mix_mirrors : mirrors mix mix_result.
Proof. destruct (solved_facts _ _ _ mix_api mix_plain mix_solved) as (_ & M & _). exact M. Qed.
Definition no_junk (j : nat) (c : string) (k : nat) : cell := CNaN.

Example C33_example : api_study mix /\ mirrors mix mix_result /\
  exists tb, build_link true no_junk mix mix_result = Ok tb /\ List.length (tb_rows tb) = 8 /\
    In [("cost", CNum 2); ("avail", CNum 8); ("used", CNum 8); ("node", CStr "b"); ("dest", CStr "a"); ("network", CStr "elec");
        ("t", CInt 0); ("scn", CInt 0)] (tb_rows tb).
Proof.
  split; [apply mix_api|]. split; [apply mix_mirrors|]. eexists. split; [vm_compute; reflexivity|]. split; [reflexivity|].
  cbn [tb_rows]. simpl. tauto.
Qed.
Example C34_example : api_study mix /\ mirrors mix mix_result /\ storage_count mix = 1 /\
  exists tb, build_storage false no_junk mix mix_result = Ok tb /\ List.length (tb_rows tb) = 4.
Proof.
  split; [apply mix_api|]. split; [apply mix_mirrors|]. split; [reflexivity|]. eexists. split; [vm_compute; reflexivity|]. reflexivity.
Qed.
Lemma mix_complete : complete mix. Proof. apply complete_usable, mix_usable. Qed.
Example C35_example : api_study mix /\ mirrors mix mix_result /\ complete mix /\
  (forall name v, conv_at mix name = Some v -> List.length (v_src v) = 1) /\
  exists tb, build_dest_converter true no_junk mix mix_result = Ok tb /\ List.length (tb_rows tb) = 4 /\
    In [("name", CStr "plant"); ("network", CStr "elec"); ("node", CStr "a"); ("flow", CNum 9); ("cost", CNum 4); ("max", CNum 9);
        ("t", CInt 1); ("scn", CInt 0)] (tb_rows tb).
Proof.
  split; [apply mix_api|]. split; [apply mix_mirrors|]. split; [apply mix_complete|]. split.
  - intros name v V. apply conv_at_all in V. simpl in V. destruct V as [V|[]]. injection V as <- <-. reflexivity.
  - eexists. split; [vm_compute; reflexivity|]. split; [reflexivity|]. cbn [tb_rows]. simpl.
    tauto.
Qed.

(** Two storages in a study. *)
Definition zero_answer (scn : nat) (_ : solver) (_ : var) : Q := 0%Q.
Definition twin_calls : list call :=
  [ OnStudy_network "elec"; OnSel 0 (MNode "a");
    OnSel 1 (MStorage "left" (jn 6) (jn 4) (jn 4) (jn 1) 0%Q (jn 1));
    OnSel 2 (MStorage "right" (jn 7) (jn 4) (jn 4) (jn 1) 0%Q (jn 1)) ].
Definition twin : study := Eval vm_compute in w_study (run (start 1 1 None) twin_calls).
Lemma twin_api : api_study twin.
Proof. exists 1, 1, None, twin_calls. split; [lia|]. split; [lia|]. split; [plain_tac | vm_compute; reflexivity]. Qed.
Definition twin_result : result := Eval vm_compute in
  match solve_lp zero_answer [0] no_bench twin with Ok r => r | Err _ => Result [] [] no_bench end.
Lemma twin_solved : solved zero_answer twin twin_result.
Proof. exists [0], no_bench. split; [apply Permutation_refl | vm_compute; reflexivity]. Qed.
Lemma twin_plain : plain_sources twin. Proof. apply plainb_ok. vm_compute. reflexivity. Qed.

(** The table does not hold the first storage. *)
Theorem C34_storage_table_refuted : exists s r, api_study s /\ solved zero_answer s r /\ mirrors s r /\
  forall bcast, exists junk, ~ exists cols rows, build_storage bcast junk s r = Ok (Table cols rows) /\
    faithful n_stors on_stors "name" stor_row s r rows.
Proof.
  exists twin, twin_result. split; [apply twin_api|]. split; [apply twin_solved|].
  split; [destruct (solved_facts _ _ _ twin_api twin_plain twin_solved) as (_ & M & _); exact M|].
  intros bcast. exists no_junk. intros (cols & rows & B & F & _ & _).
  assert (exists e o, is_element n_stors on_stors twin twin_result "elec" "a" e o /\ s_name e = "left") as (e & o & I & N).
  { do 2 eexists. split; [do 2 eexists; exists 0; split; [vm_compute; reflexivity|]; split; [vm_compute; reflexivity|]; split; reflexivity|]. reflexivity. }
  specialize (F _ _ _ _ 0 0 I ltac:(vm_compute; lia) ltac:(vm_compute; lia)).
  assert (E : build_storage bcast no_junk twin twin_result = build_storage true no_junk twin twin_result) by (destruct bcast; vm_compute; reflexivity).
  rewrite E in B. vm_compute in B. injection B as <- <-.
  apply (in_map (cell_of "name")) in F. change (cell_of "name" _) with (CStr (s_name e)) in F. rewrite N in F.
  vm_compute in F. destruct F as [F|[F|[]]]; discriminate F.
Qed.

(** A converter with two sources, two scenarios. *)
Definition blend_calls : list call :=
  [ OnStudy_network "gas"; OnSel 0 (MNode "g"); OnSel 1 (MToConverter "plant" (jn 1));
    OnSel 2 (MNode "h"); OnSel 3 (MToConverter "plant" (jn 2));
    OnSel 4 (MNetwork "elec"); OnSel 5 (MNode "a"); OnSel 6 (MConverter "plant" "elec" "a" (jn 9) (jn 4)) ].
Definition blend : study := Eval vm_compute in w_study (run (start 1 2 None) blend_calls).
Lemma blend_api : api_study blend.
Proof. exists 1, 2, None, blend_calls. split; [lia|]. split; [lia|]. split; [plain_tac | vm_compute; reflexivity]. Qed.
Lemma blend_usable : usable_converters blend. Proof. apply usableb_ok. vm_compute. reflexivity. Qed.
Lemma blend_plain : plain_sources blend. Proof. apply plainb_ok. vm_compute. reflexivity. Qed.
Definition blend_result : result := Eval vm_compute in
  match solve_lp zero_answer [0; 1] no_bench blend with Ok r => r | Err _ => Result [] [] no_bench end.
Lemma blend_solved : solved zero_answer blend blend_result.
Proof. exists [0; 1], no_bench. split; [apply Permutation_refl | vm_compute; reflexivity]. Qed.
Lemma blend_mirrors : mirrors blend blend_result.
Proof. destruct (solved_facts _ _ _ blend_api blend_plain blend_solved) as (_ & M & _). exact M. Qed.

(** Surplus rows on the destination side, wrong scenarios on the source side. *)
Theorem C35_tables_refuted : exists s r, api_study s /\ usable_converters s /\ solved zero_answer s r /\ mirrors s r /\
  forall bcast junk,
    ~ (exists cols rows, build_dest_converter bcast junk s r = Ok (Table cols rows) /\ faithful_dest s r rows) /\
    ~ (exists cols rows, build_src_converter bcast junk s r = Ok (Table cols rows) /\ faithful_src s r rows).
Proof.
  exists blend, blend_result. split; [apply blend_api|]. split; [apply blend_usable|]. split; [apply blend_solved|]. split; [apply blend_mirrors|].
  intros bcast junk. split.
  - intros (cols & rows & B & _ & F & _).
    assert (exists x, In x rows /\ cell_of "scn" x = CNaN) as (x & Ix & Hs).
    { clear - B. destruct bcast; vm_compute in B; injection B as <- <-; (eexists; split; [right; right; right; left; reflexivity | reflexivity]). }
    destruct (F x Ix) as (name & v & rv & scn & t & _ & _ & _ & _ & ->). discriminate Hs.
  - intros (cols & rows & B & F & _ & _).
    assert (exists v q a, is_source blend blend_result "plant" v "gas" "g" q a) as (v & q & a & I).
    { do 3 eexists. eexists. split; [vm_compute; reflexivity|]. split; [vm_compute; reflexivity|]. split; reflexivity. }
    specialize (F _ _ _ _ _ _ 1 0 I ltac:(vm_compute; lia) ltac:(vm_compute; lia)).
    apply (in_map (key_of ["node"; "scn"])) in F. change (key_of ["node"; "scn"] _) with [CStr "g"; CInt 1] in F.
    destruct bcast; vm_compute in B; injection B as <- <-; vm_compute in F; repeat (destruct F as [F|F]; [discriminate F|]); destruct F.
Qed.

(** Three sources: no table at all. *)
Definition triple_calls : list call :=
  [ OnStudy_network "gas"; OnSel 0 (MNode "g"); OnSel 1 (MToConverter "plant" (jn 1));
    OnSel 2 (MNode "h"); OnSel 3 (MToConverter "plant" (jn 2)); OnSel 4 (MNode "i"); OnSel 5 (MToConverter "plant" (jn 2));
    OnSel 6 (MNetwork "elec"); OnSel 7 (MNode "a"); OnSel 8 (MConverter "plant" "elec" "a" (jn 9) (jn 4)) ].
Definition triple : study := Eval vm_compute in w_study (run (start 2 1 None) triple_calls).
Lemma triple_api : api_study triple.
Proof. exists 2, 1, None, triple_calls. split; [lia|]. split; [lia|]. split; [plain_tac | vm_compute; reflexivity]. Qed.
Definition triple_result : result := Eval vm_compute in
  match solve_lp zero_answer [0] no_bench triple with Ok r => r | Err _ => Result [] [] no_bench end.
Lemma triple_solved : solved zero_answer triple triple_result.
Proof. exists [0], no_bench. split; [apply Permutation_refl | vm_compute; reflexivity]. Qed.

Theorem C35_three_sources_refuted : exists s r, api_study s /\ usable_converters s /\ solved zero_answer s r /\
  forall bcast junk, new_analyzer bcast junk s r = Err ValueError.
Proof.
  exists triple, triple_result. split; [apply triple_api|]. split; [apply usableb_ok; vm_compute; reflexivity|]. split; [apply triple_solved|].
  intros bcast junk. destruct bcast; vm_compute; reflexivity.
Qed.

(** A converter without source: no table either. *)
Definition idle_calls : list call :=
  [ OnStudy_network "elec"; OnSel 0 (MNode "a"); OnSel 1 (MConverter "plant" "elec" "a" (jn 9) (jn 4)) ].
Definition idle : study := Eval vm_compute in w_study (run (start 2 1 None) idle_calls).
Lemma idle_api : api_study idle.
Proof. exists 2, 1, None, idle_calls. split; [lia|]. split; [lia|]. split; [plain_tac | vm_compute; reflexivity]. Qed.
Definition idle_result : result := Eval vm_compute in
  match solve_lp zero_answer [0] no_bench idle with Ok r => r | Err _ => Result [] [] no_bench end.
Lemma idle_solved : solved zero_answer idle idle_result.
Proof. exists [0], no_bench. split; [apply Permutation_refl | vm_compute; reflexivity]. Qed.
Theorem C35_no_source_refuted : exists s r, api_study s /\ usable_converters s /\ solved zero_answer s r /\
  forall bcast junk, new_analyzer bcast junk s r = Err ValueError.
Proof.
  exists idle, idle_result. split; [apply idle_api|]. split; [apply usableb_ok; vm_compute; reflexivity|]. split; [apply idle_solved|].
  intros bcast junk. destruct bcast; vm_compute; reflexivity.
Qed.

Print Assumptions C33_tables_faithful.
Print Assumptions C34_storage_table_partial.
Print Assumptions C34_storage_table_refuted.
Print Assumptions C35_dest_table_partial.
Print Assumptions C35_src_table_partial.
Print Assumptions C35_tables_refuted.
Print Assumptions C35_three_sources_refuted.
Print Assumptions C35_no_source_refuted.
