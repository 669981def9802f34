(** Property C111: the kinds of quantity that a view can be asked for. *)
From Coq Require Import String Ascii List ZArith QArith Bool Arith Lia Lqa Permutation Sorted.
From Verif Require Import Base BaseFacts Numeric Study Fluent Output LP SpecStudy SpecLP StudyFacts LPFacts LPResult LPReady P_LP
  Analyzer SpecAnalyzer AnalyzerFacts P_Tables P_Exact QueryFacts P_Query P_Reuse SumFacts SpecTotals P_Totals P_Cost Viewer ViewFacts SpecViewer P_Viewer.
Import ListNotations.
Open Scope nat_scope.
Open Scope string_scope.
Open Scope list_scope.

(** ** Specification *)
Definition kinds (el : axis) : list string :=
  match el with ACons => ["asked"; "given"; "cost"] | AProd | ALink => ["avail"; "used"; "cost"] | _ => [] end.
(** The study has, at this node, an element of this sort and name. *)
Inductive has_element (s : study) (net nd : string) : axis -> string -> Prop :=
| H_cons n c : node_at s net nd = Some n -> In c (n_cons n) -> has_element s net nd ACons (c_name c)
| H_prod n p : node_at s net nd = Some n -> In p (n_prods n) -> has_element s net nd AProd (p_name p)
| H_link n l : node_at s net nd = Some n -> In l (n_links n) -> has_element s net nd ALink (l_dest l).

(** ** Proofs *)
Lemma column_missing {R} names cols col lv (key : R -> list cell) (row : R -> trow) target : (In col cols -> In col names) -> target <> [] ->
  column col (Frame lv (map (fun r => (key r, snd (line names cols (row r)))) target)) = Err KeyError.
Proof.
  intros I N. destruct target as [|r l]; [congruence |]. unfold column. cbn [fr_rows map mapM snd]. replace (dget col _) with (@None cell); [reflexivity |].
  symmetry. unfold line, values_of. cbn [snd]. set (vs := filter _ cols). assert (NI : ~ In col vs).
  { unfold vs. rewrite filter_In. intros [J K]. apply I in J. apply mem_In in J. rewrite J in K. discriminate. }
  clear - NI. induction vs as [|c vs IH]; auto. cbn [map dget]. destruct (eqb col c) eqn:E; [apply eqb_eq in E; destruct NI; left; auto |]. apply IH. intros J. apply NI. now right.
Qed.

Section Missing.
  Variables (X : Type) (an : analyzer) (el : axis) (n h : nat) (els : list X) (row : X -> nat -> nat -> trow) (knet knode kname : X -> string) (cols : list string) (sur : list trow).
  Hypotheses (Sh : shelf an el n h els row knet knode kname cols sur) (Pn : 0 < n) (Ph : 0 < h).
  Variable (x : X).
  Hypotheses (Ix : In x els) (Cl : forall r, In r sur -> strange el [CStr (knet x); CStr (knode x); CStr (kname x)] r).
  Variable (col : string).
  Hypothesis (Out : In col cols -> In col ["network"; "node"; axis_column el; "scn"; "t"]).

  Lemma seq_some m : 0 < m -> seq 0 m <> []. Proof. destruct m; [lia | discriminate]. Qed.
  Lemma missing_timeline : timeline an (knet x) (knode x) el (kname x) col = Err KeyError.
  Proof.
    unfold timeline. rewrite (fetch_all X an el n h els row knet knode kname cols sur Sh Pn Ph x Ix Cl). cbn [rbind].
    assert (E : grid n h (fun scn t => ([CInt (Z.of_nat scn); CInt (Z.of_nat t)], snd (line (names_st el) cols (row x scn t)))) =
      map (fun st => ([CInt (Z.of_nat (fst st)); CInt (Z.of_nat (snd st))], snd (line (names_st el) cols (row x (fst st) (snd st))))) (grid n h (fun scn t => (scn, t)))).
    { rewrite map_grid. reflexivity. }
    rewrite E, (column_missing (names_st el) cols col ["scn"; "t"] (fun st => [CInt (Z.of_nat (fst st)); CInt (Z.of_nat (snd st))]) (fun st => row x (fst st) (snd st))); auto.
    intros G. pose proof (grid_length n h (fun scn t => (scn, t))) as L. rewrite G in L. cbn in L. nia.
  Qed.
  Lemma missing_scn scn : scn < n -> exists g, fetch an (str (knet x)) [(ANode, str (knode x)); (el, str (kname x)); (AScn, int (Z.of_nat scn)); (ATime, INone)] = Ok g /\ column col g = Err KeyError.
  Proof.
    intros L. rewrite (fetch_scn X an el n h els row knet knode kname cols sur Sh Pn Ph x Ix Cl scn L). eexists. split; [reflexivity |].
    apply (column_missing (names_st el) cols col ["t"] (fun t => [CInt (Z.of_nat t)]) (fun t => row x scn t)); auto using seq_some.
  Qed.
  Lemma missing_t t : t < h -> exists g, fetch an (str (knet x)) [(ANode, str (knode x)); (el, str (kname x)); (ATime, int (Z.of_nat t)); (AScn, INone)] = Ok g /\ column col g = Err KeyError.
  Proof.
    intros L. rewrite (fetch_t X an el n h els row knet knode kname cols sur Sh Pn Ph x Ix Cl t L). eexists. split; [reflexivity |].
    apply (column_missing (names_ts el) cols col ["scn"] (fun scn => [CInt (Z.of_nat scn)]) (fun scn => row x scn t)); auto using seq_some.
    intros I. apply Out in I. unfold names_ts. simpl in *. tauto.
  Qed.
  Definition all_refused (net nd name : string) : Prop :=
    timeline an net nd el name col = Err KeyError /\
    (forall scn, scn < n -> monotone an net nd el name col None (Some (Z.of_nat scn)) = Err KeyError /\ gaussian an net nd el name col None (Some (Z.of_nat scn)) = Err KeyError) /\
    (forall t, t < h -> monotone an net nd el name col (Some (Z.of_nat t)) None = Err KeyError /\ gaussian an net nd el name col (Some (Z.of_nat t)) None = Err KeyError).
  Lemma missing_refused : all_refused (knet x) (knode x) (kname x).
  Proof.
    split; [apply missing_timeline | split].
    - intros scn L. destruct (missing_scn scn L) as (g & E & C). unfold monotone, gaussian. cbn [opt]. rewrite E. cbn [rbind]. rewrite C. auto.
    - intros t L. destruct (missing_t t L) as (g & E & C). unfold monotone, gaussian. rewrite E. cbn [rbind]. rewrite C. auto.
  Qed.
End Missing.

Section Kinds.
  Variables (s : study) (r : result) (bcast : bool) (junk : nat -> string -> nat -> cell) (an : analyzer).
  Hypotheses (Api : api_study s) (M : mirrors s r) (New : new_analyzer bcast junk s r = Ok an).
  Local Notation h := (st_horizon s).
  Local Notation n := (st_nb_scn s).
  Let W : study_wf s := proj1 (api_facts s Api).

  Lemma cost_drawn net nd :
    (forall c o, is_element n_cons on_cons s r net nd c o -> drawn an n h net nd ACons (c_name c) "cost" (value (c_cost c))) /\
    (forall p o, is_element n_prods on_prods s r net nd p o -> drawn an n h net nd AProd (p_name p) "cost" (value (p_cost p))) /\
    (forall l o, is_element n_links on_links s r net nd l o -> drawn an n h net nd ALink (l_dest l) "cost" (value (l_cost l))).
  Proof.
    split; [| split].
    - intros c o I. apply (is_element_In n_cons on_cons s r W M) in I.
      apply (Drawn _ _ _ _ _ _ _ _ _ _ _ _ _ _ _ _ _ (net, nd, c, o) (shelf_cons s r bcast junk an Api M New)); auto; [intros ? [] | unfold cons_cols; simpl; tauto | simpl; intuition discriminate].
    - intros c o I. apply (is_element_In n_prods on_prods s r W M) in I.
      apply (Drawn _ _ _ _ _ _ _ _ _ _ _ _ _ _ _ _ _ (net, nd, c, o) (shelf_prod s r bcast junk an Api M New)); auto; [intros ? [] | unfold prod_cols; simpl; tauto | simpl; intuition discriminate].
    - intros c o I. apply (is_element_In n_links on_links s r W M) in I.
      apply (Drawn _ _ _ _ _ _ _ _ _ _ _ _ _ _ _ _ _ (net, nd, c, o) (shelf_link s r bcast junk an Api M New)); auto; [intros ? [] | unfold link_cols; simpl; tauto | simpl; intuition discriminate].
  Qed.
End Kinds.

(** Asked for the cost, the views show the costs of the element. *)
Theorem C111_costs bcast junk s r an : api_study s -> mirrors s r -> new_analyzer bcast junk s r = Ok an -> forall net nd,
  (forall c o, is_element n_cons on_cons s r net nd c o -> monotone_right an net nd ACons (c_name c) "cost" (st_nb_scn s) (st_horizon s) (value (c_cost c))) /\
  (forall p o, is_element n_prods on_prods s r net nd p o -> monotone_right an net nd AProd (p_name p) "cost" (st_nb_scn s) (st_horizon s) (value (p_cost p))) /\
  (forall l o, is_element n_links on_links s r net nd l o -> monotone_right an net nd ALink (l_dest l) "cost" (st_nb_scn s) (st_horizon s) (value (l_cost l))).
Proof.
  intros A M N net nd. destruct (dims_pos s A) as (Pn & Ph). destruct (cost_drawn s r bcast junk an A M N net nd) as (D1 & D2 & D3).
  assert (G : forall el name f, drawn an (st_nb_scn s) (st_horizon s) net nd el name "cost" f -> monotone_right an net nd el name "cost" (st_nb_scn s) (st_horizon s) f).
  { intros el name f D. split; [|split; [|split]].
    - apply drawn_timeline; auto.
    - intros scn L. apply (drawn_monotone_scn an (st_nb_scn s)); auto.
    - intros t L. apply (drawn_monotone_t an (st_nb_scn s) (st_horizon s)); auto.
    - reflexivity. }
  split; [| split]; eauto.
Qed.

Lemma paired {A B} (P : A -> B -> Prop) l m a : Forall2 P l m -> In a l -> exists i b, nth_error l i = Some a /\ nth_error m i = Some b.
Proof.
  intros F. induction F as [|x y l m _ F IH]; [intros [] |]. intros [<-|J]; [exists 0, y; auto |]. destruct (IH J) as (i & b & E1 & E2). exists (S i); eauto.
Qed.
Lemma element_cases s r net nd el name : mirrors s r -> has_element s net nd el name ->
  (exists c o, is_element n_cons on_cons s r net nd c o /\ el = ACons /\ name = c_name c) \/
  (exists p o, is_element n_prods on_prods s r net nd p o /\ el = AProd /\ name = p_name p) \/
  (exists l o, is_element n_links on_links s r net nd l o /\ el = ALink /\ name = l_dest l).
Proof.
  intros M H. destruct H as [n c N I | n p N I | n l N I]; destruct (mirror_node_l s r M net nd n N) as (rn & Rn & [L1 L2 L3 L4]).
  - left. destruct (paired _ _ _ _ L1 I) as (i & o & E1 & E2). exists c, o. split; [exists n, rn, i |]; auto.
  - right; left. destruct (paired _ _ _ _ L2 I) as (i & o & E1 & E2). exists p, o. split; [exists n, rn, i |]; auto.
  - right; right. destruct (paired _ _ _ _ L4 I) as (i & o & E1 & E2). exists l, o. split; [exists n, rn, i |]; auto.
Qed.

(** Any other kind is refused, by every view and with the same error. *)
Theorem C111_other_kinds_refused bcast junk s r an : api_study s -> mirrors s r -> new_analyzer bcast junk s r = Ok an ->
  forall net nd el name kind, has_element s net nd el name -> ~ In kind (kinds el) ->
  timeline an net nd el name kind = Err KeyError /\
  (forall scn, scn < st_nb_scn s -> monotone an net nd el name kind None (Some (Z.of_nat scn)) = Err KeyError /\ gaussian an net nd el name kind None (Some (Z.of_nat scn)) = Err KeyError) /\
  (forall t, t < st_horizon s -> monotone an net nd el name kind (Some (Z.of_nat t)) None = Err KeyError /\ gaussian an net nd el name kind (Some (Z.of_nat t)) None = Err KeyError).
Proof.
  intros A M N net nd el name kind H NK. destruct (dims_pos s A) as (Pn & Ph). pose proof (proj1 (api_facts s A)) as W.
  destruct (element_cases s r net nd el name M H) as [(c & o & I & -> & ->) | [(c & o & I & -> & ->) | (c & o & I & -> & ->)]].
  - apply (is_element_In n_cons on_cons s r W M) in I.
    apply (missing_refused _ an ACons (st_nb_scn s) (st_horizon s) _ _ _ _ _ _ _ (shelf_cons s r bcast junk an A M N) Pn Ph (net, nd, c, o) I); [intros ? [] |].
    unfold cons_cols. cbn in *. tauto.
  - apply (is_element_In n_prods on_prods s r W M) in I.
    apply (missing_refused _ an AProd (st_nb_scn s) (st_horizon s) _ _ _ _ _ _ _ (shelf_prod s r bcast junk an A M N) Pn Ph (net, nd, c, o) I); [intros ? [] |].
    unfold prod_cols. cbn in *. tauto.
  - apply (is_element_In n_links on_links s r W M) in I.
    apply (missing_refused _ an ALink (st_nb_scn s) (st_horizon s) _ _ _ _ _ _ _ (shelf_link s r bcast junk an A M N) Pn Ph (net, nd, c, o) I); [intros ? [] |].
    unfold link_cols. cbn in *. tauto.
Qed.

(** So the kinds a timeline can be asked for are exactly these. *)
Theorem C111_kinds_exact bcast junk s r an : api_study s -> mirrors s r -> new_analyzer bcast junk s r = Ok an ->
  forall net nd el name kind, has_element s net nd el name -> ((exists curves, timeline an net nd el name kind = Ok curves) <-> In kind (kinds el)).
Proof.
  intros A M N net nd el name kind H. split.
  - intros (c & E). destruct (in_dec string_dec kind (kinds el)) as [I|NI]; auto. destruct (C111_other_kinds_refused bcast junk s r an A M N _ _ _ _ _ H NI) as [T _]. congruence.
  - intros K. destruct (C111_costs bcast junk s r an A M N net nd) as (C1 & C2 & C3).
    assert (Q : forall f, quantity s r net nd el name kind f -> exists curves, timeline an net nd el name kind = Ok curves).
    { intros f Q. destruct (C61_monotone bcast junk s r an A M N _ _ _ _ _ _ Q) as ((c & E & _) & _). eauto. }
    destruct (element_cases s r net nd el name M H) as [(c & o & I & -> & ->) | [(c & o & I & -> & ->) | (c & o & I & -> & ->)]]; destruct K as [<-|[<-|[<-|[]]]].
    + eapply Q, Q_asked; eauto.
    + eapply Q, Q_given; eauto.
    + destruct (C1 c o I) as ((y & E & _) & _). eauto.
    + eapply Q, Q_prod_avail; eauto.
    + eapply Q, Q_prod_used; eauto.
    + destruct (C2 c o I) as ((y & E & _) & _). eauto.
    + eapply Q, Q_link_avail; eauto.
    + eapply Q, Q_link_used; eauto.
    + destruct (C3 c o I) as ((y & E & _) & _). eauto.
Qed.

Lemma band_load : has_element band "elec" "b" ACons "load".
Proof. eapply (H_cons band "elec" "b" _ (Cons "load" _ _)); [vm_compute; reflexivity | left; reflexivity]. Qed.
Example C111_example : api_study band /\ mirrors band band_result /\ new_analyzer true no_junk band band_result = Ok band_an /\ has_element band "elec" "b" ACons "load" /\
  timeline band_an "elec" "b" ACons "load" "cost" = Ok [(CInt 0, [CNum 1000; CNum 1000]); (CInt 1, [CNum 1000; CNum 1000])] /\
  timeline band_an "elec" "b" ACons "load" "asked" = Ok [(CInt 0, [CNum 10; CNum 20]); (CInt 1, [CNum 5; CNum 7])] /\
  timeline band_an "elec" "b" ACons "load" "used" = Err KeyError /\ timeline band_an "elec" "b" ACons "load" "name" = Err KeyError.
Proof.
  split; [apply band_api |]. split; [apply band_mirrors |]. split; [apply band_an_new |]. split; [apply band_load |]. repeat split; vm_compute; reflexivity.
Qed.

Print Assumptions C111_costs.
Print Assumptions C111_other_kinds_refused.
Print Assumptions C111_kinds_exact.
