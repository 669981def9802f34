(** C100: what a user reads of a solved study is what was declared and what the solver gave. *)
From Coq Require Import String Ascii List ZArith QArith Bool Arith Lia Permutation Sorted.
From Verif Require Import Base BaseFacts Numeric Study Fluent Output LP SpecStudy SpecLP SpecAnalyzer Analyzer AnalyzerFacts LPReady LPResult LPWeak
  QueryFacts P_LP P_Tables P_Query P_Reuse P_Order P_Cost SpecEnd.
Import ListNotations.
Open Scope nat_scope.
Open Scope string_scope.
Open Scope list_scope.

Lemma pick {A B} (R : B -> A -> Prop) (l : list A) : (forall a, In a l -> exists b, R b a) -> exists m, Forall2 R m l.
Proof.
  induction l as [| a l IH]; intros H; [exists []; constructor |].
  destruct (H a (or_introl eq_refl)) as (b & K). destruct IH as (m & F); [intros; apply H; right; auto |].
  exists (b :: m). constructor; auto.
Qed.

(** Rows without a scenario are not seen. *)
Lemma pivot_surplus ixs cols rows surplus : In "scn" (map ix_column ixs) -> (forall x, In x surplus -> cell_of "scn" x = CNaN) ->
  pivot ixs (Table cols (rows ++ surplus)) = pivot ixs (Table cols rows).
Proof.
  intros I J. unfold pivot. cbn [tb_cols tb_rows]. destruct (forallb _ ixs); auto. f_equal.
  rewrite filter_app. set (A := filter _ rows). set (B := filter _ surplus).
  assert (N : forall x, In x B -> existsb is_nan (key_of (map ix_column ixs) x) = true).
  { intros x K. unfold B in K. apply filter_In in K as (K & _). apply existsb_exists. exists (cell_of "scn" x). split; [| rewrite (J x K); reflexivity].
    unfold key_of. apply in_map_iff. exists "scn". auto. }
  unfold pivot_table. cbn [tb_cols tb_rows]. f_equal. f_equal.
  assert (G : group_keys (map ix_column ixs) (A ++ B) = group_keys (map ix_column ixs) A).
  { unfold group_keys. do 2 f_equal. rewrite map_app, filter_app. replace (filter _ (map _ B)) with (@nil (list cell)); [apply app_nil_r |].
    symmetry. clear - N. induction B as [| x B IH]; auto. cbn [map filter]. rewrite (N x (or_introl eq_refl)). cbn [negb]. apply IH. intros; apply N; right; auto. }
  rewrite G. apply map_ext_in. intros k K. f_equal. apply map_ext. intros c. do 2 f_equal. unfold group. rewrite filter_app.
  replace (filter _ B) with (@nil trow); [now rewrite app_nil_r |].
  assert (Kn : existsb is_nan k = false).
  { unfold group_keys in K. apply (Permutation_in _ (isort_perm _ _)) in K. rewrite (proj2 (unique_spec _)) in K. apply filter_In in K as (_ & K). now apply negb_true_iff in K. }
  symmetry. clear - N Kn. induction B as [| x B IH]; auto. cbn [filter]. destruct (eqb (key_of (map ix_column ixs) x) k) eqn:E.
  - apply eqb_eq in E. pose proof (N x (or_introl eq_refl)) as Nx. rewrite E in Nx. congruence.
  - apply IH. intros; apply N; right; auto.
Qed.

Section Kind.
  Context {P E : Type}.
  Variables (stands : P -> E -> Prop) (label : P -> E -> axis -> cell) (values : P -> E -> list (string * Q)).
  Variables (el : axis) (an : analyzer) (cols : list string) (rows : list trow) (at_row : P -> trow -> Prop).
  Variable surplus : list trow.
  Hypotheses (Tb : table_of an el = Some (Table cols (rows ++ surplus)))
    (Su : forall x, In x surplus -> cell_of "scn" x = CNaN)
    (Ky : keyed el (Table cols rows))
    (at_fun : forall p x y, at_row p x -> at_row p y -> x = y)
    (at_inj : forall p p' x, at_row p x -> at_row p' x -> p = p')
    (at_stands : forall p x, at_row p x -> exists e, stands p e)
    (stands_at : forall p e, stands p e -> exists x, at_row p x /\ In x rows)
    (row_at : forall x, In x rows -> exists p, at_row p x)
    (at_label : forall p x e a, at_row p x -> stands p e -> In a [ANetwork; ANode; el; AScn; ATime] -> cell_of (axis_column a) x = label p e a)
    (at_value : forall p x e c v, at_row p x -> stands p e -> In (c, v) (values p e) ->
       In c cols /\ ~ In c ["network"; "node"; axis_column el; "scn"; "t"] /\ exists w, cell_of c x = CNum w /\ (w == v)%Q).

  Lemma at_wanted q p x e : whole el q -> at_row p x -> stands p e -> (matches q x <-> wanted label q p e).
  Proof.
    intros Wh A G.
    assert (K : forall a y, In (a, y) q -> cell_of (axis_column a) x = label p e a).
    { intros a y I. apply (at_label p x e a A G). apply (Permutation_in _ Wh). apply (in_map fst _ _ I). }
    split; intros H a y I; specialize (H a y I); rewrite (K a y I) in *; exact H.
  Qed.

  Lemma blank_iff q : whole el q -> (void_first q \/ one_cell q (Table cols rows) <-> unanswered stands label q).
  Proof.
    intros Wh. unfold void_first, one_cell, unanswered. cbn [tb_rows]. split; (intros [V | (N & K)]; [left; exact V | right; split; [exact N |]]).
    - destruct K as (x & I & M). destruct (row_at x I) as (p & A). destruct (at_stands _ _ A) as (e & G). exists p, e. split; auto.
      apply (at_wanted q p x e Wh A G). exact M.
    - destruct K as (p & e & G & M). destruct (stands_at _ _ G) as (x & A & I). exists x. split; auto. apply (at_wanted q p x e Wh A G). exact M.
  Qed.

  Lemma answers_tell q f : whole el q -> answers q (Table cols rows) f -> tells stands label values q f.
  Proof.
    intros Wh (dropped & rs & Lv & ND & Iff & Ca & So). cbn [tb_rows] in *.
    destruct (pick at_row rs) as (ps & Pk). { intros x I. apply row_at. apply Iff. exact I. }
    exists dropped, ps. split; [exact Lv |]. split; [| split; [| split]].
    - clear - Pk ND at_fun. induction Pk as [| p x ps rs A Pk IH]; [constructor |]. inversion ND as [| ? ? N1 N2]; subst. constructor; [| auto].
      intros I. apply N1. destruct (Forall2_In_l _ _ _ _ Pk I) as (y & J & B). rewrite (at_fun _ _ _ A B). exact J.
    - intros p. split.
      + intros I. destruct (Forall2_In_l _ _ _ _ Pk I) as (x & J & A). destruct (at_stands _ _ A) as (e & G). exists e. split; auto.
        apply (at_wanted q p x e Wh A G). apply Iff. exact J.
      + intros (e & G & W). destruct (stands_at _ _ G) as (x & A & I).
        assert (J : In x rs). { apply Iff. split; auto. apply (at_wanted q p x e Wh A G). exact W. }
        destruct (Forall2_In_r _ _ _ _ Pk J) as (p' & I' & A'). rewrite (at_inj _ _ _ A A'). exact I'.
    - assert (Z : Forall2 (fun p l => exists x, at_row p x /\ carries q (Table cols rows) x l) ps (map (fun l => (dropped ++ fst l, snd l)) (fr_rows f))).
      { clear - Pk Ca. revert Ca. generalize (map (fun l => (dropped ++ fst l, snd l)) (fr_rows f)). intros ls Ca. revert ps Pk.
        induction Ca as [| x l rs ls C Ca IH]; intros ps Pk; inversion Pk; subst; constructor; eauto. }
      clear - Z Wh at_label at_value at_stands. remember (map (fun l => (dropped ++ fst l, snd l)) (fr_rows f)) as ls eqn:Hls. revert Hls. generalize (fr_rows f) as fr.
      induction Z as [| p l ps ls (x & A & C) Z IH]; intros [| l0 fr] Hls; try discriminate Hls; constructor; [| injection Hls as _ Hls; auto].
      injection Hls as -> _. destruct (at_stands _ _ A) as (e & G). exists e. split; auto. destruct C as (C1 & C2). cbn [fst snd tb_cols] in *. split.
      + rewrite C1. unfold key_of, query_names. rewrite map_map. apply map_ext_in. intros ax I. apply (at_label p x e _ A G).
        apply (Permutation_in _ Wh). apply (in_map fst _ _ I).
      + intros c v I. destruct (at_value p x e c v A G I) as (K1 & K2 & w & K3 & K4).
        destruct (C2 c K1) as (u & D & Sm).
        { intros J. apply K2. unfold query_names in J. rewrite <- (map_map fst axis_column) in J.
          apply (Permutation_in _ (Permutation_map axis_column Wh)) in J. exact J. }
        destruct (same_num _ _ Sm w K3) as (w' & -> & Q'). exists w'. split; auto. rewrite Q'. exact K4.
    - rewrite map_map in So. exact So.
  Qed.

  Lemma kind_seen x rest : whole el ((ANetwork, x) :: rest) -> accepted ((ANetwork, x) :: rest) ->
    answered stands label values an ((ANetwork, x) :: rest).
  Proof.
    intros Wh Ac. set (q := (ANetwork, x) :: rest) in *. set (T := Table cols rows) in *.
    set (an' := Analyzer (an_study an) (an_result an) T T T T T T).
    assert (Tb' : table_of an' el = Some T) by (destruct el; try discriminate Tb; reflexivity).
    destruct (C37_outcome an' el _ q Tb' Ky Wh Ac) as (Bad & Good). destruct (indexes_ok q Ac) as (ixs & Ei & O).
    destruct (C36_fluent_query an el _ x rest ixs Tb Wh Ei) as (o & W & V). fold q in W. unfold answer in Bad, Good. rewrite Ei in Bad, Good. cbn [rbind] in Bad, Good.
    assert (Eq : an_filter an ixs = an_filter an' ixs).
    { rewrite (filter_table an el _ q ixs Tb Wh O), (filter_table an' el _ q ixs Tb' Wh O). f_equal. apply pivot_surplus; auto.
      assert (I : In AScn (map fst q)) by (apply (Permutation_in _ (Permutation_sym Wh)); simpl; tauto).
      clear - O I. induction O as [| [a y] i q ixs K _ IH]; [destruct I |]. cbn [map fst snd] in *. destruct I as [-> | I]; [left | right; auto].
      unfold ix_column. rewrite (xo_axis _ _ _ K). reflexivity. }
    rewrite Eq in V. pose proof (blank_iff q Wh) as Bl. split.
    - intros U. exists o. split; auto. rewrite V. apply Bl in U. apply Bad in U. rewrite U. reflexivity.
    - intros U. destruct Good as (f & Gf & An). { intros K. apply U, Bl, K. }
      exists o, f. split; auto. split; [rewrite V, Gf; reflexivity |]. apply answers_tell; auto.
  Qed.
End Kind.

(** The elements of nodes. *)
Section Elements.
  Context {E F : Type}.
  Variables (gets : node -> list E) (getr : onode -> list F) (name : E -> string) (el : axis)
    (row : string -> string -> E -> F -> nat -> nat -> trow) (values : place -> E -> list (string * Q)).
  Variables (s : study) (r : result) (an : analyzer) (cols : list string) (rows : list trow).
  Hypotheses (Tb : table_of an el = Some (Table cols rows))
    (Ky : keyed el (Table cols rows))
    (Fa : faithful gets getr (axis_column el) row s r rows)
    (Un : forall net nd n, node_at s net nd = Some n -> NoDup (map name (gets n)))
    (Mi : forall net nd n, node_at s net nd = Some n -> exists rn, rnode_at r net nd = Some rn /\ List.length (getr rn) = List.length (gets n))
    (Lb : forall net nd i e o scn t a, In a [ANetwork; ANode; el; AScn; ATime] ->
       cell_of (axis_column a) (row net nd e o scn t) = label name ((net, nd, i), (scn, t)) e a)
    (Va : forall net nd i e o scn t n rn c v, node_at s net nd = Some n -> rnode_at r net nd = Some rn ->
       nth_error (gets n) i = Some e -> nth_error (getr rn) i = Some o -> scn < st_nb_scn s -> t < st_horizon s ->
       In (c, v) (values ((net, nd, i), (scn, t)) e) ->
       In c cols /\ ~ In c ["network"; "node"; axis_column el; "scn"; "t"] /\
       exists w, cell_of c (row net nd e o scn t) = CNum w /\ (w == v)%Q)
    (El : forall a b n i j, tag a b n i j el = CStr n).

  (** The row of a place. *)
  Definition at_row (p : place) (x : trow) : Prop :=
    let '((net, nd, i), (scn, t)) := p in
    exists n rn e o, node_at s net nd = Some n /\ rnode_at r net nd = Some rn /\
      nth_error (gets n) i = Some e /\ nth_error (getr rn) i = Some o /\ scn < st_nb_scn s /\ t < st_horizon s /\ x = row net nd e o scn t.

  Lemma at_label p x e a : at_row p x -> stands gets s p e -> In a [ANetwork; ANode; el; AScn; ATime] -> cell_of (axis_column a) x = label name p e a.
  Proof.
    destruct p as [[[net nd] i] [scn t]]. intros (n & rn & e' & o & A & B & C & D & _ & _ & ->) (n' & A' & C' & _) I.
    rewrite A in A'. injection A' as <-. rewrite C in C'. injection C' as <-. apply Lb. exact I.
  Qed.

  Lemma at_stands p x : at_row p x -> exists e, stands gets s p e.
  Proof. destruct p as [[[net nd] i] [scn t]]. intros (n & rn & e & o & A & B & C & D & S & T & _). exists e, n. auto. Qed.

  Lemma at_inj p p' x : at_row p x -> at_row p' x -> p = p'.
  Proof.
    intros A A'. destruct (at_stands _ _ A) as (e & G). destruct (at_stands _ _ A') as (e' & G').
    assert (K : forall a, In a [ANetwork; ANode; el; AScn; ATime] -> label name p e a = label name p' e' a).
    { intros a I. rewrite <- (at_label _ _ _ _ A G I). apply (at_label _ _ _ _ A' G' I). }
    pose proof (K ANetwork (or_introl eq_refl)) as K1. pose proof (K ANode ltac:(simpl; tauto)) as K2.
    pose proof (K el ltac:(simpl; tauto)) as K3. pose proof (K AScn ltac:(simpl; tauto)) as K4. pose proof (K ATime ltac:(simpl; tauto)) as K5.
    destruct p as [[[net nd] i] [scn t]], p' as [[[net' nd'] i'] [scn' t']]. unfold label in *. rewrite !El in K3. cbn [tag] in *.
    injection K1 as <-. injection K2 as <-. injection K3 as K3. injection K4 as K4. injection K5 as K5.
    assert (scn = scn') by lia. assert (t = t') by lia. subst scn' t'.
    destruct G as (n & N & C & _), G' as (n' & N' & C' & _). rewrite N in N'. injection N' as <-.
    assert (i = i'); [| congruence].
    pose proof (proj1 (NoDup_nth_error _) (Un _ _ _ N)) as U. apply U.
    - rewrite map_length. apply nth_error_Some. congruence.
    - rewrite (map_nth_error name i _ C), (map_nth_error name i' _ C'). congruence.
  Qed.

  Lemma elements_seen x rest : whole el ((ANetwork, x) :: rest) -> accepted ((ANetwork, x) :: rest) ->
    answered (stands gets s) (label name) values an ((ANetwork, x) :: rest).
  Proof.
    apply (kind_seen (stands gets s) (label name) values el an cols rows at_row []).
    - rewrite app_nil_r. exact Tb.
    - intros y [].
    - exact Ky.
    - intros [[[net nd] i] [scn t]] x0 y (n & rn & e & o & A & B & C & D & _ & _ & ->) (n' & rn' & e' & o' & A' & B' & C' & D' & _ & _ & ->).
      rewrite A in A'. injection A' as <-. rewrite B in B'. injection B' as <-. rewrite C in C'. injection C' as <-. rewrite D in D'. injection D' as <-. reflexivity.
    - apply at_inj.
    - apply at_stands.
    - intros [[[net nd] i] [scn t]] e (n & A & C & S & T). destruct (Mi _ _ _ A) as (rn & B & L).
      destruct (nth_error (getr rn) i) as [o |] eqn:D.
      2:{ exfalso. apply nth_error_None in D. assert (i < List.length (gets n)) by (apply nth_error_Some; congruence). lia. }
      exists (row net nd e o scn t). split; [exists n, rn, e, o; auto 10 |].
      apply Fa; auto. exists n, rn, i. auto.
    - intros y I. destruct (proj1 (proj2 Fa) y I) as (net & nd & e & o & scn & t & (n & rn & i & A & B & C & D) & S & T & ->).
      exists ((net, nd, i), (scn, t)), n, rn, e, o. auto 10.
    - apply at_label.
    - intros [[[net nd] i] [scn t]] y e c v (n & rn & e' & o & A1 & A2 & A3 & A4 & A5 & A6 & ->) (n' & B1 & B2 & _) I.
      rewrite A1 in B1. injection B1 as <-. rewrite A3 in B2. injection B2 as <-. apply (Va net nd i e' o scn t n rn c v A1 A2 A3 A4 A5 A6 I).
  Qed.
End Elements.

Ltac label_tac := let I := fresh in intros ? ? ? ? ? ? ? a I; simpl in I; repeat (destruct I as [<- | I]; [reflexivity |]); destruct I.
Ltac value_tac CA := let I := fresh "I" in intros net nd i e o scn t n rn c v N R X Y S T I; simpl in I;
  repeat (destruct I as [I | I]; [injection I as <- <-; split; [simpl; tauto |]; split; [simpl; intuition discriminate |]; eexists; split; [reflexivity |] |]); [> .. | destruct I];
  try reflexivity.

Section Solved.
  Variables (answer : nat -> solver -> var -> Q) (s : study) (r : result) (bcast : bool) (junk : nat -> string -> nat -> cell) (an : analyzer).
  Hypotheses (Api : api_study s) (Sv : solved answer s r) (New : new_analyzer bcast junk s r = Ok an).
  Let given (scn : nat) : var -> Q := answer scn (program_of s scn).

  Lemma new_parts : build_consumption bcast junk s r = Ok (an_cons an) /\ build_production bcast junk s r = Ok (an_prod an) /\
    build_link bcast junk s r = Ok (an_link an) /\ build_storage bcast junk s r = Ok (an_stor an).
  Proof.
    unfold new_analyzer in New.
    destruct (build_consumption bcast junk s r) as [a |]; [| discriminate]. cbn [rbind] in New.
    destruct (build_production bcast junk s r) as [b |]; [| discriminate]. cbn [rbind] in New.
    destruct (build_storage bcast junk s r) as [c |]; [| discriminate]. cbn [rbind] in New.
    destruct (build_link bcast junk s r) as [d |]; [| discriminate]. cbn [rbind] in New.
    destruct (build_src_converter bcast junk s r) as [v|]; [|discriminate]. cbn [rbind] in New.
    destruct (build_dest_converter bcast junk s r) as [w|]; [|discriminate]. cbn [rbind] in New.
    injection New as <-. auto.
  Qed.

  Theorem C100_consumptions x rest : whole ACons ((ANetwork, x) :: rest) -> accepted ((ANetwork, x) :: rest) ->
    answered (stands n_cons s) (label c_name) (about_cons given) an ((ANetwork, x) :: rest).
  Proof.
    intros Wh Ac. destruct (solved_weak s answer r Api Sv) as (_ & M & CA). destruct (api_facts s Api) as (W & _).
    destruct new_parts as (Bn & _ & _ & _). destruct (C36_tables_have_unique_keys bcast junk s r an Api M New) as (K & _ & _ & _).
    destruct (C33_tables_faithful bcast junk s r Api M) as ((cs & rs & B & Fa) & _ & _). pose proof (build_consumption_eq s r bcast junk Api M) as Eq. rewrite B in Eq, Bn. injection Bn as Bn. injection Eq as Ec _. subst cs. rewrite <- Bn in K.
    refine (elements_seen n_cons on_cons c_name ACons cons_row (about_cons given) s r an _ rs _ K Fa _ _ _ _ _ x rest Wh Ac).
    - cbn [table_of]. congruence.
    - intros net nd n N. eapply wf_cons, wf_node; eauto.
    - intros net nd n N. destruct (mirror_node_l s r M net nd n N) as (rn & R & L). exists rn. split; auto. symmetry. exact (Forall2_len _ _ _ (nl_cons _ _ _ L)).
    - label_tac.
    - value_tac CA; destruct (CA scn S) as (_ & C & _); [> .. ]; 
      exact (ca_cons _ _ _ _ C net nd n rn i e o t T N R X Y).
    - reflexivity.
  Qed.

  Theorem C100_productions x rest : whole AProd ((ANetwork, x) :: rest) -> accepted ((ANetwork, x) :: rest) ->
    answered (stands n_prods s) (label p_name) (about_prod given) an ((ANetwork, x) :: rest).
  Proof.
    intros Wh Ac. destruct (solved_weak s answer r Api Sv) as (_ & M & CA). destruct (api_facts s Api) as (W & _).
    destruct new_parts as (_ & Bn & _ & _). destruct (C36_tables_have_unique_keys bcast junk s r an Api M New) as (_ & K & _ & _).
    destruct (C33_tables_faithful bcast junk s r Api M) as (_ & (cs & rs & B & Fa) & _). pose proof (build_production_eq s r bcast junk Api M) as Eq. rewrite B in Eq, Bn. injection Bn as Bn. injection Eq as Ec _. subst cs. rewrite <- Bn in K.
    refine (elements_seen n_prods on_prods p_name AProd prod_row (about_prod given) s r an _ rs _ K Fa _ _ _ _ _ x rest Wh Ac).
    - cbn [table_of]. congruence.
    - intros net nd n N. eapply wf_prods, wf_node; eauto.
    - intros net nd n N. destruct (mirror_node_l s r M net nd n N) as (rn & R & L). exists rn. split; auto. symmetry. exact (Forall2_len _ _ _ (nl_prods _ _ _ L)).
    - label_tac.
    - value_tac CA; destruct (CA scn S) as (_ & C & _); [> .. ]; 
      exact (ca_prods _ _ _ _ C net nd n rn i e o t T N R X Y).
    - reflexivity.
  Qed.

  Theorem C100_links x rest : whole ALink ((ANetwork, x) :: rest) -> accepted ((ANetwork, x) :: rest) ->
    answered (stands n_links s) (label l_dest) (about_link given) an ((ANetwork, x) :: rest).
  Proof.
    intros Wh Ac. destruct (solved_weak s answer r Api Sv) as (_ & M & CA). destruct (api_facts s Api) as (W & _).
    destruct new_parts as (_ & _ & Bn & _). destruct (C36_tables_have_unique_keys bcast junk s r an Api M New) as (_ & _ & K & _).
    destruct (C33_tables_faithful bcast junk s r Api M) as (_ & _ & (cs & rs & B & Fa)). pose proof (build_link_eq s r bcast junk Api M) as Eq. rewrite B in Eq, Bn. injection Bn as Bn. injection Eq as Ec _. subst cs. rewrite <- Bn in K.
    refine (elements_seen n_links on_links l_dest ALink link_row (about_link given) s r an _ rs _ K Fa _ _ _ _ _ x rest Wh Ac).
    - cbn [table_of]. congruence.
    - intros net nd n N. eapply wf_links, wf_node; eauto.
    - intros net nd n N. destruct (mirror_node_l s r M net nd n N) as (rn & R & L). exists rn. split; auto. symmetry. exact (Forall2_len _ _ _ (nl_links _ _ _ L)).
    - label_tac.
    - value_tac CA; destruct (CA scn S) as (_ & C & _); [> .. ]; 
      exact (ca_links _ _ _ _ C net nd n rn i e o t T N R X Y).
    - reflexivity.
  Qed.

  Theorem C100_storages_partial x rest : storage_count s <= 1 -> whole AStor ((ANetwork, x) :: rest) -> accepted ((ANetwork, x) :: rest) ->
    answered (stands n_stors s) (label s_name) (about_stor given) an ((ANetwork, x) :: rest).
  Proof.
    intros One Wh Ac. pose proof One as One'. destruct (solved_weak s answer r Api Sv) as (_ & M & CA). destruct (api_facts s Api) as (W & _).
    destruct new_parts as (_ & _ & _ & Bn). destruct (C36_tables_have_unique_keys bcast junk s r an Api M New) as (_ & _ & _ & K). specialize (K One).
    destruct (C34_storage_table_partial bcast junk s r Api M One) as (cs & rs & B & Fa). assert (Eq := build_storage_eq s r bcast junk Api M ltac:(unfold stors_of; rewrite <- (count_elements_eq n_stors on_stors s r M); [exact One | apply like_stors])); clear One'. rewrite B in Eq, Bn. injection Bn as Bn. injection Eq as Ec _. subst cs. rewrite <- Bn in K.
    refine (elements_seen n_stors on_stors s_name AStor stor_row (about_stor given) s r an _ rs _ K Fa _ _ _ _ _ x rest Wh Ac).
    - cbn [table_of]. congruence.
    - intros net nd n N. eapply wf_stors, wf_node; eauto.
    - intros net nd n N. destruct (mirror_node_l s r M net nd n N) as (rn & R & L). exists rn. split; auto. symmetry. exact (Forall2_len _ _ _ (nl_stors _ _ _ L)).
    - label_tac.
    - value_tac CA; destruct (CA scn S) as (_ & C & _); [> .. ]; 
      destruct (ca_stors _ _ _ _ C net nd n rn i e o t T N R X Y) as (C1 & C2 & C3); [exact C1 | exact C2 | exact C3].
    - reflexivity.
  Qed.

  Lemma new_convs : build_src_converter bcast junk s r = Ok (an_src an) /\ build_dest_converter bcast junk s r = Ok (an_dest an).
  Proof.
    unfold new_analyzer in New.
    destruct (build_consumption bcast junk s r) as [a |]; [| discriminate]. cbn [rbind] in New.
    destruct (build_production bcast junk s r) as [b |]; [| discriminate]. cbn [rbind] in New.
    destruct (build_storage bcast junk s r) as [c |]; [| discriminate]. cbn [rbind] in New.
    destruct (build_link bcast junk s r) as [d |]; [| discriminate]. cbn [rbind] in New.
    destruct (build_src_converter bcast junk s r) as [v|]; [|discriminate]. cbn [rbind] in New.
    destruct (build_dest_converter bcast junk s r) as [w|]; [|discriminate]. cbn [rbind] in New.
    injection New as <-. auto.
  Qed.

  (** There are converters. *)
  Hypothesis Some_conv : st_converters s <> [].

  Lemma conv_names name v : conv_at s name = Some v -> v_name v = name.
  Proof. destruct (api_facts s Api) as (W & _). intros V. exact (wf_vname _ _ _ (wf_conv _ W _ _ V)). Qed.

  Lemma some_convs : mirrors s r -> convs_of s r <> [].
  Proof. intros M E. destruct (convs_facts s r Api M) as (_ & C). rewrite E in C. contradiction. Qed.

  Theorem C100_destinations_partial x rest : List.length (st_converters s) <= list_sum (source_counts s) -> whole ADestConv ((ANetwork, x) :: rest) -> accepted ((ANetwork, x) :: rest) ->
    answered (ends s) dest_label (about_dest given) an ((ANetwork, x) :: rest).
  Proof.
    intros Le Wh Ac. destruct (solved_weak s answer r Api Sv) as (R & M & CA). destruct (api_facts s Api) as (W & _ & Hh & Hn).
    pose proof (complete_usable _ (solved_usable s answer r W Hh Hn Sv)) as Co.
    destruct (build_dest_eq s r bcast junk Api M Co Le) as (cols & B & Ecols). rewrite (Ecols (some_convs M)) in B. clear Ecols cols.
    pose proof (faithful_dests s r Api M) as (Fa & Fb & _). assert (Ky : keyed ADestConv (Table cols8 (flat_map (dblock s) (convs_of s r)))) by exact (dest_keyed s r Api M (some_convs M)).
    destruct new_convs as (_ & Bn). rewrite B in Bn. injection Bn as Bn.
    set (rows := flat_map (dblock s) (convs_of s r)) in *.
    set (at_row := fun (p : string * (nat * nat)) (y : trow) => let '(name, (scn, t)) := p in
      exists v rv, conv_at s name = Some v /\ rconv_at r name = Some rv /\ scn < st_nb_scn s /\ t < st_horizon s /\ y = dest_row v rv scn t).
    refine (kind_seen (ends s) dest_label (about_dest given) ADestConv an cols8 rows at_row _ _ _ Ky _ _ _ _ _ _ _ x rest Wh Ac).
    - cbn [table_of]. rewrite <- Bn. reflexivity.
    - intros y I. apply in_map_iff in I as (k & <- & _). reflexivity.
    - intros [name [scn t]] y z (v & rv & V & Rv & _ & _ & ->) (v' & rv' & V' & Rv' & _ & _ & ->). congruence.
    - intros [name [scn t]] [name' [scn' t']] y (v & rv & V & Rv & _ & _ & ->) (v' & rv' & V' & Rv' & _ & _ & Eq).
      assert (K := f_equal (key_of ["name"; "scn"; "t"]) Eq). cbn in K. injection K as K1 K2 K3.
      rewrite (conv_names _ _ V), (conv_names _ _ V') in K1. assert (scn = scn') by lia. assert (t = t') by lia. congruence.
    - intros [name [scn t]] y (v & rv & V & Rv & S & T & _). exists v. split; auto.
    - intros [name [scn t]] v (V & S & T). pose proof (mirror_conv s r M name) as Mc. rewrite V in Mc.
      destruct (rconv_at r name) as [rv |] eqn:Rv; [| contradiction]. exists (dest_row v rv scn t). split; [exists v, rv; auto 10 |]. eapply Fa; eauto.
    - intros y I. destruct (Fb y I) as (name & v & rv & scn & t & V & Rv & S & T & ->). exists (name, (scn, t)), v, rv. auto 10.
    - intros [name [scn t]] y v a (v' & rv & V & Rv & _ & _ & ->) (V' & _) I. rewrite V in V'. injection V' as <-.
      cbn [dest_label]. rewrite <- (conv_names _ _ V). simpl in I. repeat (destruct I as [<- | I]; [reflexivity |]). destruct I.
    - intros [name [scn t]] y v c w (v' & rv & V & Rv & S & T & ->) (V' & _) I. rewrite V in V'. injection V' as <-. simpl in I.
      repeat (destruct I as [I | I]; [injection I as <- <-; split; [simpl; tauto |]; split; [simpl; intuition discriminate |]; eexists; split; [reflexivity |] |]); [> .. | destruct I];
        try reflexivity.
      destruct (CA scn S) as (_ & C & _). exact (ca_dest _ _ _ _ C name v' rv t T V Rv).
  Qed.

  Theorem C100_sources_partial x rest : (forall name v, conv_at s name = Some v -> List.length (v_src v) <= 1) -> plain_sources s -> whole ASrcConv ((ANetwork, x) :: rest) -> accepted ((ANetwork, x) :: rest) ->
    answered (begins s) src_label (about_src given) an ((ANetwork, x) :: rest).
  Proof.
    intros One Pl Wh Ac. destruct (solved_facts s answer r Api Pl Sv) as (R & M & CA). destruct (api_facts s Api) as (W & _ & Hh & Hn).
    pose proof (solved_usable s answer r W Hh Hn Sv) as Us. pose proof (complete_usable _ Us) as Co.
    destruct (build_src_eq s r bcast junk Api M Co One) as (cols & B & Ecols).
    rewrite (Ecols (some_convs M)) in B. clear Ecols cols.
    pose proof (faithful_sources s r Api M) as (Fa & Fb & Fn).
    destruct new_convs as (Bn & _). rewrite B in Bn. injection Bn as Bn.
    set (rows := flat_map (sblock s) (convs_of s r)) in *.
    assert (Nz : forall name v net nd q a scn t, is_source s r name v net nd q a -> scn < st_nb_scn s -> t < st_horizon s -> Qeq_bool (value q scn t) 0 = false).
    { intros name v net nd q a scn t (rv & V & Rv & G & _) S T. destruct (Qeq_bool (value q scn t) 0) eqn:Z; auto. exfalso.
      apply Qeq_bool_iff in Z. destruct (Us name v V) as (_ & _ & U). apply (U (net, nd) q scn t); auto. apply dget_In. exact G. }
    assert (Ky : keyed ASrcConv (Table scols8 rows)).
    { constructor; cbn [tb_cols tb_rows].
      - intros z I. simpl in I. unfold scols8. simpl. tauto.
      - intros y c I J. destruct (Fb y I) as (name & v & net & nd & q & a & scn & t & _ & _ & _ & ->). simpl in J. repeat (destruct J as [<-|J]; [exact Logic.I|]). destruct J.
      - exact Fn.
      - intros y c I J N. destruct (Fb y I) as (name & v & net & nd & q & a & scn & t & So & S & T & ->). unfold scols8 in J. simpl in J.
        repeat (destruct J as [<-|J]; [first [exact Logic.I | exfalso; apply N; simpl; tauto | cbn; rewrite (Nz _ _ _ _ _ _ _ _ So S T); exact Logic.I]|]). destruct J.
      - intros y I. destruct (Fb y I) as (name & v & net & nd & q & a & scn & t & So & S & T & ->).
        exists "flow". eexists. split; [unfold scols8; simpl; tauto|]. split; [simpl; intuition discriminate | reflexivity]. }
    set (at_row := fun (p : (string * (string * string)) * (nat * nat)) (y : trow) => let '((name, k), (scn, t)) := p in
      exists v q a, is_source s r name v (fst k) (snd k) q a /\ scn < st_nb_scn s /\ t < st_horizon s /\ y = src_row v (fst k) (snd k) q a scn t).
    refine (kind_seen (begins s) src_label (about_src given) ASrcConv an scols8 rows at_row [] _ _ Ky _ _ _ _ _ _ _ x rest Wh Ac).
    - cbn [table_of]. rewrite app_nil_r. congruence.
    - intros y [].
    - intros [[name [net nd]] [scn t]] y z (v & q & a & (rv & V & Rv & Gq & Ga) & _ & _ & ->) (v' & q' & a' & (rv' & V' & Rv' & Gq' & Ga') & _ & _ & ->). cbn [fst snd] in *. congruence.
    - intros [[name [net nd]] [scn t]] [[name' [net' nd']] [scn' t']] y (v & q & a & (rv & V & _) & _ & _ & ->) (v' & q' & a' & (rv' & V' & _) & _ & _ & Eq).
      cbn [fst snd] in *. assert (K := f_equal (key_of ["name"; "network"; "node"; "scn"; "t"]) Eq). cbn in K. injection K as K1 K2 K3 K4 K5.
      rewrite (conv_names _ _ V), (conv_names _ _ V') in K1. assert (scn = scn') by lia. assert (t = t') by lia. congruence.
    - intros [[name [net nd]] [scn t]] y (v & q & a & (rv & V & Rv & Gq & Ga) & S & T & _). exists (v, q). cbn [begins fst snd] in *. auto.
    - intros [[name [net nd]] [scn t]] [v q] (V & G & S & T). cbn [fst snd] in *. pose proof (mirror_conv s r M name) as Mc. rewrite V in Mc.
      destruct (rconv_at r name) as [rv |] eqn:Rv; [| contradiction]. destruct Mc as (_ & _ & F2).
      assert (exists a, dget (net, nd) (ov_src rv) = Some a) as (a & Ga).
      { clear - F2 G. revert G. induction F2 as [| [k z] [k' z'] l m [K _] _ IH]; cbn [dget]; [discriminate |]. cbn [fst] in K. subst k'.
        destruct (eqb (net, nd) k); eauto. }
      assert (So : is_source s r name v net nd q a) by (exists rv; auto).
      exists (src_row v net nd q a scn t). split; [exists v, q, a; auto 10 |]. eapply Fa; eauto.
    - intros y I. destruct (Fb y I) as (name & v & net & nd & q & a & scn & t & So & S & T & ->). exists ((name, (net, nd)), (scn, t)), v, q, a. auto 10.
    - intros [[name [net nd]] [scn t]] y [v q] ax (v' & q' & a & (rv & V & Rv & Gq & Ga) & _ & _ & ->) (V' & G' & _) I. cbn [fst snd] in *. rewrite V in V'. injection V' as <-.
      cbn [src_label]. rewrite <- (conv_names _ _ V). cbn [fst snd]. simpl in I. repeat (destruct I as [<- | I]; [reflexivity |]). destruct I.
    - intros [[name [net nd]] [scn t]] y [v q] c w (v' & q' & a & So & S & T & ->) (V' & G' & _) I. pose proof So as (rv & V & Rv & Gq & Ga). cbn [fst snd] in *.
      rewrite V in V'. injection V' as <-. rewrite Gq in G'. injection G' as <-. simpl in I.
      repeat (destruct I as [I | I]; [injection I as <- <-; split; [simpl; tauto |]; split; [simpl; intuition discriminate |]; eexists; split; [cbn; try rewrite (Nz _ _ _ _ _ _ _ _ So S T); reflexivity |] |]); [> .. | destruct I];
        try reflexivity.
      destruct (CA scn S) as (vs & _ & C). apply (ca_src _ _ _ _ C name v' rv net nd a t T V Rv). apply dget_In. exact Ga.
  Qed.
End Solved.

(** An example: network('elec').time([0, 1]).production().node().scn(slice(0, 2)) on the study [mix]. *)
Definition ask_prods : query :=
  [(ANetwork, str "elec"); (ATime, IList [CInt 0; CInt 1]); (AProd, INone); (ANode, INone); (AScn, ISlice (Some 0%Z) (Some 2%Z) None)].
Example C100_example : api_study mix /\ solved mix_answer mix mix_result /\ new_analyzer true no_junk mix mix_result = Ok mix_an /\
  storage_count mix <= 1 /\ whole AProd ask_prods /\ accepted ask_prods /\ ~ unanswered (stands n_prods mix) (label p_name) ask_prods /\
  exists o f, written_alone mix_an ask_prods = Some o /\ view o = Ok (SData (Some f)) /\
    tells (stands n_prods mix) (label p_name) (about_prod (fun scn => mix_answer scn (program_of mix scn))) ask_prods f /\
    2 <= List.length (fr_rows f) /\ ~ Forall (fun l => reads (snd l) "used" 0) (fr_rows f).
Proof.
  assert (U : ~ unanswered (stands n_prods mix) (label p_name) ask_prods).
  { intros [(a & x & rest & X & V) | (N & _)].
    - injection X as <- <- <-. apply (V (CStr "elec")). reflexivity.
    - apply (N AProd INone); [simpl; tauto | exact Logic.I]. }
  split; [apply mix_api |]. split; [apply mix_solved |]. split; [apply mix_an_new |]. split; [vm_compute; lia |].
  assert (Wh : whole AProd ask_prods) by perm_tac. assert (Ac : accepted ask_prods) by accepted_tac.
  split; auto. split; auto. split; auto.
  destruct (C100_productions mix_answer mix mix_result true no_junk mix_an mix_api mix_solved mix_an_new _ _ Wh Ac) as (_ & G).
  destruct (G U) as (o & f & W & V & T). exists o, f. split; auto. split; auto. split; auto.
  assert (X : written_alone mix_an ask_prods = Some o) by exact W. vm_compute in X. injection X as <-. vm_compute in V. injection V as <-.
  split; [vm_compute; lia |]. cbn [fr_rows]. intros H.
  repeat (let K := fresh "K" in inversion H as [| ? ? K H']; clear H; rename H' into H; subst; destruct K as (w & D & Q0); vm_compute in D; injection D as <-; try (vm_compute in Q0; discriminate Q0)).
Qed.

(** With two storages the lines of the first are missing. *)
Definition twin_an : analyzer := Eval vm_compute in
  match new_analyzer true no_junk twin twin_result with Ok an => an | Err _ => no_analyzer end.
Definition ask_stors : query := [(ANetwork, INone); (ANode, INone); (AStor, INone); (ATime, INone); (AScn, INone)].
Theorem C100_storages_refuted : exists s r an, api_study s /\ solved zero_answer s r /\ new_analyzer true no_junk s r = Ok an /\
  whole AStor ask_stors /\ accepted ask_stors /\ ~ unanswered (stands n_stors s) (label s_name) ask_stors /\
  ~ exists o f, written_alone an ask_stors = Some o /\ view o = Ok (SData (Some f)) /\
      tells (stands n_stors s) (label s_name) (about_stor (fun scn => zero_answer scn (program_of s scn))) ask_stors f.
Proof.
  exists twin, twin_result, twin_an. split; [apply twin_api |]. split; [apply twin_solved |]. split; [vm_compute; reflexivity |].
  split; [perm_tac |]. split; [accepted_tac |]. split.
  - intros [(a & x & rest & X & V) | (N & _)].
    + injection X as <- <- <-. apply (V (CStr "elec")). exact Logic.I.
    + apply (N AStor INone); [simpl; tauto | exact Logic.I].
  - intros (o & f & W & V & dropped & places & _ & _ & Iff & F2 & _). vm_compute in W. injection W as <-. vm_compute in V. injection V as <-.
    assert (L : In (("elec", "a", 0), (0, 0)) places /\ In (("elec", "a", 1), (0, 0)) places).
    { split; apply Iff; eexists; (split; [eexists; split; [vm_compute; reflexivity |]; split; [reflexivity |]; split; vm_compute; lia |]);
        intros a x I; simpl in I; repeat (destruct I as [I | I]; [injection I as <- <-; exact Logic.I |]); destruct I. }
    pose proof (Forall2_len _ _ _ F2) as Len. cbn [fr_rows List.length] in Len.
    destruct places as [| p [| p' ps]]; try discriminate Len. destruct L as ([L0 | []] & [L | []]). congruence.
Qed.

(** With two sources and two scenarios the lines of the sources carry wrong scenarios. *)
Definition blend_an : analyzer := Eval vm_compute in
  match new_analyzer true no_junk blend blend_result with Ok an => an | Err _ => no_analyzer end.
Definition ask_srcs : query := [(ANetwork, INone); (ANode, INone); (ASrcConv, INone); (ATime, INone); (AScn, INone)].
Theorem C100_sources_refuted : exists s r an, api_study s /\ plain_sources s /\ solved zero_answer s r /\ new_analyzer true no_junk s r = Ok an /\
  whole ASrcConv ask_srcs /\ accepted ask_srcs /\ ~ unanswered (begins s) src_label ask_srcs /\
  ~ exists o f, written_alone an ask_srcs = Some o /\ view o = Ok (SData (Some f)) /\
      tells (begins s) src_label (about_src (fun scn => zero_answer scn (program_of s scn))) ask_srcs f.
Proof.
  exists blend, blend_result, blend_an. split; [apply blend_api |]. split; [apply blend_plain |]. split; [apply blend_solved |]. split; [vm_compute; reflexivity |].
  split; [perm_tac |]. split; [accepted_tac |]. split.
  - intros [(a & x & rest & X & V) | (N & _)].
    + injection X as <- <- <-. apply (V (CStr "elec")). exact Logic.I.
    + apply (N ASrcConv INone); [simpl; tauto | exact Logic.I].
  - intros (o & f & W & V & dropped & places & _ & _ & Iff & F2 & _). vm_compute in W. injection W as <-. vm_compute in V. injection V as <-.
    assert (L : In (("plant", ("gas", "g")), (0, 0)) places /\ In (("plant", ("gas", "g")), (1, 0)) places /\ In (("plant", ("gas", "h")), (1, 0)) places).
    { repeat split; apply Iff; eexists (_, _); (split; [split; [vm_compute; reflexivity |]; split; [vm_compute; reflexivity |]; split; vm_compute; lia |]);
        intros a x I; simpl in I; repeat (destruct I as [I | I]; [injection I as <- <-; exact Logic.I |]); destruct I. }
    pose proof (Forall2_len _ _ _ F2) as Len. cbn [fr_rows List.length] in Len.
    destruct places as [| p [| p' [| p'' ps]]]; try discriminate Len. destruct L as (L1 & L2 & L3). simpl in L1, L2, L3.
    destruct L1 as [L1 | [L1 | []]], L2 as [L2 | [L2 | []]], L3 as [L3 | [L3 | []]]; congruence.
Qed.

(** The converter of [mix] from both sides; the destination of a converter of two sources. *)
Definition ask_dests : query := [(ANetwork, str "elec"); (ANode, str "a"); (ADestConv, INone); (ATime, INone); (AScn, INone)].
Definition ask_gas : query := [(ANetwork, str "gas"); (ANode, INone); (ASrcConv, IList [CStr "plant"]); (ATime, INone); (AScn, int 1)].
Example C100_converters_example : st_converters mix <> [] /\ List.length (st_converters mix) <= list_sum (source_counts mix) /\
  (forall name v, conv_at mix name = Some v -> List.length (v_src v) <= 1) /\ plain_sources mix /\
  whole ADestConv ask_dests /\ accepted ask_dests /\ whole ASrcConv ask_gas /\ accepted ask_gas /\
  (exists o f, written_alone mix_an ask_dests = Some o /\ view o = Ok (SData (Some f)) /\
     tells (ends mix) dest_label (about_dest (fun scn => mix_answer scn (program_of mix scn))) ask_dests f /\ List.length (fr_rows f) = 4) /\
  (exists o f, written_alone mix_an ask_gas = Some o /\ view o = Ok (SData (Some f)) /\
     tells (begins mix) src_label (about_src (fun scn => mix_answer scn (program_of mix scn))) ask_gas f /\ List.length (fr_rows f) = 2) /\
  list_sum (source_counts blend) = 2 /\
  (exists o f, written_alone blend_an ask_dests = Some o /\ view o = Ok (SData (Some f)) /\
     tells (ends blend) dest_label (about_dest (fun scn => zero_answer scn (program_of blend scn))) ask_dests f /\ List.length (fr_rows f) = 2).
Proof.
  assert (NE : st_converters mix <> []) by discriminate. assert (Le : List.length (st_converters mix) <= list_sum (source_counts mix)) by (vm_compute; lia).
  assert (One : forall name v, conv_at mix name = Some v -> List.length (v_src v) <= 1).
  { intros name v V. apply dget_In in V. simpl in V. destruct V as [V | []]. injection V as <- <-. simpl. lia. }
  assert (W1 : whole ADestConv ask_dests) by perm_tac. assert (A1 : accepted ask_dests) by accepted_tac.
  assert (W2 : whole ASrcConv ask_gas) by perm_tac. assert (A2 : accepted ask_gas) by accepted_tac.
  split; auto. split; auto. split; auto. split; [apply mix_plain |]. split; auto. split; auto. split; auto. split; auto. split; [| split; [| split; [reflexivity |]]].
  - destruct (C100_destinations_partial mix_answer mix mix_result true no_junk mix_an mix_api mix_solved mix_an_new NE _ _ Le W1 A1) as (_ & G).
    destruct G as (o & f & W & V & T).
    { intros [(a & x & rest & X & V) | (N & _)]; [injection X as <- <- <-; apply (V (CStr "elec")); reflexivity | apply (N ADestConv INone); [simpl; tauto | exact Logic.I]]. }
    exists o, f. split; auto. split; auto. split; auto. assert (X : written_alone mix_an ask_dests = Some o) by exact W. vm_compute in X. injection X as <-. vm_compute in V. injection V as <-. reflexivity.
  - destruct (C100_sources_partial mix_answer mix mix_result true no_junk mix_an mix_api mix_solved mix_an_new NE _ _ One mix_plain W2 A2) as (_ & G).
    destruct G as (o & f & W & V & T).
    { intros [(a & x & rest & X & V) | (N & _)]; [injection X as <- <- <-; apply (V (CStr "gas")); reflexivity | apply (N ANode INone); [simpl; tauto | exact Logic.I]]. }
    exists o, f. split; auto. split; auto. split; auto. assert (X : written_alone mix_an ask_gas = Some o) by exact W. vm_compute in X. injection X as <-. vm_compute in V. injection V as <-. reflexivity.
  - assert (New : new_analyzer true no_junk blend blend_result = Ok blend_an) by (vm_compute; reflexivity).
    destruct (C100_destinations_partial zero_answer blend blend_result true no_junk blend_an blend_api blend_solved New ltac:(discriminate) _ _ ltac:(vm_compute; lia) W1 A1) as (_ & G).
    destruct G as (o & f & W & V & T).
    { intros [(a & x & rest & X & V) | (N & _)]; [injection X as <- <- <-; apply (V (CStr "elec")); reflexivity | apply (N ADestConv INone); [simpl; tauto | exact Logic.I]]. }
    exists o, f. split; auto. split; auto. split; auto. assert (X : written_alone blend_an ask_dests = Some o) by exact W. vm_compute in X. injection X as <-. vm_compute in V. injection V as <-. reflexivity.
Qed.

Print Assumptions C100_consumptions.
Print Assumptions C100_productions.
Print Assumptions C100_links.
Print Assumptions C100_storages_partial.
Print Assumptions C100_example.
Print Assumptions C100_storages_refuted.
Print Assumptions C100_destinations_partial.
Print Assumptions C100_sources_partial.
Print Assumptions C100_sources_refuted.
Print Assumptions C100_converters_example.
