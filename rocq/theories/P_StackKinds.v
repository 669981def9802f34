(** Property C112: the kinds of quantity that the stacked view of a node can be asked for. *)
From Coq Require Import String Ascii List ZArith QArith Bool Arith Lia Lqa Permutation Sorted.
From Verif Require Import Base BaseFacts Numeric Study Fluent Output LP SpecStudy SpecLP StudyFacts LPFacts LPResult LPReady P_LP
  Analyzer SpecAnalyzer AnalyzerFacts P_Tables P_Exact QueryFacts P_Query P_Reuse SumFacts SpecTotals P_Totals P_Cost Viewer ViewFacts SpecViewer P_Viewer P_Map
  P_Stack SpecStack P_StackAll P_Kinds.
Import ListNotations.
Open Scope nat_scope.
Open Scope string_scope.
Open Scope list_scope.

(** ** An unknown kind *)
Section Missing.
  Variables (X : Type) (an : analyzer) (el : axis) (n h : nat) (els : list X) (row : X -> nat -> nat -> trow) (knet knode kname : X -> string) (cols : list string) (sur : list trow).
  Hypotheses (Sh : shelf an el n h els row knet knode kname cols sur) (Pn : 0 < n) (Ph : 0 < h) (Nm : axis_column el = "name").
  Variables (by_cost : list (list cell * trow) -> list (list cell * trow)).
  Hypothesis (Bc : forall l, Permutation (by_cost l) l).
  Variables (net nd : string) (scn : nat).
  Hypotheses (Ls : scn < n) (Cl : forall rw, In rw sur -> cell_of "scn" rw = CNaN \/ key_of ["network"; "node"] rw <> [CStr net; CStr nd]).
  Variables (col : string).
  Hypothesis (Out : In col cols -> In col ["network"; "node"; "name"; "scn"; "t"]).

  Lemma extract_missing sort x : In x els -> knet x = net -> knode x = nd -> extract by_cost an net nd (Z.of_nat scn) el col sort = Err KeyError.
  Proof.
    intros Ix E1 E2. set (sel := filter (fun x : X => (String.eqb (knet x) net && String.eqb (knode x) nd)%bool) els).
    assert (Is : In x sel) by (unfold sel; rewrite filter_In, E1, E2, !String.eqb_refl; auto).
    assert (NE : sel <> []) by (intros Z; rewrite Z in Is; destruct Is).
    destruct (node_fetch X an el n h els row knet knode kname cols sur Sh Pn Ph Nm net nd scn Ls Cl NE) as (rows & F & P). fold sel in P.
    unfold extract. rewrite F. cbn [rbind fr_levels fr_rows].
    set (rows' := if sort then by_cost rows else rows).
    match type of P with Permutation _ ?m => assert (P' : Permutation rows' m) by (unfold rows'; destruct sort; [eapply Permutation_trans; [apply Bc | exact P] | exact P]) end.
    replace (if sort then Frame ["name"; "t"] (by_cost rows) else Frame ["name"; "t"] rows) with (Frame ["name"; "t"] rows') by (unfold rows'; destruct sort; reflexivity).
    unfold level_values. cbn [fr_levels level_pos]. change (String.eqb "name" "name") with true. cbn [rbind fr_rows].
    destruct (unique_spec (map (fun l : list cell * trow => nth 0 (fst l) CNaN) rows')) as (_ & Iu).
    destruct (unique (map (fun l : list cell * trow => nth 0 (fst l) CNaN) rows')) as [|c ids].
    - exfalso. apply (proj2 (Iu (CStr (kname x)))). apply in_map_iff. eexists. split; [| eapply Permutation_in; [apply Permutation_sym, P' |]; apply in_flat_map; exists x; split; [exact Is |]; apply in_map_iff; exists 0; split; [reflexivity |]; apply in_seq; lia]. reflexivity.
    - assert (Hc : exists y, In y sel /\ c = CStr (kname y)).
      { pose proof (proj1 (Iu c) (or_introl eq_refl)) as I. apply in_map_iff in I as (l & <- & I). apply (Permutation_in _ P') in I. apply in_flat_map in I as (y & Iy & I). apply in_map_iff in I as (t & <- & _). exists y. auto. }
      destruct Hc as (y & Iy & ->). cbn [mapM]. destruct (in_index _ _); [| reflexivity].
      pose proof (loc_lines X an el n h els row knet knode kname cols sur Sh Pn Ph net nd scn y Iy rows' P') as L.
      destruct (frame_loc (CStr (kname y)) (Frame ["name"; "t"] rows')) as [lv ls] eqn:El. cbn [fr_rows] in L.
      rewrite (sort_back lv h _ ls L).
      rewrite (column_missing ["network"; "scn"; "node"; axis_column el; "t"] cols col lv (fun t => [CInt (Z.of_nat t)]) (row y scn)); [reflexivity | | destruct h; [lia | discriminate]].
      intros I. apply Out in I. rewrite Nm. simpl in *. tauto.
  Qed.
End Missing.

(** ** The two groups that take a kind *)
Section Kinds.
  Variables (s : study) (r : result) (bcast : bool) (junk : nat -> string -> nat -> cell) (an : analyzer).
  Hypotheses (Api : api_study s) (M : mirrors s r) (New : new_analyzer bcast junk s r = Ok an).
  Local Notation h := (st_horizon s).
  Local Notation n := (st_nb_scn s).
  Variables (by_cost : list (list cell * trow) -> list (list cell * trow)).
  Hypothesis (Bc : forall l, Permutation (by_cost l) l).
  Variables (net nd : string) (scn : nat) (nn : node).
  Hypotheses (Ls : scn < n) (Nn : node_at s net nd = Some nn).

  Lemma refused_prod kind : n_prods nn <> [] -> ~ In kind (kinds AProd) -> extract_if by_cost (List.length (n_prods nn)) an net nd (Z.of_nat scn) AProd kind true = Err KeyError.
  Proof.
    intros NE K. destruct (dims_pos s Api) as (Pn & Ph). pose proof (proj1 (api_facts s Api)) as W. destruct (n_prods nn) as [|p ps] eqn:E; [congruence |]. unfold extract_if. cbn [List.length Nat.ltb Nat.leb].
    assert (H : has_element s net nd AProd (p_name p)) by (eapply H_prod; [exact Nn | rewrite E; now left]).
    destruct (element_cases s r net nd _ _ M H) as [(x & o & _ & D & _) | [(x & o & I & _) | (x & o & _ & D & _)]]; [discriminate D | | discriminate D].
    apply (is_element_In n_prods on_prods s r W M) in I.
    apply (extract_missing _ an AProd n h _ _ _ _ _ _ _ (shelf_prod s r bcast junk an Api M New) Pn Ph eq_refl by_cost Bc net nd scn Ls ltac:(intros ? []) kind) with (x := (net, nd, x, o)); auto.
    unfold prod_cols. cbn in *. tauto.
  Qed.
  Lemma refused_cons kind : n_cons nn <> [] -> ~ In kind (kinds ACons) -> extract_if by_cost (List.length (n_cons nn)) an net nd (Z.of_nat scn) ACons kind true = Err KeyError.
  Proof.
    intros NE K. destruct (dims_pos s Api) as (Pn & Ph). pose proof (proj1 (api_facts s Api)) as W. destruct (n_cons nn) as [|p ps] eqn:E; [congruence |]. unfold extract_if. cbn [List.length Nat.ltb Nat.leb].
    assert (H : has_element s net nd ACons (c_name p)) by (eapply H_cons; [exact Nn | rewrite E; now left]).
    destruct (element_cases s r net nd _ _ M H) as [(x & o & I & _) | [(x & o & _ & D & _) | (x & o & _ & D & _)]]; [| discriminate D | discriminate D].
    apply (is_element_In n_cons on_cons s r W M) in I.
    apply (extract_missing _ an ACons n h _ _ _ _ _ _ _ (shelf_cons s r bcast junk an Api M New) Pn Ph eq_refl by_cost Bc net nd scn Ls ltac:(intros ? []) kind) with (x := (net, nd, x, o)); auto.
    unfold cons_cols. cbn in *. tauto.
  Qed.

  Lemma here_counts : exists i o, an_study an = s /\ node_elements s net nd = Ok [List.length (n_cons nn); List.length (n_prods nn); List.length (n_stors nn); List.length (n_links nn); i; o].
  Proof.
    destruct (node_elements_ok s net nd nn (proj1 (api_facts s Api)) Nn) as (size & En & (n' & i & o & N' & _ & _ & ->)). assert (n' = nn) by congruence. subst n'.
    exists i, o. split; auto. destruct (analyzer_tables s r bcast junk an Api M New) as (E & _). exact E.
  Qed.
  Lemma stack_head kp kc : exists i o, stack by_cost an net nd (Z.of_nat scn) kp kc =
    let* al := (let* a1 := extract_if by_cost (List.length (n_prods nn)) an net nd (Z.of_nat scn) AProd kp true in
    let* a2 := extract_if by_cost (List.length (n_stors nn)) an net nd (Z.of_nat scn) AStor "flow_out" true in
    let* a3 := extract_if by_cost o an net nd (Z.of_nat scn) ADestConv "flow" false in
    let* b := get_balance an nd net in
    let* b := nd_row b (Z.of_nat scn) in
    let* l1 := extract_if by_cost (List.length (n_cons nn)) an net nd (Z.of_nat scn) ACons kc true in
    let* l2 := extract_if by_cost (List.length (n_stors nn)) an net nd (Z.of_nat scn) AStor "flow_in" true in
    let* l3 := extract_if by_cost i an net nd (Z.of_nat scn) ASrcConv "flow" false in
    Ok (a1 ++ a2 ++ a3 ++ append_if "import" (map (fun q => - qmin q 0)%Q b), l1 ++ l2 ++ l3 ++ append_if "export" (map (fun q => qmax q 0) b))) in
    let* areas := layers (st_horizon s) (fst al) in let* lines := layers (st_horizon s) (snd al) in Ok (areas, rev lines).
  Proof.
    destruct here_counts as (i & o & E & C). exists i, o. unfold stack, stack_data. rewrite E. cbn [elements_inside]. rewrite C. reflexivity.
  Qed.
  (** With a known kind, or with no element, the group is drawn. *)
  Lemma known_prod kind : n_prods nn = [] \/ In kind (kinds AProd) -> exists p cl, extract_if by_cost (List.length (n_prods nn)) an net nd (Z.of_nat scn) AProd kind true = Ok cl /\ Forall2 (shown h) p cl.
  Proof.
    destruct (mirror_node_l s r M net nd nn Nn) as (rn & Nr & _).
    intros [E|K]; [rewrite E; exists [], []; split; [reflexivity | constructor] |]. assert (D : In kind ["used"; "avail"] \/ kind = "cost") by (cbn in *; intuition).
    destruct D as [D| ->].
    - destruct (prod_group s r bcast junk an Api M New by_cost Bc net nd scn nn rn Ls Nn Nr kind D) as (p & cl & E & F & _). eauto.
    - destruct (elem_group s r an Api M by_cost Bc net nd scn nn rn Ls Nn Nr n_prods on_prods _ prod_row prod_cols [] p_name AProd "cost" (fun p _ => value (p_cost p)) (shelf_prod s r bcast junk an Api M New) eq_refl ltac:(intros ? []) eq_refl (like_prods s)) with (sort := true) as (p & cl & E & F & _); eauto.
      + unfold prod_cols. simpl. tauto.
      + simpl. intuition discriminate.
  Qed.
  Lemma known_cons kind : n_cons nn = [] \/ In kind (kinds ACons) -> exists p cl, extract_if by_cost (List.length (n_cons nn)) an net nd (Z.of_nat scn) ACons kind true = Ok cl /\ Forall2 (shown h) p cl.
  Proof.
    destruct (mirror_node_l s r M net nd nn Nn) as (rn & Nr & _).
    intros [E|K]; [rewrite E; exists [], []; split; [reflexivity | constructor] |]. assert (D : In kind ["given"; "asked"] \/ kind = "cost") by (cbn in *; intuition).
    destruct D as [D| ->].
    - destruct (cons_group s r bcast junk an Api M New by_cost Bc net nd scn nn rn Ls Nn Nr kind D) as (p & cl & E & F & _). eauto.
    - destruct (elem_group s r an Api M by_cost Bc net nd scn nn rn Ls Nn Nr n_cons on_cons _ cons_row cons_cols [] c_name ACons "cost" (fun p _ => value (c_cost p)) (shelf_cons s r bcast junk an Api M New) eq_refl ltac:(intros ? []) eq_refl (like_cons s)) with (sort := true) as (p & cl & E & F & _); eauto.
      + unfold cons_cols. simpl. tauto.
      + simpl. intuition discriminate.
  Qed.
End Kinds.

(** ** Layers that can be added *)
Definition fits (h : nat) (d : cell * list cell) : Prop := List.length (snd d) = h \/ exists x, snd d = [x].
Lemma add_layer_iff st d : ((exists o, add_layer st d = Ok o) <-> List.length d = List.length st \/ exists x, d = [x]) /\ forall o, add_layer st d = Ok o -> List.length o = List.length st.
Proof.
  unfold add_layer. destruct (Nat.eqb_spec (List.length d) (List.length st)) as [E|E].
  - split; [split; eauto |]. intros o H. injection H as <-. unfold zip_cells. rewrite map_length, combine_length. lia.
  - split.
    + split; [| intros [H|(x & ->)]; [congruence | eauto]]. intros (o & H). destruct d as [|x [|? ?]]; try discriminate. eauto.
    + intros o H. destruct d as [|x [|? ?]]; try discriminate. injection H as <-. apply map_length.
Qed.
Lemma layers_iff h l : (exists out, layers h l = Ok out) <-> Forall (fits h) l.
Proof.
  unfold layers. match goal with |- context [foldM ?g l _] => set (f := g) end.
  assert (G : forall l st dn, List.length st = h -> ((exists o, foldM f l (st, dn) = Ok o) <-> Forall (fits h) l)).
  { clear l. induction l as [|d l IH]; intros st dn L; [split; [constructor | eexists; reflexivity] |]. cbn [foldM]. unfold f at 1. destruct (add_layer_iff st (snd d)) as (I & Len). rewrite L in I.
    destruct (add_layer st (snd d)) as [st'|e] eqn:E; cbn [rbind].
    - rewrite IH by (rewrite <- L; eauto). split; [intros F; constructor; auto; apply I; eauto | now inversion 1].
    - split; [intros (o & H); discriminate |]. inversion 1 as [|? ? F _]; subst. apply I in F as (o & F). discriminate. }
  specialize (G l (repeat (CNum 0) h) [] (repeat_length _ _)). rewrite <- G. destruct (foldM f l (repeat (CNum 0) h, [])); cbn [rbind]; split; intros (o & H); eauto; discriminate.
Qed.
Lemma shown_fits h p cl : Forall2 (shown h) p cl -> Forall (fits h) cl.
Proof.
  induction 1 as [|x y p cl H F IH]; constructor; auto. left. destruct H as (_ & H). apply Forall2_len in H. rewrite map_length, seq_length in H. exact H.
Qed.

(** ** Theorems *)

(** Asked at a node with productions for a kind they do not have, the view is refused. *)
Theorem C112_production_kind_refused bcast junk s r an by_cost net nd scn nn kp kc : api_study s -> mirrors s r -> new_analyzer bcast junk s r = Ok an ->
  (forall l, Permutation (by_cost l) l) -> scn < st_nb_scn s -> node_at s net nd = Some nn -> n_prods nn <> [] -> ~ In kp (kinds AProd) ->
  stack by_cost an net nd (Z.of_nat scn) kp kc = Err KeyError.
Proof.
  intros A M N B Ls Nn NE K. destruct (stack_head s r bcast junk an A M N by_cost net nd scn nn Nn kp kc) as (i & o & ->).
  now rewrite (refused_prod s r bcast junk an A M N by_cost B net nd scn nn Ls Nn kp NE K).
Qed.
(** So it is with consumptions. *)
Theorem C112_consumption_kind_refused bcast junk s r an by_cost net nd scn nn kp kc : api_study s -> mirrors s r -> new_analyzer bcast junk s r = Ok an ->
  (forall l, Permutation (by_cost l) l) -> scn < st_nb_scn s -> node_at s net nd = Some nn -> n_cons nn <> [] -> ~ In kc (kinds ACons) ->
  exists e, stack by_cost an net nd (Z.of_nat scn) kp kc = Err e.
Proof.
  intros A M N B Ls Nn NE K. destruct (stack_head s r bcast junk an A M N by_cost net nd scn nn Nn kp kc) as (i & o & ->).
  pose proof (refused_cons s r bcast junk an A M N by_cost B net nd scn nn Ls Nn kc NE K) as R.
  destruct (extract_if by_cost (List.length (n_prods nn)) an net nd (Z.of_nat scn) AProd kp true); cbn [rbind]; eauto.
  destruct (extract_if by_cost (List.length (n_stors nn)) an net nd (Z.of_nat scn) AStor "flow_out" true); cbn [rbind]; eauto.
  destruct (extract_if by_cost o an net nd (Z.of_nat scn) ADestConv "flow" false); cbn [rbind]; eauto.
  destruct (get_balance an nd net) as [b|]; cbn [rbind]; eauto. destruct (nd_row b (Z.of_nat scn)); cbn [rbind]; eauto. rewrite R. cbn [rbind]. eauto.
Qed.
(** A kind is not looked at when there is no element to take it. *)
Theorem C112_kind_not_looked_at bcast junk s r an by_cost net nd scn nn : api_study s -> mirrors s r -> new_analyzer bcast junk s r = Ok an -> node_at s net nd = Some nn ->
  (n_prods nn = [] -> forall kp kp' kc, stack by_cost an net nd (Z.of_nat scn) kp kc = stack by_cost an net nd (Z.of_nat scn) kp' kc) /\
  (n_cons nn = [] -> forall kp kc kc', stack by_cost an net nd (Z.of_nat scn) kp kc = stack by_cost an net nd (Z.of_nat scn) kp kc').
Proof.
  intros A M N Nn. destruct (here_counts s r bcast junk an A M N net nd nn Nn) as (i & o & E & C).
  split; intros Z; intros; unfold stack, stack_data; rewrite E; cbn [elements_inside]; rewrite C, Z; reflexivity.
Qed.
(** The view that is drawn for some kinds is drawn for exactly the kinds of the elements of the node. *)
Theorem C112_kinds_exact bcast junk s r an by_cost net nd scn nn : api_study s -> mirrors s r -> new_analyzer bcast junk s r = Ok an ->
  (forall l, Permutation (by_cost l) l) -> scn < st_nb_scn s -> node_at s net nd = Some nn ->
  (exists kp kc curves, stack by_cost an net nd (Z.of_nat scn) kp kc = Ok curves) -> forall kp kc,
  ((exists areas lines, stack by_cost an net nd (Z.of_nat scn) kp kc = Ok (areas, lines)) <->
   (n_prods nn = [] \/ In kp (kinds AProd)) /\ (n_cons nn = [] \/ In kc (kinds ACons))).
Proof.
  intros A M N B Ls Nn (k1 & k2 & cu & E0) kp kc. split.
  - intros (a & l & E). split.
    + destruct (n_prods nn) eqn:Z; [now left | right]. destruct (in_dec string_dec kp (kinds AProd)) as [I|I]; auto.
      rewrite (C112_production_kind_refused bcast junk s r an by_cost net nd scn nn kp kc A M N B Ls Nn) in E; auto; [discriminate | congruence].
    + destruct (n_cons nn) eqn:Z; [now left | right]. destruct (in_dec string_dec kc (kinds ACons)) as [I|I]; auto.
      destruct (C112_consumption_kind_refused bcast junk s r an by_cost net nd scn nn kp kc A M N B Ls Nn) as (e & E'); auto; [congruence | rewrite E' in E; discriminate].
  - intros (Kp & Kc). destruct (here_counts s r bcast junk an A M N net nd nn Nn) as (i & o & Es & C).
    destruct (known_prod s r bcast junk an A M N by_cost B net nd scn nn Ls Nn kp Kp) as (p & cp & E1 & F1). apply shown_fits in F1.
    destruct (known_cons s r bcast junk an A M N by_cost B net nd scn nn Ls Nn kc Kc) as (c & cc & E4 & F4). apply shown_fits in F4.
    unfold stack, stack_data in *. rewrite Es in *. cbn [elements_inside] in *. rewrite C in *. cbn [rbind nth] in *. rewrite E1, E4. clear E1 E4.
    destruct (extract_if by_cost (List.length (n_prods nn)) an net nd (Z.of_nat scn) AProd k1 true) as [a1|]; [| discriminate]. cbn [rbind] in *.
    destruct (extract_if by_cost (List.length (n_stors nn)) an net nd (Z.of_nat scn) AStor "flow_out" true) as [a2|]; [| discriminate]. cbn [rbind] in *.
    destruct (extract_if by_cost o an net nd (Z.of_nat scn) ADestConv "flow" false) as [a3|]; [| discriminate]. cbn [rbind] in *.
    destruct (get_balance an nd net) as [b|]; [| discriminate]. cbn [rbind] in *. destruct (nd_row b (Z.of_nat scn)) as [bb|]; [| discriminate]. cbn [rbind] in *.
    destruct (extract_if by_cost (List.length (n_cons nn)) an net nd (Z.of_nat scn) ACons k2 true) as [l1|]; [| discriminate]. cbn [rbind] in *.
    destruct (extract_if by_cost (List.length (n_stors nn)) an net nd (Z.of_nat scn) AStor "flow_in" true) as [l2|]; [| discriminate]. cbn [rbind] in *.
    destruct (extract_if by_cost i an net nd (Z.of_nat scn) ASrcConv "flow" false) as [l3|]; [| discriminate]. cbn [rbind fst snd] in *.
    match type of E0 with rbind (layers ?h (a1 ++ ?u)) _ = _ => destruct (layers h (a1 ++ u)) as [y1|] eqn:Y1; [| discriminate]; cbn [rbind] in E0;
      assert (G1 : exists out, layers h (cp ++ u) = Ok out) by (apply layers_iff, Forall_app; split; auto; assert (Z : Forall (fits h) (a1 ++ u)) by (apply layers_iff; eauto); apply Forall_app in Z as [_ Z]; exact Z) end.
    match type of E0 with rbind (layers ?h (l1 ++ ?u)) _ = _ => destruct (layers h (l1 ++ u)) as [y2|] eqn:Y2; [| discriminate];
      assert (G2 : exists out, layers h (cc ++ u) = Ok out) by (apply layers_iff, Forall_app; split; auto; assert (Z : Forall (fits h) (l1 ++ u)) by (apply layers_iff; eauto); apply Forall_app in Z as [_ Z]; exact Z) end.
    destruct G1 as (o1 & ->). destruct G2 as (o2 & ->). cbn [rbind]. eauto.
Qed.
(** This view is drawn where C65 says what it shows. *)
Theorem C112_kinds_of_right_views bcast junk s r an by_cost net nd scn nn kp kc : api_study s -> mirrors s r -> new_analyzer bcast junk s r = Ok an ->
  (forall l, Permutation (by_cost l) l) -> scn < st_nb_scn s -> node_at s net nd = Some nn -> unwritten junk s -> well_read bcast s -> sources_right s net nd ->
  ((exists areas lines, stack by_cost an net nd (Z.of_nat scn) kp kc = Ok (areas, lines)) <->
   (n_prods nn = [] \/ In kp (kinds AProd)) /\ (n_cons nn = [] \/ In kc (kinds ACons))).
Proof.
  intros A M N B Ls Nn Un Wr Sr. apply (C112_kinds_exact bcast junk s r an by_cost net nd scn nn A M N B Ls Nn).
  assert (Hn : has_node s net nd) by (unfold has_node; congruence).
  destruct (C65_stack_any_storages_partial bcast junk s r an by_cost net nd scn "used" "given" A M N B Hn Ls Un Wr Sr (or_introl eq_refl) (or_introl eq_refl)) as (a & l & E & _). eauto.
Qed.

Example C112_example : api_study band /\ mirrors band band_result /\ new_analyzer true no_junk band band_result = Ok band_an /\
  (exists nn, node_at band "elec" "b" = Some nn /\ n_prods nn = [] /\ n_cons nn <> []) /\ (exists nn, node_at band "gas" "g" = Some nn /\ n_prods nn <> [] /\ n_cons nn = []) /\
  (exists c, stack as_is band_an "elec" "b" 1 "used" "cost" = Ok c) /\ (exists c, stack as_is band_an "elec" "b" 1 "no" "given" = Ok c) /\ stack as_is band_an "elec" "b" 1 "used" "used" = Err KeyError /\
  (exists c, stack as_is band_an "gas" "g" 0 "cost" "no" = Ok c) /\ stack as_is band_an "gas" "g" 0 "flow" "given" = Err KeyError.
Proof.
  split; [apply band_api |]. split; [apply band_mirrors |]. split; [apply band_an_new |]. split; [eexists; split; [vm_compute; reflexivity | split; [reflexivity | discriminate]] |].
  split; [eexists; split; [vm_compute; reflexivity | split; [discriminate | reflexivity]] |]. repeat split; try (eexists; vm_compute; reflexivity); vm_compute; reflexivity.
Qed.

Print Assumptions C112_production_kind_refused.
Print Assumptions C112_consumption_kind_refused.
Print Assumptions C112_kind_not_looked_at.
Print Assumptions C112_kinds_exact.
Print Assumptions C112_kinds_of_right_views.
