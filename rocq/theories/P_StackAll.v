(** Stacked view of a node with any number of storages: C59, C65. *)
From Coq Require Import String Ascii List ZArith QArith Bool Arith Lia Lqa Permutation Sorted.
Import ListNotations.
From Verif Require Import Base BaseFacts Numeric Study Fluent Output LP SpecStudy SpecLP StudyFacts LPFacts LPResult LPReady P_LP
  Analyzer SpecAnalyzer AnalyzerFacts P_Tables P_Exact QueryFacts P_Query P_Reuse SumFacts SpecTotals P_Totals P_Cost Viewer ViewFacts SpecViewer P_Viewer P_Map P_Stack SpecStack.
Open Scope nat_scope.
Open Scope string_scope.
Open Scope list_scope.

Section Any.
  Variables (s : study) (r : result) (bcast : bool) (junk : nat -> string -> nat -> cell) (an : analyzer).
  Hypotheses (Api : api_study s) (M : mirrors s r) (New : new_analyzer bcast junk s r = Ok an).
  Local Notation h := (st_horizon s).
  Local Notation n := (st_nb_scn s).
  Variables (by_cost : list (list cell * trow) -> list (list cell * trow)).
  Hypothesis (Bc : forall l, Permutation (by_cost l) l).
  Variables (net nd : string) (scn : nat) (nn : node) (rn : onode).
  Hypotheses (Ls : scn < n) (Nn : node_at s net nd = Some nn) (Nr : rnode_at r net nd = Some rn) (Un : unwritten junk s).

  Lemma kept_iff k d e o : In (k, d, e, o) (kept (stors_of s r)) <-> is_element n_stors on_stors s r k d e o /\ last_element n_stors s k d e.
  Proof.
    destruct (api_facts s Api) as (W & _). split.
    - intros I. split.
      + apply (is_element_In n_stors on_stors s r W M). now apply kept_In.
      + destruct (stors_of s r) as [|y els _] eqn:EL using rev_ind; [destruct I |]. rewrite kept_last in I. destruct I as [->|[]].
        exact (elements_last n_stors on_stors s r M (like_stors s) els k d e o EL).
    - intros [El La]. rewrite (stor_last s r Api M k d e o El La). now left.
  Qed.

  (** Nothing is kept in this node: nothing is drawn. *)
  Lemma extract_none col sort : (forall y, In y (kept (stors_of s r)) -> enet y = net -> enode y = nd -> False) ->
    extract by_cost an net nd (Z.of_nat scn) AStor col sort = Ok [].
  Proof.
    intros NI. pose proof (shelf_stor s r bcast junk an Api M New) as Sh. pose proof (sh_table _ _ _ _ _ _ _ _ _ _ _ Sh) as T. cbn [table_of] in T. injection T as T.
    assert (F : fetch an (str net) [(AScn, int (Z.of_nat scn)); (ANode, str nd); (AStor, INone); (ATime, INone)] = Ok (Frame ["network"; "scn"; "node"; "name"; "t"] [])).
    { apply (fetch_eq an AStor _ _ [Index ANetwork false [CStr net]; Index AScn false [CInt (Z.of_nat scn)]; Index ANode false [CStr nd]; Index AStor true []; Index ATime true []]).
      - eapply sh_kind; exact Sh.
      - unfold whole. cbn [map fst]. apply perm_skip. transitivity [ANode; AScn; AStor; ATime]; [apply perm_swap|]. apply perm_skip. apply perm_swap.
      - reflexivity.
      - unfold an_filter, check_index. cbn [existsb ix_axis axis_eqb orb andb].
        assert (P : pivot [Index ANetwork false [CStr net]; Index AScn false [CInt (Z.of_nat scn)]; Index ANode false [CStr nd]; Index AStor true []; Index ATime true []] (an_stor an) =
          Ok (Frame ["network"; "scn"; "node"; "name"; "t"] [])).
        { unfold pivot. replace (filter _ (tb_rows (an_stor an))) with (@nil trow); [rewrite T; reflexivity |].
          symmetry. apply filter_none. intros rw I. destruct (forallb _ _) eqn:Fb; auto. exfalso. rewrite forallb_forall in Fb.
          pose proof (Fb _ (or_introl eq_refl)) as H1. pose proof (Fb _ (or_intror (or_intror (or_introl eq_refl)))) as H3.
          unfold ix_keeps in H1, H3. cbn [ix_all ix_index] in H1, H3. apply mem_In in H1 as [H1|[]]. apply mem_In in H3 as [H3|[]]. cbn in H1, H3.
          rewrite T in I. cbn [tb_rows] in I. apply in_app_or in I as [I|I].
          - apply blocks_In in I as (y & scn' & t & Iy & _ & _ & ->). rewrite (cell_net _ _ _ _ _ _ _ _ _ _ _ _ Sh) in H1. rewrite (cell_node _ _ _ _ _ _ _ _ _ _ _ _ Sh) in H3.
            apply (NI y Iy); congruence.
          - assert (J : In net (dkeys (st_networks s))).
            { unfold node_at in Nn. destruct (dget net (st_networks s)) as [ns|] eqn:D; [|discriminate]. apply dget_In in D. apply in_map_iff. exists (net, ns). auto. }
            destruct (surplus_strange s r M junk net nd "" Un J rw I) as (D & _). congruence. }
        rewrite P. reflexivity. }
    unfold extract. rewrite F. cbn [rbind fr_levels fr_rows].
    assert (B0 : by_cost [] = []) by (apply Permutation_nil, Permutation_sym, Bc).
    destruct sort; [rewrite B0 |]; reflexivity.
  Qed.

  Lemma any_group kind f : (kind = "flow_in" /\ f = (fun o => entry (os_flow_in o))) \/ (kind = "flow_out" /\ f = (fun o => entry (os_flow_out o))) ->
    exists p cl, extract_if by_cost (List.length (n_stors nn)) an net nd (Z.of_nat scn) AStor kind true = Ok cl /\
       Forall2 (shown h) p cl /\ listed (kept_flow s r net nd kind) scn p /\ forall t q, seen s r net nd kind scn t q -> (thick p t == q)%Q.
  Proof.
    intros K. pose proof (shelf_stor s r bcast junk an Api M New) as Sh. destruct (dims_pos s Api) as (Pn & Ph). destruct (api_facts s Api) as (W & _).
    assert (KF : forall nm G, kept_flow s r net nd kind nm G <-> exists y, (In y (kept (stors_of s r)) /\ enet y = net /\ enode y = nd) /\ nm = ename s_name y /\ G = f (snd y)).
    { intros nm G. split.
      - destruct K as [[-> ->]|[-> ->]]; intros H; inversion H; subst; exists (net, nd, x, o); (split; [split; [now apply kept_iff | split; reflexivity] | split; reflexivity]).
      - intros ([[[k d] e] o] & (I & E1 & E2) & -> & ->). unfold enet, enode in E1, E2. cbn [fst snd] in *. subst k d. apply kept_iff in I as [El La].
        destruct K as [[-> ->]|[-> ->]]; unfold ename; cbn [fst snd]; constructor; auto. }
    assert (SE : forall p, listed (kept_flow s r net nd kind) scn p -> forall t q, seen s r net nd kind scn t q -> (thick p t == q)%Q).
    { intros p [ND HL] t q Sq. destruct Sq as [(nm & G & HF & ->)|(No & ->)].
      - assert (Un1 : forall nm' G', kept_flow s r net nd kind nm' G' -> nm' = nm /\ G' = G).
        { intros nm' G' H'. apply KF in HF as (y & (Iy & _) & -> & ->). apply KF in H' as (y' & (Iy' & _) & -> & ->).
          assert (y = y'). { unfold kept in Iy, Iy'. destruct (rev (stors_of s r)); [destruct Iy |]. destruct Iy as [<-|[]]. destruct Iy' as [<-|[]]. reflexivity. } subst y'. auto. }
        assert (I : In (nm, G scn) p) by (apply HL; eauto).
        assert (All : forall x, In x p -> x = (nm, G scn)).
        { intros [nm' g'] J. apply HL in J as (G' & H' & ->). destruct (Un1 _ _ H') as [-> ->]. reflexivity. }
        destruct p as [|x [|y p]]; [destruct I | |].
        + rewrite (All x (or_introl eq_refl)). unfold thick. cbn. ring.
        + exfalso. rewrite (All x (or_introl eq_refl)), (All y (or_intror (or_introl eq_refl))) in ND. cbn in ND. inversion ND as [|? ? NI _]. apply NI. now left.
      - destruct p as [|[nm g] p]; [reflexivity |]. exfalso. destruct (proj1 (HL nm g) (or_introl eq_refl)) as (G & H & _). exact (No _ _ H). }
    assert (Cases : (exists y, In y (kept (stors_of s r)) /\ enet y = net /\ enode y = nd) \/ forall y, In y (kept (stors_of s r)) -> enet y = net -> enode y = nd -> False).
    { unfold kept. destruct (rev (stors_of s r)) as [|y l]; [right; intros y [] |]. destruct (string_dec (enet y) net) as [E1|E1]; [destruct (string_dec (enode y) nd) as [E2|E2] |].
      - left. exists y. cbn. auto.
      - right. intros y' [<-|[]]. congruence.
      - right. intros y' [<-|[]]. congruence. }
    assert (Empty : (forall y, In y (kept (stors_of s r)) -> enet y = net -> enode y = nd -> False) -> listed (kept_flow s r net nd kind) scn []).
    { intros NI. split; [constructor |]. intros nm g. split; [intros [] |]. intros (G & H & _). apply KF in H as (y & (I & E1 & E2) & _). exact (NI y I E1 E2). }
    destruct Cases as [Ex|NI].
    - destruct (extracted _ an AStor n h (kept (stors_of s r)) (erow stor_row) enet enode (ename s_name) stor_cols (stor_surplus s r junk) (fun _ => Sh) Pn Ph eq_refl by_cost Bc net nd scn Ls
        (stor_clean s r junk M net nd nn Nn Un) kind (fun y => f (snd y))) with (count := List.length (n_stors nn)) (sort := true) (P := kept_flow s r net nd kind) as (p & cl & E & Fs & Li & _).
      + destruct K as [[-> _]|[-> _]]; unfold stor_cols; simpl; tauto.
      + destruct K as [[-> _]|[-> _]]; simpl; intuition discriminate.
      + intros [[[k d] e] o] scn' t _. destruct K as [[-> ->]|[-> ->]]; reflexivity.
      + split; auto. intros _. destruct Ex as ([[[k d] e] o] & I & E1 & E2). unfold enet, enode in E1, E2. cbn [fst snd] in *. subst k d. apply kept_iff in I as [(n' & rn' & i & N1 & _ & X & _) _].
        assert (n' = nn) by congruence. subst n'. intros Z. destruct (n_stors nn); [destruct i; discriminate | discriminate].
      + exact KF.
      + exists p, cl. split; auto.
    - exists [], []. split; [| split; [constructor | split; [auto | apply SE; auto]]]. unfold extract_if. destruct (Nat.ltb 0 _); [| reflexivity]. now apply extract_none.
  Qed.

  Lemma stack_any kp kc : analysable s -> sources_right s net nd -> In kp ["used"; "avail"] -> In kc ["given"; "asked"] -> exists areas lines,
    stack by_cost an net nd (Z.of_nat scn) kp kc = Ok (areas, lines) /\ stack_seen s r net nd scn kp kc areas lines /\
    (kp = "used" -> forall t q, t < h -> seen s r net nd "flow_out" scn t q -> top_height t areas (produced scn rn t + q + received s r scn net nd t + positive (- balance r net nd scn t))) /\
    (kc = "given" -> forall t q, t < h -> seen s r net nd "flow_in" scn t q -> top_height t (rev lines) (served scn rn t + q + sent r scn net nd t + positive (balance r net nd scn t))).
  Proof.
    intros An Sr Kp Kc. destruct (api_facts s Api) as (W & _).
    assert (Es : an_study an = s) by (destruct (analyzer_tables s r bcast junk an Api M New) as (E & _); exact E).
    destruct (node_elements_ok s net nd nn W Nn) as (size & En & (n' & i & o & N' & Ci & Co & ->)). assert (n' = nn) by congruence. subst n'.
    destruct (prod_group s r bcast junk an Api M New by_cost Bc net nd scn nn rn Ls Nn Nr kp Kp) as (p & cp & E1 & F1 & L1 & T1).
    destruct (any_group "flow_out" _ (or_intror (conj eq_refl eq_refl))) as (x & cx & E2 & F2 & L2 & T2). destruct (any_group "flow_in" _ (or_introl (conj eq_refl eq_refl))) as (x' & cx' & E5 & F5 & L5 & T5).
    destruct (dest_group s r bcast junk an Api M New by_cost Bc net nd scn nn rn Ls Nn Nr o An Co) as (v & cv & E3 & F3 & L3 & T3).
    destruct (cons_group s r bcast junk an Api M New by_cost Bc net nd scn nn rn Ls Nn Nr kc Kc) as (c & cc & E4 & F4 & L4 & T4).
    destruct (src_group s r bcast junk an Api M New by_cost Bc net nd scn Ls i An Sr Ci) as (v' & cv' & E6 & F6 & L6 & T6).
    destruct (balance_of s r bcast junk an Api M New net nd) as (g & Eb & Hb).
    destruct (exchange_layer s scn Ls "import" (fun t => (- qmin (g scn t) 0)%Q) (fun t => positive (- balance r net nd scn t))) as (im & Fi & Ui & Ti).
    { intros t L. pose proof (Hb scn t Ls L) as Hg. unfold qmin, positive. destruct (qlt 0 (g scn t)) eqn:B; [apply qlt_lt in B | apply qlt_false in B];
        destruct (Qle_bool 0 (- balance r net nd scn t)) eqn:B2; try (apply Qle_bool_iff in B2); try (assert (B3 : ~ (0 <= - balance r net nd scn t)%Q) by (intros Z; apply Qle_bool_iff in Z; congruence)); lra. }
    destruct (exchange_layer s scn Ls "export" (fun t => (qmax (g scn t) 0)%Q) (fun t => positive (balance r net nd scn t))) as (ex & Fe & Ue & Te).
    { intros t L. pose proof (Hb scn t Ls L) as Hg. unfold qmax, positive. destruct (qlt (g scn t) 0) eqn:B; [apply qlt_lt in B | apply qlt_false in B];
        destruct (Qle_bool 0 (balance r net nd scn t)) eqn:B2; try (apply Qle_bool_iff in B2); try (assert (B3 : ~ (0 <= balance r net nd scn t)%Q) by (intros Z; apply Qle_bool_iff in Z; congruence)); lra. }
    unfold stack, stack_data. rewrite Es. cbn [elements_inside]. rewrite En. cbn [rbind nth]. rewrite E1. cbn [rbind]. rewrite E2. cbn [rbind]. rewrite E3. cbn [rbind]. rewrite Eb. cbn [rbind].
    rewrite nd_row_garr by auto. cbn [rbind]. rewrite E4. cbn [rbind]. rewrite E5. cbn [rbind]. rewrite E6. cbn [rbind fst snd]. rewrite !map_map.
    destruct (layers_ok h (cp ++ cx ++ cv ++ append_if "import" (map (fun t => (- qmin (g scn t) 0)%Q) (seq 0 h))) (p ++ x ++ v ++ im)) as (areas & -> & Pa); [repeat apply Forall2_app; auto|].
    destruct (layers_ok h (cc ++ cx' ++ cv' ++ append_if "export" (map (fun t => (qmax (g scn t) 0)%Q) (seq 0 h))) (c ++ x' ++ v' ++ ex)) as (lines & -> & Pl); [repeat apply Forall2_app; auto|].
    cbn [rbind]. exists areas, (rev lines). split; auto. rewrite rev_involutive.
    assert (App : forall a b t, (thick (a ++ b) t == thick a t + thick b t)%Q) by (intros a b t; unfold thick; rewrite map_app; apply qsum_app).
    split; [|split].
    - constructor; [exists p, x, v, im; auto | exists c, x', v', ex; rewrite rev_involutive; auto].
    - intros K t q L Sq. eapply height_eq; [|apply (piled_height h t _ _ L Pa)]. rewrite !App, (T1 K), (T2 t q Sq), T3, Ti by auto. ring.
    - intros K t q L Sq. eapply height_eq; [|apply (piled_height h t _ _ L Pl)]. rewrite !App, (T4 K), (T5 t q Sq), T6, Te by auto. ring.
  Qed.
End Any.

(** Whatever the storages, the curves are those of the productions, of the last storage of the
    study if it is in the node, of the converters and of the exchanges. *)
Theorem C65_stack_any_storages_partial bcast junk s r an by_cost net nd scn kp kc : api_study s -> mirrors s r -> new_analyzer bcast junk s r = Ok an ->
  (forall l, Permutation (by_cost l) l) -> has_node s net nd -> scn < st_nb_scn s -> unwritten junk s -> well_read bcast s -> sources_right s net nd ->
  In kp ["used"; "avail"] -> In kc ["given"; "asked"] ->
  exists areas lines, stack by_cost an net nd (Z.of_nat scn) kp kc = Ok (areas, lines) /\ stack_seen s r net nd scn kp kc areas lines.
Proof.
  intros A M N B Hn Ls Un Wr Sr Kp Kc. unfold has_node in Hn. destruct (node_at s net nd) as [nn|] eqn:Nn; [|congruence]. destruct (mirror_node_l s r M net nd nn Nn) as (rn & Nr & _).
  destruct (stack_any s r bcast junk an A M N by_cost B net nd scn nn rn Ls Nn Nr Un kp kc (well_read_analysable bcast junk s r an A M Wr N) Sr Kp Kc) as (areas & lines & E & S & _). eauto.
Qed.

(** Lines are above areas by the energy on links of the node to itself and by what the storages
    that are not shown give, less what they take. *)
Theorem C59_stack_any_storages_partial bcast junk answer s r an by_cost net nd scn : api_study s -> plain_sources s -> solved answer s r -> new_analyzer bcast junk s r = Ok an ->
  (forall l, Permutation (by_cost l) l) -> scn < st_nb_scn s -> feasible_answer answer s scn -> unwritten junk s -> well_read bcast s -> sources_right s net nd ->
  forall rn, rnode_at r net nd = Some rn ->
  exists areas lines, stack by_cost an net nd (Z.of_nat scn) "used" "given" = Ok (areas, lines) /\
    forall t out inn, t < st_horizon s -> seen s r net nd "flow_out" scn t out -> seen s r net nd "flow_in" scn t inn ->
    exists q, top_height t areas q /\ top_height t (rev lines) (q + looped scn nd rn t + (withdrawn scn rn t - out) - (stored scn rn t - inn)).
Proof.
  intros A P SV N B Ls Fe Un Wr Sr rn Nr. destruct (C27_result_mirrors_study_any_names answer s r A SV) as (M & _). destruct (mirror_node_r s r M net nd rn Nr) as (nn & Nn & _).
  destruct (stack_any s r bcast junk an A M N by_cost B net nd scn nn rn Ls Nn Nr Un "used" "given" (well_read_analysable bcast junk s r an A M Wr N) Sr ltac:(simpl; auto) ltac:(simpl; auto)) as (areas & lines & E & _ & Ha & Hl).
  exists areas, lines. split; auto. intros t out inn L So Si. specialize (Ha eq_refl t out L So). specialize (Hl eq_refl t inn L Si). eexists. split; [exact Ha|]. eapply height_eq; [|exact Hl].
  pose proof (C16_nodal_balance_with_loops answer s r scn A P SV Ls Fe t net nd rn L Nr) as Bal. pose proof (positive_diff (balance r net nd scn t)) as D.
  unfold balance in D at 3. rewrite Nr in D. lra.
Qed.

(** Two storages: the first serves the load and is not shown, the second is shown and still. *)
Lemma duo_solved : solved duo_answer duo duo_result.
Proof. exists [0], no_bench. split; [reflexivity | vm_compute; reflexivity]. Qed.
Example C59_any_storages_hypotheses : api_study duo /\ plain_sources duo /\ solved duo_answer duo duo_result /\ mirrors duo duo_result /\ new_analyzer true no_junk duo duo_result = Ok duo_an /\
  feasible_answer duo_answer duo 0 /\ unwritten no_junk duo /\ well_read true duo /\ sources_right duo "net" "a" /\ has_node duo "net" "a" /\ ~ storages_kept duo "net" "a".
Proof.
  split; [apply duo_api|]. split; [apply plainb_ok; vm_compute; reflexivity|]. split; [apply duo_solved|]. split; [exact (proj1 (C27_result_mirrors_study_any_names duo_answer duo duo_result duo_api duo_solved))|].
  split; [vm_compute; reflexivity|]. split; [apply satb_ok; vm_compute; reflexivity|]. split; [right; intros; discriminate|].
  split; [right; split; [intros ? ? V; vm_compute in V; discriminate|]; split; [intros [|? ?] ? ? V; vm_compute in V; discriminate | vm_compute; lia]|]. split; [left; reflexivity|].
  split; [vm_compute; discriminate|]. intros K. destruct (node_at duo "net" "a") as [nn|] eqn:N; [|vm_compute in N; discriminate]. specialize (K nn N). vm_compute in N. injection N as <-.
  destruct K as [K|(e & K & _)]; discriminate.
Qed.
Example C59_any_storages_example : exists areas lines rn, stack as_is duo_an "net" "a" 0 "used" "given" = Ok (areas, lines) /\ rnode_at duo_result "net" "a" = Some rn /\
  map fst areas = [CStr "second"] /\ map fst (rev lines) = [CStr "load"; CStr "second"] /\
  top_height 0 areas 0 /\ top_height 0 (rev lines) (0 + looped 0 "a" rn 0 + (withdrawn 0 rn 0 - 0) - (stored 0 rn 0 - 0)) /\ (withdrawn 0 rn 0 == 10)%Q.
Proof.
  do 3 eexists. split; [vm_compute; reflexivity|]. split; [vm_compute; reflexivity|]. split; [reflexivity|]. split; [reflexivity|].
  split; [eexists; (split; [reflexivity|]); eexists; split; reflexivity|]. split; [eexists; (split; [reflexivity|]); eexists; split; reflexivity|]. reflexivity.
Qed.

Print Assumptions C65_stack_any_storages_partial.
Print Assumptions C59_stack_any_storages_partial.
