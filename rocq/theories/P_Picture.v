(** C71: the picture of the exchange map. *)
From Coq Require Import String Ascii List ZArith QArith Qabs Bool Arith Lia Lqa Permutation Sorted.
From Verif Require Import Base BaseFacts Numeric Study Fluent Output LP SpecStudy SpecLP StudyFacts LPFacts LPResult LPReady P_LP
  Analyzer SpecAnalyzer AnalyzerFacts P_Tables QueryFacts P_Query P_Reuse SumFacts SpecTotals P_Totals P_Cost Viewer ViewFacts SpecViewer P_Viewer P_Map Picture.
Import ListNotations.
Open Scope nat_scope.
Open Scope string_scope.
Open Scope list_scope.

(** ** Specification *)

(** [p] is at the part [k] of the way from [s] to [e]. *)
Definition at_part (s e : Q * Q) (k : Q) (p : Q * Q) : Prop :=
  (fst p == fst s + k * (fst e - fst s))%Q /\ (snd p == snd s + k * (snd e - snd s))%Q.
(** The head of an arrow: its tip at nine tenths of the way, its base, at eight tenths and
    centred on the line, at right angles to it and as wide as a fifth of the way. *)
Definition points (s e tip left right : Q * Q) : Prop :=
  at_part s e (9 # 10) tip /\
  at_part s e (8 # 10) ((fst left + fst right) / 2, (snd left + snd right) / 2)%Q /\
  ((fst right - fst left) * (fst e - fst s) + (snd right - snd left) * (snd e - snd s) == 0)%Q /\
  (25 * ((fst right - fst left) * (fst right - fst left) + (snd right - snd left) * (snd right - snd left)) ==
   (fst e - fst s) * (fst e - fst s) + (snd e - snd s) * (snd e - snd s))%Q.

(** From half of the scale for nothing to its end for the limit and more, to its beginning when
    the limit asked for is negative; with the limit 0 at the end, or the beginning when this 0
    is a negative one ([nz]). *)
Definition shaded (nz : bool) (limit q : Q) (sh : shade) : Prop :=
  (0 < limit -> exists x, sh = Ramp x /\ (q <= limit -> x == (1 # 2) + q / (2 * limit)) /\ (limit < q -> x == 1))%Q /\
  (limit < 0 -> exists x, sh = Ramp x /\ (q <= - limit -> x == (1 # 2) - q / (2 * - limit)) /\ (- limit < q -> x == 0))%Q /\
  (limit == 0 -> q == 0 -> sh = Bad)%Q /\
  (limit == 0 -> 0 < q -> sh = Ramp (if nz then 0 else 1))%Q.

(** One arrow for each line, in the direction of the flow. *)
Definition drawn_arrow (nz : bool) (co : coords) (limit : Q) (kv : (cell * cell) * cell) (a : arrow) : Prop :=
  exists src dest s e q, kv = ((CStr src, CStr dest), CNum q) /\ dget src co = Some s /\ dget dest co = Some e /\
    a_start a = s /\ a_end a = e /\ points s e (a_tip a) (a_left a) (a_right a) /\ shaded nz limit q (a_shade a) /\ a_text a = CNum q.

Definition circled (co : coords) (nq : string * Q) (c : (Q * Q) * Q) : Prop := dget (fst nq) co = Some (fst c) /\ snd c = snd nq.

(** The middle of the map is between the extreme circles. *)
Definition centred (co : coords) (nodes : dict string Q) (center : Q * Q) : Prop :=
  forall lo hi : Q * Q, (forall nd q p, In (nd, q) nodes -> dget nd co = Some p -> fst lo <= fst p <= fst hi /\ snd lo <= snd p <= snd hi)%Q ->
    (fst lo <= fst center <= fst hi /\ snd lo <= snd center <= snd hi)%Q.

(** ** Proofs *)
Lemma plot_link_points s e sh qt : let a := plot_link s e sh qt in points s e (a_tip a) (a_left a) (a_right a).
Proof.
  destruct s as [s1 s2], e as [e1 e2]. unfold plot_link, points, at_part, psub, padd, pscale. cbn [a_tip a_left a_right fst snd].
  repeat split; field.
Qed.

Lemma shade_ok nz limit q : (0 <= q)%Q -> shaded nz limit q (shade_of nz limit (CNum q)).
Proof.
  intros P. unfold shade_of, shaded. destruct (Qeq_bool limit 0) eqn:L.
  - apply Qeq_bool_iff in L. split; [intros H; lra |]. split; [intros H; lra |]. split.
    + intros _ Z. apply Qeq_bool_iff in Z. rewrite Z. reflexivity.
    + intros _ Z. destruct (Qeq_bool q 0) eqn:E; [apply Qeq_bool_iff in E; lra |]. reflexivity.
  - apply Qeq_bool_neq in L. split; [| split; [| split; intros H; contradiction]].
    2:{ intros H. eexists. split; [reflexivity |].
      assert (E : (Qabs q / 2 / limit + (1 # 2) == (1 # 2) - q / (2 * - limit))%Q) by (rewrite (Qabs_pos q P); field; lra).
      assert (G : (0 <= q / (2 * - limit))%Q) by (apply Qle_shift_div_l; lra).
      destruct (qlt (Qabs q / 2 / limit + (1 # 2)) 0) eqn:L0.
      - apply qlt_lt in L0. rewrite E in L0. split; [| reflexivity]. intros Q.
        assert (q / (2 * - limit) <= 1 # 2)%Q by (apply Qle_shift_div_r; lra). lra.
      - apply qlt_false in L0. rewrite E in L0. destruct (qlt 1 (Qabs q / 2 / limit + (1 # 2))) eqn:L1; [apply qlt_lt in L1; rewrite E in L1; lra |].
        split; [intros _; exact E |]. intros Q. assert ((1 # 2) < q / (2 * - limit))%Q by (apply Qlt_shift_div_l; lra). lra. }
    intros H. eexists. split; [reflexivity |].
    assert (E : (Qabs q / 2 / limit + (1 # 2) == (1 # 2) + q / (2 * limit))%Q) by (rewrite (Qabs_pos q P); field; lra).
    assert (G : (0 <= q / (2 * limit))%Q) by (apply Qle_shift_div_l; lra).
    destruct (qlt (Qabs q / 2 / limit + (1 # 2)) 0) eqn:L0; [apply qlt_lt in L0; rewrite E in L0; lra |].
    destruct (qlt 1 (Qabs q / 2 / limit + (1 # 2))) eqn:L1.
    + apply qlt_lt in L1. rewrite E in L1. split; [| reflexivity]. intros Q.
      assert (q / (2 * limit) <= 1 # 2)%Q by (apply Qle_shift_div_r; lra). lra.
    + apply qlt_false in L1. rewrite E in L1. split; [intros _; exact E |]. intros Q. rewrite E.
      assert ((1 # 2) < q / (2 * limit))%Q by (apply Qlt_shift_div_l; lra). lra.
Qed.

Lemma average_between l lo hi : l <> [] -> (forall q, In q l -> lo <= q <= hi)%Q -> (lo <= average l <= hi)%Q.
Proof.
  intros N H. unfold average.
  assert (P : (0 < qnat (length l))%Q). { unfold qnat. destruct l; [congruence |]. unfold Qlt. cbn [Qnum Qden inject_Z]. simpl length. lia. }
  assert (S : (lo * qnat (length l) <= qsum l <= hi * qnat (length l))%Q).
  { clear N P. induction l as [| x r IH]; [change (qnat (length (@nil Q))) with 0%Q; cbn [qsum fold_right]; split; lra |].
    assert (E : (qnat (length (x :: r)) == 1 + qnat (length r))%Q).
    { unfold qnat. simpl length. rewrite Nat2Z.inj_succ, <- Z.add_1_l, inject_Z_plus. reflexivity. }
    assert (D : (lo <= x <= hi)%Q) by (apply H; left; reflexivity).
    assert (IH' : (lo * qnat (length r) <= qsum r <= hi * qnat (length r))%Q) by (apply IH; intros q I; apply H; right; exact I).
    simpl qsum. rewrite E. split; ring_simplify; lra. }
  split; [apply Qle_shift_div_l | apply Qle_shift_div_r]; tauto.
Qed.

Lemma mapM_Forall2 {A B} (f : A -> res B) (P : A -> B -> Prop) l : (forall x, In x l -> exists y, f x = Ok y /\ P x y) ->
  exists m, mapM f l = Ok m /\ Forall2 P l m.
Proof.
  induction l as [| x r IH]; intros H; [exists []; split; [reflexivity | constructor] |].
  destruct (H x (or_introl eq_refl)) as (y & E & Py). destruct IH as (m & Em & Fm); [intros z I; apply H; right; exact I |].
  exists (y :: m). simpl. rewrite E. cbn [rbind]. rewrite Em. cbn [rbind]. split; [reflexivity | constructor; auto].
Qed.

Lemma linked_nodes s net a b : api_study s -> linked s net a b -> has_node s net a /\ has_node s net b.
Proof.
  intros A (n & l & N & I & D). destruct (api_facts s A) as (W & _). split; [unfold has_node; congruence |].
  rewrite <- D. apply (wf_dests _ _ _ (wf_node _ W _ _ _ N) l I).
Qed.

Lemma In_node_key s net ns nd : dget net (st_networks s) = Some ns -> In nd (dkeys ns) <-> has_node s net nd.
Proof.
  intros D. unfold has_node, node_at. rewrite D. split.
  - intros I. apply In_keys_dget in I as (n & ->). discriminate.
  - intros H. destruct (dget nd ns) as [n |] eqn:E; [apply dget_In in E; apply in_map_iff; exists (nd, n); auto | congruence].
Qed.

(** C71 for every study, mirrored result and network with a node: with coordinates for its
    nodes and a size the map is drawn, whatever limit is asked for. *)
Theorem C71_map bcast junk s r an net scn t limit nz co size : api_study s -> mirrors s r -> new_analyzer bcast junk s r = Ok an ->
  (exists nd, has_node s net nd) -> scn < st_nb_scn s -> t < st_horizon s ->
  (forall nd, has_node s net nd -> exists p, dget nd co = Some p) -> ~ (size == 0)%Q ->
  exists v pic, map_view an net (Z.of_nat t) (Z.of_nat scn) limit = Ok v /\ draw_map nz (Some co) size v = Ok pic /\
    map_of s r net scn t (em_nodes v) (em_lines v) /\
    Forall2 (circled co) (em_nodes v) (pc_circles pic) /\
    Forall2 (drawn_arrow nz co (em_limit v)) (em_lines v) (pc_arrows pic) /\
    centred co (em_nodes v) (pc_center pic) /\ (pc_zoom pic * size * 7 == 100)%Q.
Proof.
  intros A M N Hn Ls Lt Co Sz.
  destruct (C58_map_partial bcast junk s r an net scn t limit A M N Hn Ls Lt) as (v & Ev & Mo & _).
  exists v. destruct (mo_nodes _ _ _ _ _ _ _ Mo) as (ns & D & K).
  destruct (mapM_Forall2 (fun nq : string * Q => dlook (fst nq) co) (fun nq p => dget (fst nq) co = Some p) (em_nodes v)) as (pts & E1 & F1).
  { intros [nd q] I. destruct (Co nd) as (p & Ep).
    - apply (In_node_key s net ns nd D). rewrite <- K. apply in_map_iff. exists (nd, q). auto.
    - exists p. unfold dlook. cbn [fst]. rewrite Ep. auto. }
  destruct (mapM_Forall2 (fun kv : (cell * cell) * cell =>
        let sh := shade_of nz (em_limit v) (snd kv) in
        let* start := coord_of co (fst (fst kv)) in
        let* end_ := coord_of co (snd (fst kv)) in
        Ok (plot_link start end_ sh (snd kv))) (drawn_arrow nz co (em_limit v)) (em_lines v)) as (ars & E2 & F2).
  { intros [[c d] w] I.
    assert (G : dget (c, d) (em_lines v) = Some w) by (apply In_dget; [apply (mo_once _ _ _ _ _ _ _ Mo) | exact I]).
    destruct (mo_lines _ _ _ _ _ _ _ Mo c d w G) as (a & b & q & -> & -> & (u & -> & Hu) & P & _ & Lk).
    assert (H : has_node s net a /\ has_node s net b) by (destruct Lk as [Lk | Lk]; apply (linked_nodes s net _ _ A) in Lk; tauto).
    destruct (Co a (proj1 H)) as (pa & Ea). destruct (Co b (proj2 H)) as (pb & Eb).
    cbn [fst snd coord_of]. unfold dlook. rewrite Ea, Eb. cbn [rbind]. eexists. split; [reflexivity |].
    exists a, b, pa, pb, u. repeat (split; [auto; fail |]). split; [apply plot_link_points |]. split; [| reflexivity].
    apply shade_ok. rewrite Hu. exact P. }
  unfold draw_map. rewrite E1. cbn [rbind]. cbv zeta in E2. cbv zeta. rewrite E2. cbn [rbind].
  assert (Qeq_bool size 0 = false) as -> by (destruct (Qeq_bool size 0) eqn:Q0; [apply Qeq_bool_iff in Q0; contradiction | reflexivity]).
  eexists. split; [exact Ev |]. split; [reflexivity |]. split; [exact Mo |]. cbn [pc_circles pc_arrows pc_center pc_zoom].
  split.
  { clear - F1. induction F1 as [| [nd q] p l m P F IH]; simpl; constructor; auto. split; auto. }
  split; [exact F2 |].
  assert (NE : pts <> []).
  { destruct Hn as (nd0 & H0). apply (In_node_key s net ns nd0 D) in H0. rewrite <- K in H0. intros ->.
    inversion F1 as [Z |]. rewrite <- Z in H0. exact H0. }
  assert (Wh : forall p, In p pts -> exists nd q, In (nd, q) (em_nodes v) /\ dget nd co = Some p).
  { clear - F1. induction F1 as [| [nd q] p l m P F IH]; intros x I; [destruct I |]. destruct I as [<- | I].
    - exists nd, q. split; [left; reflexivity | exact P].
    - destruct (IH x I) as (nd' & q' & I' & E'). exists nd', q'. split; [right; exact I' | exact E']. }
  split; [| field; exact Sz].
  intros lo hi B. unfold mean_point. cbn [fst snd].
  split; apply average_between.
  - intros Z. apply map_eq_nil in Z. contradiction.
  - intros q I. apply in_map_iff in I as (p & <- & I). destruct (Wh p I) as (nd & q & J & E). apply (B nd q p J E).
  - intros Z. apply map_eq_nil in Z. contradiction.
  - intros q I. apply in_map_iff in I as (p & <- & I). destruct (Wh p I) as (nd & q & J & E). apply (B nd q p J E).
Qed.

(** Without a coordinate of a node, or with the size 0, there is no map. *)
Theorem C71_needs_coordinates nz co size v :
  (exists pic, draw_map nz co size v = Ok pic) ->
  ~ (size == 0)%Q /\ exists c, co = Some c /\ forall nd q, In (nd, q) (em_nodes v) -> exists p, dget nd c = Some p.
Proof.
  intros (pic & E). unfold draw_map in E. destruct co as [c |]; [| discriminate].
  destruct (mapM (fun nq : string * Q => dlook (fst nq) c) (em_nodes v)) as [pts |] eqn:E1; [| discriminate]. cbn [rbind] in E. cbv zeta in E.
  destruct (mapM _ (em_lines v)) as [ars |]; [| discriminate]. cbn [rbind] in E.
  destruct (Qeq_bool size 0) eqn:Q0; [discriminate |]. split; [apply Qeq_bool_neq; exact Q0 |].
  exists c. split; [reflexivity |]. intros nd q I. apply In_nth_error in I as (i & I).
  destruct (mapM_ok_nth _ _ _ _ _ E1 I) as (p & Ep & _). unfold dlook in Ep. cbn [fst] in Ep. destruct (dget nd c); [eauto | discriminate].
Qed.

(** Below the limit, more energy is further on the scale. *)
Theorem C71_shades nz limit q q' sh sh' : (0 < limit)%Q -> (0 <= q)%Q -> (q < q')%Q -> (q' <= limit)%Q -> shaded nz limit q sh -> shaded nz limit q' sh' ->
  exists x x', sh = Ramp x /\ sh' = Ramp x' /\ ((1 # 2) <= x)%Q /\ (x < x')%Q /\ (x' <= 1)%Q.
Proof.
  intros L P H H' (S1 & _) (S2 & _). destruct (S1 L) as (x & -> & X & _). destruct (S2 L) as (y & -> & Y & _).
  exists x, y. split; [reflexivity |]. split; [reflexivity |]. rewrite X, Y by lra.
  assert (0 <= q / (2 * limit))%Q by (apply Qle_shift_div_l; lra).
  assert (q' / (2 * limit) <= 1 # 2)%Q by (apply Qle_shift_div_r; lra).
  assert (q / (2 * limit) < q' / (2 * limit))%Q by (unfold Qdiv; apply Qmult_lt_compat_r; [apply Qinv_lt_0_compat; lra | exact H]).
  split; [lra |]. split; lra.
Qed.

(** ** Examples *)
Definition mix_coords : coords := [("a", (0, 0)%Q); ("b", (10, 20)%Q); ("g", (5, 5)%Q)].
Example C71_example : exists v pic ar, map_view mix_an "elec" 0 0 None = Ok v /\ draw_map false (Some mix_coords) 1 v = Ok pic /\
  pc_arrows pic = [ar] /\ a_start ar = (10, 20)%Q /\ a_end ar = (0, 0)%Q /\ (fst (a_tip ar) == 1)%Q /\ (snd (a_tip ar) == 2)%Q /\
  (fst (a_left ar) == 4)%Q /\ (snd (a_left ar) == 3)%Q /\ (fst (a_right ar) == 0)%Q /\ (snd (a_right ar) == 5)%Q /\
  (exists x, a_shade ar = Ramp x /\ (x == 1)%Q) /\ (fst (pc_center pic) == 5)%Q /\ (snd (pc_center pic) == 10)%Q /\
  draw_map false None 1 v = Err ValueError /\ draw_map false (Some [("a", (0, 0)%Q)]) 1 v = Err KeyError.
Proof.
  do 3 eexists. split; [vm_compute; reflexivity |]. split; [vm_compute; reflexivity |]. split; [reflexivity |].
  repeat (split; [reflexivity |]). split; [eexists; split; [reflexivity | reflexivity] |]. repeat (split; [reflexivity |]). reflexivity.
Qed.
Example C71_shades_example : exists x x', shaded false 8 2 (Ramp x) /\ shaded false 8 6 (Ramp x') /\ (x < x')%Q.
Proof.
  exists (5 # 8)%Q, (7 # 8)%Q. split; [| split; [| reflexivity]]; (split; [intros _; eexists; split; [reflexivity |]; split; [reflexivity | intros H; exfalso; revert H; unfold Qlt; simpl; lia] |]);
    (split; [| split]); intros H; exfalso; revert H; unfold Qeq, Qlt; simpl; lia.
Qed.

(** Four nodes in a row: what flows between the middle ones is more than any balance. *)
Definition row_calls : list call :=
  [ OnStudy_network "net";
    OnSel 0 (MNode "a"); OnSel 1 (MProduction "p" (jn 1) (jn 10));
    OnSel 2 (MNode "b"); OnSel 3 (MProduction "p" (jn 1) (jn 10));
    OnSel 4 (MNode "c"); OnSel 5 (MConsumption "l" (jn 100) (jn 10));
    OnSel 6 (MNode "d"); OnSel 7 (MConsumption "l" (jn 100) (jn 10));
    OnSel 8 (MLink "a" "b" (jn 1) (jn 50)); OnSel 9 (MLink "b" "c" (jn 1) (jn 50)); OnSel 10 (MLink "c" "d" (jn 1) (jn 50)) ].
Definition row : study := Eval vm_compute in w_study (run (start 1 1 None) row_calls).
Lemma row_api : api_study row.
Proof. exists 1, 1, None, row_calls. split; [lia|]. split; [lia|]. split; [plain_tac | vm_compute; reflexivity]. Qed.
Definition row_x (v : var) : Q := match v with VProd _ _ _ _ => 10 | VLink _ "b" _ _ => 20 | VLink _ _ _ _ => 10 | _ => 0 end%Q.
Definition row_answer (_ : nat) (_ : solver) : var -> Q := row_x.
Lemma row_feasible scn : scn < 1 -> feasible_answer row_answer row scn.
Proof. intros L. unfold feasible_answer. apply satb_ok. destruct scn as [|]; try lia; vm_compute; reflexivity. Qed.
Definition row_result : result := Eval vm_compute in
  match solve_lp row_answer [0] no_bench row with Ok r => r | Err _ => Result [] [] no_bench end.
Lemma row_solved : solved row_answer row row_result.
Proof. exists [0], no_bench. split; [apply Permutation_refl | vm_compute; reflexivity]. Qed.
Definition row_an : analyzer := Eval vm_compute in
  match new_analyzer true no_junk row row_result with Ok an => an | Err _ => mix_an end.
Lemma row_an_new : new_analyzer true no_junk row row_result = Ok row_an.
Proof. vm_compute. reflexivity. Qed.
Definition row_coords : coords := [("a", (0, 0)%Q); ("b", (1, 0)%Q); ("c", (2, 0)%Q); ("d", (3, 0)%Q)].

(** The limit of the scale is that of the balances: a link which carries twice as much as
    another has the same colour. *)
Theorem C71_shades_refuted : exists answer s r an net scn t v co pic ar ar', api_study s /\ solved answer s r /\
  (forall scn, scn < st_nb_scn s -> feasible_answer answer s scn) /\ new_analyzer true no_junk s r = Ok an /\
  map_view an net t scn None = Ok v /\ draw_map false (Some co) 1 v = Ok pic /\ In ar (pc_arrows pic) /\ In ar' (pc_arrows pic) /\
  a_text ar = CNum 10 /\ a_text ar' = CNum 20 /\
  exists x x', a_shade ar = Ramp x /\ a_shade ar' = Ramp x' /\ (x == x')%Q.
Proof.
  exists row_answer, row, row_result, row_an, "net", 0%Z, 0%Z. do 1 eexists. exists row_coords. do 3 eexists.
  split; [apply row_api |]. split; [apply row_solved |]. split; [intros scn L; apply row_feasible; exact L |]. split; [apply row_an_new |].
  split; [vm_compute; reflexivity |]. split; [vm_compute; reflexivity |]. cbn [pc_arrows]. split; [left; reflexivity |].
  split; [right; left; reflexivity |]. split; [reflexivity |]. split; [reflexivity |]. do 2 eexists. split; [reflexivity |]. split; [reflexivity |]. reflexivity.
Qed.

(** Nothing flows: the limit is 0 and links get the colour of what is no number. *)
Definition idle_calls : list call :=
  [ OnStudy_network "net"; OnSel 0 (MNode "a"); OnSel 1 (MNode "b"); OnSel 2 (MLink "a" "b" (jn 1) (jn 50)) ].
Definition idle : study := Eval vm_compute in w_study (run (start 1 1 None) idle_calls).
Lemma idle_api : api_study idle.
Proof. exists 1, 1, None, idle_calls. split; [lia|]. split; [lia|]. split; [plain_tac | vm_compute; reflexivity]. Qed.
Definition idle_answer (_ : nat) (_ : solver) (_ : var) : Q := 0%Q.
Lemma idle_feasible scn : scn < 1 -> feasible_answer idle_answer idle scn.
Proof. intros L. unfold feasible_answer. apply satb_ok. destruct scn as [|]; try lia; vm_compute; reflexivity. Qed.
Definition idle_result : result := Eval vm_compute in
  match solve_lp idle_answer [0] no_bench idle with Ok r => r | Err _ => Result [] [] no_bench end.
Lemma idle_solved : solved idle_answer idle idle_result.
Proof. exists [0], no_bench. split; [apply Permutation_refl | vm_compute; reflexivity]. Qed.

Theorem C71_idle_refuted : exists answer s r an net scn t v, api_study s /\ solved answer s r /\
  (forall scn, scn < st_nb_scn s -> feasible_answer answer s scn) /\ new_analyzer true no_junk s r = Ok an /\
  map_view an net t scn None = Ok v /\
  forall nz, exists pic ar, draw_map nz (Some row_coords) 1 v = Ok pic /\ pc_arrows pic = [ar] /\ a_text ar = CNum 0 /\ a_shade ar = Bad.
Proof.
  exists idle_answer, idle, idle_result. do 1 eexists. exists "net", 0%Z, 0%Z. eexists.
  split; [apply idle_api |]. split; [apply idle_solved |]. split; [intros scn L; apply idle_feasible; exact L |]. split; [vm_compute; reflexivity |].
  split; [vm_compute; reflexivity |]. intros nz. do 2 eexists. split; [vm_compute; reflexivity |]. split; [reflexivity |]. split; reflexivity.
Qed.

Print Assumptions C71_map.
Print Assumptions C71_needs_coordinates.
Print Assumptions C71_shades.
Print Assumptions C71_shades_refuted.
Print Assumptions C71_idle_refuted.

(** ** C72: the time axis *)
(** One value for each time; the dates go from the start to the end in steps which differ by
    at most one nanosecond from one to the next. *)
Definition even_dates (a b : Z) (h : nat) (l : list Z) : Prop :=
  length l = h /\ nth_error l 0 = Some a /\ nth_error l (h - 1) = Some b /\
  forall i x, nth_error l i = Some x -> (Z.abs (x * Z.of_nat (h - 1) - (a * Z.of_nat (h - 1) + Z.of_nat i * (b - a))) < Z.of_nat (h - 1))%Z /\
    (a <= b -> a <= x <= b /\ x * Z.of_nat (h - 1) <= a * Z.of_nat (h - 1) + Z.of_nat i * (b - a))%Z /\ (b <= a -> b <= x <= a)%Z.

Definition cut (fl : bool) (d m : Z) : Z := (if fl then Z.div else Z.quot) d m.
Lemma date_nth fl a b k i x : nth_error (date_range fl a b (S (S k))) i = Some x ->
  i <= S k /\ x = (a + cut fl (Z.of_nat i * (b - a)) (Z.of_nat (S k)))%Z.
Proof.
  unfold date_range. intros H. rewrite nth_error_map in H. destruct (nth_error (seq 0 (S (S k))) i) as [j |] eqn:E; [| discriminate].
  assert (L : i < S (S k)) by (rewrite <- (seq_length (S (S k)) 0); apply nth_error_Some; congruence).
  apply (nth_error_nth _ _ 0) in E. rewrite seq_nth in E by exact L. simpl in H. injection H as <-. subst j. split; [lia | reflexivity].
Qed.
Lemma cut_spec fl d m : (0 < m)%Z -> (Z.abs (cut fl d m * m - d) < m)%Z /\ (0 <= d -> 0 <= cut fl d m /\ cut fl d m * m <= d)%Z /\ (d <= 0 -> cut fl d m <= 0)%Z /\
  (forall c, d = m * c -> cut fl d m = c)%Z.
Proof.
  intros P. unfold cut. destruct fl.
  - pose proof (Z.div_mod d m ltac:(lia)). pose proof (Z.mod_pos_bound d m P). split; [nia |]. split; [intros D; pose proof (Z.div_pos d m D P); nia |].
    split; [nia |]. intros c ->. rewrite Z.mul_comm. apply Z.div_mul. lia.
  - pose proof (Z.quot_rem d m ltac:(lia)). pose proof (Z.rem_bound_abs d m ltac:(lia)). split; [nia |].
    split; [intros D; pose proof (Z.quot_pos d m D P); pose proof (Z.rem_nonneg d m ltac:(lia) D); nia |].
    split; [intros D; pose proof (Z.rem_nonpos d m ltac:(lia) D); nia |]. intros c ->. rewrite Z.mul_comm. apply Z.quot_mul. lia.
Qed.

Theorem C72_dates_partial fl a b h : 2 <= h ->
  exists l, time_index fl (Some a) (Some b) h = Ok (Dates l) /\ even_dates a b h l.
Proof.
  destruct h as [| [| k]]; intros H; try (exfalso; lia). eexists. split; [reflexivity |].
  set (m := Z.of_nat (S k)). assert (Pm : (0 < m)%Z) by (unfold m; lia).
  split; [unfold date_range; rewrite map_length, seq_length; reflexivity |].
  assert (G : forall i, i <= S k -> nth_error (date_range fl a b (S (S k))) i = Some (a + cut fl (Z.of_nat i * (b - a)) m)%Z).
  { intros i L. unfold date_range. rewrite nth_error_map. assert (nth_error (seq 0 (S (S k))) i = Some i) as ->; [| reflexivity].
    rewrite (nth_error_nth' _ 0) by (rewrite seq_length; lia). rewrite seq_nth by lia. reflexivity. }
  split; [rewrite G by lia; f_equal; destruct (cut_spec fl (Z.of_nat 0 * (b - a)) m Pm) as (_ & _ & _ & C); rewrite (C 0%Z) by lia; lia |].
  replace (S (S k) - 1) with (S k) by lia.
  split; [rewrite G by lia; f_equal; fold m; destruct (cut_spec fl (m * (b - a)) m Pm) as (_ & _ & _ & C); rewrite (C (b - a)%Z) by lia; lia |].
  intros i x Hx. apply date_nth in Hx as (L & ->). fold m. set (d := (Z.of_nat i * (b - a))%Z).
  destruct (cut_spec fl d m Pm) as (C1 & C2 & C3 & C4). assert (Li : (0 <= Z.of_nat i <= m)%Z) by (unfold m; lia).
  split; [replace ((a + cut fl d m) * m - (a * m + d))%Z with (cut fl d m * m - d)%Z by ring; exact C1 |].
  split.
  - intros Hab. assert (D : (0 <= d)%Z) by (unfold d; nia). specialize (C2 D). assert (d <= m * (b - a))%Z by (unfold d; nia).
    split; [nia |]. nia.
  - intros Hab. assert (D : (d <= 0)%Z) by (unfold d; nia). specialize (C3 D). assert (m * (b - a) <= d)%Z by (unfold d; nia). nia.
Qed.

(** Without dates the times are numbered; with one of the two the viewer is refused. *)
Theorem C72_axis_iff fl a b h : (exists x, time_index fl a b h = Ok x) <-> (a = None <-> b = None).
Proof.
  destruct a, b; simpl; split.
  - intros _. split; discriminate.
  - eauto.
  - intros (x & E). discriminate.
  - intros (_ & H2). discriminate (H2 eq_refl).
  - intros (x & E). discriminate.
  - intros (H1 & _). discriminate (H1 eq_refl).
  - intros _. tauto.
  - eauto.
Qed.
Theorem C72_length fl a b h x : time_index fl a b h = Ok x -> match x with Dates l => length l = h | Numbers l => l = seq 0 h end.
Proof. destruct a, b; simpl; intros [= <-]; [unfold date_range; rewrite map_length, seq_length |]; reflexivity. Qed.

Example C72_example : forall fl, time_index fl (Some 100%Z) (Some 110%Z) 4 = Ok (Dates [100; 103; 106; 110]%Z) /\ time_index fl (Some 100%Z) None 4 = Err ValueError.
Proof. intros []; split; reflexivity. Qed.

(** One time only: the axis never reaches the end asked for. *)
Theorem C72_one_time_refuted : exists a b l, (a < b)%Z /\ (forall fl, time_index fl (Some a) (Some b) 1 = Ok (Dates l)) /\ ~ In b l.
Proof. exists 100%Z, 110%Z, [100%Z]. split; [lia |]. split; [reflexivity |]. simpl. lia. Qed.

Print Assumptions C72_dates_partial.
Print Assumptions C72_axis_iff.
Print Assumptions C72_length.
Print Assumptions C72_one_time_refuted.
