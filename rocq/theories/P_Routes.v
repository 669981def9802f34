(** C90: in a cheapest dispatch links and converters bring energy where it is worth
    more. *)
From Coq Require Import String Ascii List ZArith QArith Bool Arith Lia Lqa Permutation Sorted.
From Verif Require Import Base BaseFacts Numeric Study Fluent Output LP SpecStudy SpecLP StudyFacts LPBuild LPFacts LPSat LPResult LPReady LPSolve LPWeak LPMore LPPrice LPMarket P_LP P_Opt P_Law P_Prices P_Saving.
Import ListNotations.
Open Scope nat_scope.
Open Scope string_scope.
Open Scope list_scope.

(** ** Specification *)
(** Links followed from a node to another one of the same network, with what the
    result says of them; links from a node to itself are left out. *)
Inductive route (s : study) (r : result) (net : string) : string -> string -> list (link * olink) -> Prop :=
| route_here u : route s r net u u []
| route_link u n rn i l o v path : node_at s net u = Some n -> rnode_at r net u = Some rn ->
    nth_error (n_links n) i = Some l -> nth_error (on_links rn) i = Some o -> l_dest l <> u ->
    route s r net (l_dest l) v path -> route s r net u v ((l, o) :: path).
Definition fare (scn t : nat) (path : list (link * olink)) : Q := total (fun lo => value (l_cost (fst lo)) scn t) path.

(** ** Proofs *)
Lemma fare_cons scn t l o path : (fare scn t ((l, o) :: path) == value (l_cost l) scn t + fare scn t path)%Q.
Proof. unfold fare, total. cbn [map fst]. cbn [qsum fold_right]. reflexivity. Qed.

Section Route.
Variables (s : study) (r : result) (scn t : nat) (price : nat -> string -> string -> Q) (net : string).
Hypotheses (L : law_ok s r scn) (EQ : equilibrium s r scn price) (T : t < st_horizon s).

Lemma link_gain u n rn i l o : node_at s net u = Some n -> rnode_at r net u = Some rn ->
  nth_error (n_links n) i = Some l -> nth_error (on_links rn) i = Some o -> l_dest l <> u ->
  within 0 (entry (ol_qty o) scn t) (value (l_qty l) scn t) /\
  best (price t net (l_dest l) - price t net u - value (l_cost l) scn t) (entry (ol_qty o) scn t) (value (l_qty l) scn t).
Proof.
  intros N Rn E EO NE. destruct (proj1 (lw_capacities _ _ _ L t T) net u n rn N Rn) as (_ & _ & _ & W).
  split; [exact (Forall2_both _ _ _ W i l o E EO)|]. intros q' Wq.
  pose proof (eq_links _ _ _ _ EQ t net u n rn i l o T N Rn E EO q' Wq) as B. rewrite (proj2 (String.eqb_neq _ _) NE) in B. lra.
Qed.

Lemma route_open u v path : route s r net u v path ->
  (exists l o, In (l, o) path /\ (entry (ol_qty o) scn t == value (l_qty l) scn t)%Q) \/ (price t net v <= price t net u + fare scn t path)%Q.
Proof.
  induction 1 as [u|u n rn i l o v path N Rn E EO NE _ IH]; [right; unfold fare; cbn; lra|].
  destruct IH as [(l' & o' & I & X)|IH]; [left; exists l', o'; split; [now right | auto]|].
  destruct (link_gain u n rn i l o N Rn E EO NE) as [[W0 W1] B].
  destruct (Qlt_le_dec (entry (ol_qty o) scn t) (value (l_qty l) scn t)) as [H|H].
  - right. pose proof (best_low _ _ _ B W0 H). pose proof (fare_cons scn t l o path). lra.
  - left. exists l, o. split; [now left | lra].
Qed.
Lemma route_flows u v path : route s r net u v path ->
  (exists l o, In (l, o) path /\ (entry (ol_qty o) scn t == 0)%Q) \/ (price t net u + fare scn t path <= price t net v)%Q.
Proof.
  induction 1 as [u|u n rn i l o v path N Rn E EO NE _ IH]; [right; unfold fare; cbn; lra|].
  destruct IH as [(l' & o' & I & X)|IH]; [left; exists l', o'; split; [now right | auto]|].
  destruct (link_gain u n rn i l o N Rn E EO NE) as [[W0 W1] B].
  destruct (Qlt_le_dec 0 (entry (ol_qty o) scn t)) as [H|H].
  - right. pose proof (best_high _ _ _ B W1 H). pose proof (fare_cons scn t l o path). lra.
  - left. exists l, o. split; [now left | lra].
Qed.

(** Converters with positive ratios. *)
Lemma conv_best name v rv : conv_at s name = Some v -> rconv_at r name = Some rv ->
  (forall k x, In (k, x) (v_src v) -> (0 < value x scn t)%Q) ->
  within 0 (entry (ov_dest rv) scn t) (ovalue (v_max v) scn t) /\
  best (conv_gain scn price t v) (entry (ov_dest rv) scn t) (ovalue (v_max v) scn t).
Proof.
  intros V Rv Pos. split; [exact (proj1 (proj2 (lw_capacities _ _ _ L t T) name v rv V Rv))|].
  intros q Wq. apply (eq_convs _ _ _ _ EQ t name v rv T V Rv q Wq). intros k x I. specialize (Pos k x I). destruct Wq as [Q0 Q1].
  unfold Qdiv. assert (IP : (0 < / value x scn t)%Q) by now apply Qinv_lt_0_compat.
  split; [apply Qmult_le_0_compat; lra | apply Qmult_le_compat_r; lra].
Qed.
End Route.

Lemma total_le {A} (f g : A -> Q) l : (forall x, In x l -> (f x <= g x)%Q) -> (total f l <= total g l)%Q.
Proof.
  unfold total. induction l as [|x l IH]; intros H; cbn [map qsum fold_right]; [lra|].
  apply Qplus_le_compat; [apply H; now left | apply IH; intros y I; apply H; now right].
Qed.

(** ** C90 *)
Section Cheapest.
Variables (answer : nat -> solver -> var -> Q) (s : study) (r : result) (scn t : nat).
Hypotheses (A : api_study s) (P : plain_sources s) (SV : solved answer s r) (S : scn < st_nb_scn s) (O : optimal_answer answer s scn)
  (T : t < st_horizon s).

(** Energy that can be had for [a] here and saves [b] there fills a link of every route
    that is worth its fare. *)
Theorem C90_routes_used : forall net u v nu ru nv rv path a b, route s r net u v path ->
  node_at s net u = Some nu -> rnode_at r net u = Some ru -> node_at s net v = Some nv -> rnode_at r net v = Some rv ->
  costs_at_most scn t nu ru a -> saves_at_least scn t nv rv b -> (a + fare scn t path < b)%Q ->
  exists l o, In (l, o) path /\ (entry (ol_qty o) scn t == value (l_qty l) scn t)%Q.
Proof.
  intros net u v nu ru nv rv path a b Ro Nu Ru Nv Rv Wu Wv Lt. destruct (C82_prices_exist answer s r scn A P SV S O) as (price & EQ).
  assert (L : law_ok s r scn) by now apply (C20_cost_optimal_exact answer s r scn A P SV S).
  pose proof (price_most _ _ _ _ _ _ _ _ _ _ L EQ T Nu Ru Wu). pose proof (price_least _ _ _ _ _ _ _ _ _ _ L EQ T Nv Rv Wv).
  destruct (route_open s r scn t price net L EQ T u v path Ro) as [?|H1]; auto. exfalso. lra.
Qed.
(** A route that is not worth its fare has an idle link. *)
Theorem C90_routes_unused : forall net u v nu ru nv rv path a b, route s r net u v path ->
  node_at s net u = Some nu -> rnode_at r net u = Some ru -> node_at s net v = Some nv -> rnode_at r net v = Some rv ->
  saves_at_least scn t nu ru a -> costs_at_most scn t nv rv b -> (b < a + fare scn t path)%Q ->
  exists l o, In (l, o) path /\ (entry (ol_qty o) scn t == 0)%Q.
Proof.
  intros net u v nu ru nv rv path a b Ro Nu Ru Nv Rv Wu Wv Lt. destruct (C82_prices_exist answer s r scn A P SV S O) as (price & EQ).
  assert (L : law_ok s r scn) by now apply (C20_cost_optimal_exact answer s r scn A P SV S).
  pose proof (price_least _ _ _ _ _ _ _ _ _ _ L EQ T Nu Ru Wu). pose proof (price_most _ _ _ _ _ _ _ _ _ _ L EQ T Nv Rv Wv).
  destruct (route_flows s r scn t price net L EQ T u v path Ro) as [?|H1]; auto. exfalso. lra.
Qed.
(** Nothing goes around a loop of any length that is paid for. *)
Theorem C90_no_loops : forall net u path, route s r net u u path -> (0 < fare scn t path)%Q ->
  exists l o, In (l, o) path /\ (entry (ol_qty o) scn t == 0)%Q.
Proof.
  intros net u path Ro F. destruct (C82_prices_exist answer s r scn A P SV S O) as (price & EQ).
  assert (L : law_ok s r scn) by now apply (C20_cost_optimal_exact answer s r scn A P SV S).
  destruct (route_flows s r scn t price net L EQ T u u path Ro) as [?|H1]; auto. exfalso. lra.
Qed.
(** Between two nodes the flows do not take a dear route while a cheap one is free. *)
Theorem C90_cheap_routes_first : forall net u v cheap dear, route s r net u v cheap -> route s r net u v dear ->
  (fare scn t cheap < fare scn t dear)%Q ->
  (exists l o, In (l, o) cheap /\ (entry (ol_qty o) scn t == value (l_qty l) scn t)%Q) \/
  (exists l o, In (l, o) dear /\ (entry (ol_qty o) scn t == 0)%Q).
Proof.
  intros net u v cheap dear R1 R2 F. destruct (C82_prices_exist answer s r scn A P SV S O) as (price & EQ).
  assert (L : law_ok s r scn) by now apply (C20_cost_optimal_exact answer s r scn A P SV S).
  destruct (route_open s r scn t price net L EQ T u v cheap R1) as [?|H1]; auto.
  destruct (route_flows s r scn t price net L EQ T u v dear R2) as [?|H2]; auto. exfalso. lra.
Qed.

(** A converter worth its sources and its cost delivers its maximum; one that is not
    rests. *)
Theorem C90_converters : forall name v rv nd rd a b,
  conv_at s name = Some v -> rconv_at r name = Some rv ->
  (forall k x, In (k, x) (v_src v) -> (0 < value x scn t)%Q) ->
  node_at s (v_dnet v) (v_dnode v) = Some nd -> rnode_at r (v_dnet v) (v_dnode v) = Some rd ->
  let price_of_sources := total (fun kr => a (fst kr) / value (snd kr) scn t)%Q (v_src v) in
  ((forall k x, In (k, x) (v_src v) -> exists n rn, node_at s (fst k) (snd k) = Some n /\ rnode_at r (fst k) (snd k) = Some rn /\ costs_at_most scn t n rn (a k)) ->
   saves_at_least scn t nd rd b -> (price_of_sources + ovalue (v_cost v) scn t < b)%Q ->
   (entry (ov_dest rv) scn t == ovalue (v_max v) scn t)%Q) /\
  ((forall k x, In (k, x) (v_src v) -> exists n rn, node_at s (fst k) (snd k) = Some n /\ rnode_at r (fst k) (snd k) = Some rn /\ saves_at_least scn t n rn (a k)) ->
   costs_at_most scn t nd rd b -> (b < price_of_sources + ovalue (v_cost v) scn t)%Q ->
   (entry (ov_dest rv) scn t == 0)%Q).
Proof.
  intros name v rv nd rd a b V Rv Pos Nd Rd src. destruct (C82_prices_exist answer s r scn A P SV S O) as (price & EQ).
  assert (L : law_ok s r scn) by now apply (C20_cost_optimal_exact answer s r scn A P SV S).
  destruct (conv_best s r scn t price L EQ T name v rv V Rv Pos) as [[W0 W1] B]. unfold conv_gain in B.
  set (g := total (fun kr => price t (fst (fst kr)) (snd (fst kr)) / value (snd kr) scn t)%Q (v_src v)) in B. split.
  - intros Ws Wd Lt. pose proof (price_least _ _ _ _ _ _ _ _ _ _ L EQ T Nd Rd Wd) as PD.
    assert (G : (g <= src)%Q).
    { apply total_le. intros [k x] I. cbn [fst snd]. destruct (Ws k x I) as (n & rn & N & Rn & W). pose proof (price_most _ _ _ _ _ _ _ _ _ _ L EQ T N Rn W).
      unfold Qdiv. apply Qmult_le_compat_r; auto. apply Qlt_le_weak, Qinv_lt_0_compat. now apply (Pos k x). }
    destruct (Qlt_le_dec (entry (ov_dest rv) scn t) (ovalue (v_max v) scn t)) as [H|H]; [exfalso|lra].
    pose proof (best_low _ _ _ B W0 H). lra.
  - intros Ws Wd Lt. pose proof (price_most _ _ _ _ _ _ _ _ _ _ L EQ T Nd Rd Wd) as PD.
    assert (G : (src <= g)%Q).
    { apply total_le. intros [k x] I. cbn [fst snd]. destruct (Ws k x I) as (n & rn & N & Rn & W). pose proof (price_least _ _ _ _ _ _ _ _ _ _ L EQ T N Rn W).
      unfold Qdiv. apply Qmult_le_compat_r; auto. apply Qlt_le_weak, Qinv_lt_0_compat. now apply (Pos k x). }
    destruct (Qlt_le_dec 0 (entry (ov_dest rv) scn t)) as [H|H]; [exfalso|lra].
    pose proof (best_high _ _ _ B W1 H). lra.
Qed.
End Cheapest.

(** ** A study that meets the hypotheses *)
(** Wind at [a] reaches [c] through [b] or directly; a boiler turns it into heat, and a
    second one would turn the dear energy of [c] into heat. *)
Definition grid_calls : list call :=
  [ OnStudy_network "net"; OnSel 0 (MNode "a"); OnSel 1 (MProduction "wind" (jn 5) (jn 100)); OnSel 2 (MToConverter "boiler" (PJson (JNum (1 # 2))));
    OnSel 3 (MNode "b"); OnSel 4 (MNode "c"); OnSel 5 (MConsumption "load" (jn 1000) (jn 20)); OnSel 6 (MProduction "gas" (jn 80) (jn 100));
    OnSel 7 (MToConverter "dear" (jn 1));
    OnSel 8 (MLink "a" "b" (jn 2) (jn 10)); OnSel 9 (MLink "b" "c" (jn 3) (jn 8)); OnSel 10 (MLink "a" "c" (jn 9) (jn 5)); OnSel 11 (MLink "c" "a" (jn 1) (jn 5));
    OnSel 12 (MNetwork "heat"); OnSel 13 (MNode "h"); OnSel 14 (MConsumption "house" (jn 1000) (jn 10)); OnSel 15 (MProduction "wood" (jn 50) (jn 100));
    OnSel 16 (MConverter "boiler" "heat" "h" (jn 4) (jn 1)); OnSel 17 (MConverter "dear" "heat" "h" (jn 4) (jn 1)) ].
Definition grid : study := Eval vm_compute in w_study (run (start 1 1 None) grid_calls).
Lemma grid_api : api_study grid.
Proof. exists 1, 1, None, grid_calls. split; [lia|]. split; [lia|]. split; [plain_tac | vm_compute; reflexivity]. Qed.
Definition grid_x (v : var) : Q :=
  match v with
  | VProd _ "a" _ _ => 21 | VProd _ "c" _ _ => 7 | VProd _ "h" _ _ => 6
  | VLink _ "a" O _ => 8 | VLink _ "b" _ _ => 8 | VLink _ "a" _ _ => 5
  | VSrc "boiler" _ _ _ => 8 | VDest "boiler" _ => 4 | _ => 0
  end%Q.
Definition grid_answer (_ : nat) (_ : solver) : var -> Q := grid_x.
Definition grid0 : solver := Eval vm_compute in program_of grid 0.
Lemma grid_optimal : optimal_answer grid_answer grid 0.
Proof.
  unfold optimal_answer, grid_answer. change (program_of grid 0) with grid0. split.
  - apply satb_ok. vm_compute. reflexivity.
  - intros y F. pose proof (satisfies_vars _ _ F) as V. pose proof (satisfies_cons _ _ F) as K.
    unfold grid0 in V, K. cbn [sv_vars sv_cons] in V, K. open_forall V. open_forall K.
    assert (E : (objective grid0 grid_x == 1054)%Q) by (vm_compute; reflexivity). rewrite E. cbn. lra.
Qed.
Definition grid_result : result := Eval vm_compute in
  match solve_lp grid_answer [0] no_bench grid with Ok r => r | Err _ => Result [] [] no_bench end.
Lemma grid_solved : solved grid_answer grid grid_result.
Proof. exists [0], no_bench. split; [reflexivity | vm_compute; reflexivity]. Qed.
Lemma grid_plain : plain_sources grid. Proof. apply plainb_ok. vm_compute. reflexivity. Qed.
Ltac by_prod k := left; exists k; do 2 eexists; split; [vm_compute; reflexivity|]; split; [vm_compute; reflexivity|]; split; vm_compute; solve [reflexivity | discriminate].
Example C90_example : api_study grid /\ plain_sources grid /\ solved grid_answer grid grid_result /\ optimal_answer grid_answer grid 0 /\
  (exists nu ru nv rv cheap dear loop l1 o1 l3 o3,
    node_at grid "net" "a" = Some nu /\ rnode_at grid_result "net" "a" = Some ru /\ node_at grid "net" "c" = Some nv /\ rnode_at grid_result "net" "c" = Some rv /\
    route grid grid_result "net" "a" "c" cheap /\ route grid grid_result "net" "a" "c" dear /\ route grid grid_result "net" "a" "a" loop /\
    costs_at_most 0 0 nu ru 5 /\ saves_at_least 0 0 nv rv 80 /\
    (fare 0 0 cheap == 5)%Q /\ (fare 0 0 dear == 9)%Q /\ (fare 0 0 loop == 10)%Q /\
    nth_error cheap 1 = Some (l1, o1) /\ entry (ol_qty o1) 0 0 = value (l_qty l1) 0 0 /\ nth_error loop 1 = Some (l3, o3) /\ entry (ol_qty o3) 0 0 = 0%Q) /\
  (exists v w rv rw n rn nd rd nc rc,
    conv_at grid "boiler" = Some v /\ rconv_at grid_result "boiler" = Some rv /\ conv_at grid "dear" = Some w /\ rconv_at grid_result "dear" = Some rw /\
    v_src v = [(("net", "a"), Scalar (1 # 2) 1 1)] /\ v_src w = [(("net", "c"), Scalar 1 1 1)] /\
    node_at grid "net" "a" = Some n /\ rnode_at grid_result "net" "a" = Some rn /\ costs_at_most 0 0 n rn 5 /\
    node_at grid "net" "c" = Some nc /\ rnode_at grid_result "net" "c" = Some rc /\ saves_at_least 0 0 nc rc 80 /\
    node_at grid "heat" "h" = Some nd /\ rnode_at grid_result "heat" "h" = Some rd /\ saves_at_least 0 0 nd rd 50 /\ costs_at_most 0 0 nd rd 50 /\
    entry (ov_dest rv) 0 0 = 4%Q /\ entry (ov_dest rw) 0 0 = 0%Q).
Proof.
  split; [apply grid_api|]. split; [apply grid_plain|]. split; [apply grid_solved|]. split; [apply grid_optimal|]. split.
  - do 11 eexists. do 4 (split; [vm_compute; reflexivity|]).
    split. { eapply route_link with (i := 0); try (vm_compute; reflexivity); [discriminate|].
      eapply route_link with (i := 0); try (vm_compute; reflexivity); [discriminate|]. apply route_here. }
    split. { eapply route_link with (i := 1); try (vm_compute; reflexivity); [discriminate|]. apply route_here. }
    split. { eapply route_link with (i := 1); try (vm_compute; reflexivity); [discriminate|].
      eapply route_link with (i := 0); try (vm_compute; reflexivity); [discriminate|]. apply route_here. }
    split; [by_prod 0|]. split; [by_prod 0|].
    vm_compute. repeat split; reflexivity.
  - do 10 eexists. do 4 (split; [vm_compute; reflexivity|]). do 2 (split; [vm_compute; reflexivity|]). do 2 (split; [vm_compute; reflexivity|]).
    split; [by_prod 0|]. do 2 (split; [vm_compute; reflexivity|]). split; [by_prod 0|]. do 2 (split; [vm_compute; reflexivity|]).
    split; [by_prod 0|]. split; [by_prod 0|]. vm_compute. split; reflexivity.
Qed.

(** On links that cost nothing an optimum may send energy around. *)
Definition ring_calls : list call :=
  [ OnStudy_network "net"; OnSel 0 (MNode "a"); OnSel 1 (MConsumption "load" (jn 1000) (jn 1)); OnSel 2 (MProduction "sun" (jn 3) (jn 10));
    OnSel 3 (MNode "b"); OnSel 4 (MLink "a" "b" (jn 0) (jn 5)); OnSel 5 (MLink "b" "a" (jn 0) (jn 5)) ].
Definition ring : study := Eval vm_compute in w_study (run (start 1 1 None) ring_calls).
Definition ring_x (v : var) : Q := match v with VProd _ _ _ _ => 1 | VLink _ _ _ _ => 4 | _ => 0 end%Q.
Definition ring_answer (_ : nat) (_ : solver) : var -> Q := ring_x.
Definition ring0 : solver := Eval vm_compute in program_of ring 0.
Definition ring_result : result := Eval vm_compute in
  match solve_lp ring_answer [0] no_bench ring with Ok r => r | Err _ => Result [] [] no_bench end.
Theorem C90_free_loop_refuted : exists answer s r path, api_study s /\ plain_sources s /\ solved answer s r /\ optimal_answer answer s 0 /\
  route s r "net" "a" "a" path /\ path <> [] /\ (forall l o, In (l, o) path -> (0 < entry (ol_qty o) 0 0)%Q).
Proof.
  exists ring_answer, ring, ring_result. eexists.
  split. { exists 1, 1, None, ring_calls. split; [lia|]. split; [lia|]. split; [plain_tac | vm_compute; reflexivity]. }
  split; [apply plainb_ok; vm_compute; reflexivity|]. split; [exists [0], no_bench; split; [reflexivity | vm_compute; reflexivity]|].
  split.
  { unfold optimal_answer, ring_answer. change (program_of ring 0) with ring0. split.
    - apply satb_ok. vm_compute. reflexivity.
    - intros y F. pose proof (satisfies_vars _ _ F) as V. pose proof (satisfies_cons _ _ F) as K.
      unfold ring0 in V, K. cbn [sv_vars sv_cons] in V, K. open_forall V. open_forall K.
      assert (E : (objective ring0 ring_x == 3)%Q) by (vm_compute; reflexivity). rewrite E. cbn. lra. }
  split. { eapply route_link with (i := 0); try (vm_compute; reflexivity); [discriminate|].
    eapply route_link with (i := 0); try (vm_compute; reflexivity); [discriminate|]. apply route_here. }
  split; [discriminate|]. intros l o [X|[X|[]]]; injection X as <- <-; vm_compute; reflexivity.
Qed.

Print Assumptions C90_routes_used.
Print Assumptions C90_routes_unused.
Print Assumptions C90_no_loops.
Print Assumptions C90_cheap_routes_first.
Print Assumptions C90_converters.
Print Assumptions C90_free_loop_refuted.
