(** C82: a dispatch is the cheapest one exactly when there are prices at which every
    element does its best on its own. *)
From Coq Require Import String Ascii List ZArith QArith Bool Arith Lia Lqa Permutation Sorted.
From Verif Require Import Base BaseFacts Numeric Study Fluent Output LP SpecStudy SpecLP StudyFacts LPBuild LPFacts LPSat LPResult LPReady LPSolve LPWeak LPMore LPPrice LPMarket P_LP P_Opt P_Law.
Import ListNotations.
Open Scope nat_scope.
Open Scope string_scope.
Open Scope list_scope.

(** ** Specification *)
Section Prices.
  Variables (s : study) (r : result) (scn : nat).
  (** Price of energy at each time, at each node of each network. *)
  Variable price : nat -> string -> string -> Q.

  (** No quantity between 0 and [up] is better than [q] when each unit earns [gain]. *)
  Definition best (gain q up : Q) : Prop := forall q', within 0 q' up -> (gain * q' <= gain * q)%Q.

  (** A plan of a storage: content, entering and leaving energy at each time. *)
  Definition plan_ok (first : bool) (y : storage) (content entering leaving : nat -> Q) : Prop := forall t, t < st_horizon s ->
    within 0 (content t) (value (s_capacity y) scn t) /\ within 0 (entering t) (value (s_flow_in y) scn t) /\ within 0 (leaving t) (value (s_flow_out y) scn t) /\
    (first = true -> (content t == (match t with O => s_init y | S t' => content t' end) + value (s_eff y) scn t * entering t - leaving t)%Q).
  Definition plan_profit (net nd : string) (y : storage) (content entering leaving : nat -> Q) : Q :=
    total (fun t => price t net nd * (leaving t - entering t) - value (s_cost y) scn t * content t)%Q (seq 0 (st_horizon s)).
  (** What a converter earns with each unit it delivers. *)
  Definition conv_gain (t : nat) (v : converter) : Q :=
    (price t (v_dnet v) (v_dnode v) - ovalue (v_cost v) scn t
     - total (fun kr => price t (fst (fst kr)) (snd (fst kr)) / value (snd kr) scn t) (v_src v))%Q.

  Record equilibrium : Prop := {
    (* a consumption is worth its unavailability cost *)
    eq_cons : forall t net nd n rn i c o, t < st_horizon s -> node_at s net nd = Some n -> rnode_at r net nd = Some rn ->
      nth_error (n_cons n) i = Some c -> nth_error (on_cons rn) i = Some o ->
      best (value (c_cost c) scn t - price t net nd) (entry (oc_qty o) scn t) (value (c_qty c) scn t);
    (* a production sells at the price of its node *)
    eq_prods : forall t net nd n rn i p o, t < st_horizon s -> node_at s net nd = Some n -> rnode_at r net nd = Some rn ->
      nth_error (n_prods n) i = Some p -> nth_error (on_prods rn) i = Some o ->
      best (price t net nd - value (p_cost p) scn t) (entry (op_qty o) scn t) (value (p_qty p) scn t);
    (* a link buys at its node and sells at its destination; from a node to itself it sells twice *)
    eq_links : forall t net nd n rn i l o, t < st_horizon s -> node_at s net nd = Some n -> rnode_at r net nd = Some rn ->
      nth_error (n_links n) i = Some l -> nth_error (on_links rn) i = Some o ->
      best (price t net (l_dest l) + (if String.eqb (l_dest l) nd then price t net nd else 0) - price t net nd - value (l_cost l) scn t)
           (entry (ol_qty o) scn t) (value (l_qty l) scn t);
    (* a storage buys and sells over time; only the first one of a node is held to its flows *)
    eq_stors : forall net nd n rn i y o, node_at s net nd = Some n -> rnode_at r net nd = Some rn ->
      nth_error (n_stors n) i = Some y -> nth_error (on_stors rn) i = Some o ->
      forall content entering leaving, plan_ok (Nat.eqb i 0) y content entering leaving ->
      (plan_profit net nd y content entering leaving <=
       plan_profit net nd y (entry (os_capacity o) scn) (entry (os_flow_in o) scn) (entry (os_flow_out o) scn))%Q;
    (* a converter buys at its sources and sells at its destination *)
    eq_convs : forall t name v rv, t < st_horizon s -> conv_at s name = Some v -> rconv_at r name = Some rv ->
      forall q, within 0 q (ovalue (v_max v) scn t) ->
        (forall k x, In (k, x) (v_src v) -> within 0 (q / value x scn t) (ovalue (v_max v) scn t / value x scn t)) ->
      (conv_gain t v * q <= conv_gain t v * entry (ov_dest rv) scn t)%Q
  }.
End Prices.

(** ** Proofs *)
Section Link.
Variables (s : study) (r : result) (scn : nat) (x : var -> Q).
Hypotheses (S : scn < st_nb_scn s) (R : laid s) (M : mirrors s r) (CA : carries_answer s r scn x) (X : xok s scn x).
Variable price : akey -> Q.
Let pr := fun t net nd => price (t, net, nd).

(** The assignment of one element alone. *)
Lemma equilibrium_of : does_best s scn price x -> equilibrium s r scn pr.
Proof.
  intros D. constructor.
  - intros t net nd n rn i c o T N Rn EC EO q Q. rewrite (ca_cons _ _ _ _ CA _ _ _ _ _ _ _ _ T N Rn EC EO).
    pose proof (D (ACons t net nd i c) (fun _ => value (c_qty c) scn t - q)%Q) as B. cbn [own fits] in B. unfold pr. unfold within in *.
    assert (P : In (ACons t net nd i c) (parts s)) by (apply (parts_In s scn S R); eauto). specialize (B P). assert (W : (0 <= value (c_qty c) scn t - q <= value (c_qty c) scn t)%Q) by lra.
    specialize (B W). lra.
  - intros t net nd n rn i c o T N Rn EC EO q Q. rewrite (ca_prods _ _ _ _ CA _ _ _ _ _ _ _ _ T N Rn EC EO).
    pose proof (D (AProd t net nd i c) (fun _ => q)) as B. cbn [own fits] in B.
    assert (P : In (AProd t net nd i c) (parts s)) by (apply (parts_In s scn S R); eauto). specialize (B P Q). unfold pr. lra.
  - intros t net nd n rn i c o T N Rn EC EO q Q. rewrite (ca_links _ _ _ _ CA _ _ _ _ _ _ _ _ T N Rn EC EO).
    pose proof (D (ALink t net nd i c) (fun _ => q)) as B. cbn [own fits] in B.
    assert (P : In (ALink t net nd i c) (parts s)) by (apply (parts_In s scn S R); eauto). specialize (B P Q). unfold pr. lra.
  - intros net nd n rn i y o N Rn EC EO content entering leaving PL.
    pose proof (D (AStor net nd i y) (fun v => match v with VCap _ _ _ t => content t | VIn _ _ _ t => entering t | VOut _ _ _ t => leaving t | _ => 0%Q end)) as B.
    cbn [own fits] in B. assert (P : In (AStor net nd i y) (parts s)) by (apply (parts_In s scn S R); eauto). specialize (B P).
    assert (F : forall t, t < st_horizon s -> (within 0 (content t) (value (s_capacity y) scn t) /\ within 0 (entering t) (value (s_flow_in y) scn t) /\ within 0 (leaving t) (value (s_flow_out y) scn t)) /\
      (i = 0 -> (content t == (match t with O => s_init y | Datatypes.S t' => content t' end) + value (s_eff y) scn t * entering t - leaving t)%Q)).
    { intros t T. destruct (PL t T) as (A1 & A2 & A3 & A4). split; auto. intros ->. now apply A4. }
    specialize (B F). unfold plan_profit, total.
    rewrite (qsum_map_ext (fun t => pr t net nd * (entry (os_flow_out o) scn t - entry (os_flow_in o) scn t) - value (s_cost y) scn t * entry (os_capacity o) scn t)%Q
      (fun t => - (value (s_cost y) scn t * x (VCap net nd i t) + price (t, net, nd) * (x (VIn net nd i t) - x (VOut net nd i t))))%Q).
    2:{ intros t T. apply in_seq in T. destruct (ca_stors _ _ _ _ CA net nd n rn i y o t ltac:(lia) N Rn EC EO) as (E1 & E2 & E3). rewrite E1, E2, E3. unfold pr. ring. }
    rewrite (qsum_map_ext (fun t => pr t net nd * (leaving t - entering t) - value (s_cost y) scn t * content t)%Q
      (fun t => - (value (s_cost y) scn t * content t + price (t, net, nd) * (entering t - leaving t)))%Q) by (intros; unfold pr; ring).
    rewrite !qsum_map_opp. lra.
  - intros t name v rv T V Rv q Q1 Q2. rewrite (ca_dest _ _ _ _ CA name v rv t T V Rv).
    destruct (ld_conv _ R name v V) as [_ _ SR _].
    assert (NZ : forall k w, In (k, w) (v_src v) -> ~ (value w scn t == 0)%Q) by (intros k w I; apply (SR k w I); auto).
    pose proof (D (AConv t name v) (fun u => match u with VSrc _ a b _ => match dget (a, b) (v_src v) with Some w => q / value w scn t | None => 0 end | _ => q end)%Q) as B.
    cbn [own fits vsrc fst snd] in B.
    assert (ND : NoDup (dkeys (v_src v))) by (eapply (ld_once _ R); eauto).
    assert (G : forall a b w, In ((a, b), w) (v_src v) -> dget (a, b) (v_src v) = Some w) by (intros; now apply In_dget).
    assert (P : In (AConv t name v) (parts s)) by (apply (parts_In s scn S R); auto). specialize (B P).
    assert (F : within 0 q (ovalue (v_max v) scn t) /\ (forall (k : string * string) (w : numval), In (k, w) (v_src v) ->
       within 0 (match dget (fst k, snd k) (v_src v) with Some w => q / value w scn t | None => 0 end)%Q (ovalue (v_max v) scn t / value w scn t) /\
       (value w scn t * match dget (fst k, snd k) (v_src v) with Some w => q / value w scn t | None => 0 end == q)%Q)).
    { split; auto. intros [a b] w I. cbn [fst snd]. rewrite (G a b w I). split; [eapply Q2; eauto |]. field. eapply NZ; eauto. }
    specialize (B F).
    rewrite (qsum_map_ext (fun kr : string * string * numval => price (t, fst (fst kr), snd (fst kr)) * match dget (fst (fst kr), snd (fst kr)) (v_src v) with Some w => q / value w scn t | None => 0 end)%Q
      (fun kr => q * (pr t (fst (fst kr)) (snd (fst kr)) / value (snd kr) scn t))%Q) in B.
    2:{ intros [[a b] w] I. cbn [fst snd]. rewrite (G a b w I). unfold pr. field. eapply NZ; eauto. }
    rewrite (qsum_map_ext (fun kr : string * string * numval => price (t, fst (fst kr), snd (fst kr)) * x (VSrc name (fst (fst kr)) (snd (fst kr)) t))%Q
      (fun kr => x (VDest name t) * (pr t (fst (fst kr)) (snd (fst kr)) / value (snd kr) scn t))%Q) in B.
    2:{ intros [[a b] w] I. cbn [fst snd]. rewrite <- (xo_mix _ _ _ X t name v T V (a, b) w I). unfold pr, vsrc. cbn [fst snd]. field. eapply NZ; eauto. }
    rewrite !qsum_map_scal in B. unfold conv_gain, total. unfold pr in *. lra.
Qed.
Lemma best_of : equilibrium s r scn pr -> does_best s scn price x.
Proof.
  intros [EC EP EL ES EV] P y I F. apply (parts_In s scn S R) in I. destruct P; cbn [own fits] in *.
  - destruct I as (T & n & N & E). destruct (mirror_node_l s r M _ _ _ N) as (rn & Rn & L). destruct (Forall2_get _ _ _ _ _ (nl_cons _ _ _ L) E) as (o & EO & _).
    unfold within in F. assert (W : within 0 (value (c_qty c) scn t - y (VLol net nd i t)) (value (c_qty c) scn t)) by (unfold within; lra).
    pose proof (EC t net nd n rn i c o T N Rn E EO _ W) as B. rewrite (ca_cons _ _ _ _ CA _ _ _ _ _ _ _ _ T N Rn E EO) in B. unfold pr in B. lra.
  - destruct I as (T & n & N & E). destruct (mirror_node_l s r M _ _ _ N) as (rn & Rn & L). destruct (Forall2_get _ _ _ _ _ (nl_prods _ _ _ L) E) as (o & EO & _).
    pose proof (EP t net nd n rn i p o T N Rn E EO _ F) as B. rewrite (ca_prods _ _ _ _ CA _ _ _ _ _ _ _ _ T N Rn E EO) in B. unfold pr in B. lra.
  - destruct I as (T & n & N & E). destruct (mirror_node_l s r M _ _ _ N) as (rn & Rn & L). destruct (Forall2_get _ _ _ _ _ (nl_links _ _ _ L) E) as (o & EO & _).
    pose proof (EL t net nd n rn i l o T N Rn E EO _ F) as B. rewrite (ca_links _ _ _ _ CA _ _ _ _ _ _ _ _ T N Rn E EO) in B. unfold pr in B. lra.
  - destruct I as (n & N & E). destruct (mirror_node_l s r M _ _ _ N) as (rn & Rn & L). destruct (Forall2_get _ _ _ _ _ (nl_stors _ _ _ L) E) as (o & EO & _).
    rename y0 into st. assert (PL : plan_ok s scn (Nat.eqb i 0) st (fun t => y (VCap net nd i t)) (fun t => y (VIn net nd i t)) (fun t => y (VOut net nd i t))).
    { intros t T. destruct (F t T) as ((A1 & A2 & A3) & A4). split; auto. split; auto. split; auto. intros Z. apply A4. now apply Nat.eqb_eq. }
    pose proof (ES net nd n rn i st o N Rn E EO _ _ _ PL) as B. unfold plan_profit, total in B.
    rewrite (qsum_map_ext (fun t => pr t net nd * (entry (os_flow_out o) scn t - entry (os_flow_in o) scn t) - value (s_cost st) scn t * entry (os_capacity o) scn t)%Q
      (fun t => - (value (s_cost st) scn t * x (VCap net nd i t) + price (t, net, nd) * (x (VIn net nd i t) - x (VOut net nd i t))))%Q) in B.
    2:{ intros t T. apply in_seq in T. destruct (ca_stors _ _ _ _ CA net nd n rn i st o t ltac:(lia) N Rn E EO) as (E1 & E2 & E3). rewrite E1, E2, E3. unfold pr. ring. }
    rewrite (qsum_map_ext (fun t => pr t net nd * (y (VOut net nd i t) - y (VIn net nd i t)) - value (s_cost st) scn t * y (VCap net nd i t))%Q
      (fun t => - (value (s_cost st) scn t * y (VCap net nd i t) + price (t, net, nd) * (y (VIn net nd i t) - y (VOut net nd i t))))%Q) in B by (intros; unfold pr; ring).
    rewrite !qsum_map_opp in B. lra.
  - destruct I as (T & V). destruct (mirror_conv_l s r M _ _ V) as (rv & Rv & _). destruct (ld_conv _ R name v V) as [_ _ SR _].
    assert (NZ : forall k w, In (k, w) (v_src v) -> ~ (value w scn t == 0)%Q) by (intros k w I; apply (SR k w I); auto).
    destruct F as [F1 F2].
    assert (SV : forall k w, In (k, w) (v_src v) -> (y (vsrc name t k) == y (VDest name t) / value w scn t)%Q).
    { intros k w I. destruct (F2 k w I) as [_ E]. rewrite <- E. field. eapply NZ; eauto. }
    pose proof (EV t name v rv T V Rv (y (VDest name t)) F1) as B. rewrite (ca_dest _ _ _ _ CA name v rv t T V Rv) in B.
    assert (W : forall k w, In (k, w) (v_src v) -> within 0 (y (VDest name t) / value w scn t) (ovalue (v_max v) scn t / value w scn t)).
    { intros k w I. destruct (F2 k w I) as [W _]. unfold within in *. rewrite <- (SV k w I). exact W. }
    specialize (B W). unfold conv_gain, total in B.
    rewrite (qsum_map_ext (fun kr : string * string * numval => price (t, fst (fst kr), snd (fst kr)) * y (vsrc name t (fst kr)))%Q
      (fun kr => y (VDest name t) * (pr t (fst (fst kr)) (snd (fst kr)) / value (snd kr) scn t))%Q).
    2:{ intros [[a b] w] I. cbn [fst snd]. rewrite (SV (a, b) w I). unfold pr. field. eapply NZ; eauto. }
    rewrite (qsum_map_ext (fun kr : string * string * numval => price (t, fst (fst kr), snd (fst kr)) * x (vsrc name t (fst kr)))%Q
      (fun kr => x (VDest name t) * (pr t (fst (fst kr)) (snd (fst kr)) / value (snd kr) scn t))%Q).
    2:{ intros [[a b] w] I. cbn [fst snd]. rewrite <- (xo_mix _ _ _ X t name v T V (a, b) w I). unfold pr. field. eapply NZ; eauto. }
    rewrite !qsum_map_scal. unfold pr in *. lra.
Qed.
End Link.

Lemma Forall2_both {A C} (P : A -> C -> Prop) l m : Forall2 P l m -> forall i a c, nth_error l i = Some a -> nth_error m i = Some c -> P a c.
Proof. intros F i a c E E'. destruct (Forall2_get _ _ _ _ _ F E) as (c' & J & H). rewrite J in E'. now injection E' as <-. Qed.

(** ** C82 *)

Lemma laid_cheapest_iff : forall s r scn, laid s -> scn < st_nb_scn s -> mirrors s r -> law_ok s r scn ->
  ((forall r', mirrors s r' -> law_ok s r' scn -> (total_cost s r scn <= total_cost s r' scn)%Q) <-> exists price, equilibrium s r scn price).
Proof.
  intros s r scn R S M L. pose proof (read_carries s r scn R M) as CA. set (x := read_result s r scn) in *.
  pose proof (proj1 (law_iff s r R M scn x CA S) L) as X.
  assert (C : (forall r', mirrors s r' -> law_ok s r' scn -> (total_cost s r scn <= total_cost s r' scn)%Q) <->
              xok s scn x /\ forall y, xok s scn y -> (xcost s scn x <= xcost s scn y)%Q).
  { split.
    - intros H. split; auto. intros y Y. pose proof (result_of_mirrors s (fun _ => y)) as M'. pose proof (result_of_carries s (fun _ => y) scn S) as CA'.
      specialize (H _ M'). rewrite (cost_eq s r R M scn _ CA), (cost_eq s _ R M' scn _ CA') in H. apply H. now apply (law_iff s _ R M' scn y CA' S).
    - intros [_ H] r' M' L'. pose proof (read_carries s r' scn R M') as CA'. rewrite (cost_eq s r R M scn _ CA), (cost_eq s _ R M' scn _ CA').
      apply H. now apply (law_iff s r' R M' scn _ CA' S). }
  rewrite C, (supports_iff s scn S R x). split.
  - intros [_ (price & SU)]. exists (fun t net nd => price (t, net, nd)). apply (equilibrium_of s r scn x S R CA X). now apply (supports_parts s scn S R).
  - intros (price & EQ). split; auto. exists (fun k => price (fst (fst k)) (snd (fst k)) (snd k)). apply (supports_parts s scn S R); auto.
    apply (best_of s r scn x S R M CA X). exact EQ.
Qed.

(** For every study the API builds and every dispatch of it that follows the laws: it
    is the cheapest exactly when there are such prices. *)
Theorem C82_cheapest_iff_equilibrium : forall s r scn, api_study s -> usable_converters s -> scn < st_nb_scn s -> mirrors s r -> law_ok s r scn ->
  ((forall r', mirrors s r' -> law_ok s r' scn -> (total_cost s r scn <= total_cost s r' scn)%Q) <-> exists price, equilibrium s r scn price).
Proof. intros s r scn A U S M L. apply laid_cheapest_iff; auto. apply ready_laid. now apply api_ready. Qed.

(** The result of an optimal answer has prices. *)
Theorem C82_prices_exist : forall answer s r scn, api_study s -> plain_sources s -> solved answer s r -> scn < st_nb_scn s -> optimal_answer answer s scn ->
  exists price, equilibrium s r scn price.
Proof.
  intros answer s r scn A P SV S O. assert (U : usable_converters s) by (destruct (api_facts s A) as (W & K & Hh & Hn); eapply solved_usable; eauto).
  destruct (solved_facts _ _ _ A P SV) as (_ & M & _). apply (C20_cost_optimal_exact answer s r scn A P SV S) in O as [L Best].
  now apply (C82_cheapest_iff_equilibrium s r scn A U S M L).
Qed.

Lemma laid_same_prices : forall s r r' scn price, laid s -> scn < st_nb_scn s ->
  mirrors s r -> law_ok s r scn -> mirrors s r' -> law_ok s r' scn -> (total_cost s r' scn == total_cost s r scn)%Q ->
  equilibrium s r scn price -> equilibrium s r' scn price.
Proof.
  intros s r r' scn price R S M L M' L' E EQ.
  pose proof (read_carries s r scn R M) as CA. pose proof (read_carries s r' scn R M') as CA'.
  pose proof (proj1 (law_iff s r R M scn _ CA S) L) as X. pose proof (proj1 (law_iff s r' R M' scn _ CA' S) L') as X'.
  rewrite (cost_eq s r R M scn _ CA), (cost_eq s r' R M' scn _ CA') in E.
  apply (best_of s r scn _ S R M CA X (fun k => price (fst (fst k)) (snd (fst k)) (snd k))) in EQ. apply (supports_parts s scn S R _ _ X) in EQ.
  apply (equilibrium_of s r' scn _ S R CA' X' (fun k => price (fst (fst k)) (snd (fst k)) (snd k))). apply (supports_parts s scn S R _ _ X').
  intros y Y. specialize (EQ y Y). lra.
Qed.

(** Prices of one cheapest dispatch are prices of all of them. *)
Theorem C82_same_prices : forall s r r' scn price, api_study s -> usable_converters s -> scn < st_nb_scn s ->
  mirrors s r -> law_ok s r scn -> mirrors s r' -> law_ok s r' scn -> (total_cost s r' scn == total_cost s r scn)%Q ->
  equilibrium s r scn price -> equilibrium s r' scn price.
Proof. intros s r r' scn price A U S M L M' L' E EQ. apply (laid_same_prices s r); auto. apply ready_laid. now apply api_ready. Qed.

(** What prices say: dearer productions rest, cheaper ones run in full, a production in
    between sets the price; likewise loads and links. *)
Lemma best_reads gain q up : best gain q up -> within 0 q up ->
  ((0 < gain -> q == up) /\ (gain < 0 -> q == 0) /\ (0 < q -> q < up -> gain == 0))%Q.
Proof.
  unfold best, within. intros B [L U].
  assert (U1 : (gain * up <= gain * q)%Q) by (apply B; lra). assert (L1 : (gain * 0 <= gain * q)%Q) by (apply B; lra).
  assert (P1 : (0 < gain -> q == up)%Q) by (intros G; nra). assert (P2 : (gain < 0 -> q == 0)%Q) by (intros G; nra).
  split; [exact P1 |]. split; [exact P2 |]. intros Q1 Q2. destruct (Qlt_le_dec 0 gain) as [G|G]; [specialize (P1 G); lra |].
  destruct (Qlt_le_dec gain 0) as [G'|G']; [specialize (P2 G'); lra | lra].
Qed.
Theorem C82_what_prices_say : forall s r scn price, law_ok s r scn -> equilibrium s r scn price -> forall t net nd n rn,
  t < st_horizon s -> node_at s net nd = Some n -> rnode_at r net nd = Some rn ->
  (forall i p o, nth_error (n_prods n) i = Some p -> nth_error (on_prods rn) i = Some o ->
     (value (p_cost p) scn t < price t net nd -> entry (op_qty o) scn t == value (p_qty p) scn t)%Q /\
     (price t net nd < value (p_cost p) scn t -> entry (op_qty o) scn t == 0)%Q /\
     (0 < entry (op_qty o) scn t -> entry (op_qty o) scn t < value (p_qty p) scn t -> price t net nd == value (p_cost p) scn t)%Q) /\
  (forall i c o, nth_error (n_cons n) i = Some c -> nth_error (on_cons rn) i = Some o ->
     (price t net nd < value (c_cost c) scn t -> entry (oc_qty o) scn t == value (c_qty c) scn t)%Q /\
     (value (c_cost c) scn t < price t net nd -> entry (oc_qty o) scn t == 0)%Q /\
     (0 < entry (oc_qty o) scn t -> entry (oc_qty o) scn t < value (c_qty c) scn t -> price t net nd == value (c_cost c) scn t)%Q) /\
  (forall i l o, nth_error (n_links n) i = Some l -> nth_error (on_links rn) i = Some o -> l_dest l <> nd ->
     (price t net nd + value (l_cost l) scn t < price t net (l_dest l) -> entry (ol_qty o) scn t == value (l_qty l) scn t)%Q /\
     (price t net (l_dest l) < price t net nd + value (l_cost l) scn t -> entry (ol_qty o) scn t == 0)%Q /\
     (0 < entry (ol_qty o) scn t -> entry (ol_qty o) scn t < value (l_qty l) scn t -> price t net (l_dest l) == price t net nd + value (l_cost l) scn t)%Q).
Proof.
  intros s r scn price L [EC EP EL _ _] t net nd n rn T N Rn. destruct (proj1 (lw_capacities _ _ _ L t T) net nd n rn N Rn) as (WC & WP & _ & WL).
  split; [| split].
  - intros i p o E EO. pose proof (Forall2_both _ _ _ WP i p o E EO) as W. destruct (best_reads _ _ _ (EP t net nd n rn i p o T N Rn E EO) W) as (A & B & C).
    split; [intros; apply A; lra |]. split; [intros; apply B; lra |]. intros H1 H2. specialize (C H1 H2). lra.
  - intros i p o E EO. pose proof (Forall2_both _ _ _ WC i p o E EO) as W. destruct (best_reads _ _ _ (EC t net nd n rn i p o T N Rn E EO) W) as (A & B & C).
    split; [intros; apply A; lra |]. split; [intros; apply B; lra |]. intros H1 H2. specialize (C H1 H2). lra.
  - intros i p o E EO NE. pose proof (Forall2_both _ _ _ WL i p o E EO) as W. destruct (best_reads _ _ _ (EL t net nd n rn i p o T N Rn E EO) W) as (A & B & C).
    rewrite (proj2 (String.eqb_neq _ _) NE) in A, B, C.
    split; [intros; apply A; lra |]. split; [intros; apply B; lra |]. intros H1 H2. specialize (C H1 H2). lra.
Qed.

(** Load "comfort" of node "a" is partly served: the price there is its cost, for all
    prices that go with the result. *)
Example C82_example : api_study duo /\ plain_sources duo /\ solved duo_answer duo duo_result /\ optimal_answer duo_answer duo 0 /\ law_ok duo duo_result 0 /\
  (exists price, equilibrium duo duo_result 0 price) /\ forall price, equilibrium duo duo_result 0 price -> (price 0%nat "net" "a" == 500)%Q.
Proof.
  assert (P : plain_sources duo) by (apply plainb_ok; vm_compute; reflexivity).
  pose proof (proj1 (C20_cost_optimal_exact duo_answer duo duo_result 0 duo_api P duo_solved ltac:(vm_compute; lia)) duo_optimal) as [L _].
  split; [apply duo_api |]. split; [exact P |]. split; [apply duo_solved |]. split; [apply duo_optimal |]. split; [exact L |]. split.
  - apply (C82_prices_exist duo_answer); [apply duo_api | exact P | apply duo_solved | vm_compute; lia | apply duo_optimal].
  - intros price EQ. destruct (node_at duo "net" "a") as [n|] eqn:N; [| discriminate]. destruct (rnode_at duo_result "net" "a") as [rn|] eqn:Rn; [| discriminate].
    destruct (C82_what_prices_say duo duo_result 0 price L EQ 0 "net" "a" n rn ltac:(vm_compute; lia) N Rn) as (_ & C & _).
    vm_compute in N, Rn. injection N as <-. injection Rn as <-.
    destruct (C 1 _ _ eq_refl eq_refl) as (_ & _ & X). vm_compute in X. apply X; vm_compute; reflexivity.
Qed.

Print Assumptions C82_cheapest_iff_equilibrium.
Print Assumptions C82_prices_exist.
Print Assumptions C82_same_prices.
Print Assumptions C82_what_prices_say.
