(** C89: in a cheapest dispatch storages save what can be saved. *)
From Coq Require Import String Ascii List ZArith QArith Bool Arith Lia Lqa Permutation Sorted.
From Verif Require Import Base BaseFacts Numeric Study Fluent Output LP SpecStudy SpecLP StudyFacts LPBuild LPFacts LPSat LPResult LPReady LPSolve LPWeak LPMore LPPrice LPMarket P_LP P_Opt P_Law P_Prices.
Import ListNotations.
Open Scope nat_scope.
Open Scope string_scope.
Open Scope list_scope.

(** ** Small steps *)
(** A quantity, its direction and its upper bound. *)
Definition may_move (m : Q * Q * Q) : Prop :=
  let q := fst (fst m) in let d := snd (fst m) in let up := snd m in
  (within 0 q up /\ (d < 0 -> 0 < q) /\ (0 < d -> q < up))%Q.
Lemma one_step m : may_move m -> exists e, (0 < e)%Q /\ forall e', (0 <= e' <= e)%Q -> within 0 (fst (fst m) + e' * snd (fst m)) (snd m).
Proof.
  destruct m as [[q d] up]. unfold may_move, within. cbn [fst snd]. intros ([L U] & Dn & Up).
  destruct (Qlt_le_dec d 0) as [D|D]; [|destruct (Qlt_le_dec 0 d) as [D'|D']].
  - specialize (Dn D). exists (q / - d)%Q. assert (P : (0 < - d)%Q) by lra.
    split; [apply Qlt_shift_div_l; lra|]. intros e' [E1 E2].
    assert (X : (e' * - d <= q)%Q) by (apply (Qmult_le_r _ _ (- d)) in E2; auto; setoid_replace (q / - d * - d)%Q with q in E2 by (field; lra); exact E2).
    split; nra.
  - specialize (Up D'). exists ((up - q) / d)%Q.
    split; [apply Qlt_shift_div_l; lra|]. intros e' [E1 E2].
    assert (X : (e' * d <= up - q)%Q) by (apply (Qmult_le_r _ _ d) in E2; auto; setoid_replace ((up - q) / d * d)%Q with (up - q)%Q in E2 by (field; lra); exact E2).
    split; nra.
  - exists 1%Q. split; [lra|]. intros e' E. assert (Z : (d == 0)%Q) by lra. rewrite Z. split; lra.
Qed.
Lemma all_steps l : Forall may_move l -> exists e, (0 < e)%Q /\
  forall m e', In m l -> (0 <= e' <= e)%Q -> within 0 (fst (fst m) + e' * snd (fst m)) (snd m).
Proof.
  induction 1 as [|m l H _ (e & P & IH)]; [exists 1%Q; split; [lra | intros ? ? []]|].
  destruct (one_step m H) as (e1 & P1 & H1). destruct (Qlt_le_dec e e1) as [C|C]; [exists e | exists e1]; (split; [assumption|]).
  - intros m' e' [<-|I] E; [apply H1; lra | now apply IH].
  - intros m' e' [<-|I] E; [now apply H1 | apply IH; auto; lra].
Qed.

(** ** Changing a plan *)
(** Cost of keeping one unit from [t1] until [t2]. *)
Definition holding (scn : nat) (y : storage) (t1 t2 : nat) : Q := total (fun t => value (s_cost y) scn t) (seq t1 (t2 - t1)).

Section One.
Variables (s : study) (r : result) (scn : nat) (price : nat -> string -> string -> Q).
Hypotheses (L : law_ok s r scn) (EQ : equilibrium s r scn price).
Variables (net nd : string) (n : node) (rn : onode) (i : nat) (y : storage) (o : ostorage).
Hypotheses (N : node_at s net nd = Some n) (Rn : rnode_at r net nd = Some rn) (Y : nth_error (n_stors n) i = Some y) (HO : nth_error (on_stors rn) i = Some o).
Let h := st_horizon s.
Let content t := entry (os_capacity o) scn t.
Let entering t := entry (os_flow_in o) scn t.
Let leaving t := entry (os_flow_out o) scn t.
Let eff t := value (s_eff y) scn t.
Let pr t := price t net nd.

Lemma plan_now : plan_ok s scn (Nat.eqb i 0) y content entering leaving.
Proof.
  intros t T. destruct (proj1 (lw_capacities _ _ _ L t T) net nd n rn N Rn) as (_ & _ & W & _).
  destruct (Forall2_both _ _ _ W i y o Y HO) as (A & B & C). split; [exact A|]. split; [exact B|]. split; [exact C|]. intros F.
  apply Nat.eqb_eq in F. pose proof Y as Y'. pose proof HO as HO'. rewrite F in Y', HO'.
  destruct (n_stors n) as [|y' ys] eqn:EY; [discriminate|]. destruct (on_stors rn) as [|o' os] eqn:EO; [discriminate|].
  injection Y' as ->. injection HO' as ->.
  exact (lw_storages _ _ _ L net nd n rn y ys o os N Rn EY EO t T).
Qed.

(** No direction in which the plan may move earns anything. *)
Lemma no_gain dc di dl :
  (forall t, t < h -> may_move (content t, dc t, value (s_capacity y) scn t) /\ may_move (entering t, di t, value (s_flow_in y) scn t) /\
     may_move (leaving t, dl t, value (s_flow_out y) scn t) /\
     (dc t == (match t with O => 0 | S t' => dc t' end) + eff t * di t - dl t)%Q) ->
  (total (fun t => pr t * (dl t - di t) - value (s_cost y) scn t * dc t) (seq 0 h) <= 0)%Q.
Proof.
  intros H.
  destruct (all_steps (flat_map (fun t => [(content t, dc t, value (s_capacity y) scn t); (entering t, di t, value (s_flow_in y) scn t);
                                           (leaving t, dl t, value (s_flow_out y) scn t)]) (seq 0 h))) as (e & P & St).
  { apply Forall_forall. intros m I. apply in_flat_map in I as (t & I & J). apply in_seq in I. destruct (H t ltac:(lia)) as (A & B & C & _).
    destruct J as [<-|[<-|[<-|[]]]]; assumption. }
  pose proof (eq_stors _ _ _ _ EQ net nd n rn i y o N Rn Y HO (fun t => content t + e * dc t)%Q (fun t => entering t + e * di t)%Q (fun t => leaving t + e * dl t)%Q) as G.
  assert (PO : plan_ok s scn (Nat.eqb i 0) y (fun t => content t + e * dc t)%Q (fun t => entering t + e * di t)%Q (fun t => leaving t + e * dl t)%Q).
  { intros t T. destruct (H t T) as (_ & _ & _ & R). destruct (plan_now t T) as (_ & _ & _ & Ev).
    assert (I : forall m, In m [(content t, dc t, value (s_capacity y) scn t); (entering t, di t, value (s_flow_in y) scn t);
                                (leaving t, dl t, value (s_flow_out y) scn t)] -> within 0 (fst (fst m) + e * snd (fst m)) (snd m)).
    { intros m I. apply St; [|lra]. apply in_flat_map. exists t. split; auto. apply in_seq. unfold h. lia. }
    split; [apply (I (_, _, _)); cbn; auto|]. split; [apply (I (_, _, _)); cbn; auto|]. split; [apply (I (_, _, _)); cbn; auto|]. intros Fi. specialize (Ev Fi).
    fold (eff t) in *. destruct t as [|t']; rewrite Ev, R; ring. }
  specialize (G PO). unfold plan_profit in G. unfold total in *.
  assert (X : (qsum (map (fun t => price t net nd * (leaving t + e * dl t - (entering t + e * di t)) - value (s_cost y) scn t * (content t + e * dc t)) (seq 0 h)) ==
     qsum (map (fun t => price t net nd * (leaving t - entering t) - value (s_cost y) scn t * content t) (seq 0 h)) +
     e * qsum (map (fun t => pr t * (dl t - di t) - value (s_cost y) scn t * dc t) (seq 0 h)))%Q).
  { rewrite <- qsum_map_scal, <- qsum_map_add. apply qsum_map_ext. intros t _. unfold pr. ring. }
  fold h in G. rewrite X in G. unfold leaving, entering, content in G.
  set (a := qsum (map (fun t => price t net nd * (entry (os_flow_out o) scn t - entry (os_flow_in o) scn t) - value (s_cost y) scn t * entry (os_capacity o) scn t)%Q (seq 0 h))) in *.
  set (b := qsum _) in *. apply Qnot_lt_le. intros C. nra.
Qed.

(** Sums of marked times. *)
Lemma mark_one (f : nat -> Q) t1 k : t1 < k -> (qsum (map (fun t => if Nat.eqb t t1 then f t else 0) (seq 0 k)) == f t1)%Q.
Proof.
  intros T. replace k with (t1 + (1 + (k - t1 - 1))) by lia. rewrite !seq_app, !map_app, !qsum_app. cbn [seq map qsum fold_right].
  rewrite !qsum_map_zero; cbn.
  - rewrite Nat.eqb_refl. cbn. ring.
  - intros t I. apply in_seq in I. replace (Nat.eqb t t1) with false by (symmetry; apply Nat.eqb_neq; lia). reflexivity.
  - intros t I. apply in_seq in I. replace (Nat.eqb t t1) with false by (symmetry; apply Nat.eqb_neq; lia). reflexivity.
Qed.
Definition between (t1 t2 t : nat) : bool := (Nat.leb t1 t && Nat.ltb t t2)%bool.
Lemma mark_between (f : nat -> Q) t1 t2 k : t1 <= t2 -> t2 <= k ->
  (qsum (map (fun t => if between t1 t2 t then f t else 0) (seq 0 k)) == qsum (map f (seq t1 (t2 - t1))))%Q.
Proof.
  intros A B. replace k with (t1 + ((t2 - t1) + (k - t2))) by lia. rewrite !seq_app, !map_app, !qsum_app.
  rewrite (qsum_map_zero _ (seq 0 t1)), (qsum_map_zero _ (seq (0 + t1 + (t2 - t1)) (k - t2))).
  - rewrite (qsum_map_ext _ f (seq (0 + t1) (t2 - t1))); [rewrite Nat.add_0_l; ring|]. intros t I. apply in_seq in I. unfold between.
    replace (Nat.leb t1 t) with true by (symmetry; apply Nat.leb_le; lia). replace (Nat.ltb t t2) with true by (symmetry; apply Nat.ltb_lt; lia). reflexivity.
  - intros t I. apply in_seq in I. unfold between. replace (Nat.ltb t t2) with false by (symmetry; apply Nat.ltb_ge; lia). now rewrite andb_false_r.
  - intros t I. apply in_seq in I. unfold between. replace (Nat.leb t1 t) with false by (symmetry; apply Nat.leb_gt; lia). reflexivity.
Qed.

Ltac marks := unfold between in *; repeat match goal with
  | |- context [Nat.eqb ?a ?b] => destruct (Nat.eqb_spec a b)
  | |- context [Nat.leb ?a ?b] => destruct (Nat.leb_spec a b)
  | |- context [Nat.ltb ?a ?b] => destruct (Nat.ltb_spec a b)
  end; cbn [andb]; try lia; subst.

(** What a change earns: [a] more enters at [t1], [b1] and [b2] more leave at [u1] and
    [u2], the content is changed by [c] from [t2] until [t3]. *)
Lemma direction_sum a b1 b2 c t1 t2 t3 : t1 < h -> t2 <= t3 -> t3 <= h -> forall u1 u2, u1 < h -> u2 < h ->
  (total (fun t => pr t * ((if Nat.eqb t u1 then b1 else 0) + (if Nat.eqb t u2 then b2 else 0) - (if Nat.eqb t t1 then a else 0))
            - value (s_cost y) scn t * (if between t2 t3 t then c else 0)) (seq 0 h) ==
   b1 * pr u1 + b2 * pr u2 - a * pr t1 - c * holding scn y t2 t3)%Q.
Proof.
  intros T1 T2 T3 u1 u2 U1 U2. unfold total, holding, total.
  rewrite (qsum_map_ext _ (fun t => ((b1 * (if Nat.eqb t u1 then pr t else 0) + b2 * (if Nat.eqb t u2 then pr t else 0)) - a * (if Nat.eqb t t1 then pr t else 0))
             - c * (if between t2 t3 t then value (s_cost y) scn t else 0))%Q).
  2: { intros t _. destruct (Nat.eqb t u1), (Nat.eqb t u2), (Nat.eqb t t1), (between t2 t3 t); ring. }
  rewrite !qsum_map_sub, qsum_map_add, !qsum_map_scal, !mark_one, mark_between by assumption. reflexivity.
Qed.

Lemma still q up : within 0 q up -> may_move (q, 0%Q, up).
Proof. intros W. split; [exact W|]. cbn. split; lra. Qed.

Lemma moves_if (b : bool) q d up : within 0 q up -> (b = true -> (d < 0 -> 0 < q) /\ (0 < d -> q < up))%Q -> may_move (q, if b then d else 0%Q, up).
Proof. intros W H. destruct b; [|now apply still]. split; [exact W|]. cbn. now apply H. Qed.
Lemma between_iff t1 t2 t : between t1 t2 t = true <-> t1 <= t < t2.
Proof. unfold between. rewrite andb_true_iff, Nat.leb_le, Nat.ltb_lt. tauto. Qed.
Lemma moves_if2 (b b' : bool) q d d' up : within 0 q up -> (b && b' = false)%bool ->
  (b = true -> (d < 0 -> 0 < q) /\ (0 < d -> q < up))%Q -> (b' = true -> (d' < 0 -> 0 < q) /\ (0 < d' -> q < up))%Q ->
  may_move (q, (if b then d else 0) + (if b' then d' else 0), up)%Q.
Proof.
  intros W X H H'. split; [exact W|]. cbn [fst snd].
  destruct b, b'; [discriminate | destruct (H eq_refl) | destruct (H' eq_refl) |]; split; intros; lra || (apply H0; lra) || (apply H1; lra).
Qed.

(** One more unit enters at [t1] and its rest leaves at [t2], or one less. *)
Lemma carry sg t1 t2 : t1 <= t2 -> t2 < h -> let e := eff t1 in
  (sg < 0 -> 0 < entering t1)%Q -> (0 < sg -> entering t1 < value (s_flow_in y) scn t1)%Q ->
  (sg * e < 0 -> 0 < leaving t2)%Q -> (0 < sg * e -> leaving t2 < value (s_flow_out y) scn t2)%Q ->
  (forall t, t1 <= t < t2 -> (sg * e < 0 -> 0 < content t)%Q /\ (0 < sg * e -> content t < value (s_capacity y) scn t)%Q) ->
  (sg * (e * pr t2 - pr t1 - e * holding scn y t1 t2) <= 0)%Q.
Proof.
  intros T12 T2 e I1 I2 L1 L2 C.
  pose proof (no_gain (fun t => if between t1 t2 t then sg * e else 0)%Q (fun t => if Nat.eqb t t1 then sg else 0)%Q
    (fun t => (if Nat.eqb t t2 then sg * e else 0) + (if Nat.eqb t t2 then 0 else 0))%Q) as G.
  rewrite (direction_sum sg (sg * e)%Q 0%Q (sg * e)%Q t1 t1 t2) in G by lia.
  assert (X : (sg * e * pr t2 + 0 * pr t2 - sg * pr t1 - sg * e * holding scn y t1 t2 <= 0)%Q); [apply G | lra].
  intros t T. destruct (plan_now t T) as (Wc & Wi & Wl & _). split; [|split; [|split]].
  - apply moves_if; auto. intros B. apply between_iff in B. auto.
  - apply moves_if; auto. intros B. apply Nat.eqb_eq in B as ->. auto.
  - assert (Z : may_move (leaving t, (if Nat.eqb t t2 then sg * e else 0)%Q, value (s_flow_out y) scn t)).
    { apply moves_if; auto. intros B. apply Nat.eqb_eq in B as ->. auto. }
    destruct Z as (Z1 & Z2 & Z3). split; [exact Z1|]. cbn [fst snd] in *. destruct (Nat.eqb t t2); split; intros; (apply Z2; lra) || (apply Z3; lra).
  - destruct t as [|t']; marks; unfold e; try ring.
Qed.

(** One more unit leaves at [t1] and one less at [t2], or the other way around. *)
Lemma shift sg t1 t2 : t1 < t2 -> t2 < h ->
  (sg < 0 -> 0 < leaving t1)%Q -> (0 < sg -> leaving t1 < value (s_flow_out y) scn t1)%Q ->
  (- sg < 0 -> 0 < leaving t2)%Q -> (0 < - sg -> leaving t2 < value (s_flow_out y) scn t2)%Q ->
  (forall t, t1 <= t < t2 -> (- sg < 0 -> 0 < content t)%Q /\ (0 < - sg -> content t < value (s_capacity y) scn t)%Q) ->
  (sg * (pr t1 + holding scn y t1 t2 - pr t2) <= 0)%Q.
Proof.
  intros T12 T2 I1 I2 L1 L2 C.
  pose proof (no_gain (fun t => if between t1 t2 t then - sg else 0)%Q (fun t => if Nat.eqb t t1 then 0 else 0)%Q
    (fun t => (if Nat.eqb t t1 then sg else 0) + (if Nat.eqb t t2 then - sg else 0))%Q) as G.
  rewrite (direction_sum 0%Q sg (- sg)%Q (- sg)%Q t1 t1 t2) in G by lia.
  assert (X : (sg * pr t1 + - sg * pr t2 - 0 * pr t1 - - sg * holding scn y t1 t2 <= 0)%Q); [apply G | lra].
  intros t T. destruct (plan_now t T) as (Wc & Wi & Wl & _). split; [|split; [|split]].
  - apply moves_if; auto. intros B. apply between_iff in B. auto.
  - destruct (Nat.eqb t t1); now apply still.
  - apply moves_if2; auto.
    + marks; auto.
    + intros B. apply Nat.eqb_eq in B as ->. auto.
    + intros B. apply Nat.eqb_eq in B as ->. auto.
  - destruct t as [|t']; marks; try ring.
Qed.

(** One more unit leaves at [t1] and is missing until the end. *)
Lemma give t1 : t1 < h -> (leaving t1 < value (s_flow_out y) scn t1)%Q -> (forall t, t1 <= t < h -> (0 < content t)%Q) ->
  (pr t1 + holding scn y t1 h <= 0)%Q.
Proof.
  intros T1 L1 C.
  pose proof (no_gain (fun t => if between t1 h t then -1 else 0)%Q (fun t => if Nat.eqb t t1 then 0 else 0)%Q
    (fun t => (if Nat.eqb t t1 then 1 else 0) + (if Nat.eqb t t1 then 0 else 0))%Q) as G.
  rewrite (direction_sum 0%Q 1%Q 0%Q (-1)%Q t1 t1 h) in G by lia.
  assert (X : (1 * pr t1 + 0 * pr t1 - 0 * pr t1 - -1 * holding scn y t1 h <= 0)%Q); [apply G | lra].
  intros t T. destruct (plan_now t T) as (Wc & Wi & Wl & _). split; [|split; [|split]].
  - apply moves_if; auto. intros B. apply between_iff in B. split; intros; [auto | lra].
  - destruct (Nat.eqb t t1); now apply still.
  - split; [exact Wl|]. cbn [fst snd]. destruct (Nat.eqb_spec t t1) as [->|]; split; intros; auto; lra.
  - destruct t as [|t']; marks; try ring.
Qed.
End One.

(** ** C89 *)
Section Worth.
Variables (s : study) (r : result) (scn t : nat) (n : node) (rn : onode).
(** A production of at least this cost runs at the node, or a load of at least this
    cost is shed: one unit less to supply would save it. *)
Definition saves_at_least (a : Q) : Prop :=
  (exists i p o, nth_error (n_prods n) i = Some p /\ nth_error (on_prods rn) i = Some o /\
     0 < entry (op_qty o) scn t /\ a <= value (p_cost p) scn t)%Q \/
  (exists i c o, nth_error (n_cons n) i = Some c /\ nth_error (on_cons rn) i = Some o /\
     entry (oc_qty o) scn t < value (c_qty c) scn t /\ a <= value (c_cost c) scn t)%Q.
(** A production of at most this cost is not at its limit, or a load of at most this
    cost is served: one unit more can be supplied for it. *)
Definition costs_at_most (a : Q) : Prop :=
  (exists i p o, nth_error (n_prods n) i = Some p /\ nth_error (on_prods rn) i = Some o /\
     entry (op_qty o) scn t < value (p_qty p) scn t /\ value (p_cost p) scn t <= a)%Q \/
  (exists i c o, nth_error (n_cons n) i = Some c /\ nth_error (on_cons rn) i = Some o /\
     0 < entry (oc_qty o) scn t /\ value (c_cost c) scn t <= a)%Q.
End Worth.

Lemma best_low gain q up : best gain q up -> (0 <= q)%Q -> (q < up)%Q -> (gain <= 0)%Q.
Proof. intros B Q0 H. specialize (B up). apply Qnot_lt_le. intros G. assert (X : (gain * up <= gain * q)%Q) by (apply B; split; lra). nra. Qed.
Lemma best_high gain q up : best gain q up -> (q <= up)%Q -> (0 < q)%Q -> (0 <= gain)%Q.
Proof. intros B Q0 H. specialize (B 0%Q). apply Qnot_lt_le. intros G. assert (X : (gain * 0 <= gain * q)%Q) by (apply B; split; lra). nra. Qed.

Lemma price_least s r scn price t net nd n rn a : law_ok s r scn -> equilibrium s r scn price -> t < st_horizon s ->
  node_at s net nd = Some n -> rnode_at r net nd = Some rn -> saves_at_least scn t n rn a -> (a <= price t net nd)%Q.
Proof.
  intros L EQ T N Rn H. destruct (proj1 (lw_capacities _ _ _ L t T) net nd n rn N Rn) as (WC & WP & _).
  destruct H as [(i & p & o & E & EO & U & C)|(i & p & o & E & EO & U & C)].
  - destruct (Forall2_both _ _ _ WP i p o E EO) as [_ W]. pose proof (best_high _ _ _ (eq_prods _ _ _ _ EQ t net nd n rn i p o T N Rn E EO) W U). lra.
  - destruct (Forall2_both _ _ _ WC i p o E EO) as [W _]. pose proof (best_low _ _ _ (eq_cons _ _ _ _ EQ t net nd n rn i p o T N Rn E EO) W U). lra.
Qed.
Lemma price_most s r scn price t net nd n rn a : law_ok s r scn -> equilibrium s r scn price -> t < st_horizon s ->
  node_at s net nd = Some n -> rnode_at r net nd = Some rn -> costs_at_most scn t n rn a -> (price t net nd <= a)%Q.
Proof.
  intros L EQ T N Rn H. destruct (proj1 (lw_capacities _ _ _ L t T) net nd n rn N Rn) as (WC & WP & _).
  destruct H as [(i & p & o & E & EO & U & C)|(i & p & o & E & EO & U & C)].
  - destruct (Forall2_both _ _ _ WP i p o E EO) as [W _]. pose proof (best_low _ _ _ (eq_prods _ _ _ _ EQ t net nd n rn i p o T N Rn E EO) W U). lra.
  - destruct (Forall2_both _ _ _ WC i p o E EO) as [_ W]. pose proof (best_high _ _ _ (eq_cons _ _ _ _ EQ t net nd n rn i p o T N Rn E EO) W U). lra.
Qed.

Lemma some_or_all (f : nat -> Q) t1 t2 : (forall t, t1 <= t < t2 -> (0 <= f t)%Q) ->
  (exists t, t1 <= t < t2 /\ (f t == 0)%Q) \/ forall t, t1 <= t < t2 -> (0 < f t)%Q.
Proof.
  induction t2 as [|t2 IH]; intros H; [right; lia|]. destruct IH as [(t & T & Z)|P]; [intros; apply H; lia | left; exists t; split; [lia | auto] |].
  destruct (Nat.le_gt_cases t1 t2) as [Le|Gt]; [|right; lia].
  destruct (Qlt_le_dec 0 (f t2)) as [C|C].
  - right. intros t T. destruct (Nat.eq_dec t t2) as [->|]; [exact C | apply P; lia].
  - left. exists t2. split; [lia|]. specialize (H t2 ltac:(lia)). lra.
Qed.

(** A storage of a node in a cheapest dispatch, and what it does. *)
Section Storage.
Variables (answer : nat -> solver -> var -> Q) (s : study) (r : result) (scn : nat).
Hypotheses (A : api_study s) (P : plain_sources s) (SV : solved answer s r) (S : scn < st_nb_scn s) (O : optimal_answer answer s scn).
Variables (net nd : string) (n : node) (rn : onode) (i : nat) (y : storage) (o : ostorage).
Hypotheses (N : node_at s net nd = Some n) (Rn : rnode_at r net nd = Some rn)
  (Y : nth_error (n_stors n) i = Some y) (HO : nth_error (on_stors rn) i = Some o).
Let content t := entry (os_capacity o) scn t.
Let entering t := entry (os_flow_in o) scn t.
Let leaving t := entry (os_flow_out o) scn t.

Lemma lawful : law_ok s r scn.
Proof. now apply (C20_cost_optimal_exact answer s r scn A P SV S). Qed.
Lemma limits t : t < st_horizon s ->
  within 0 (content t) (value (s_capacity y) scn t) /\ within 0 (entering t) (value (s_flow_in y) scn t) /\ within 0 (leaving t) (value (s_flow_out y) scn t).
Proof. intros T. destruct (plan_now s r scn lawful net nd n rn i y o N Rn Y HO t T) as (B & C & D & _). auto. Qed.

(** Where energy costs something nothing is lost by storing and withdrawing at once. *)
Theorem C89_no_churn : forall t a, t < st_horizon s -> saves_at_least scn t n rn a -> (0 < a)%Q ->
  (0 <= value (s_eff y) scn t < 1)%Q -> (entering t == 0)%Q \/ (leaving t == 0)%Q.
Proof.
  intros t a T W a0 [E0 E1]. destruct (C82_prices_exist answer s r scn A P SV S O) as (price & EQ). pose proof lawful as L.
  destruct (limits t T) as (_ & [I _] & [Lv _]). pose proof (price_least _ _ _ _ _ _ _ _ _ _ L EQ T N Rn W) as PL.
  destruct (Qlt_le_dec 0 (entering t)) as [H1|]; [|left; lra]. destruct (Qlt_le_dec 0 (leaving t)) as [H2|]; [exfalso|right; lra].
  pose proof (carry s r scn price L EQ net nd n rn i y o N Rn Y HO (-1) t t (le_n _) T) as X. cbn beta zeta in X.
  unfold holding in X. rewrite Nat.sub_diag in X. cbn [seq total map qsum fold_right] in X.
  assert (G : (-1 * (value (s_eff y) scn t * price t net nd - price t net nd - value (s_eff y) scn t * 0) <= 0)%Q).
  { apply X; try (intros; lra); auto. intros; lia. }
  nra.
Qed.

(** Nothing is kept to the end that could have been used where it saves something. *)
Theorem C89_nothing_left : forall t1 a, t1 < st_horizon s -> saves_at_least scn t1 n rn a -> (0 < a + holding scn y t1 (st_horizon s))%Q ->
  (leaving t1 == value (s_flow_out y) scn t1)%Q \/ exists t, t1 <= t < st_horizon s /\ (content t == 0)%Q.
Proof.
  intros t1 a T W a0. destruct (C82_prices_exist answer s r scn A P SV S O) as (price & EQ). pose proof lawful as L.
  destruct (limits t1 T) as (_ & _ & [_ Lv]). pose proof (price_least _ _ _ _ _ _ _ _ _ _ L EQ T N Rn W) as PL.
  destruct (Qlt_le_dec (leaving t1) (value (s_flow_out y) scn t1)) as [H1|]; [|left; lra]. right.
  destruct (some_or_all content t1 (st_horizon s)) as [?|All]; auto. { intros t Ht. now destruct (limits t ltac:(lia)) as ([C _] & _). }
  exfalso. pose proof (give s r scn price L EQ net nd n rn i y o N Rn Y HO t1 T H1 All) as G. cbv beta zeta in G. lra.
Qed.

(** Energy cheap now that would save more later is stored, as far as the storage can. *)
Theorem C89_no_missed_saving : forall t1 t2 a b, t1 <= t2 -> t2 < st_horizon s -> costs_at_most scn t1 n rn a -> saves_at_least scn t2 n rn b ->
  let e := value (s_eff y) scn t1 in (0 <= e)%Q -> (a + e * holding scn y t1 t2 < e * b)%Q ->
  (entering t1 == value (s_flow_in y) scn t1)%Q \/ (leaving t2 == value (s_flow_out y) scn t2)%Q \/
  exists t, t1 <= t < t2 /\ (content t == value (s_capacity y) scn t)%Q.
Proof.
  intros t1 t2 a b T12 T2 W1 W2 e E0 Lt. assert (T1 : t1 < st_horizon s) by lia.
  destruct (C82_prices_exist answer s r scn A P SV S O) as (price & EQ). pose proof lawful as L.
  pose proof (price_most _ _ _ _ _ _ _ _ _ _ L EQ T1 N Rn W1) as P1. pose proof (price_least _ _ _ _ _ _ _ _ _ _ L EQ T2 N Rn W2) as P2.
  destruct (limits t1 T1) as (_ & [_ I1] & _). destruct (limits t2 T2) as (_ & _ & [_ L2]).
  destruct (Qlt_le_dec (entering t1) (value (s_flow_in y) scn t1)) as [H1|]; [right|left; lra].
  destruct (Qlt_le_dec (leaving t2) (value (s_flow_out y) scn t2)) as [H2|]; [right|left; lra].
  destruct (some_or_all (fun t => value (s_capacity y) scn t - content t)%Q t1 t2) as [(t & Ht & Z)|All].
  { intros t Ht. destruct (limits t ltac:(lia)) as ([_ C] & _). lra. }
  { exists t. split; auto. lra. }
  exfalso. assert (G : (1 * (e * price t2 net nd - price t1 net nd - e * holding scn y t1 t2) <= 0)%Q).
  { apply (carry s r scn price L EQ net nd n rn i y o N Rn Y HO 1 t1 t2 T12 T2); try (intros; unfold e in *; lra); auto.
    intros t Ht. specialize (All t Ht). cbn beta in All. fold (content t). split; intros; unfold e in *; lra. }
  nra.
Qed.

(** Energy is not stored at a loss. *)
Theorem C89_no_losing_trade : forall t1 t2 a b, t1 <= t2 -> t2 < st_horizon s -> saves_at_least scn t1 n rn a -> costs_at_most scn t2 n rn b ->
  let e := value (s_eff y) scn t1 in (0 <= e)%Q -> (e * b < a + e * holding scn y t1 t2)%Q ->
  (entering t1 == 0)%Q \/ (leaving t2 == 0)%Q \/ exists t, t1 <= t < t2 /\ (content t == 0)%Q.
Proof.
  intros t1 t2 a b T12 T2 W1 W2 e E0 Lt. assert (T1 : t1 < st_horizon s) by lia.
  destruct (C82_prices_exist answer s r scn A P SV S O) as (price & EQ). pose proof lawful as L.
  pose proof (price_least _ _ _ _ _ _ _ _ _ _ L EQ T1 N Rn W1) as P1. pose proof (price_most _ _ _ _ _ _ _ _ _ _ L EQ T2 N Rn W2) as P2.
  destruct (limits t1 T1) as (_ & [I1 _] & _). destruct (limits t2 T2) as (_ & _ & [L2 _]).
  destruct (Qlt_le_dec 0 (entering t1)) as [H1|]; [right|left; lra]. destruct (Qlt_le_dec 0 (leaving t2)) as [H2|]; [right|left; lra].
  destruct (some_or_all content t1 t2) as [?|All]; auto. { intros t Ht. now destruct (limits t ltac:(lia)) as ([C _] & _). }
  exfalso. assert (G : (-1 * (e * price t2 net nd - price t1 net nd - e * holding scn y t1 t2) <= 0)%Q).
  { apply (carry s r scn price L EQ net nd n rn i y o N Rn Y HO (-1) t1 t2 T12 T2); try (intros; unfold e in *; lra); auto.
    intros t Ht. specialize (All t Ht). cbn beta in All. fold (content t). split; intros; unfold e in *; lra. }
  nra.
Qed.

(** What is in store is given when it saves most: earlier rather than later... *)
Theorem C89_dear_first : forall t1 t2 a b, t1 < t2 -> t2 < st_horizon s -> saves_at_least scn t1 n rn a -> costs_at_most scn t2 n rn b ->
  (b < a + holding scn y t1 t2)%Q ->
  (leaving t1 == value (s_flow_out y) scn t1)%Q \/ (leaving t2 == 0)%Q \/ exists t, t1 <= t < t2 /\ (content t == 0)%Q.
Proof.
  intros t1 t2 a b T12 T2 W1 W2 Lt. assert (T1 : t1 < st_horizon s) by lia.
  destruct (C82_prices_exist answer s r scn A P SV S O) as (price & EQ). pose proof lawful as L.
  pose proof (price_least _ _ _ _ _ _ _ _ _ _ L EQ T1 N Rn W1) as P1. pose proof (price_most _ _ _ _ _ _ _ _ _ _ L EQ T2 N Rn W2) as P2.
  destruct (limits t1 T1) as (_ & _ & [_ L1]). destruct (limits t2 T2) as (_ & _ & [L2 _]).
  destruct (Qlt_le_dec (leaving t1) (value (s_flow_out y) scn t1)) as [H1|]; [right|left; lra]. destruct (Qlt_le_dec 0 (leaving t2)) as [H2|]; [right|left; lra].
  destruct (some_or_all content t1 t2) as [?|All]; auto. { intros t Ht. now destruct (limits t ltac:(lia)) as ([C _] & _). }
  exfalso. assert (G : (1 * (price t1 net nd + holding scn y t1 t2 - price t2 net nd) <= 0)%Q).
  { apply (shift s r scn price L EQ net nd n rn i y o N Rn Y HO 1 t1 t2 T12 T2); try (intros; lra); auto.
    intros t Ht. specialize (All t Ht). cbn beta in All. fold (content t). split; intros; lra. }
  lra.
Qed.
(** ... and later rather than earlier, as far as it can be kept. *)
Theorem C89_worth_waiting : forall t1 t2 a b, t1 < t2 -> t2 < st_horizon s -> costs_at_most scn t1 n rn a -> saves_at_least scn t2 n rn b ->
  (a + holding scn y t1 t2 < b)%Q ->
  (leaving t1 == 0)%Q \/ (leaving t2 == value (s_flow_out y) scn t2)%Q \/ exists t, t1 <= t < t2 /\ (content t == value (s_capacity y) scn t)%Q.
Proof.
  intros t1 t2 a b T12 T2 W1 W2 Lt. assert (T1 : t1 < st_horizon s) by lia.
  destruct (C82_prices_exist answer s r scn A P SV S O) as (price & EQ). pose proof lawful as L.
  pose proof (price_most _ _ _ _ _ _ _ _ _ _ L EQ T1 N Rn W1) as P1. pose proof (price_least _ _ _ _ _ _ _ _ _ _ L EQ T2 N Rn W2) as P2.
  destruct (limits t1 T1) as (_ & _ & [L1 _]). destruct (limits t2 T2) as (_ & _ & [_ L2]).
  destruct (Qlt_le_dec 0 (leaving t1)) as [H1|]; [right|left; lra]. destruct (Qlt_le_dec (leaving t2) (value (s_flow_out y) scn t2)) as [H2|]; [right|left; lra].
  destruct (some_or_all (fun t => value (s_capacity y) scn t - content t)%Q t1 t2) as [(t & Ht & Z)|All].
  { intros t Ht. destruct (limits t ltac:(lia)) as ([_ C] & _). lra. }
  { exists t. split; auto. lra. }
  exfalso. assert (G : (-1 * (price t1 net nd + holding scn y t1 t2 - price t2 net nd) <= 0)%Q).
  { apply (shift s r scn price L EQ net nd n rn i y o N Rn Y HO (-1) t1 t2 T12 T2); try (intros; lra); auto.
    intros t Ht. specialize (All t Ht). cbn beta in All. fold (content t). split; intros; lra. }
  lra.
Qed.
End Storage.

(** ** Examples *)
(** Two times; what "coal" leaves at the first saves "oil" at the second. *)
Definition tide_calls : list call :=
  [ OnStudy_network "net"; OnSel 0 (MNode "a"); OnSel 1 (MConsumption "load" (jn 1000) (PJson (JList [JNum 4; JNum 12])));
    OnSel 2 (MProduction "coal" (jn 10) (jn 9)); OnSel 3 (MProduction "oil" (jn 100) (jn 10));
    OnSel 4 (MStorage "cell" (jn 6) (jn 4) (jn 4) (jn 1) 0%Q (PJson (JNum (1 # 2)))) ].
Definition tide : study := Eval vm_compute in w_study (run (start 2 1 None) tide_calls).
Lemma tide_api : api_study tide.
Proof. exists 2, 1, None, tide_calls. split; [lia|]. split; [lia|]. split; [plain_tac | vm_compute; reflexivity]. Qed.
Definition tide_x (v : var) : Q :=
  match v with
  | VProd _ _ O O => 8 | VProd _ _ O _ => 9 | VProd _ _ _ O => 0 | VProd _ _ _ _ => 1
  | VIn _ _ _ O => 4 | VCap _ _ _ O => 2 | VOut _ _ _ (Datatypes.S _) => 2 | _ => 0
  end%Q.
Definition tide_answer (_ : nat) (_ : solver) : var -> Q := tide_x.
Definition tide0 : solver := Eval vm_compute in program_of tide 0.
Lemma tide_optimal : optimal_answer tide_answer tide 0.
Proof.
  unfold optimal_answer, tide_answer. change (program_of tide 0) with tide0. split.
  - apply satb_ok. vm_compute. reflexivity.
  - intros y F. pose proof (satisfies_vars _ _ F) as V. pose proof (satisfies_cons _ _ F) as K.
    unfold tide0 in V, K. cbn [sv_vars sv_cons] in V, K. open_forall V. open_forall K.
    assert (E : (objective tide0 tide_x == 272)%Q) by (vm_compute; reflexivity). rewrite E. cbn. lra.
Qed.
Definition tide_result : result := Eval vm_compute in
  match solve_lp tide_answer [0] no_bench tide with Ok r => r | Err _ => Result [] [] no_bench end.
Lemma tide_solved : solved tide_answer tide tide_result.
Proof. exists [0], no_bench. split; [reflexivity | vm_compute; reflexivity]. Qed.
Lemma tide_plain : plain_sources tide. Proof. apply plainb_ok. vm_compute. reflexivity. Qed.

Example C89_example : api_study tide /\ plain_sources tide /\ solved tide_answer tide tide_result /\ optimal_answer tide_answer tide 0 /\
  exists n rn y o, node_at tide "net" "a" = Some n /\ rnode_at tide_result "net" "a" = Some rn /\
    nth_error (n_stors n) 0 = Some y /\ nth_error (on_stors rn) 0 = Some o /\
    costs_at_most 0 0 n rn 10 /\ saves_at_least 0 1 n rn 100 /\
    (10 + value (s_eff y) 0 0 * holding 0 y 0 1 < value (s_eff y) 0 0 * 100)%Q /\ (0 < 100 + holding 0 y 1 2)%Q /\
    entry (os_flow_in o) 0 0 = 4%Q /\ entry (os_flow_out o) 0 1 = 2%Q /\ entry (os_flow_in o) 0 1 = 0%Q /\ entry (os_capacity o) 0 1 = 0%Q.
Proof.
  split; [apply tide_api|]. split; [apply tide_plain|]. split; [apply tide_solved|]. split; [apply tide_optimal|].
  do 4 eexists. split; [vm_compute; reflexivity|]. split; [vm_compute; reflexivity|]. split; [reflexivity|]. split; [reflexivity|].
  split. { left. exists 0. do 2 eexists. split; [reflexivity|]. split; [reflexivity|]. split; vm_compute; [reflexivity | discriminate]. }
  split. { left. exists 1. do 2 eexists. split; [reflexivity|]. split; [reflexivity|]. split; vm_compute; [reflexivity | discriminate]. }
  vm_compute. repeat split.
Qed.

(** Where energy costs nothing it may be wasted: an optimum stores and withdraws at
    once, at a loss of half. *)
Definition idle_calls : list call :=
  [ OnStudy_network "net"; OnSel 0 (MNode "a"); OnSel 1 (MConsumption "load" (jn 1000) (jn 1));
    OnSel 2 (MProduction "sun" (jn 0) (jn 10)); OnSel 3 (MStorage "cell" (jn 6) (jn 4) (jn 4) (jn 0) 0%Q (PJson (JNum (1 # 2)))) ].
Definition idle : study := Eval vm_compute in w_study (run (start 1 1 None) idle_calls).
Definition idle_x (v : var) : Q := match v with VProd _ _ _ _ => 2 | VIn _ _ _ _ => 2 | VOut _ _ _ _ => 1 | _ => 0 end%Q.
Definition idle_answer (_ : nat) (_ : solver) : var -> Q := idle_x.
Definition idle0 : solver := Eval vm_compute in program_of idle 0.
Definition idle_result : result := Eval vm_compute in
  match solve_lp idle_answer [0] no_bench idle with Ok r => r | Err _ => Result [] [] no_bench end.
Theorem C89_free_churn_refuted : exists answer s r n rn y o, api_study s /\ plain_sources s /\ solved answer s r /\ optimal_answer answer s 0 /\
  node_at s "net" "a" = Some n /\ rnode_at r "net" "a" = Some rn /\ nth_error (n_stors n) 0 = Some y /\ nth_error (on_stors rn) 0 = Some o /\
  (0 <= value (s_eff y) 0 0 < 1)%Q /\ (0 < entry (os_flow_in o) 0 0)%Q /\ (0 < entry (os_flow_out o) 0 0)%Q.
Proof.
  exists idle_answer, idle, idle_result. do 4 eexists.
  split. { exists 1, 1, None, idle_calls. split; [lia|]. split; [lia|]. split; [plain_tac | vm_compute; reflexivity]. }
  split; [apply plainb_ok; vm_compute; reflexivity|]. split; [exists [0], no_bench; split; [reflexivity | vm_compute; reflexivity]|].
  split.
  { unfold optimal_answer, idle_answer. change (program_of idle 0) with idle0. split.
    - apply satb_ok. vm_compute. reflexivity.
    - intros y F. pose proof (satisfies_vars _ _ F) as V. pose proof (satisfies_cons _ _ F) as K.
      unfold idle0 in V, K. cbn [sv_vars sv_cons] in V, K. open_forall V. open_forall K.
      assert (E : (objective idle0 idle_x == 0)%Q) by (vm_compute; reflexivity). rewrite E. cbn. lra. }
  split; [vm_compute; reflexivity|]. split; [vm_compute; reflexivity|]. split; [reflexivity|]. split; [reflexivity|].
  vm_compute. split; [split; [discriminate | reflexivity] | split; reflexivity].
Qed.

Print Assumptions C89_no_churn.
Print Assumptions C89_nothing_left.
Print Assumptions C89_no_missed_saving.
Print Assumptions C89_no_losing_trade.
Print Assumptions C89_dear_first.
Print Assumptions C89_worth_waiting.
Print Assumptions C89_free_churn_refuted.
