(** Linear programs with rational data: elimination of variables, existence of an optimum,
    and prices for the constraints one would rather not have. Nothing here is specific to
    hadar. *)
From Coq Require Import List ZArith QArith Bool Arith Lia Lqa.
From Verif Require Import Base BaseFacts.
Import ListNotations.
Open Scope nat_scope.

Section Elimination.
Variables (V : Type) (dec : forall u v : V, {u = v} + {u <> v}).

(** [a . x + g z <= b]: [z] is a parameter, later the value of the objective. *)
Record ineq := Ineq { q_a : V -> Q; q_g : Q; q_b : Q }.
Definition dot (vs : list V) (a x : V -> Q) : Q := qsum (map (fun v => a v * x v)%Q vs).
Definition holds (vs : list V) (x : V -> Q) (z : Q) (r : ineq) : Prop := (dot vs (q_a r) x + q_g r * z <= q_b r)%Q.
Definition mix2 (k : Q) (p : ineq) (l : Q) (n : ineq) : ineq :=
  Ineq (fun v => k * q_a p v + l * q_a n v)%Q (k * q_g p + l * q_g n)%Q (k * q_b p + l * q_b n)%Q.
Definition qpos (q : Q) : bool := negb (Qle_bool q 0).
Definition qneg (q : Q) : bool := negb (Qle_bool 0 q).
Definition elim (v : V) (cs : list ineq) : list ineq :=
  filter (fun r => Qeq_bool (q_a r v) 0) cs ++
  flat_map (fun p => map (fun n => mix2 (- q_a n v) p (q_a p v) n) (filter (fun r => qneg (q_a r v)) cs)) (filter (fun r => qpos (q_a r v)) cs).
Fixpoint elims (vs : list V) (cs : list ineq) : list ineq := match vs with [] => cs | v :: r => elims r (elim v cs) end.

Definition upd (x : V -> Q) (v : V) (q : Q) : V -> Q := fun u => if dec u v then q else x u.

Lemma dot_cons v vs a x : dot (v :: vs) a x = (a v * x v + dot vs a x)%Q.
Proof. reflexivity. Qed.
Lemma qpos_iff q : qpos q = true <-> (0 < q)%Q.
Proof. unfold qpos. rewrite negb_true_iff. rewrite <- not_true_iff_false, Qle_bool_iff. split; intros; lra. Qed.
Lemma qneg_iff q : qneg q = true <-> (q < 0)%Q.
Proof. unfold qneg. rewrite negb_true_iff. rewrite <- not_true_iff_false, Qle_bool_iff. split; intros; lra. Qed.
Lemma dot_upd vs a x v q : ~ In v vs -> (dot vs a (upd x v q) == dot vs a x)%Q.
Proof.
  intros N. induction vs as [| u vs IH]; [reflexivity |]. cbn in N. rewrite !dot_cons, IH by tauto.
  unfold upd. destruct (dec u v); [subst; tauto | reflexivity].
Qed.
Lemma dot_mix vs k l p n x : (dot vs (q_a (mix2 k p l n)) x == k * dot vs (q_a p) x + l * dot vs (q_a n) x)%Q.
Proof. induction vs as [| u vs IH]; [unfold dot; cbn; ring |]. rewrite !dot_cons, IH. cbn [q_a mix2]. ring. Qed.
Lemma holds_mix vs x z k l p n : (0 <= k)%Q -> (0 <= l)%Q -> holds vs x z p -> holds vs x z n -> holds vs x z (mix2 k p l n).
Proof. unfold holds. intros K L P N. rewrite dot_mix. cbn [q_g q_b mix2]. nra. Qed.
Lemma in_elim v cs r : In r (elim v cs) <->
  (In r cs /\ (q_a r v == 0)%Q) \/ exists p n, In p cs /\ In n cs /\ (0 < q_a p v)%Q /\ (q_a n v < 0)%Q /\ r = mix2 (- q_a n v) p (q_a p v) n.
Proof.
  unfold elim. rewrite in_app_iff, filter_In, Qeq_bool_iff, in_flat_map. split.
  - intros [H|(p & I & J)]; [auto |]. right. apply filter_In in I as [I P]. apply in_map_iff in J as (n & <- & J). apply filter_In in J as [J N].
    exists p, n. rewrite qpos_iff in P. rewrite qneg_iff in N. auto.
  - intros [H|(p & n & I & J & P & N & ->)]; [auto |]. right. exists p. split; [apply filter_In; rewrite qpos_iff; auto |].
    apply in_map_iff. exists n. split; auto. apply filter_In. rewrite qneg_iff. auto.
Qed.

(** A number between two finite sets. *)
Lemma largest {A} (f : A -> Q) l : l <> [] -> exists m, In m l /\ forall a, In a l -> (f a <= f m)%Q.
Proof.
  induction l as [| a l IH]; [congruence |]. intros _. destruct l as [| b l].
  - exists a. split; [now left |]. intros ? [->|[]]. lra.
  - destruct IH as (m & I & H); [discriminate |]. destruct (Qlt_le_dec (f m) (f a)) as [L|L].
    + exists a. split; [now left |]. intros c [->|J]; [lra |]. specialize (H c J). lra.
    + exists m. split; [now right |]. intros c [->|J]; auto.
Qed.
Lemma between {A B} (f : A -> Q) (g : B -> Q) l m : (forall a b, In a l -> In b m -> (f a <= g b)%Q) ->
  exists q, (forall a, In a l -> (f a <= q)%Q) /\ (forall b, In b m -> (q <= g b)%Q).
Proof.
  intros H. destruct l as [| a l].
  - destruct m as [| b m]; [exists 0%Q; split; intros ? [] |].
    destruct (largest (fun b => - g b)%Q (b :: m)) as (c & I & L); [discriminate |]. exists (g c). split; [intros ? [] |].
    intros d J. specialize (L d J). lra.
  - destruct (largest f (a :: l)) as (c & I & L); [discriminate |]. exists (f c). split; auto.
Qed.

Lemma elim_iff v vs cs z : ~ In v vs -> (exists x, forall r, In r cs -> holds (v :: vs) x z r) <-> (exists x, forall r, In r (elim v cs) -> holds vs x z r).
Proof.
  intros NI. split.
  - intros (x & H). exists x. intros r I. apply in_elim in I as [[I E]|(p & n & I & J & P & N & ->)].
    + specialize (H r I). unfold holds in *. rewrite dot_cons, E in H. lra.
    + pose proof (H p I) as HP. pose proof (H n J) as HN. unfold holds in *. rewrite dot_cons in HP, HN. rewrite dot_mix. cbn [q_g q_b mix2].
      set (a := q_a p v) in *. set (b := q_a n v) in *. set (dp := dot vs (q_a p) x) in *. set (dn := dot vs (q_a n) x) in *. set (y := x v) in *.
      assert (L1 : (- b * (a * y + dp + q_g p * z) <= - b * q_b p)%Q) by nra. assert (L2 : (a * (b * y + dn + q_g n * z) <= a * q_b n)%Q) by nra. lra.
  - intros (x & H).
    destruct (between (fun n => (q_b n - dot vs (q_a n) x - q_g n * z) / q_a n v)%Q (fun p => (q_b p - dot vs (q_a p) x - q_g p * z) / q_a p v)%Q
                (filter (fun r => qneg (q_a r v)) cs) (filter (fun r => qpos (q_a r v)) cs)) as (q & L & U).
    { intros n p I J. apply filter_In in I as [I N]. apply filter_In in J as [J P]. apply qneg_iff in N. apply qpos_iff in P.
      assert (X : holds vs x z (mix2 (- q_a n v) p (q_a p v) n)) by (apply H, in_elim; right; exists p, n; auto).
      unfold holds in X. rewrite dot_mix in X. cbn [q_g q_b mix2] in X.
      apply Qle_shift_div_l; auto. setoid_replace ((q_b n - dot vs (q_a n) x - q_g n * z) / q_a n v * q_a p v)%Q
        with ((- (q_a p v) * (q_b n - dot vs (q_a n) x - q_g n * z)) / (- q_a n v))%Q by (field; lra).
      apply Qle_shift_div_r; [lra |]. lra. }
    exists (upd x v q). intros r I. unfold holds. rewrite dot_cons, dot_upd by auto.
    assert (E : upd x v q v = q) by (unfold upd; destruct (dec v v); congruence). rewrite E.
    destruct (Qlt_le_dec 0 (q_a r v)) as [P|P].
    + assert (J : In r (filter (fun r => qpos (q_a r v)) cs)) by (apply filter_In; rewrite qpos_iff; auto). specialize (U r J). cbn beta in U.
      assert (X : (q * q_a r v <= q_b r - dot vs (q_a r) x - q_g r * z)%Q).
      { apply (Qmult_le_compat_r _ _ (q_a r v)) in U; [| lra]. rewrite (Qmult_comm (_ / _)), Qmult_div_r in U by lra. exact U. }
      lra.
    + destruct (Qlt_le_dec (q_a r v) 0) as [N|N].
      * assert (J : In r (filter (fun r => qneg (q_a r v)) cs)) by (apply filter_In; rewrite qneg_iff; auto). specialize (L r J). cbn beta in L.
        assert (X : ((q_b r - dot vs (q_a r) x - q_g r * z) / q_a r v * (- q_a r v) <= q * (- q_a r v))%Q) by (apply Qmult_le_compat_r; lra).
        setoid_replace ((q_b r - dot vs (q_a r) x - q_g r * z) / q_a r v * (- q_a r v))%Q with (- (q_b r - dot vs (q_a r) x - q_g r * z))%Q in X by (field; lra).
        lra.
      * assert (Z : (q_a r v == 0)%Q) by lra. assert (X : holds vs x z r) by (apply H, in_elim; auto). unfold holds in X. rewrite Z. lra.
Qed.
Lemma elims_iff vs : NoDup vs -> forall cs z,
  (exists x, forall r, In r cs -> holds vs x z r) <-> (forall r, In r (elims vs cs) -> (q_g r * z <= q_b r)%Q).
Proof.
  induction 1 as [| v vs NI ND IH]; intros cs z.
  - cbn. unfold holds, dot. cbn. split.
    + intros (x & H) r I. specialize (H r I). lra.
    + intros H. exists (fun _ => 0%Q). intros r I. specialize (H r I). lra.
  - rewrite (elim_iff v vs cs z NI). cbn [elims]. apply IH.
Qed.
(** Eliminated variables no longer occur. *)
Lemma elim_zero v cs r : In r (elim v cs) -> (q_a r v == 0)%Q.
Proof. intros I. apply in_elim in I as [[_ E]|(p & n & _ & _ & _ & _ & ->)]; auto. cbn. ring. Qed.
Lemma elim_keeps v u cs : (forall r, In r cs -> (q_a r u == 0)%Q) -> forall r, In r (elim v cs) -> (q_a r u == 0)%Q.
Proof. intros H r I. apply in_elim in I as [[J _]|(p & n & J & K & _ & _ & ->)]; auto. cbn. rewrite (H p J), (H n K). ring. Qed.
Lemma elims_zero vs : forall cs, (forall r, In r (elims vs cs) -> forall v, In v vs -> (q_a r v == 0)%Q) /\
  forall u, (forall r, In r cs -> (q_a r u == 0)%Q) -> forall r, In r (elims vs cs) -> (q_a r u == 0)%Q.
Proof.
  induction vs as [| v vs IH]; intros cs; [split; [intros r _ v [] | auto] |]. cbn [elims]. destruct (IH (elim v cs)) as [Z K]. split.
  - intros r I u [<-|J]; auto. apply K; auto. apply elim_zero.
  - intros u H. apply K. now apply elim_keeps.
Qed.
(** What non-negative combinations keep, elimination keeps. *)
Lemma elims_inv (P : ineq -> Prop) vs : (forall k l p n, (0 <= k)%Q -> (0 <= l)%Q -> P p -> P n -> P (mix2 k p l n)) ->
  forall cs, (forall r, In r cs -> P r) -> forall r, In r (elims vs cs) -> P r.
Proof.
  intros M. induction vs as [| v vs IH]; intros cs H; auto. cbn [elims]. apply IH. intros r I.
  apply in_elim in I as [[J _]|(p & n & J & K & L & N & ->)]; auto. apply M; auto; lra.
Qed.
(** The least value of the parameter. *)
Lemma least (l : list ineq) : let ok z := forall r, In r l -> (q_g r * z <= q_b r)%Q in
  (exists z, ok z) -> (exists m, forall z, ok z -> (m <= z)%Q) ->
  exists z r, ok z /\ In r l /\ (q_g r < 0)%Q /\ (q_b r == q_g r * z)%Q.
Proof.
  intros ok (z0 & H0) (m & Hm).
  destruct (filter (fun r => qneg (q_g r)) l) as [| r0 l0] eqn:E.
  - exfalso. assert (X : ok (m - 1)%Q \/ (z0 < m - 1)%Q).
    { destruct (Qlt_le_dec z0 (m - 1)); auto. left. intros r I. specialize (H0 r I). assert (N : (0 <= q_g r)%Q).
      { destruct (Qlt_le_dec (q_g r) 0); auto. assert (In r []) by (rewrite <- E; apply filter_In; rewrite qneg_iff; auto). easy. }
      nra. }
    destruct X as [X|X]; [specialize (Hm _ X) | specialize (Hm _ H0)]; lra.
  - destruct (largest (fun r => q_b r / q_g r)%Q (r0 :: l0)) as (r & I & L); [discriminate |]. rewrite <- E in I, L. clear r0 l0 E.
    apply filter_In in I as [I N]. apply qneg_iff in N. exists (q_b r / q_g r)%Q, r.
    assert (B : (q_b r == q_g r * (q_b r / q_g r))%Q) by (field; lra). split; auto.
    assert (Z : (q_b r / q_g r <= z0)%Q).
    { specialize (H0 r I). apply (Qmult_le_l _ _ (- q_g r)); [lra |]. setoid_replace (- q_g r * (q_b r / q_g r))%Q with (- q_b r)%Q by (field; lra). lra. }
    intros c J. pose proof (H0 c J) as HC. destruct (Qlt_le_dec (q_g c) 0) as [NC|NC]; [| nra].
    assert (X : (q_b c / q_g c <= q_b r / q_g r)%Q) by (apply L, filter_In; rewrite qneg_iff; auto).
    assert (Y : (- q_g c * (q_b c / q_g c) <= - q_g c * (q_b r / q_g r))%Q) by (apply Qmult_le_l; lra).
    setoid_replace (- q_g c * (q_b c / q_g c))%Q with (- q_b c)%Q in Y by (field; lra). lra.
Qed.

(** ** Optimum and prices *)
Variables (K : Type) (kdec : forall k l : K, {k = l} + {k <> l}).
Variables (vs : list V) (ks : list K) (hard : list ((V -> Q) * Q)) (e : K -> V -> Q) (f : K -> Q) (c : V -> Q).
Hypotheses (NV : NoDup vs) (NK : NoDup ks).
Definition meets (x : V -> Q) : Prop := forall a b, In (a, b) hard -> (dot vs a x <= b)%Q.
Definition feasible (x : V -> Q) : Prop := meets x /\ forall k, In k ks -> (dot vs (e k) x == f k)%Q.
Definition charge (price : K -> Q) (x : V -> Q) : Q := qsum (map (fun k => price k * (dot vs (e k) x - f k))%Q ks).

Definition system : list ineq :=
  map (fun h => Ineq (fst h) 0 (snd h)) hard ++ flat_map (fun k => [Ineq (e k) 0 (f k); Ineq (fun v => - e k v)%Q 0 (- f k)%Q]) ks ++ [Ineq c (-1) 0].
Lemma dot_opp ws a x : (dot ws (fun v => - a v)%Q x == - dot ws a x)%Q.
Proof. induction ws as [| u ws IH]; [unfold dot; cbn; ring |]. rewrite !dot_cons, IH. ring. Qed.
Lemma system_iff x z : (forall r, In r system -> holds vs x z r) <-> feasible x /\ (dot vs c x <= z)%Q.
Proof.
  unfold system, feasible, meets. split.
  - intros H. split; [split |].
    + intros a b I. assert (X : holds vs x z (Ineq a 0 b)) by (apply H, in_app_iff; left; apply in_map_iff; now exists (a, b)). unfold holds in X. cbn in X. lra.
    + intros k I. assert (X1 : holds vs x z (Ineq (e k) 0 (f k))) by (apply H; rewrite !in_app_iff; right; left; apply in_flat_map; exists k; cbn; auto).
      assert (X2 : holds vs x z (Ineq (fun v => - e k v)%Q 0 (- f k)%Q)) by (apply H; rewrite !in_app_iff; right; left; apply in_flat_map; exists k; cbn; auto).
      unfold holds in *. cbn [q_a q_g q_b] in *. rewrite dot_opp in X2. lra.
    + assert (X : holds vs x z (Ineq c (-1) 0)) by (apply H; rewrite !in_app_iff; right; right; now left). unfold holds in X. cbn in X. lra.
  - intros [[M E] L] r I. rewrite !in_app_iff in I. destruct I as [I|[I|[<-|[]]]].
    + apply in_map_iff in I as ([a b] & <- & I). unfold holds. cbn. specialize (M a b I). lra.
    + apply in_flat_map in I as (k & I & [<-|[<-|[]]]); unfold holds; cbn [q_a q_g q_b]; rewrite ?dot_opp; specialize (E k I); lra.
    + unfold holds. cbn. lra.
Qed.
Definition spike (k : K) (q : Q) : K -> Q := fun l => if kdec l k then q else 0%Q.
Lemma charge_spike k q x : In k ks -> (charge (spike k q) x == q * (dot vs (e k) x - f k))%Q.
Proof.
  intros I. unfold charge. clear - I NK. induction ks as [| l m IH]; [easy |]. cbn [map]. change (qsum (?a :: ?b)) with (a + qsum b)%Q. inversion NK; subst.
  destruct I as [->|I].
  - unfold spike at 1. destruct (kdec k k); [| congruence].
    assert (Z : (qsum (map (fun l => spike k q l * (dot vs (e l) x - f l))%Q m) == 0)%Q).
    { apply qsum_map_zero. intros l J. unfold spike. destruct (kdec l k); [congruence | ring]. }
    rewrite Z. ring.
  - rewrite IH by auto. unfold spike. destruct (kdec l k); [congruence | ring].
Qed.
Lemma charge_mix k1 p1 k2 p2 x : (charge (fun k => k1 * p1 k + k2 * p2 k)%Q x == k1 * charge p1 x + k2 * charge p2 x)%Q.
Proof. unfold charge. clear. induction ks as [| l m IH]; cbn [map]; [cbn; ring |]. change (qsum (?a :: ?b)) with (a + qsum b)%Q. rewrite IH. ring. Qed.
(** Every derived inequality follows from the hard ones, given a weight for the objective and
    prices for the others. *)
Definition priced (r : ineq) : Prop := exists w price, (0 <= w)%Q /\ (q_g r == - w)%Q /\
  forall y, meets y -> (dot vs (q_a r) y - q_b r <= w * dot vs c y + charge price y)%Q.
Lemma system_priced r : In r system -> priced r.
Proof.
  unfold system. rewrite !in_app_iff. intros [I|[I|[<-|[]]]].
  - apply in_map_iff in I as ([a b] & <- & I). exists 0%Q, (fun _ => 0%Q). cbn. split; [lra |]. split; [lra |]. intros y M. specialize (M a b I).
    assert (Z : (charge (fun _ => 0%Q) y == 0)%Q) by (apply qsum_map_zero; intros; ring). rewrite Z. lra.
  - apply in_flat_map in I as (k & I & [<-|[<-|[]]]).
    + exists 0%Q, (spike k 1). cbn. split; [lra |]. split; [lra |]. intros y M. rewrite (charge_spike k 1 y I). lra.
    + exists 0%Q, (spike k (-1)). cbn [q_a q_g q_b]. split; [lra |]. split; [lra |]. intros y M. rewrite (charge_spike k (-1) y I), dot_opp. lra.
  - exists 1%Q, (fun _ => 0%Q). cbn. split; [lra |]. split; [lra |]. intros y M.
    assert (Z : (charge (fun _ => 0%Q) y == 0)%Q) by (apply qsum_map_zero; intros; ring). rewrite Z. lra.
Qed.
Lemma mix_priced k l p n : (0 <= k)%Q -> (0 <= l)%Q -> priced p -> priced n -> priced (mix2 k p l n).
Proof.
  intros HK HL (w1 & p1 & W1 & G1 & H1) (w2 & p2 & W2 & G2 & H2). exists (k * w1 + l * w2)%Q, (fun x => k * p1 x + l * p2 x)%Q. split; [nra |]. split.
  - cbn. rewrite G1, G2. ring.
  - intros y M. specialize (H1 y M). specialize (H2 y M). rewrite dot_mix, charge_mix. cbn [q_b mix2].
    assert (A1 : (k * (dot vs (q_a p) y - q_b p) <= k * (w1 * dot vs c y + charge p1 y))%Q) by nra.
    assert (A2 : (l * (dot vs (q_a n) y - q_b n) <= l * (w2 * dot vs c y + charge p2 y))%Q) by nra. lra.
Qed.

(** A program that can be met and whose objective is bounded has an optimum, and there are
    prices at which the optimum is one also without the priced constraints. *)
Theorem optimum_and_prices : (exists x, feasible x) -> (exists m, forall y, feasible y -> (m <= dot vs c y)%Q) ->
  exists x price, feasible x /\ forall y, meets y -> (dot vs c x <= dot vs c y - charge price y)%Q.
Proof.
  intros (x0 & F0) (m & Hm).
  destruct (least (elims vs system)) as (z & r & OKz & I & G & B).
  - exists (dot vs c x0). apply (elims_iff vs NV). exists x0. apply system_iff. split; auto. lra.
  - exists m. intros z Hz. apply (elims_iff vs NV) in Hz as (x & H). apply system_iff in H as [F L]. specialize (Hm x F). lra.
  - apply (elims_iff vs NV) in OKz as (x & H). apply system_iff in H as [F L].
    destruct (elims_inv priced vs mix_priced system system_priced r I) as (w & price & W & GW & H).
    assert (D0 : forall y, (dot vs (q_a r) y == 0)%Q).
    { intros y. apply qsum_map_zero. intros v Iv. rewrite (proj1 (elims_zero vs system) r I v Iv). ring. }
    exists x, (fun k => - (1 / w) * price k)%Q. split; auto. intros y M. specialize (H y M). rewrite D0 in H.
    assert (P : (charge (fun k => - (1 / w) * price k) y == - (1 / w) * charge price y)%Q).
    { unfold charge. rewrite <- qsum_map_scal. apply qsum_map_ext. intros k _. ring. }
    rewrite P. assert (HW : (0 < w)%Q) by lra. apply (Qmult_le_l _ _ w); auto.
    setoid_replace (w * (dot vs c y - - (1 / w) * charge price y))%Q with (w * dot vs c y + charge price y)%Q by (field; lra).
    assert (X : (w * dot vs c x <= w * z)%Q) by nra. rewrite B, GW in H. lra.
Qed.

(** Whether a program can be met is decided by elimination. *)
Theorem feasible_or_not : (exists x, feasible x) \/ forall x, ~ feasible x.
Proof.
  set (base := map (fun h => Ineq (fst h) 0 (snd h)) hard ++ flat_map (fun k => [Ineq (e k) 0 (f k); Ineq (fun v => - e k v)%Q 0 (- f k)%Q]) ks).
  assert (B : forall x z, (forall r, In r base -> holds vs x z r) <-> feasible x).
  { intros x z. unfold base, feasible, meets. split.
    - intros H. split.
      + intros a b I. assert (X : holds vs x z (Ineq a 0 b)) by (apply H, in_app_iff; left; apply in_map_iff; now exists (a, b)). unfold holds in X. cbn in X. lra.
      + intros k I. assert (X1 : holds vs x z (Ineq (e k) 0 (f k))) by (apply H; rewrite in_app_iff; right; apply in_flat_map; exists k; cbn; auto).
        assert (X2 : holds vs x z (Ineq (fun v => - e k v)%Q 0 (- f k)%Q)) by (apply H; rewrite in_app_iff; right; apply in_flat_map; exists k; cbn; auto).
        unfold holds in *. cbn [q_a q_g q_b] in *. rewrite dot_opp in X2. lra.
    - intros [M E] r I. rewrite in_app_iff in I. destruct I as [I|I].
      + apply in_map_iff in I as ([a b] & <- & I). unfold holds. cbn. specialize (M a b I). lra.
      + apply in_flat_map in I as (k & I & [<-|[<-|[]]]); unfold holds; cbn [q_a q_g q_b]; rewrite ?dot_opp; specialize (E k I); lra. }
  destruct (forallb (fun r => Qle_bool (q_g r * 0) (q_b r)) (elims vs base)) eqn:D.
  - left. rewrite forallb_forall in D. assert (X : exists x, forall r, In r base -> holds vs x 0 r).
    { apply (elims_iff vs NV). intros r I. apply Qle_bool_iff. auto. }
    destruct X as (x & X). exists x. now apply (B x 0%Q).
  - right. intros x F. apply not_true_iff_false in D. apply D. apply forallb_forall. intros r I. apply Qle_bool_iff.
    assert (X : exists x, forall r, In r base -> holds vs x 0 r) by (exists x; now apply B).
    apply (proj1 (elims_iff vs NV base 0%Q) X). exact I.
Qed.
End Elimination.
