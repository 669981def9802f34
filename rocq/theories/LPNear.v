(** Linear inequalities met up to a tolerance: a point that meets them nearly is near a
    point that meets them, and inequalities that cannot be met cannot be met nearly.
    Nothing here is specific to hadar. *)
From Coq Require Import List ZArith QArith Qabs Bool Arith Lia Lqa.
From Verif Require Import Base BaseFacts Optimum.
Import ListNotations.
Open Scope nat_scope.

(** ** Elimination at a point *)
Section Point.
Variables (V : Type) (dec : forall u v : V, {u = v} + {u <> v}).
Notation dot := (dot V). Notation holds := (holds V). Notation elim := (elim V). Notation elims := (elims V). Notation upd := (upd V dec).

Lemma elim_at v vs cs x z : ~ In v vs -> (forall r, In r (elim v cs) -> holds vs x z r) ->
  exists q, forall r, In r cs -> holds (v :: vs) (upd x v q) z r.
Proof.
  intros NI H.
  destruct (between (fun n => (q_b V n - dot vs (q_a V n) x - q_g V n * z) / q_a V n v)%Q (fun p => (q_b V p - dot vs (q_a V p) x - q_g V p * z) / q_a V p v)%Q
              (filter (fun r => qneg (q_a V r v)) cs) (filter (fun r => qpos (q_a V r v)) cs)) as (q & L & U).
  { intros n p I J. apply filter_In in I as [I N]. apply filter_In in J as [J P]. apply qneg_iff in N. apply qpos_iff in P.
    assert (X : holds vs x z (mix2 V (- q_a V n v) p (q_a V p v) n)) by (apply H, in_elim; right; exists p, n; auto).
    unfold Optimum.holds in X. rewrite dot_mix in X. cbn [q_g q_b mix2] in X.
    apply Qle_shift_div_l; auto. setoid_replace ((q_b V n - dot vs (q_a V n) x - q_g V n * z) / q_a V n v * q_a V p v)%Q
      with ((- (q_a V p v) * (q_b V n - dot vs (q_a V n) x - q_g V n * z)) / (- q_a V n v))%Q by (field; lra).
    apply Qle_shift_div_r; [lra |]. lra. }
  exists q. intros r I. unfold Optimum.holds. rewrite dot_cons, dot_upd by auto.
  assert (E : upd x v q v = q) by (unfold Optimum.upd; destruct (dec v v); congruence). rewrite E.
  destruct (Qlt_le_dec 0 (q_a V r v)) as [P|P].
  - assert (J : In r (filter (fun r => qpos (q_a V r v)) cs)) by (apply filter_In; rewrite qpos_iff; auto). specialize (U r J). cbn beta in U.
    assert (X : (q * q_a V r v <= q_b V r - dot vs (q_a V r) x - q_g V r * z)%Q).
    { apply (Qmult_le_compat_r _ _ (q_a V r v)) in U; [| lra]. rewrite (Qmult_comm (_ / _)), Qmult_div_r in U by lra. exact U. }
    lra.
  - destruct (Qlt_le_dec (q_a V r v) 0) as [N|N].
    + assert (J : In r (filter (fun r => qneg (q_a V r v)) cs)) by (apply filter_In; rewrite qneg_iff; auto). specialize (L r J). cbn beta in L.
      assert (X : ((q_b V r - dot vs (q_a V r) x - q_g V r * z) / q_a V r v * (- q_a V r v) <= q * (- q_a V r v))%Q) by (apply Qmult_le_compat_r; lra).
      setoid_replace ((q_b V r - dot vs (q_a V r) x - q_g V r * z) / q_a V r v * (- q_a V r v))%Q with (- (q_b V r - dot vs (q_a V r) x - q_g V r * z))%Q in X by (field; lra).
      lra.
    + assert (Z : (q_a V r v == 0)%Q) by lra. assert (X : holds vs x z r) by (apply H, in_elim; auto). unfold Optimum.holds in X. rewrite Z. lra.
Qed.

(** What is left of the inequalities when the variables [us] are eliminated tells whether
    values for them exist beside the given values of the others. *)
Lemma elims_at us ws : NoDup (us ++ ws) -> forall cs x z, (forall r, In r (elims us cs) -> holds ws x z r) ->
  exists x', (forall w, In w ws -> x' w = x w) /\ forall r, In r cs -> holds (us ++ ws) x' z r.
Proof.
  induction us as [| v us IH]; intros ND cs x z H; [exists x; auto |]. cbn [app] in ND. inversion ND as [| ? ? NI ND']; subst.
  cbn [Optimum.elims] in H. destruct (IH ND' _ _ _ H) as (x1 & E1 & H1). destruct (elim_at v (us ++ ws) cs x1 z NI H1) as (q & H2).
  exists (upd x1 v q). split; [| exact H2]. intros w I. unfold Optimum.upd. destruct (dec w v) as [->|]; [| auto].
  exfalso. apply NI. apply in_app_iff. auto.
Qed.
End Point.

(** ** Near points *)
Section Near.
Variables (V : Type) (dec : forall u v : V, {u = v} + {u <> v}).
Variables (vs : list V) (hard : list ((V -> Q) * Q)).
Hypothesis NV : NoDup vs.
Definition meets_within (e : Q) (x : V -> Q) : Prop := forall a b, In (a, b) hard -> (dot V vs a x <= b + e)%Q.

Lemma within_zero x : meets_within 0 x <-> meets V vs hard x.
Proof. split; intros H a b I; specialize (H a b I); lra. Qed.

Notation W := (V + V)%type.
Definition wdec (u v : W) : {u = v} + {u <> v}.
Proof. destruct u as [u|u], v as [v|v]; try (right; discriminate); destruct (dec u v); [left|right|left|right]; congruence. Defined.
Definition lefts : list W := map inl vs.
Definition rights : list W := map inr vs.
Definition both (x y : V -> Q) (w : W) : Q := match w with inl v => x v | inr v => y v end.
Lemma all_NoDup : NoDup (lefts ++ rights).
Proof.
  unfold lefts, rights. clear - NV. assert (D : NoDup (map (@inl V V) vs)) by (apply FinFun.Injective_map_NoDup; auto; intros a b E; congruence).
  assert (D2 : NoDup (map (@inr V V) vs)) by (apply FinFun.Injective_map_NoDup; auto; intros a b E; congruence).
  assert (X : forall w, In w (map (@inl V V) vs) -> ~ In w (map (@inr V V) vs)).
  { intros w I J. apply in_map_iff in I as (a & <- & _). apply in_map_iff in J as (b & E & _). discriminate. }
  revert D X. induction (map (@inl V V) vs) as [| w l IH]; intros D X; [exact D2 |]. inversion D; subst. cbn [app]. constructor.
  - rewrite in_app_iff. intros [I|I]; auto. apply (X w); auto. now left.
  - apply IH; auto. intros u I. apply X. now right.
Qed.
Lemma dot_both a f : (dot W (lefts ++ rights) a f == dot V vs (fun v => a (inl v)) (fun v => f (inl v)) + dot V vs (fun v => a (inr v)) (fun v => f (inr v)))%Q.
Proof. unfold dot, lefts, rights. rewrite map_app, qsum_app, !map_map. reflexivity. Qed.
Lemma dot_rights a f : dot W rights a f = dot V vs (fun v => a (inr v)) (fun v => f (inr v)).
Proof. unfold dot, rights. now rewrite map_map. Qed.
Definition unit_at (v : V) (q : Q) (u : V) : Q := if dec u v then q else 0%Q.
Lemma dot_unit v q x : In v vs -> (dot V vs (unit_at v q) x == q * x v)%Q.
Proof.
  clear - NV. induction NV as [| u l NI ND IH]; [easy |]. intros [->|I]; rewrite dot_cons.
  - unfold unit_at at 1. destruct (dec v v); [| congruence].
    assert (Z : (dot V l (unit_at v q) x == 0)%Q).
    { apply qsum_map_zero. intros u I. unfold unit_at. destruct (dec u v); [congruence | ring]. }
    rewrite Z. ring.
  - rewrite IH by auto. unfold unit_at. destruct (dec u v); [congruence | ring].
Qed.
Lemma dot_zero a x : (forall v, In v vs -> (a v == 0)%Q) -> (dot V vs a x == 0)%Q.
Proof. intros H. apply qsum_map_zero. intros v I. rewrite (H v I). ring. Qed.

(** [x] meets the inequalities, at a distance of [y] at most the parameter. *)
Definition close_system : list (ineq W) :=
  map (fun h => Ineq W (fun w => match w with inl v => fst h v | inr _ => 0%Q end) 0 (snd h)) hard ++
  flat_map (fun v => [Ineq W (fun w => match w with inl u => unit_at v 1 u | inr u => unit_at v (-1) u end) (-1) 0;
                      Ineq W (fun w => match w with inl u => unit_at v (-1) u | inr u => unit_at v 1 u end) (-1) 0]) vs.
Lemma close_inv f z : (forall r, In r close_system -> holds W (lefts ++ rights) f z r) ->
  meets V vs hard (fun v => f (inl v)) /\ forall v, In v vs -> (Qabs (f (inl v) - f (inr v)) <= z)%Q.
Proof.
  intros H. split.
  - intros a b I. assert (X : holds W (lefts ++ rights) f z (Ineq W (fun w => match w with inl v => a v | inr _ => 0%Q end) 0 b)).
    { apply H, in_app_iff. left. apply in_map_iff. now exists (a, b). }
    unfold holds in X. cbn [q_a q_g q_b] in X. rewrite dot_both in X. rewrite (dot_zero (fun _ => 0%Q)) in X by reflexivity.
    change (dot V vs a (fun v => f (inl v)) + 0 + 0 * z <= b)%Q in X. lra.
  - intros v I. assert (X : forall q, In q [1; -1]%Q -> holds W (lefts ++ rights) f z (Ineq W (fun w => match w with inl u => unit_at v q u | inr u => unit_at v (- q) u end) (-1) 0)).
    { intros q J. apply H, in_app_iff. right. apply in_flat_map. exists v. split; auto. destruct J as [<-|[<-|[]]]; cbn; auto. }
    pose proof (X 1%Q (or_introl eq_refl)) as X1. pose proof (X (-1)%Q (or_intror (or_introl eq_refl))) as X2.
    unfold holds in X1, X2. cbn [q_a q_g q_b] in X1, X2. rewrite dot_both in X1, X2. rewrite !dot_unit in X1, X2 by auto.
    apply Qabs_case; intros; lra.
Qed.
(** Every derived inequality is nearly met where the given point stands, the tolerance times
    some factor, and uses the parameter as soon as it uses the given point. *)
Definition slack (r : ineq W) : Prop := exists w m, (0 <= w)%Q /\ (0 <= m)%Q /\ (q_g W r == - w)%Q /\
  (forall v, (- w <= q_a W r (inr v) <= w)%Q) /\
  forall e y, (0 <= e)%Q -> meets_within e y -> (dot W (lefts ++ rights) (q_a W r) (both y y) <= q_b W r + m * e)%Q.
Lemma close_slack r : In r close_system -> slack r.
Proof.
  unfold close_system. rewrite in_app_iff. intros [I|I].
  - apply in_map_iff in I as ([a b] & <- & I). exists 0%Q, 1%Q. cbn [q_a q_g q_b fst snd]. split; [lra |]. split; [lra |]. split; [lra |]. split; [intros; lra |].
    intros e y HE M. specialize (M a b I). rewrite dot_both. cbn [both]. rewrite (dot_zero (fun _ => 0%Q)) by reflexivity.
    change (fun v => a v) with a. change (fun v => y v) with y. lra.
  - apply in_flat_map in I as (v & I & J).
    assert (X : forall q, In q [1; -1]%Q -> slack (Ineq W (fun w => match w with inl u => unit_at v q u | inr u => unit_at v (- q) u end) (-1) 0)).
    { intros q K. exists 1%Q, 0%Q. cbn [q_a q_g q_b]. split; [lra |]. split; [lra |]. split; [lra |]. split.
      - intros u. unfold unit_at. destruct (dec u v); destruct K as [<-|[<-|[]]]; lra.
      - intros e y HE M. rewrite dot_both. cbn [both]. rewrite !dot_unit by auto. lra. }
    destruct J as [<-|[<-|[]]]; [apply (X 1%Q) | apply (X (-1)%Q)]; cbn; auto.
Qed.
Lemma mix_slack k l p n : (0 <= k)%Q -> (0 <= l)%Q -> slack p -> slack n -> slack (mix2 W k p l n).
Proof.
  intros HK HL (w1 & m1 & W1 & M1 & G1 & A1 & H1) (w2 & m2 & W2 & M2 & G2 & A2 & H2). exists (k * w1 + l * w2)%Q, (k * m1 + l * m2)%Q.
  split; [nra |]. split; [nra |]. split; [cbn; rewrite G1, G2; ring |]. split.
  - intros v. cbn. destruct (A1 v), (A2 v). split; nra.
  - intros e y HE M. specialize (H1 e y HE M). specialize (H2 e y HE M). rewrite dot_mix. cbn [q_b mix2].
    assert (B1 : (k * dot W (lefts ++ rights) (q_a W p) (both y y) <= k * (q_b W p + m1 * e))%Q) by nra.
    assert (B2 : (l * dot W (lefts ++ rights) (q_a W n) (both y y) <= l * (q_b W n + m2 * e))%Q) by nra. lra.
Qed.

Lemma enough_room (l : list (ineq W)) : (exists x, meets V vs hard x) -> (forall r, In r l -> slack r /\ forall v, In v vs -> (q_a W r (inl v) == 0)%Q) ->
  exists k, (0 <= k)%Q /\ forall e y, (0 <= e)%Q -> meets_within e y -> forall z, (k * e <= z)%Q -> forall r, In r l -> holds W rights (both y y) z r.
Proof.
  intros (x0 & F). induction l as [| r l IH]; intros H; [exists 0%Q; split; [lra | easy] |].
  destruct IH as (k & HK & IH); [intros; apply H; now right |]. destruct (H r (or_introl eq_refl)) as [(w & m & HW & HM & G & A & S) Z].
  assert (D : forall y, (dot W (lefts ++ rights) (q_a W r) (both y y) == dot W rights (q_a W r) (both y y))%Q).
  { intros y. rewrite dot_both, dot_rights, dot_zero; [ring | exact Z]. }
  assert (X : exists k', (0 <= k')%Q /\ forall e y, (0 <= e)%Q -> meets_within e y -> forall z, (k' * e <= z)%Q -> holds W rights (both y y) z r).
  { destruct (Qlt_le_dec 0 w) as [P|P].
    - exists (m / w)%Q. split; [apply Qle_shift_div_l; lra |]. intros e y HE M z Hz. unfold holds. specialize (S e y HE M). rewrite D in S. rewrite G.
      assert (Y : (w * (m / w * e) <= w * z)%Q) by nra. setoid_replace (w * (m / w * e))%Q with (m * e)%Q in Y by (field; lra). lra.
    - exists 0%Q. split; [lra |]. intros e y HE M z Hz. unfold holds. apply within_zero in F. specialize (S 0%Q x0 (Qle_refl 0) F). rewrite D in S.
      assert (W0 : (w == 0)%Q) by lra. assert (N : forall f, (dot W rights (q_a W r) f == 0)%Q).
      { intros f. rewrite dot_rights. apply dot_zero. intros v _. destruct (A v). lra. }
      rewrite N in S |- *. rewrite G, W0. lra. }
  destruct X as (k' & HK' & X). exists (k + k')%Q. split; [lra |]. intros e y HE M z Hz q [<-|I].
  - apply (X e y HE M). nra.
  - apply (IH e y HE M); auto. nra.
Qed.

(** A point that nearly meets the inequalities is near one that meets them: the distance
    is at most the tolerance times a factor which depends on the inequalities only. *)
Theorem near_point : (exists x, meets V vs hard x) -> exists k, (0 <= k)%Q /\
  forall e y, (0 <= e)%Q -> meets_within e y -> exists x, meets V vs hard x /\ forall v, In v vs -> (Qabs (x v - y v) <= k * e)%Q.
Proof.
  intros F. destruct (enough_room (elims W lefts close_system) F) as (k & HK & H).
  { intros r I. split; [apply (elims_inv W slack lefts mix_slack close_system close_slack r I) |].
    intros v J. apply (proj1 (elims_zero W lefts close_system) r I). now apply in_map. }
  exists k. split; auto. intros e y HE M.
  destruct (elims_at W wdec lefts rights all_NoDup close_system (both y y) (k * e)%Q) as (f & E & C).
  { intros r I. apply (H e y HE M); auto. lra. }
  destruct (close_inv f _ C) as [MX D]. exists (fun v => f (inl v)). split; auto. intros v I. specialize (D v I).
  rewrite (E (inr v)) in D by (now apply in_map). exact D.
Qed.

(** Inequalities that no point meets are not met up to some positive tolerance either. *)
Definition loose (r : ineq V) : Prop := exists m, (0 <= m)%Q /\ forall e y, (0 <= e)%Q -> meets_within e y -> (dot V vs (q_a V r) y <= q_b V r + m * e)%Q.
Theorem no_near_point : (forall x, ~ meets V vs hard x) -> exists e0, (0 < e0)%Q /\ forall e y, meets_within e y -> (e0 <= e)%Q.
Proof.
  intros N. set (base := map (fun h => Ineq V (fst h) 0 (snd h)) hard).
  assert (L0 : forall r, In r base -> loose r).
  { intros r I. apply in_map_iff in I as ([a b] & <- & I). exists 1%Q. split; [lra |]. intros e y _ M. cbn. specialize (M a b I). lra. }
  assert (LM : forall k l p n, (0 <= k)%Q -> (0 <= l)%Q -> loose p -> loose n -> loose (mix2 V k p l n)).
  { intros k l p n HK HL (m1 & M1 & H1) (m2 & M2 & H2). exists (k * m1 + l * m2)%Q. split; [nra |]. intros e y HE M.
    specialize (H1 e y HE M). specialize (H2 e y HE M). rewrite dot_mix. cbn [q_b mix2].
    assert (B1 : (k * dot V vs (q_a V p) y <= k * (q_b V p + m1 * e))%Q) by nra.
    assert (B2 : (l * dot V vs (q_a V n) y <= l * (q_b V n + m2 * e))%Q) by nra. lra. }
  assert (B : forall x z, (forall r, In r base -> holds V vs x z r) -> meets V vs hard x).
  { intros x z H a b I. assert (X : holds V vs x z (Ineq V a 0 b)) by (apply H, in_map_iff; now exists (a, b)). unfold holds in X. cbn in X. lra. }
  destruct (forallb (fun r => Qle_bool (q_g V r * 0) (q_b V r)) (elims V vs base)) eqn:D.
  - exfalso. rewrite forallb_forall in D. assert (X : exists x, forall r, In r base -> holds V vs x 0 r).
    { apply (elims_iff V dec vs NV). intros r I. apply Qle_bool_iff. auto. }
    destruct X as (x & X). apply (N x). now apply (B x 0%Q).
  - assert (X : exists r, In r (elims V vs base) /\ (q_b V r < 0)%Q).
    { clear - D. induction (elims V vs base) as [| r l IH]; [discriminate |]. cbn [forallb] in D. apply andb_false_iff in D as [D|D].
      - exists r. split; [now left |]. apply not_true_iff_false in D. rewrite Qle_bool_iff in D. lra.
      - destruct (IH D) as (r' & I & L). exists r'. split; [now right | auto]. }
    destruct X as (r & I & L). destruct (elims_inv V loose vs LM base L0 r I) as (m & HM & H).
    exists ((- q_b V r) / (m + 1))%Q. split; [apply Qlt_shift_div_l; lra |]. intros e y M.
    assert (HE : (0 <= e)%Q).
    { destruct (Qlt_le_dec e 0) as [NE|]; auto. exfalso. apply (N y). intros a b J. specialize (M a b J). lra. }
    specialize (H e y HE M). rewrite dot_zero in H.
    + apply Qle_shift_div_r; [lra |]. nra.
    + intros v J. apply (proj1 (elims_zero V vs base) r I v J).
Qed.
End Near.
