(** C21: exactly when a study has a solution. *)
From Coq Require Import String Ascii List ZArith QArith Bool Arith Lia Lqa Qminmax Permutation Sorted.
From Verif Require Import Base BaseFacts Numeric Study Fluent Output LP SpecStudy SpecLP StudyFacts LPBuild LPFacts LPSat LPResult LPReady LPSolve LPWeak LPMore Optimum LPPrice LPMarket P_LP P_Opt P_Law.
Import ListNotations.
Open Scope nat_scope.
Open Scope string_scope.
Open Scope list_scope.

(** ** Specification *)

(** Energy left over at a node: what comes minus what goes. *)
Definition left_over (s : study) (r : result) (scn t : nat) (net nd : string) : Q :=
  match rnode_at r net nd with
  | Some rn => ((produced scn rn t + imported r scn net nd t + withdrawn scn rn t + received s r scn net nd t + looped scn nd rn t)
                - (served scn rn t + exported scn rn t + stored scn rn t + sent r scn net nd t))%Q
  | None => 0%Q
  end.
(** What it is worth at given prices, over all times and nodes. *)
Definition worth_left (s : study) (r : result) (scn : nat) (price : nat -> string -> string -> Q) : Q :=
  total (fun t => total (fun kn => total (fun kd => price t (fst kn) (fst kd) * left_over s r scn t (fst kn) (fst kd))%Q (snd kn))
                        (st_networks s)) (seq 0 (st_horizon s)).
(** Every element follows its own laws; nodes need not be balanced. *)
Record each_alone (s : study) (r : result) (scn : nat) : Prop := {
  ea_capacities : capacities_respected s r scn;
  ea_sources : sources_limited s r scn;
  ea_storages : first_storages_evolve s r scn;
  ea_converters : converters_convert s r scn
}.

(** ** Proofs *)
Theorem feasible_or_refused {V} (vdec : forall u v : V, {u = v} + {u <> v}) {K} (kdec : forall k l : K, {k = l} + {k <> l})
  (vs : list V) (ks : list K) hard (e : K -> V -> Q) (f : K -> Q) : NoDup vs -> NoDup ks ->
  (exists x, feasible V K vs ks hard e f x) \/ exists price, forall y, meets V vs hard y -> (0 < charge V K vs ks e f price y)%Q.
Proof.
  intros NV NK. set (c := fun _ : V => 0%Q).
  destruct (forallb (fun r => Qle_bool (q_g V r * 0) (q_b V r)) (elims V vs (system V K ks hard e f c))) eqn:D.
  - left. rewrite forallb_forall in D.
    assert (X : exists x, forall r, In r (system V K ks hard e f c) -> holds V vs x 0 r).
    { apply (elims_iff V vdec vs NV). intros r I. apply Qle_bool_iff. auto. }
    destruct X as (x & X). exists x. apply (system_iff V K vs ks hard e f c x 0) in X. tauto.
  - right. assert (W : exists r, In r (elims V vs (system V K ks hard e f c)) /\ Qle_bool (q_g V r * 0) (q_b V r) = false).
    { clear - D. induction (elims V vs (system V K ks hard e f c)) as [| r l IH]; [discriminate |]. cbn [forallb] in D.
      destruct (Qle_bool (q_g V r * 0) (q_b V r)) eqn:E; [destruct IH as (r' & I & E'); [exact D |]; exists r' | exists r]; split; auto; [now right | now left]. }
    destruct W as (r & I & E).
    assert (B : (q_b V r < 0)%Q). { destruct (Qlt_le_dec (q_b V r) 0) as [|H]; auto. exfalso. apply not_true_iff_false in E. apply E, Qle_bool_iff. lra. }
    destruct (elims_inv V (priced V K vs ks hard e f c) vs (mix_priced V K vs ks hard e f c) (system V K ks hard e f c) (system_priced V K kdec vs ks hard e f c NK) r I)
      as (w & price & W & GW & H).
    exists price. intros y M. specialize (H y M).
    assert (D0 : (dot V vs (q_a V r) y == 0)%Q).
    { apply qsum_map_zero. intros v Iv. rewrite (proj1 (elims_zero V vs (system V K ks hard e f c)) r I v Iv). ring. }
    assert (C0 : (dot V vs c y == 0)%Q) by (apply qsum_map_zero; intros; unfold c; ring).
    rewrite D0, C0 in H. lra.
Qed.

Lemma xok_or_refused s scn : scn < st_nb_scn s -> ready s ->
  (exists x, xok s scn x) \/ exists price, forall y, xhalf s scn y -> (0 < charged s scn price y)%Q.
Proof.
  intros S R. destruct (feasible_or_refused var_eq_dec akey_dec (names s scn) (places s) (rows s scn) (fun k => coef (soft s scn k)) (load_at s scn)) as [(x & X)|(price & H)].
  - apply names_NoDup.
  - apply places_NoDup; auto.
  - left. exists x. apply (feasible_iff s scn S R). exact X.
  - right. exists price. intros y Y. apply (rows_iff s scn S R) in Y. specialize (H y Y). rewrite (charge_value s scn S R) in H. exact H.
Qed.

Section Half.
Variables (s : study) (r : result) (scn : nat) (x : var -> Q).
Hypotheses (R : ready s) (M : mirrors s r) (C : carries_answer s r scn x) (S : scn < st_nb_scn s).
Lemma alone_iff : each_alone s r scn <-> xhalf s scn x.
Proof.
  split.
  - intros [CR SL FS CC]. constructor.
    + apply (bounds_of_room s r R M scn x C S); auto. intros name v k q t V I T. right.
      destruct (mirror_conv_l s r M _ _ V) as (rv & Rv & _). specialize (SL name v rv t V Rv T).
      pose proof (conv_src_rel s r M scn x C t T name v rv V Rv) as F.
      apply In_nth_error in I as [i I]. destruct (Forall2_get _ _ _ _ _ SL I) as ([k' a] & J & LE). cbn [fst snd] in LE.
      destruct (CR t T) as [_ CV]. destruct (CV name v rv V Rv) as [_ SRC]. apply nth_error_In in J. specialize (SRC _ _ J). lra.
    + intros t net nd n T N. destruct (mirror_node_l s r M _ _ _ N) as (rn & Rn & L). unfold xstorage. destruct (n_stors n) as [| y m] eqn:E; auto.
      pose proof (Forall2_len _ _ _ (nl_stors _ _ _ L)) as LE. rewrite E in LE. destruct (on_stors rn) as [| o m'] eqn:E'; [discriminate |].
      pose proof (proj1 (xstorage_first s r scn x C net nd n rn y o m m' N Rn E E') (FS net nd n rn y m o m' N Rn E E') t T) as X.
      unfold xstorage in X. now rewrite E in X.
    + apply (converters_iff s r M scn x C). exact CC.
  - intros [XB XS XM]. constructor.
    + apply (capacities_of_bounds s r M scn x C). exact XB.
    + intros name v rv t V Rv T. pose proof (conv_src_rel s r M scn x C t T name v rv V Rv) as F.
      apply Forall2_In in F. eapply Forall2_imp; [| exact F]. intros [k q] [k' a] (I & J & EK & EA). cbn [fst snd] in *.
      destruct (xb_src _ _ _ XB t name v k q T V I) as [_ U]. rewrite EA. exact U.
    + intros net nd n rn y m o m' N Rn E E'. apply (xstorage_first s r scn x C net nd n rn y o m m' N Rn E E'). intros t T. apply XS; auto.
    + apply (converters_iff s r M scn x C). exact XM.
Qed.
Lemma left_over_eq t net nd n : t < st_horizon s -> node_at s net nd = Some n -> (left_over s r scn t net nd == xexcess s scn x t net nd n)%Q.
Proof.
  intros T N. destruct (mirror_node_l s r M _ _ _ N) as (rn & Rn & _). unfold left_over. rewrite Rn. unfold xexcess.
  rewrite (convs_eq s r R M scn x C t T), <- (imported_eq s r R M scn x C t T), <- (looped_eq s r M scn x C t T net nd n rn) by auto. unfold xnode.
  rewrite (served_eq s r M scn x C t T net nd n rn), (produced_eq s r M scn x C t T net nd n rn), (stored_eq s r M scn x C t T net nd n rn),
          (withdrawn_eq s r M scn x C t T net nd n rn), (exported_eq s r M scn x C t T net nd n rn) by auto.
  assert (E1 : (sumi (fun i c => value (c_qty c) scn t - x (VLol net nd i t)) (n_cons n) ==
                qsum (map (fun c => value (c_qty c) scn t) (n_cons n)) - sumi (fun i _ => x (VLol net nd i t)) (n_cons n))%Q).
  { rewrite (sumi_ext _ (fun i c => value (c_qty c) scn t + - x (VLol net nd i t))%Q) by (intros; lra).
    rewrite (sumi_add (fun _ c => value (c_qty c) scn t) (fun i _ => - x (VLol net nd i t))%Q).
    rewrite (sumi_opp (fun i _ => x (VLol net nd i t))), sumi_map. lra. }
  assert (E2 : (sumi (fun i (_ : storage) => - x (VIn net nd i t) + x (VOut net nd i t)) (n_stors n) ==
                - sumi (fun i _ => x (VIn net nd i t)) (n_stors n) + sumi (fun i _ => x (VOut net nd i t)) (n_stors n))%Q).
  { rewrite (sumi_add (fun i _ => - x (VIn net nd i t))%Q (fun i _ => x (VOut net nd i t))).
    rewrite (sumi_opp (fun i _ => x (VIn net nd i t))). lra. }
  rewrite E1, E2. ring.
Qed.
Lemma worth_eq price : (worth_left s r scn price == charged s scn (fun k => price (fst (fst k)) (snd (fst k)) (snd k)) x)%Q.
Proof.
  rewrite (charged_sum s scn R). unfold worth_left, total. apply qsum_map_ext. intros t T. apply in_seq in T. unfold nsum.
  apply qsum_map_ext. intros [net ns] I. apply qsum_map_ext. intros [nd n] J. cbn [fst snd].
  rewrite (left_over_eq t net nd n); [reflexivity | lia |]. eapply node_at_In; eauto.
Qed.
End Half.

(** For every study the API builds: there is a solution exactly when at all prices of energy
    the elements, each on its own, could leave over something worth nothing or more. *)
Theorem C21_exact_prices : forall s scn, api_study s -> usable_converters s -> scn < st_nb_scn s ->
  ((exists x, satisfies (program_of s scn) x) <->
   forall price, exists r, mirrors s r /\ each_alone s r scn /\ (0 <= worth_left s r scn price)%Q).
Proof.
  intros s scn A U S. pose proof (api_ready s A U) as R. destruct (build_ok s scn S R) as (p & B & _).
  assert (E : program_of s scn = p) by (unfold program_of; now rewrite B). rewrite E. split.
  - intros (x & X) price. apply (sat_iff s scn S R _ _ _ B) in X. exists (result_of s (fun _ => x)).
    pose proof (result_of_mirrors s (fun _ => x)) as M. pose proof (result_of_carries s (fun _ => x) scn S) as CA.
    split; auto. pose proof X as Y. apply xok_half in Y as [Y _]. split; [now apply (alone_iff s _ scn x R M CA S) |].
    rewrite (worth_eq s _ scn x R M CA S). rewrite (charged_zero s scn S R _ x X). lra.
  - intros H. destruct (xok_or_refused s scn S R) as [(x & X)|(price & N)].
    + exists x. now apply (sat_iff s scn S R _ _ _ B).
    + exfalso. destruct (H (fun t net nd => - price (t, net, nd))%Q) as (r & M & EA & W).
      pose proof (read_carries s r scn R M) as CA. pose proof (proj1 (alone_iff s r scn _ R M CA S) EA) as Y.
      rewrite (worth_eq s r scn _ R M CA S) in W. specialize (N _ Y). revert W N.
      unfold charged. intros W N. rewrite (qsum_map_ext _ (fun k => - (price k * excess_at s scn (read_result s r scn) k))%Q) in W.
      * rewrite qsum_map_opp in W. lra.
      * intros [[t net] nd] _. cbn [fst snd]. ring.
Qed.
(** A study without solution has prices that refuse it: whatever the elements do on their own,
    what is left over is worth less than nothing. *)
Theorem C21_prices_refuse : forall s scn, api_study s -> usable_converters s -> scn < st_nb_scn s ->
  (forall x, ~ satisfies (program_of s scn) x) ->
  exists price, forall r, mirrors s r -> each_alone s r scn -> (worth_left s r scn price < 0)%Q.
Proof.
  intros s scn A U S H. pose proof (api_ready s A U) as R. destruct (build_ok s scn S R) as (p & B & _).
  assert (E : program_of s scn = p) by (unfold program_of; now rewrite B). rewrite E in H.
  destruct (xok_or_refused s scn S R) as [(x & X)|(price & N)].
  - exfalso. apply (H x). now apply (sat_iff s scn S R _ _ _ B).
  - exists (fun t net nd => - price (t, net, nd))%Q. intros r M EA.
    pose proof (read_carries s r scn R M) as CA. pose proof (proj1 (alone_iff s r scn _ R M CA S) EA) as Y.
    rewrite (worth_eq s r scn _ R M CA S). specialize (N _ Y). revert N. unfold charged. intros N.
    rewrite (qsum_map_ext _ (fun k => - (price k * excess_at s scn (read_result s r scn) k))%Q).
    + rewrite qsum_map_opp. lra.
    + intros [[t net] nd] _. cbn [fst snd]. ring.
Qed.

(** ** Studies without links and converters *)

(** What a node can give to its first storage, and take from it: productions and the other
    storages, loads and the other storages. *)
Definition can_give (scn : nat) (n : node) (t : nat) : Q :=
  (total (fun p => value (p_qty p) scn t) (n_prods n) + total (fun y => value (s_flow_out y) scn t) (tl (n_stors n)))%Q.
Definition can_take (scn : nat) (n : node) (t : nat) : Q :=
  (total (fun c => value (c_qty c) scn t) (n_cons n) + total (fun y => value (s_flow_in y) scn t) (tl (n_stors n)))%Q.
(** The most the content rises and falls in one step. Energy can also be lost by filling
    and emptying at the same time. *)
Definition rise (e fi give : Q) : Q := (e * Qmin fi give)%Q.
Definition fall (e fi fo take : Q) : Q := (Qmin fo take + (1 - e) * Qmin fi (Qmax 0 (fo - take)))%Q.
(** The least and the most that can be in the storage after each step. *)
Fixpoint least_in (scn : nat) (n : node) (y : storage) (t : nat) : Q :=
  Qmax 0 ((match t with O => s_init y | S t' => least_in scn n y t' end)
          - fall (value (s_eff y) scn t) (value (s_flow_in y) scn t) (value (s_flow_out y) scn t) (can_take scn n t)).
Fixpoint most_in (scn : nat) (n : node) (y : storage) (t : nat) : Q :=
  Qmin (value (s_capacity y) scn t)
       ((match t with O => s_init y | S t' => most_in scn n y t' end)
        + rise (value (s_eff y) scn t) (value (s_flow_in y) scn t) (can_give scn n t)).
Definition first_manage (s : study) (scn : nat) : Prop := forall net nd n y ys t,
  node_at s net nd = Some n -> n_stors n = y :: ys -> t < st_horizon s -> (least_in scn n y t <= most_in scn n y t)%Q.
Definition lossy (s : study) (scn : nat) : Prop := forall net nd n y ys t,
  node_at s net nd = Some n -> n_stors n = y :: ys -> t < st_horizon s -> (0 <= value (s_eff y) scn t <= 1)%Q.
Definition apart (s : study) : Prop := (forall net nd n, node_at s net nd = Some n -> n_links n = []) /\ st_converters s = [].


Lemma step_bounds e fi fo p l i o : (0 <= e <= 1)%Q -> (0 <= p)%Q -> (0 <= l)%Q -> within 0 i fi -> within 0 o fo -> (- p <= o - i <= l)%Q ->
  (- fall e fi fo l <= e * i - o <= rise e fi p)%Q.
Proof.
  intros [E1 E2] P L [I1 I2] [O1 O2] [D1 D2]. unfold fall, rise. split.
  - assert (A : (o <= Qmin fo l + (1 - e) * Qmin fi (Qmax 0 (fo - l)) + e * i)%Q); [| lra].
    destruct (Qlt_le_dec l fo) as [H|H].
    + rewrite (Q.min_r fo l), (Q.max_r 0 (fo - l)) by lra. destruct (Qlt_le_dec fi (fo - l)) as [K|K].
      * rewrite (Q.min_l fi) by lra. nra.
      * rewrite (Q.min_r fi) by lra. destruct (Qlt_le_dec i (fo - l)); nra.
    + rewrite (Q.min_l fo l), (Q.max_l 0 (fo - l)) by lra. rewrite (Q.min_r fi 0) by lra. nra.
  - destruct (Qlt_le_dec p fi) as [K|K]; [rewrite (Q.min_r fi p) by lra | rewrite (Q.min_l fi p) by lra]; nra.
Qed.
Lemma part_of_whole r w : (0 <= r <= w)%Q -> exists k, (0 <= k <= 1)%Q /\ (k * w == r)%Q.
Proof.
  intros [A B]. destruct (Qlt_le_dec 0 w) as [W|W].
  - exists (r / w)%Q. split; [split; [apply Qle_shift_div_l; lra | apply Qle_shift_div_r; lra] |]. field. lra.
  - exists 0%Q. split; lra.
Qed.
Lemma step_reach e fi fo p l d : (0 <= e <= 1)%Q -> (0 <= p)%Q -> (0 <= l)%Q -> (0 <= fi)%Q -> (0 <= fo)%Q -> (- fall e fi fo l <= d <= rise e fi p)%Q ->
  exists io : Q * Q, within 0 (fst io) fi /\ within 0 (snd io) fo /\ (- p <= snd io - fst io <= l)%Q /\ (d == e * fst io - snd io)%Q.
Proof.
  intros [E1 E2] P L FI FO [D1 D2]. unfold within. destruct (Qlt_le_dec d 0) as [N|N].
  - (* fall *)
    destruct (part_of_whole (- d) (fall e fi fo l)) as (k & [K1 K2] & K); [lra |]. unfold fall in K.
    set (m := Qmin fi (Qmax 0 (fo - l))) in *.
    assert (M1 : (0 <= m <= fi)%Q).
    { unfold m. split; [apply Q.min_glb; [lra | apply Q.le_max_l] | apply Q.le_min_l]. }
    assert (M2 : (m <= Qmax 0 (fo - l))%Q) by apply Q.le_min_r.
    assert (M3 : (0 <= Qmin fo l)%Q) by (apply Q.min_glb; lra).
    assert (M4 : (Qmin fo l + m <= fo)%Q).
    { destruct (Qlt_le_dec l fo) as [H|H].
      - rewrite (Q.max_r 0 (fo - l)) in M2 by lra. rewrite (Q.min_r fo l) by lra. lra.
      - rewrite (Q.max_l 0 (fo - l)) in M2 by lra. rewrite (Q.min_l fo l) by lra. lra. }
    assert (M5 : (Qmin fo l <= l)%Q) by apply Q.le_min_r.
    set (b := Qmin fo l) in *. exists (k * m, k * (b + m))%Q. cbn [fst snd].
    assert (A1 : (0 <= k * m)%Q) by nra. assert (A2 : (k * m <= fi)%Q) by nra. assert (A3 : (0 <= k * b)%Q) by nra.
    assert (A4 : (k * (b + m) <= fo)%Q) by nra. assert (A5 : (k * b <= l)%Q) by nra.
    repeat split; first [nra | lra].
  - destruct (part_of_whole d (rise e fi p)) as (k & [K1 K2] & K); [lra |]. unfold rise in K.
    assert (M1 : (Qmin fi p <= fi)%Q) by apply Q.le_min_l. assert (M2 : (Qmin fi p <= p)%Q) by apply Q.le_min_r. assert (M3 : (0 <= Qmin fi p)%Q) by (apply Q.min_glb; lra).
    set (b := Qmin fi p) in *. exists (k * b, 0)%Q. cbn [fst snd].
    assert (A1 : (0 <= k * b)%Q) by nra. assert (A2 : (k * b <= fi)%Q) by nra. assert (A3 : (k * b <= p)%Q) by nra.
    repeat split; first [nra | lra].
Qed.

Lemma mapi_shift {A C} (f : nat -> A -> C) l : forall i, mapi f (S i) l = mapi (fun j => f (S j)) i l.
Proof. induction l; simpl; intros; f_equal; auto. Qed.
Lemma sumi_cons {A} (f : nat -> A -> Q) a l : (sumi f (a :: l) == f 0%nat a + sumi (fun i => f (S i)) l)%Q.
Proof. unfold sumi. cbn [mapi]. rewrite mapi_shift. change (qsum (?u :: ?v)) with (u + qsum v)%Q. reflexivity. Qed.
Lemma sumi_within {A} (f : nat -> A -> Q) (g : A -> Q) l : (forall i a, nth_error l i = Some a -> within 0 (f i a) (g a)) ->
  (0 <= sumi f l <= total g l)%Q.
Proof.
  revert f. induction l as [| a l IH]; intros f H; [unfold sumi, total; cbn; lra |]. rewrite sumi_cons. unfold total in *. cbn [map]. change (qsum (?u :: ?v)) with (u + qsum v)%Q.
  destruct (H 0 a eq_refl). specialize (IH (fun i => f (S i)) (fun i b E => H (S i) b E)). lra.
Qed.
Lemma total_nonneg {A} (g : A -> Q) l : (forall a, In a l -> (0 <= g a)%Q) -> (0 <= total g l)%Q.
Proof.
  induction l as [| a l IH]; intros H; [unfold total; cbn; lra |]. unfold total in *. cbn [map]. change (qsum (?u :: ?v)) with (u + qsum v)%Q.
  pose proof (H a (or_introl eq_refl)). assert (forall b, In b l -> (0 <= g b)%Q) by (intros; apply H; now right). specialize (IH H1). lra.
Qed.
Lemma choose_at {K A} (dec : forall k l : K, {k = l} + {k <> l}) (P : K -> A -> Prop) (d : A) l : (forall k, In k l -> exists a, P k a) -> exists f, forall k, In k l -> P k (f k).
Proof.
  induction l as [| k l IH]; intros H; [exists (fun _ => d); intros _ [] |].
  destruct IH as (f & F); [intros; apply H; now right |]. destruct (H k) as (a & PA); [now left |].
  exists (fun j => if dec j k then a else f j). intros j [->|I]; [destruct (dec j j); [auto | congruence] |].
  destruct (dec j k) as [->|]; auto.
Qed.

Section Apart.
Variables (s : study) (scn : nat).
Hypotheses (RD : ready s) (RM : room s scn).
Lemma give_pos net nd n t : node_at s net nd = Some n -> t < st_horizon s -> (0 <= can_give scn n t)%Q.
Proof.
  intros N T. unfold can_give. assert (A : (0 <= total (fun p => value (p_qty p) scn t) (n_prods n))%Q) by (apply total_nonneg; intros p I; eapply (rm_prods _ _ RM); eauto).
  assert (B : (0 <= total (fun y => value (s_flow_out y) scn t) (tl (n_stors n)))%Q).
  { apply total_nonneg. intros y I. assert (J : In y (n_stors n)) by (destruct (n_stors n); [easy | now right]). apply (rm_stors _ _ RM net nd n y t N J T). }
  lra.
Qed.
Lemma take_pos net nd n t : node_at s net nd = Some n -> t < st_horizon s -> (0 <= can_take scn n t)%Q.
Proof.
  intros N T. unfold can_take. assert (A : (0 <= total (fun p => value (c_qty p) scn t) (n_cons n))%Q) by (apply total_nonneg; intros p I; eapply (rm_cons _ _ RM); eauto).
  assert (B : (0 <= total (fun y => value (s_flow_in y) scn t) (tl (n_stors n)))%Q).
  { apply total_nonneg. intros y I. assert (J : In y (n_stors n)) by (destruct (n_stors n); [easy | now right]). apply (rm_stors _ _ RM net nd n y t N J T). }
  lra.
Qed.

(** A solution keeps the content between the two. *)
Lemma content_between x net nd n y ys : xok s scn x -> lossy s scn -> apart s -> node_at s net nd = Some n -> n_stors n = y :: ys ->
  forall t, t < st_horizon s -> (least_in scn n y t <= x (VCap net nd 0 t) <= most_in scn n y t)%Q.
Proof.
  intros X LO [AL AC] N E. assert (E0 : nth_error (n_stors n) 0 = Some y) by now rewrite E. pose proof X as [[BC BP BS _ _ _] BA XS _].
  assert (ST : forall t, t < st_horizon s ->
    (- fall (value (s_eff y) scn t) (value (s_flow_in y) scn t) (value (s_flow_out y) scn t) (can_take scn n t)
      <= value (s_eff y) scn t * x (VIn net nd 0 t) - x (VOut net nd 0 t)
      <= rise (value (s_eff y) scn t) (value (s_flow_in y) scn t) (can_give scn n t))%Q).
  { intros t T.
    destruct (BS t net nd n 0 y T N E0) as (_ & FI & FO). apply step_bounds; auto; [eapply LO; eauto | eapply give_pos; eauto | eapply take_pos; eauto |].
    specialize (BA t net nd n T N). unfold xbalance, xnode, xself, ximport in BA. rewrite (AL net nd n N), AC in BA. cbn [map] in BA. change (qsum []) with 0%Q in BA.
    rewrite (qsum_map_zero _ (nodes_in s net)) in BA.
    2:{ intros [nd2 n2] I. cbn [fst snd]. unfold nodes_in in I. destruct (dget net (st_networks s)) as [ns|] eqn:D; [| easy].
        apply dget_In in D. rewrite (AL net nd2 n2); [reflexivity |]. eapply node_at_In; eauto. }
    change (sumi (fun (i : nat) (_ : link) => x (VLink net nd i t)) []) with 0%Q in BA.
    change (sumi (fun (i : nat) (l : link) => if String.eqb (l_dest l) nd then x (VLink net nd i t) else 0%Q) []) with 0%Q in BA.
    rewrite E, sumi_cons in BA. unfold can_give, can_take. rewrite E. cbn [tl].
    rewrite (sumi_add (fun i _ => - x (VIn net nd (S i) t))%Q (fun i _ => x (VOut net nd (S i) t))), (sumi_opp (fun i _ => x (VIn net nd (S i) t))) in BA.
    pose proof (sumi_within (fun i _ => x (VLol net nd i t)) (fun c => value (c_qty c) scn t) (n_cons n) (fun i c H => BC t net nd n i c T N H)) as S1.
    pose proof (sumi_within (fun i _ => x (VProd net nd i t)) (fun c => value (p_qty c) scn t) (n_prods n) (fun i c H => BP t net nd n i c T N H)) as S2.
    assert (BS' : forall i z, nth_error ys i = Some z -> nth_error (n_stors n) (S i) = Some z) by (intros; now rewrite E).
    pose proof (sumi_within (fun i _ => x (VIn net nd (S i) t)) (fun c => value (s_flow_in c) scn t) ys (fun i c H => proj1 (proj2 (BS t net nd n (S i) c T N (BS' i c H))))) as S3.
    pose proof (sumi_within (fun i _ => x (VOut net nd (S i) t)) (fun c => value (s_flow_out c) scn t) ys (fun i c H => proj2 (proj2 (BS t net nd n (S i) c T N (BS' i c H))))) as S4.
    unfold total in *. lra. }
  induction t as [| t IH]; intros T; specialize (ST _ T); destruct (BS _ net nd n 0 y T N E0) as ([C1 C2] & _ & _);
    specialize (XS _ net nd n T N); unfold xstorage in XS; rewrite E in XS; cbn [least_in most_in].
  - split; [apply Q.max_lub | apply Q.min_glb]; lra.
  - assert (T' : t < st_horizon s) by lia. specialize (IH T'). split; [apply Q.max_lub | apply Q.min_glb]; lra.
Qed.

(** Contents between the two can be reached. *)
Lemma least_le_most_zero n y t : (0 <= least_in scn n y t)%Q /\ (most_in scn n y t <= value (s_capacity y) scn t)%Q.
Proof. destruct t; cbn [least_in most_in]; split; first [apply Q.le_max_l | apply Q.le_min_l]. Qed.
Lemma contents n y :
  forall t c, (forall u, u <= t -> (least_in scn n y u <= most_in scn n y u)%Q) ->
  (forall u, u <= t -> (- fall (value (s_eff y) scn u) (value (s_flow_in y) scn u) (value (s_flow_out y) scn u) (can_take scn n u)
     <= rise (value (s_eff y) scn u) (value (s_flow_in y) scn u) (can_give scn n u))%Q) -> (least_in scn n y t <= c <= most_in scn n y t)%Q ->
  exists f, f t = c /\ forall u, u <= t -> (least_in scn n y u <= f u <= most_in scn n y u)%Q /\
    (- fall (value (s_eff y) scn u) (value (s_flow_in y) scn u) (value (s_flow_out y) scn u) (can_take scn n u)
      <= f u - match u with O => s_init y | S u' => f u' end
      <= rise (value (s_eff y) scn u) (value (s_flow_in y) scn u) (can_give scn n u))%Q.
Proof.
  induction t as [| t IH]; intros c LM DU C.
  - exists (fun _ => c). split; auto. intros u L. assert (u = 0) by lia. subst u. split; auto. cbn [least_in most_in] in C.
    destruct C as [C1 C2]. pose proof (Q.le_max_r 0 (s_init y - fall (value (s_eff y) scn 0) (value (s_flow_in y) scn 0) (value (s_flow_out y) scn 0) (can_take scn n 0))).
    pose proof (Q.le_min_r (value (s_capacity y) scn 0) (s_init y + rise (value (s_eff y) scn 0) (value (s_flow_in y) scn 0) (can_give scn n 0))). lra.
  - pose proof C as [C1 C2]. cbn [least_in most_in] in C1, C2.
    set (D := fall (value (s_eff y) scn (S t)) (value (s_flow_in y) scn (S t)) (value (s_flow_out y) scn (S t)) (can_take scn n (S t))) in *.
    set (U := rise (value (s_eff y) scn (S t)) (value (s_flow_in y) scn (S t)) (can_give scn n (S t))) in *.
    pose proof (Q.le_max_r 0 (least_in scn n y t - D)). pose proof (Q.le_min_r (value (s_capacity y) scn (S t)) (most_in scn n y t + U)).
    assert (B : exists b, (least_in scn n y t <= b <= most_in scn n y t)%Q /\ (- D <= c - b <= U)%Q).
    { assert (LM' : (least_in scn n y t <= most_in scn n y t)%Q) by (apply LM; lia). destruct (Qlt_le_dec (c - U) (least_in scn n y t)) as [H1|H1].
      - exists (least_in scn n y t). lra.
      - exists (c - U)%Q. pose proof (DU (S t) ltac:(lia)) as W. fold D U in W. lra. }
    destruct B as (b & B1 & B2). destruct (IH b) as (f & F & G); [intros; apply LM; lia | intros; apply DU; lia | exact B1 |].
    exists (fun u => if Nat.eqb u (S t) then c else f u). split; [now rewrite Nat.eqb_refl |]. intros u L. destruct (Nat.eqb u (S t)) eqn:EU.
    + apply Nat.eqb_eq in EU. subst u. assert (Nat.eqb t (S t) = false) as -> by (apply Nat.eqb_neq; lia). rewrite F. split; auto.
    + apply Nat.eqb_neq in EU. destruct (G u) as [G1 G2]; [lia |]. split; auto. destruct u as [| u]; auto.
      assert (Nat.eqb u (S t) = false) as -> by (apply Nat.eqb_neq; lia). exact G2.
Qed.

(** *** The solution *)
Definition spread (r w : Q) : Q := if Qeq_bool w 0 then 0%Q else (r / w)%Q.
Lemma spread_ok r w : (0 <= r <= w)%Q -> (0 <= spread r w <= 1)%Q /\ (spread r w * w == r)%Q.
Proof.
  intros [A B]. unfold spread. destruct (Qeq_bool w 0) eqn:E.
  - apply Qeq_bool_iff in E. split; lra.
  - apply Qeq_bool_neq in E. assert (W : (0 < w)%Q) by (destruct (Qlt_le_dec 0 w); auto; exfalso; apply E; lra).
    split; [split; [apply Qle_shift_div_l; lra | apply Qle_shift_div_r; lra] |]. field. lra.
Qed.
(** Contents, entering and leaving energy of the first storage of each node. *)
Variable plan : string * string -> nat -> Q * (Q * Q).
Definition pc k t := fst (plan k t). Definition pin k t := fst (snd (plan k t)). Definition pout k t := snd (snd (plan k t)).
Definition goes_out (net nd : string) (t : nat) : Q := Qmax 0 (pout (net, nd) t - pin (net, nd) t).
Definition goes_in (net nd : string) (t : nat) : Q := Qmax 0 (pin (net, nd) t - pout (net, nd) t).
Definition used (n : node) (net nd : string) (t : nat) : Q := match n_stors n with [] => 0%Q | _ => spread (goes_out net nd t) (can_take scn n t) end.
Definition lent (n : node) (net nd : string) (t : nat) : Q := match n_stors n with [] => 0%Q | _ => spread (goes_in net nd t) (can_give scn n t) end.
Definition managed (v : var) : Q :=
  match v with
  | VLol net nd i t => match node_at s net nd with
      | Some n => match nth_error (n_cons n) i with Some c => (1 - used n net nd t) * value (c_qty c) scn t | None => 0 end | None => 0 end
  | VProd net nd i t => match node_at s net nd with
      | Some n => match nth_error (n_prods n) i with Some c => lent n net nd t * value (p_qty c) scn t | None => 0 end | None => 0 end
  | VCap net nd 0 t => pc (net, nd) t
  | VIn net nd 0 t => pin (net, nd) t
  | VOut net nd 0 t => pout (net, nd) t
  | VIn net nd (S i) t => match node_at s net nd with
      | Some n => match nth_error (tl (n_stors n)) i with Some y => used n net nd t * value (s_flow_in y) scn t | None => 0 end | None => 0 end
  | VOut net nd (S i) t => match node_at s net nd with
      | Some n => match nth_error (tl (n_stors n)) i with Some y => lent n net nd t * value (s_flow_out y) scn t | None => 0 end | None => 0 end
  | _ => 0
  end%Q.
Definition plan_good (net nd : string) (n : node) : Prop := forall y ys t, n_stors n = y :: ys -> t < st_horizon s ->
  within 0 (pc (net, nd) t) (value (s_capacity y) scn t) /\ within 0 (pin (net, nd) t) (value (s_flow_in y) scn t) /\ within 0 (pout (net, nd) t) (value (s_flow_out y) scn t) /\
  (- can_give scn n t <= pout (net, nd) t - pin (net, nd) t <= can_take scn n t)%Q /\
  (pc (net, nd) t == match t with O => s_init y | S t' => pc (net, nd) t' end + value (s_eff y) scn t * pin (net, nd) t - pout (net, nd) t)%Q.
Lemma used_ok net nd n t : node_at s net nd = Some n -> plan_good net nd n -> t < st_horizon s ->
  (0 <= used n net nd t <= 1)%Q /\ (0 <= lent n net nd t <= 1)%Q /\
  (n_stors n <> [] -> used n net nd t * can_take scn n t - lent n net nd t * can_give scn n t == pout (net, nd) t - pin (net, nd) t)%Q.
Proof.
  intros N G T. unfold used, lent. destruct (n_stors n) as [| y ys] eqn:E; [split; [lra |]; split; [lra |]; congruence |].
  destruct (G y ys t E T) as (_ & _ & _ & [D1 D2] & _). pose proof (give_pos net nd n t N T). pose proof (take_pos net nd n t N T).
  destruct (spread_ok (goes_out net nd t) (can_take scn n t)) as [A1 A2].
  { unfold goes_out. split; [apply Q.le_max_l | apply Q.max_lub; lra]. }
  destruct (spread_ok (goes_in net nd t) (can_give scn n t)) as [B1 B2].
  { unfold goes_in. split; [apply Q.le_max_l | apply Q.max_lub; lra]. }
  split; auto. split; auto. intros _. rewrite A2, B2. unfold goes_out, goes_in.
  destruct (Qlt_le_dec (pout (net, nd) t) (pin (net, nd) t)).
  - rewrite (Q.max_l 0 (pout (net, nd) t - pin (net, nd) t)), (Q.max_r 0 (pin (net, nd) t - pout (net, nd) t)) by lra. lra.
  - rewrite (Q.max_r 0 (pout (net, nd) t - pin (net, nd) t)), (Q.max_l 0 (pin (net, nd) t - pout (net, nd) t)) by lra. lra.
Qed.
Lemma managed_ok : (forall net nd n, node_at s net nd = Some n -> plan_good net nd n) -> xok s scn managed.
Proof.
  intros G. constructor.
  - constructor.
    + intros t net nd n i c T N E. cbn [managed]. rewrite N, E. destruct (used_ok net nd n t N (G _ _ _ N) T) as (U & _).
      pose proof (rm_cons _ _ RM net nd n c t N (nth_error_In _ _ E) T). unfold within. nra.
    + intros t net nd n i c T N E. cbn [managed]. rewrite N, E. destruct (used_ok net nd n t N (G _ _ _ N) T) as (_ & U & _).
      pose proof (rm_prods _ _ RM net nd n c t N (nth_error_In _ _ E) T). unfold within. nra.
    + intros t net nd n i y T N E. destruct (rm_stors _ _ RM net nd n y t N (nth_error_In _ _ E) T) as (R1 & R2 & R3).
      destruct (used_ok net nd n t N (G _ _ _ N) T) as (U & L & _).
      destruct i as [| i].
      * destruct (n_stors n) as [| z zs] eqn:EN; [discriminate |]. cbn in E. injection E as <-. destruct (G _ _ _ N z zs t EN T) as (A1 & A2 & A3 & _). cbn [managed]. auto.
      * cbn [managed]. rewrite N. assert (E' : nth_error (tl (n_stors n)) i = Some y) by (destruct (n_stors n); [discriminate | exact E]). rewrite E'.
        unfold within. repeat split; nra.
    + intros t net nd n i l T N E. cbn [managed]. pose proof (rm_links _ _ RM net nd n l t N (nth_error_In _ _ E) T). unfold within. lra.
    + intros t name v k q T V I. cbn [managed vsrc]. pose proof (rm_srcs _ _ RM name v k q t V I T). unfold within. lra.
    + intros t name v T V. cbn [managed]. pose proof (rm_dests _ _ RM name v t V T). unfold within. lra.
  - intros t net nd n T N. unfold xbalance, xnode, ximport, xself.
    rewrite (sumi_zero _ (n_links n)) by reflexivity. rewrite (sumi_zero (fun i l => if String.eqb (l_dest l) nd then managed (VLink net nd i t) else 0%Q) (n_links n)) by (intros j l _; destruct (String.eqb (l_dest l) nd); reflexivity).
    rewrite (qsum_map_zero _ (nodes_in s net)) by (intros [nd2 n2] _; apply sumi_zero; intros j l _; destruct (String.eqb (l_dest l) nd); reflexivity).
    rewrite (qsum_map_zero _ (st_converters s)).
    2:{ intros [name v] _. unfold xconv. cbn [fst snd managed vsrc].
        rewrite (qsum_map_zero _ (v_src v)) by (intros kr _; destruct (pair_eqb (fst kr) (net, nd)); reflexivity).
        destruct (String.eqb (v_dnet v) net && String.eqb (v_dnode v) nd); lra. }
    rewrite (sumi_ext _ (fun _ c => (1 - used n net nd t) * value (c_qty c) scn t)%Q (n_cons n)) by (intros j c J; cbn [managed]; rewrite N, J; reflexivity).
    rewrite (sumi_map (fun c => (1 - used n net nd t) * value (c_qty c) scn t)%Q), qsum_map_scal.
    rewrite (sumi_ext _ (fun _ c => lent n net nd t * value (p_qty c) scn t)%Q (n_prods n)) by (intros j c J; cbn [managed]; rewrite N, J; reflexivity).
    rewrite (sumi_map (fun c => lent n net nd t * value (p_qty c) scn t)%Q), qsum_map_scal.
    destruct (used_ok net nd n t N (G _ _ _ N) T) as (_ & _ & U). unfold can_take, can_give, total in U.
    destruct (n_stors n) as [| y ys] eqn:EN.
    + unfold sumi at 1. cbn [mapi]. change (qsum []) with 0%Q. unfold used, lent. rewrite EN. lra.
    + specialize (U ltac:(discriminate)). cbn [tl] in U. rewrite sumi_cons.
      rewrite (sumi_ext (fun i _ => - managed (VIn net nd (S i) t) + managed (VOut net nd (S i) t))%Q
        (fun _ z => - used n net nd t * value (s_flow_in z) scn t + lent n net nd t * value (s_flow_out z) scn t)%Q ys).
      2:{ intros j z J. cbn [managed]. rewrite N, EN. cbn [tl]. rewrite J. ring. }
      rewrite (sumi_map (fun z => - used n net nd t * value (s_flow_in z) scn t + lent n net nd t * value (s_flow_out z) scn t)%Q), qsum_map_add, !qsum_map_scal.
      cbn [managed]. lra.
  - intros t net nd n T N. unfold xstorage. destruct (n_stors n) as [| y ys] eqn:EN; auto. destruct (G _ _ _ N y ys t EN T) as (_ & _ & _ & _ & C).
    cbn [managed]. destruct t; exact C.
  - intros t name v T V k q I. cbn [managed vsrc]. lra.
Qed.
End Apart.

Lemma room_of s scn x : xok s scn x -> room s scn.
Proof.
  intros [[XC XP XS XL XR XD] _ _ _]. unfold within in *. constructor.
  - intros net nd n c t N I T. apply In_nth_error in I as [i I]. destruct (XC t net nd n i c T N I). lra.
  - intros net nd n c t N I T. apply In_nth_error in I as [i I]. destruct (XP t net nd n i c T N I). lra.
  - intros net nd n c t N I T. apply In_nth_error in I as [i I]. destruct (XL t net nd n i c T N I). lra.
  - intros net nd n y t N I T. apply In_nth_error in I as [i I]. destruct (XS t net nd n i y T N I) as (? & ? & ?). lra.
  - intros name v t V T. destruct (XD t name v T V). lra.
  - intros name v k q t V I T. destruct (XR t name v k q T V I). lra.
Qed.
Lemma choose_steps {A} (P : nat -> A -> Prop) (d : A) n : (forall i, i < n -> exists a, P i a) -> exists f, forall i, i < n -> P i (f i).
Proof.
  intros H. destruct (choose_at Nat.eq_dec P d (seq 0 n)) as (f & F); [intros k I; apply in_seq in I; apply H; lia |].
  exists f. intros i L. apply F, in_seq. lia.
Qed.
Lemma rise_fall e fi fo p l : (0 <= e <= 1)%Q -> (0 <= p)%Q -> (0 <= l)%Q -> (0 <= fi)%Q -> (0 <= fo)%Q -> (- fall e fi fo l <= rise e fi p)%Q.
Proof.
  intros E P L FI FO. destruct (step_bounds e fi fo p l 0 0 E P L) as [A B]; unfold within; try lra.
Qed.
Lemma manage_plan s scn (RM : room s scn) (LO : lossy s scn) (FM : first_manage s scn) net nd n : node_at s net nd = Some n ->
  exists f : nat -> Q * (Q * Q), plan_good s scn (fun _ => f) net nd n.
Proof.
  intros N. destruct (n_stors n) as [| y ys] eqn:E; [exists (fun _ => (0, (0, 0)))%Q; intros z zs t EZ; congruence |].
  destruct (st_horizon s) as [| h] eqn:EH; [exists (fun _ => (0, (0, 0)))%Q; intros z zs t _ T; lia |].
  assert (Iy : In y (n_stors n)) by (rewrite E; now left).
  assert (RF : forall u, u <= h -> (- fall (value (s_eff y) scn u) (value (s_flow_in y) scn u) (value (s_flow_out y) scn u) (can_take scn n u)
     <= rise (value (s_eff y) scn u) (value (s_flow_in y) scn u) (can_give scn n u))%Q).
  { intros u U. assert (T : u < st_horizon s) by lia. destruct (rm_stors _ _ RM net nd n y u N Iy T) as (_ & F1 & F2).
    apply rise_fall; auto; [eapply LO; eauto | eapply give_pos; eauto | eapply take_pos; eauto]. }
  destruct (contents scn n y h (least_in scn n y h)) as (f & _ & F); auto.
  { intros u U. eapply FM; eauto. lia. }
  { split; [lra |]. eapply FM; eauto. lia. }
  destruct (choose_steps (fun t (io : Q * Q) => within 0 (fst io) (value (s_flow_in y) scn t) /\ within 0 (snd io) (value (s_flow_out y) scn t) /\
     (- can_give scn n t <= snd io - fst io <= can_take scn n t)%Q /\
     (f t - match t with O => s_init y | S t' => f t' end == value (s_eff y) scn t * fst io - snd io)%Q) (0, 0)%Q (S h)) as (g & G).
  { intros t T. assert (T' : t < st_horizon s) by lia. destruct (rm_stors _ _ RM net nd n y t N Iy T') as (_ & F1 & F2).
    destruct (F t) as [_ F3]; [lia |]. apply step_reach; auto; [eapply LO; eauto | eapply give_pos; eauto | eapply take_pos; eauto]. }
  exists (fun t => (f t, g t)). intros z zs t EZ T. rewrite E in EZ. injection EZ as <- <-. destruct (F t) as [[F1 F2] _]; [lia |].
  destruct (G t) as (G1 & G2 & G3 & G4); [lia |]. destruct (least_le_most_zero scn n y t) as [Z1 Z2].
  unfold pc, pin, pout. cbn [fst snd]. split; [split; lra |]. split; auto. split; auto. split; auto. destruct t; lra.
Qed.
Lemma manage_solves s scn : room s scn -> lossy s scn -> first_manage s scn -> exists x, xok s scn x.
Proof.
  intros RM LO FM.
  destruct (choose_at (fun a b : string * string => ltac:(decide equality; apply string_dec))
     (fun k f => forall n, node_at s (fst k) (snd k) = Some n -> plan_good s scn (fun _ => f) (fst k) (snd k) n) (fun _ => (0, (0, 0)))%Q
     (map (fun a => (fst (fst a), snd (fst a))) (all_nodes s))) as (plan & P).
  { intros [net nd] _. cbn [fst snd]. destruct (node_at s net nd) as [n|] eqn:N.
    - destruct (manage_plan s scn RM LO FM net nd n N) as (f & G). exists f. intros n' E. injection E as <-. exact G.
    - exists (fun _ => (0, (0, 0)))%Q. discriminate. }
  exists (managed s scn plan). apply managed_ok; auto. intros net nd n N. specialize (P (net, nd)). cbn [fst snd] in P. apply P; auto.
  apply in_map_iff. exists (net, nd, n). split; auto. apply node_at_all. exact N.
Qed.

(** As soon as no bound is negative and each first storage can be kept between 0 and its
    capacity with the help of its own node, there is a solution, whatever else there is. *)
Theorem C21_enough : forall s scn, api_study s -> usable_converters s -> scn < st_nb_scn s -> lossy s scn ->
  room s scn -> first_manage s scn -> exists x, satisfies (program_of s scn) x.
Proof.
  intros s scn A U S LO RM FM. pose proof (api_ready s A U) as R. destruct (build_ok s scn S R) as (p & B & _).
  assert (E : program_of s scn = p) by (unfold program_of; now rewrite B). rewrite E.
  destruct (manage_solves s scn RM LO FM) as (x & X). exists x. now apply (sat_iff s scn S R _ _ _ B).
Qed.
(** Without links and converters this is exactly when. *)
Theorem C21_exact_apart : forall s scn, api_study s -> usable_converters s -> scn < st_nb_scn s -> lossy s scn -> apart s ->
  ((exists x, satisfies (program_of s scn) x) <-> room s scn /\ first_manage s scn).
Proof.
  intros s scn A U S LO AP. split; [| intros [RM FM]; now apply C21_enough].
  pose proof (api_ready s A U) as R. destruct (build_ok s scn S R) as (p & B & _).
  assert (E : program_of s scn = p) by (unfold program_of; now rewrite B). rewrite E.
  intros (x & X). apply (sat_iff s scn S R _ _ _ B) in X. pose proof (room_of s scn x X) as RM. split; auto.
  intros net nd n y ys t N EN T. pose proof (content_between s scn R RM x net nd n y ys X LO AP N EN t T). lra.
Qed.
(** When it fits at the beginning it can be kept. *)
Theorem C21_fits_manage : forall s scn, room s scn -> lossy s scn -> first_fits s scn -> first_manage s scn.
Proof.
  intros s scn RM LO FF net nd n y ys t N E T.
  assert (H : (least_in scn n y t <= s_init y <= most_in scn n y t)%Q); [| lra].
  assert (P : forall u, u < st_horizon s -> (0 <= fall (value (s_eff y) scn u) (value (s_flow_in y) scn u) (value (s_flow_out y) scn u) (can_take scn n u))%Q /\
     (0 <= rise (value (s_eff y) scn u) (value (s_flow_in y) scn u) (can_give scn n u))%Q).
  { intros u Hu. assert (Iy : In y (n_stors n)) by (rewrite E; now left). destruct (rm_stors _ _ RM net nd n y u N Iy Hu) as (_ & F1 & F2).
    destruct (step_bounds (value (s_eff y) scn u) (value (s_flow_in y) scn u) (value (s_flow_out y) scn u) (can_give scn n u) (can_take scn n u) 0 0) as [A B]; unfold within.
    - eapply LO; eauto.
    - eapply give_pos; eauto.
    - eapply take_pos; eauto.
    - lra.
    - lra.
    - pose proof (give_pos s scn RM net nd n u N Hu). pose proof (take_pos s scn RM net nd n u N Hu). lra.
    - lra. }
  induction t as [| t IH]; cbn [least_in most_in]; specialize (P _ T); pose proof (FF net nd n y ys _ N E T).
  - split; [apply Q.max_lub | apply Q.min_glb]; lra.
  - assert (T' : t < st_horizon s) by lia. specialize (IH T'). split; [apply Q.max_lub | apply Q.min_glb]; lra.
Qed.

(** ** Examples *)

(** A tank whose capacity shrinks from 10 to 4 and is full at the beginning: whether it can
    be emptied in time depends on the load; burning helps with an efficiency below 1. *)
Definition tank_calls (load eff : Q) : list call :=
  [ OnStudy_network "net"; OnSel 0 (MNode "a"); OnSel 1 (MConsumption "load" (jn 1000) (PJson (JNum load)));
    OnSel 2 (MStorage "tank" (jl [10; 4]%Z) (jn 2) (jn 5) (jn 0) 10%Q (PJson (JNum eff))) ].
Definition tank : study := Eval vm_compute in w_study (run (start 2 1 None) (tank_calls 3 1)).
Definition tight : study := Eval vm_compute in w_study (run (start 2 1 None) (tank_calls 2 1)).
Definition leaky : study := Eval vm_compute in w_study (run (start 2 1 None) (tank_calls 2 (1 # 2))).
Lemma tank_api : api_study tank /\ api_study tight /\ api_study leaky.
Proof.
  split; [exists 2, 1, None, (tank_calls 3 1) | split; [exists 2, 1, None, (tank_calls 2 1) | exists 2, 1, None, (tank_calls 2 (1 # 2))]];
    (split; [lia |]; split; [lia |]; split; [plain_tac | vm_compute; reflexivity]).
Qed.
Ltac steps_tac T := match type of T with ?t < _ => assert (t = 0 \/ t = 1) as [-> | ->] by (vm_compute in T; lia) end.
Ltac node_tac N := apply node_at_all in N; vm_compute in N; destruct N as [N|[]]; inversion N; subst; clear N.
Lemma tank_facts s : s = tank \/ s = tight \/ s = leaky -> usable_converters s /\ lossy s 0 /\ apart s /\ room s 0 /\ ~ first_fits s 0.
Proof.
  intros H. split; [destruct H as [->|[->| ->]]; apply usableb_ok; vm_compute; reflexivity |]. split; [| split; [| split]].
  - intros net nd n y ys t N E T. destruct H as [->|[->| ->]]; node_tac N; cbn in E; injection E as <- <-; steps_tac T; split; vm_compute; discriminate.
  - split; [| destruct H as [->|[->| ->]]; reflexivity]. intros net nd n N. destruct H as [->|[->| ->]]; node_tac N; reflexivity.
  - destruct H as [->|[->| ->]]; constructor; try (intros name v; intros; discriminate); intros net nd n e t N I T; node_tac N;
      cbn in I; (destruct I as [<-|[]] || destruct I); steps_tac T; repeat split; vm_compute; discriminate.
  - intros F. assert (X : exists n y ys, node_at s "net" "a" = Some n /\ n_stors n = y :: ys /\ 1 < st_horizon s /\ (value (s_capacity y) 0 1 < s_init y)%Q).
    { destruct H as [->|[->| ->]]; eexists; eexists; eexists; (split; [vm_compute; reflexivity |]; split; [vm_compute; reflexivity |]; split; vm_compute; [lia | reflexivity]). }
    destruct X as (n & y & ys & N & E & T & L). specialize (F "net" "a" n y ys 1 N E T). lra.
Qed.
Example C21_exact_apart_example :
  (api_study tank /\ api_study tight /\ api_study leaky) /\
  (forall s, s = tank \/ s = tight \/ s = leaky -> usable_converters s /\ lossy s 0 /\ apart s /\ room s 0 /\ ~ first_fits s 0) /\
  (exists x, satisfies (program_of tank 0) x) /\ (forall x, ~ satisfies (program_of tight 0) x) /\ (exists x, satisfies (program_of leaky 0) x) /\
  exists price, forall r, mirrors tight r -> each_alone tight r 0 -> (worth_left tight r 0 price < 0)%Q.
Proof.
  destruct tank_api as (A1 & A2 & A3). split; [split; [| split]; assumption |]. split; [exact tank_facts |].
  destruct (tank_facts tank ltac:(auto)) as (U1 & L1 & P1 & R1 & _). destruct (tank_facts tight ltac:(auto)) as (U2 & L2 & P2 & R2 & _). destruct (tank_facts leaky ltac:(auto)) as (U3 & L3 & P3 & R3 & _).
  assert (NO : forall x, ~ satisfies (program_of tight 0) x).
  { intros x X. assert (E : exists x, satisfies (program_of tight 0) x) by eauto. apply (C21_exact_apart tight 0 A2 U2 ltac:(vm_compute; lia) L2 P2) in E as [_ FM].
    destruct (node_at tight "net" "a") as [n|] eqn:N; [| discriminate]. pose proof N as N'. vm_compute in N'. injection N' as EN. 
    specialize (FM "net" "a" n _ _ 1 N ltac:(subst n; vm_compute; reflexivity) ltac:(vm_compute; lia)). subst n. vm_compute in FM. apply FM. reflexivity. }
  split; [| split; [exact NO | split]].
  - apply (C21_enough tank 0 A1 U1 ltac:(vm_compute; lia) L1 R1). intros net nd n y ys t N E T. node_tac N. cbn in E. injection E as <- <-. steps_tac T; vm_compute; discriminate.
  - apply (C21_enough leaky 0 A3 U3 ltac:(vm_compute; lia) L3 R3). intros net nd n y ys t N E T. node_tac N. cbn in E. injection E as <- <-. steps_tac T; vm_compute; discriminate.
  - apply (C21_prices_refuse tight 0 A2 U2 ltac:(vm_compute; lia) NO).
Qed.

Print Assumptions C21_exact_prices.
Print Assumptions C21_prices_refuse.
Print Assumptions C21_enough.
Print Assumptions C21_exact_apart.
Print Assumptions C21_fits_manage.
