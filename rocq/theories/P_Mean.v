(** C91: solving averaged data. *)
From Coq Require Import String Ascii List ZArith QArith Bool Arith Lia Lqa Permutation.
From Verif Require Import Base BaseFacts Numeric Study Fluent SpecStudy StudyFacts Output LP SpecLP LPFacts LPBuild LPSat LPResult LPSolve LPReady LPOpt LPWeak LPMore P_LP P_Opt P_Law P_Optimum P_Units.
Import ListNotations.
Open Scope nat_scope.
Open Scope string_scope.
Open Scope list_scope.

(** ** Specification *)

(** Scenarios with their weights, and the mean of what depends on the scenario. *)
Definition mean (ws : list (nat * Q)) (f : nat -> Q) : Q := qsum (map (fun kw => snd kw * f (fst kw))%Q ws).
Record weights (n : nat) (ws : list (nat * Q)) : Prop := {
  wt_scn : forall k w, In (k, w) ws -> k < n;
  wt_pos : forall k w, In (k, w) ws -> (0 <= w)%Q;
  wt_sum : (mean ws (fun _ => 1) == 1)%Q
}.

(** Scenario [m] of the study [s'] against the scenarios [ws] of [s]: the same elements, with
    quantities related by [Rq] and prices by [Rp]; efficiencies, ratios and initial contents
    are the same. *)
Section Compare.
  Variables (Rq Rp Rr : numval -> numval -> Prop) (Oq Op : option numval -> option numval -> Prop).
  Record node_cmp (n n' : node) : Prop := {
    nc_cons : Forall2 (fun a b => Rq (c_qty a) (c_qty b) /\ Rp (c_cost a) (c_cost b)) (n_cons n) (n_cons n');
    nc_prods : Forall2 (fun a b => Rq (p_qty a) (p_qty b) /\ Rp (p_cost a) (p_cost b)) (n_prods n) (n_prods n');
    nc_stors : Forall2 (fun a b => Rq (s_capacity a) (s_capacity b) /\ Rq (s_flow_in a) (s_flow_in b) /\ Rq (s_flow_out a) (s_flow_out b) /\
        (s_init b == s_init a)%Q /\ Rr (s_eff a) (s_eff b) /\ Rp (s_cost a) (s_cost b)) (n_stors n) (n_stors n');
    nc_links : Forall2 (fun a b => l_dest b = l_dest a /\ Rq (l_qty a) (l_qty b) /\ Rp (l_cost a) (l_cost b)) (n_links n) (n_links n')
  }.
  Definition conv_cmp (v v' : converter) : Prop :=
    Forall2 (fun kq kq' => fst kq' = fst kq /\ Rr (snd kq) (snd kq')) (v_src v) (v_src v') /\
    v_dnet v' = v_dnet v /\ v_dnode v' = v_dnode v /\ Oq (v_max v) (v_max v') /\ Op (v_cost v) (v_cost v').
  Record cmp (s s' : study) : Prop := {
    cm_horizon : st_horizon s' = st_horizon s;
    cm_nodes : Forall2 (fun a b => fst b = fst a /\
      Forall2 (fun d e => fst e = fst d /\ node_cmp (snd d) (snd e)) (snd a) (snd b)) (st_networks s) (st_networks s');
    cm_convs : Forall2 (fun a b => fst b = fst a /\ conv_cmp (snd a) (snd b)) (st_converters s) (st_converters s')
  }.
End Compare.

Section Means.
  Variables (h : nat) (ws : list (nat * Q)) (m : nat).
  (** The second value at [m] is the mean of the first. *)
  Definition mean_at (v v' : numval) : Prop := forall t, t < h -> (value v' m t == mean ws (fun k => value v k t))%Q.
  Definition omean_at (v v' : option numval) : Prop := forall t, t < h -> (ovalue v' m t == mean ws (fun k => ovalue v k t))%Q.
  (** The second value at [m] is the first one in every scenario. *)
  Definition same_in (v v' : numval) : Prop := forall t k w, t < h -> In (k, w) ws -> (value v' m t == value v k t)%Q.
  Definition osame_in (v v' : option numval) : Prop := forall t k w, t < h -> In (k, w) ws -> (ovalue v' m t == ovalue v k t)%Q.
End Means.

Definition mean_quantities (ws : list (nat * Q)) (s s' : study) (m : nat) : Prop :=
  let h := st_horizon s in cmp (mean_at h ws m) (same_in h ws m) (same_in h ws m) (omean_at h ws m) (osame_in h ws m) s s'.
Definition mean_prices (ws : list (nat * Q)) (s s' : study) (m : nat) : Prop :=
  let h := st_horizon s in cmp (same_in h ws m) (mean_at h ws m) (same_in h ws m) (osame_in h ws m) (omean_at h ws m) s s'.

(** ** Means *)
Section MeanFacts.
Variables (n : nat) (ws : list (nat * Q)).
Hypothesis W : weights n ws.
Lemma mean_ext f g : (forall k w, In (k, w) ws -> (f k == g k)%Q) -> (mean ws f == mean ws g)%Q.
Proof. intros H. apply qsum_map_ext. intros [k w] I. cbn [fst snd]. rewrite (H k w I). reflexivity. Qed.
Lemma mean_add f g : (mean ws (fun k => f k + g k) == mean ws f + mean ws g)%Q.
Proof. unfold mean. rewrite <- qsum_map_add. apply qsum_map_ext. intros [k w] _. cbn [fst snd]. ring. Qed.
Lemma mean_scal c f : (mean ws (fun k => c * f k) == c * mean ws f)%Q.
Proof. unfold mean. rewrite <- qsum_map_scal. apply qsum_map_ext. intros [k w] _. cbn [fst snd]. ring. Qed.
Lemma mean_opp f : (mean ws (fun k => - f k) == - mean ws f)%Q.
Proof. unfold mean. rewrite <- qsum_map_opp. apply qsum_map_ext. intros [k w] _. cbn [fst snd]. ring. Qed.
Lemma mean_sub f g : (mean ws (fun k => f k - g k) == mean ws f - mean ws g)%Q.
Proof. unfold Qminus. rewrite mean_add, mean_opp. reflexivity. Qed.
Lemma mean_const c : (mean ws (fun _ => c) == c)%Q.
Proof. transitivity (c * mean ws (fun _ => 1))%Q; [rewrite <- mean_scal; apply mean_ext; intros; ring | rewrite (wt_sum _ _ W); ring]. Qed.
Lemma mean_sum {A} (f : nat -> A -> Q) l : (mean ws (fun k => qsum (map (f k) l)) == qsum (map (fun a => mean ws (fun k => f k a)) l))%Q.
Proof.
  induction l as [| a l IH]; cbn [map].
  - change (qsum []) with 0%Q. apply mean_const.
  - change (qsum (?u :: ?v)) with (u + qsum v)%Q. rewrite <- IH, <- mean_add. apply mean_ext. intros. reflexivity.
Qed.
Lemma mean_le f g : (forall k w, In (k, w) ws -> (f k <= g k)%Q) -> (mean ws f <= mean ws g)%Q.
Proof.
  intros H. unfold mean. pose proof (wt_pos _ _ W) as P. clear W. induction ws as [| [k w] l IH]; cbn [map]; [lra |].
  change (qsum (?u :: ?v)) with (u + qsum v)%Q. cbn [fst snd] in *. pose proof (H k w (or_introl eq_refl)). pose proof (P k w (or_introl eq_refl)).
  assert (qsum (map (fun kw => snd kw * f (fst kw)) l) <= qsum (map (fun kw => snd kw * g (fst kw)) l))%Q by (apply IH; intros; [eapply H | eapply P]; right; eauto).
  cbn [fst snd] in *. nra.
Qed.
Lemma mean_within a b q : (forall k w, In (k, w) ws -> within 0 (a k) (b k)) -> (q == mean ws b)%Q -> within 0 (mean ws a) q.
Proof.
  intros H E. split.
  - rewrite <- (mean_const 0). apply mean_le. intros k w I. apply (H k w I).
  - rewrite E. apply mean_le. intros k w I. apply (H k w I).
Qed.

Lemma sumi_mean {A C} (P : A -> C -> Prop) (g : nat -> C -> Q) (e : nat -> nat -> A -> Q) l l' : Forall2 P l l' ->
  (forall j a b, nth_error l j = Some a -> P a b -> (g j b == mean ws (fun k => e k j a))%Q) ->
  (sumi g l' == mean ws (fun k => sumi (e k) l))%Q.
Proof.
  unfold sumi. intros F. assert (G : forall i, (forall j a b, nth_error l j = Some a -> P a b -> (g (i + j)%nat b == mean ws (fun k => e k (i + j)%nat a))%Q) ->
    (qsum (mapi g i l') == mean ws (fun k => qsum (mapi (e k) i l)))%Q).
  { induction F as [| a b l l' R F IH]; intros i H; cbn [mapi].
    - change (qsum []) with 0%Q. symmetry. apply mean_const.
    - change (qsum (?u :: ?v)) with (u + qsum v)%Q. rewrite (IH (S i)).
      + pose proof (H 0 a b eq_refl R) as H0. rewrite Nat.add_0_r in H0. rewrite H0. rewrite <- mean_add. apply mean_ext. intros. reflexivity.
      + intros j x y J. specialize (H (S j) x y J). rewrite Nat.add_succ_r in H. exact H. }
  intros H. apply (G 0). exact H.
Qed.
Lemma qsum_mean {A C} (P : A -> C -> Prop) (g : C -> Q) (e : nat -> A -> Q) l l' : Forall2 P l l' ->
  (forall a b, P a b -> (g b == mean ws (fun k => e k a))%Q) -> (qsum (map g l') == mean ws (fun k => qsum (map (e k) l)))%Q.
Proof.
  intros F H. rewrite <- sumi_map. rewrite (sumi_mean P _ (fun k _ a => e k a) _ _ F) by auto. apply mean_ext. intros. rewrite sumi_map. reflexivity.
Qed.
End MeanFacts.

(** ** Mixing dispatches *)
Section Mix.
Variables (ws : list (nat * Q)) (s s' : study) (m : nat) (x : nat -> var -> Q).
Variables (Rp : numval -> numval -> Prop) (Op : option numval -> option numval -> Prop).
Let h := st_horizon s.
Hypothesis W : weights (st_nb_scn s) ws.
Notation Ncmp := (node_cmp (mean_at h ws m) Rp (same_in h ws m)).
Notation Vcmp := (conv_cmp (same_in h ws m) (omean_at h ws m) Op).
Hypothesis CM : cmp (mean_at h ws m) Rp (same_in h ws m) (omean_at h ws m) Op s s'.
Definition mixed (v : var) : Q := mean ws (fun k => x k v).

Lemma cm_node' net nd n' : node_at s' net nd = Some n' -> exists n, node_at s net nd = Some n /\ Ncmp n n'.
Proof.
  intros E. pose (R := fun (_ : string) (ns ns' : network) => Forall2 (fun d e : string * node => fst e = fst d /\ Ncmp (snd d) (snd e)) ns ns').
  pose proof (Forall2_dget R (st_networks s) (st_networks s') net (cm_nodes _ _ _ _ _ _ _ CM)) as D. unfold R in D. unfold node_at in *.
  destruct (dget net (st_networks s')) as [ns'|]; [| discriminate]. destruct (dget net (st_networks s)) as [ns|]; [| contradiction].
  pose proof (Forall2_dget (fun _ => Ncmp) ns ns' nd D) as G. rewrite E in G.
  destruct (dget nd ns) as [n|]; [eauto | contradiction].
Qed.
Lemma cm_conv' name v' : conv_at s' name = Some v' -> exists v, conv_at s name = Some v /\ Vcmp v v'.
Proof.
  intros E. pose proof (Forall2_dget (fun _ => Vcmp) (st_converters s) (st_converters s') name (cm_convs _ _ _ _ _ _ _ CM)) as D.
  unfold conv_at in *. rewrite E in D. destruct (dget name (st_converters s)) as [v|]; [eauto | contradiction].
Qed.

Lemma mixed_bounds : (forall k w, In (k, w) ws -> xbounds s k (x k)) -> xbounds s' m mixed.
Proof.
  intros X. constructor; rewrite (cm_horizon _ _ _ _ _ _ _ CM); unfold mixed.
  - intros t net nd n' i e' T N' I. destruct (cm_node' _ _ _ N') as (n & N & [F _ _ _]). destruct (Forall2_get_r _ _ _ _ _ F I) as (e & J & U & _).
    apply (mean_within _ _ W _ (fun k => value (c_qty e) k t)); [| apply U, T]. intros k w K. eapply (xb_cons _ _ _ (X k w K)); eauto.
  - intros t net nd n' i e' T N' I. destruct (cm_node' _ _ _ N') as (n & N & [_ F _ _]). destruct (Forall2_get_r _ _ _ _ _ F I) as (e & J & U & _).
    apply (mean_within _ _ W _ (fun k => value (p_qty e) k t)); [| apply U, T]. intros k w K. eapply (xb_prods _ _ _ (X k w K)); eauto.
  - intros t net nd n' i e' T N' I. destruct (cm_node' _ _ _ N') as (n & N & [_ _ F _]). destruct (Forall2_get_r _ _ _ _ _ F I) as (e & J & U1 & U2 & U3 & _).
    split; [| split].
    + apply (mean_within _ _ W _ (fun k => value (s_capacity e) k t)); [| apply U1, T]. intros k w K. eapply (xb_stors _ _ _ (X k w K)); eauto.
    + apply (mean_within _ _ W _ (fun k => value (s_flow_in e) k t)); [| apply U2, T]. intros k w K. eapply (xb_stors _ _ _ (X k w K)); eauto.
    + apply (mean_within _ _ W _ (fun k => value (s_flow_out e) k t)); [| apply U3, T]. intros k w K. eapply (xb_stors _ _ _ (X k w K)); eauto.
  - intros t net nd n' i e' T N' I. destruct (cm_node' _ _ _ N') as (n & N & [_ _ _ F]). destruct (Forall2_get_r _ _ _ _ _ F I) as (e & J & _ & U & _).
    apply (mean_within _ _ W _ (fun k => value (l_qty e) k t)); [| apply U, T]. intros k w K. eapply (xb_links _ _ _ (X k w K)); eauto.
  - intros t name v' key q' T V' I. destruct (cm_conv' _ _ V') as (v & V & (F & _ & _ & M & _)). apply In_nth_error in I as (i & I).
    destruct (Forall2_get_r _ _ _ _ _ F I) as ([k0 q] & J & EK & U). cbn [fst snd] in EK, U. subst k0. apply nth_error_In in J.
    apply (mean_within _ _ W _ (fun k => ovalue (v_max v) k t / value q k t)%Q).
    + intros k w K. eapply (xb_src _ _ _ (X k w K)); eauto.
    + rewrite (M t T). transitivity (/ value q' m t * mean ws (fun k => ovalue (v_max v) k t))%Q; [unfold Qdiv; ring |].
      rewrite <- mean_scal. apply mean_ext. intros k w K. rewrite (U t k w T K). unfold Qdiv. ring.
  - intros t name v' T V'. destruct (cm_conv' _ _ V') as (v & V & (_ & _ & _ & M & _)).
    apply (mean_within _ _ W _ (fun k => ovalue (v_max v) k t)); [| apply M, T]. intros k w K. eapply (xb_dest _ _ _ (X k w K)); eauto.
Qed.

Lemma mixed_into t net nd1 nd n n' : Ncmp n n' ->
  (sumi (fun i l => if String.eqb (l_dest l) nd then mixed (VLink net nd1 i t) else 0%Q) (n_links n') ==
   mean ws (fun k => sumi (fun i l => if String.eqb (l_dest l) nd then x k (VLink net nd1 i t) else 0%Q) (n_links n)))%Q.
Proof.
  intros [_ _ _ L]. apply (sumi_mean _ _ W _ _ _ _ _ L). intros j a b _ (D & _). rewrite D. unfold mixed. destruct (String.eqb (l_dest a) nd); [reflexivity |].
  symmetry. apply (mean_const _ _ W).
Qed.

Lemma mixed_ok : (forall k w, In (k, w) ws -> xok s k (x k)) -> xok s' m mixed.
Proof.
  intros X. pose proof (cm_horizon _ _ _ _ _ _ _ CM) as HH. constructor; [apply mixed_bounds; intros k w K; apply (X k w K) | | |]; rewrite HH.
  - intros t net nd n' T N'. destruct (cm_node' _ _ _ N') as (n & N & U). unfold xbalance, xself.
    assert (E1 : (xnode mixed t net nd n' == mean ws (fun k => xnode (x k) t net nd n))%Q).
    { destruct U as [C P S L]. unfold xnode, mixed. rewrite mean_sub, !mean_add.
      rewrite (sumi_mean _ _ W _ _ (fun k i _ => x k (VLol net nd i t)) _ _ C) by reflexivity.
      rewrite (sumi_mean _ _ W _ _ (fun k i _ => x k (VProd net nd i t)) _ _ P) by reflexivity.
      rewrite (sumi_mean _ _ W _ _ (fun k i _ => - x k (VIn net nd i t) + x k (VOut net nd i t))%Q _ _ S) by (intros; rewrite mean_add, mean_opp; reflexivity).
      rewrite (sumi_mean _ _ W _ _ (fun k i _ => x k (VLink net nd i t)) _ _ L) by reflexivity. reflexivity. }
    assert (E2 : (qsum (map (fun kv => xconv mixed t net nd (fst kv) (snd kv)) (st_converters s')) ==
                  mean ws (fun k => qsum (map (fun kv => xconv (x k) t net nd (fst kv) (snd kv)) (st_converters s))))%Q).
    { apply (qsum_mean _ _ W _ _ _ _ _ (cm_convs _ _ _ _ _ _ _ CM)). intros a b [EK (F & D1 & D2 & _)]. unfold xconv. rewrite EK, D1, D2, mean_sub.
      rewrite (qsum_mean _ _ W _ _ (fun k kr => if pair_eqb (fst kr) (net, nd) then x k (vsrc (fst a) t (fst kr)) else 0%Q) _ _ F).
      - destruct (String.eqb (v_dnet (snd a)) net && String.eqb (v_dnode (snd a)) nd); [reflexivity |]. rewrite (mean_const _ _ W). reflexivity.
      - intros kq kq' [EQ _]. rewrite EQ. unfold mixed. destruct (pair_eqb (fst kq) (net, nd)); [reflexivity | symmetry; apply (mean_const _ _ W)]. }
    assert (E3 : (ximport s' mixed t net nd == mean ws (fun k => ximport s (x k) t net nd))%Q).
    { unfold ximport, nodes_in. pose (R := fun (_ : string) (ns ns' : network) => Forall2 (fun d e : string * node => fst e = fst d /\ Ncmp (snd d) (snd e)) ns ns').
      pose proof (Forall2_dget R (st_networks s) (st_networks s') net (cm_nodes _ _ _ _ _ _ _ CM)) as D. unfold R in D.
      destruct (dget net (st_networks s)) as [ns|], (dget net (st_networks s')) as [ns'|]; try contradiction;
        [| cbn [map]; change (qsum []) with 0%Q; symmetry; apply (mean_const _ _ W)].
      apply (qsum_mean _ _ W _ _ _ _ _ D). intros a b [EK NU]. rewrite EK. now apply mixed_into. }
    rewrite E1, E2, E3, (mixed_into _ _ _ _ _ _ U). destruct U as [C _ _ _].
    rewrite (qsum_mean _ _ W _ _ (fun k e => value (c_qty e) k t) _ _ C) by (intros a b [H _]; apply H, T).
    rewrite <- !mean_add. apply mean_ext. intros k w K. apply (xo_balance _ _ _ (X k w K) t net nd n T N).
  - intros t net nd n' T N'. destruct (cm_node' _ _ _ N') as (n & N & [_ _ S _]).
    assert (XS : forall k w, In (k, w) ws -> xstorage k (x k) t net nd n) by (intros k w K; apply (xo_storage _ _ _ (X k w K)); auto).
    unfold xstorage in *. destruct S as [|y y' l l' (_ & _ & _ & I & E & _) S]; auto. unfold mixed.
    rewrite (mean_ext _ _ _ XS). unfold Qminus. rewrite !mean_add, mean_opp.
    rewrite (mean_ext ws (fun k => value (s_eff y) k t * x k (VIn net nd 0 t))%Q (fun k => value (s_eff y') m t * x k (VIn net nd 0 t))%Q)
      by (intros k w K; rewrite (E t k w T K); reflexivity).
    rewrite mean_scal. destruct t; [rewrite (mean_const _ _ W), I |]; reflexivity.
  - intros t name v' T V' key q' I. destruct (cm_conv' _ _ V') as (v & V & (F & _)). apply In_nth_error in I as (i & I).
    destruct (Forall2_get_r _ _ _ _ _ F I) as ([k0 q] & J & EK & U). cbn [fst snd] in EK, U. subst k0. apply nth_error_In in J.
    unfold mixed. rewrite <- mean_scal. apply mean_ext. intros k w K. rewrite (U t k w T K). apply (xo_mix _ _ _ (X k w K) t name v T V key q J).
Qed.
End Mix.

(** ** Costs *)
Section Cost.
Variables (ws : list (nat * Q)) (s s' : study) (m : nat) (x : nat -> var -> Q) (y : var -> Q).
Variables (Rq Rp Rr : numval -> numval -> Prop) (Oq Op : option numval -> option numval -> Prop).
Let h := st_horizon s.
Hypothesis W : weights (st_nb_scn s) ws.
Hypothesis CM : cmp Rq Rp Rr Oq Op s s'.
(** What is asked of prices: each unit costs in the mean what it costs in the second study. *)
Hypothesis HP : forall a b t v, t < h -> Rp a b -> (value b m t * y v == mean ws (fun k => value a k t * x k v))%Q.
Hypothesis HO : forall a b t v, t < h -> Op a b -> (ovalue b m t * y v == mean ws (fun k => ovalue a k t * x k v))%Q.

Lemma mean_cost : (xcost s' m y == mean ws (fun k => xcost s k (x k)))%Q.
Proof.
  unfold xcost. rewrite (cm_horizon _ _ _ _ _ _ _ CM).
  assert (R : Forall2 (fun t t' : nat => t' = t /\ t < h) (seq 0 h) (seq 0 h)).
  { apply Forall2_nth. split; auto. intros i a b I J. rewrite I in J. inversion J; subst. apply nth_error_In, in_seq in I. split; auto. lia. }
  apply (qsum_mean _ _ W _ _ _ _ _ R). intros t t' [-> T]. rewrite mean_add.
  rewrite (qsum_mean _ _ W _ _ (fun k kn => qsum (map (fun kd => ncost k (x k) t (fst kn) (fst kd) (snd kd)) (snd kn))) _ _ (cm_nodes _ _ _ _ _ _ _ CM)).
  - rewrite (qsum_mean _ _ W _ _ (fun k kv => ovalue (v_cost (snd kv)) k t * x k (VDest (fst kv) t))%Q _ _ (cm_convs _ _ _ _ _ _ _ CM)); [reflexivity |].
    intros a b [EK (_ & _ & _ & _ & U)]. rewrite EK. now apply HO.
  - intros a b [EK NS]. rewrite EK. apply (qsum_mean _ _ W _ _ _ _ _ NS). intros d e [ED [C P S L]]. rewrite ED. unfold ncost. rewrite !mean_add.
    rewrite (sumi_mean _ _ W _ _ (fun k i e => value (c_cost e) k t * x k (VLol (fst a) (fst d) i t))%Q _ _ C) by (intros j u v _ [_ U]; now apply HP).
    rewrite (sumi_mean _ _ W _ _ (fun k i e => value (p_cost e) k t * x k (VProd (fst a) (fst d) i t))%Q _ _ P) by (intros j u v _ [_ U]; now apply HP).
    rewrite (sumi_mean _ _ W _ _ (fun k i e => value (s_cost e) k t * x k (VCap (fst a) (fst d) i t))%Q _ _ S) by (intros j u v _ (_ & _ & _ & _ & _ & U); now apply HP).
    rewrite (sumi_mean _ _ W _ _ (fun k i e => value (l_cost e) k t * x k (VLink (fst a) (fst d) i t))%Q _ _ L) by (intros j u v _ (_ & _ & U); now apply HP).
    reflexivity.
Qed.
End Cost.

(** With the quantities of one scenario of [ws], what is lawful there is lawful in all. *)
Lemma one_weight n m : m < n -> weights n [(m, 1%Q)].
Proof.
  intros M. constructor.
  - intros k w [[= <- <-] | []]. exact M.
  - intros k w [[= <- <-] | []]. lra.
  - unfold mean. cbn. reflexivity.
Qed.
Lemma cmp_back h ws m Rp Op s s' k w : st_horizon s = h -> In (k, w) ws ->
  cmp (same_in h ws m) Rp (same_in h ws m) (osame_in h ws m) Op s s' ->
  cmp (mean_at h [(m, 1%Q)] k) (fun _ _ => True) (same_in h [(m, 1%Q)] k) (omean_at h [(m, 1%Q)] k) (fun _ _ => True) s' s.
Proof.
  intros HH I [H N V].
  assert (B1 : forall a b, same_in h ws m a b -> mean_at h [(m, 1%Q)] k b a).
  { intros a b E t T. rewrite <- (E t k w T I). unfold mean. cbn [map fst snd]. change (qsum [?u]) with (u + 0)%Q. ring. }
  assert (B2 : forall a b, osame_in h ws m a b -> omean_at h [(m, 1%Q)] k b a).
  { intros a b E t T. rewrite <- (E t k w T I). unfold mean. cbn [map fst snd]. change (qsum [?u]) with (u + 0)%Q. ring. }
  assert (B3 : forall a b, same_in h ws m a b -> same_in h [(m, 1%Q)] k b a).
  { intros a b E t k' w' T [[= <- <-] | []]. rewrite <- (E t k w T I). reflexivity. }
  constructor; [congruence | |].
  - eapply Forall2_swap; [| exact N]. intros a b [E F]. split; auto. eapply Forall2_swap; [| exact F]. intros d e [E2 [A1 A2 A3 A4]]. split; auto. constructor.
    + eapply Forall2_swap; [| exact A1]. intros u v [H1 _]. split; auto.
    + eapply Forall2_swap; [| exact A2]. intros u v [H1 _]. split; auto.
    + eapply Forall2_swap; [| exact A3]. intros u v (H1 & H2 & H3 & H4 & H5 & _). repeat apply conj; auto. now symmetry.
    + eapply Forall2_swap; [| exact A4]. intros u v (H1 & H2 & _). repeat apply conj; auto.
  - eapply Forall2_swap; [| exact V]. intros a b [E (F & D1 & D2 & M & _)]. split; auto.
    unfold conv_cmp. repeat apply conj; auto. eapply Forall2_swap; [| exact F]. intros u v [E2 X]. split; auto.
Qed.

(** ** C91 *)

(** Quantities averaged over scenarios, prices as before: the mean of solutions is a solution,
    and costs the mean of their costs. *)
Theorem C91_mixed_solutions : forall ws s s' m x, api_study s -> api_study s' -> usable_converters s -> usable_converters s' ->
  weights (st_nb_scn s) ws -> m < st_nb_scn s' -> mean_quantities ws s s' m ->
  (forall k w, In (k, w) ws -> satisfies (program_of s k) (x k)) ->
  satisfies (program_of s' m) (fun v => mean ws (fun k => x k v)) /\
  (objective (program_of s' m) (fun v => mean ws (fun k => x k v)) == mean ws (fun k => objective (program_of s k) (x k)))%Q.
Proof.
  intros ws s s' m x A A' U U' W M CM X.
  pose proof (api_ready s A U) as R. pose proof (api_ready s' A' U') as R'.
  destruct (build_ok s' m M R') as (p' & B' & _). assert (E' : program_of s' m = p') by (unfold program_of; now rewrite B').
  rewrite E'. split.
  - apply (sat_iff s' m M R' _ _ _ B'). apply (mixed_ok ws s s' m x _ _ W CM). intros k w K. pose proof (wt_scn _ _ W k w K) as Kn.
    destruct (build_ok s k Kn R) as (p & B & _). apply (sat_iff s k Kn R _ _ _ B). specialize (X k w K). unfold program_of in X. now rewrite B in X.
  - rewrite (objective_value s' m M R' _ _ _ B').
    rewrite (mean_cost ws s s' m x (fun v => mean ws (fun k => x k v)) _ _ _ _ _ W CM).
    + apply mean_ext. intros k w K. pose proof (wt_scn _ _ W k w K) as Kn. destruct (build_ok s k Kn R) as (p & B & _).
      unfold program_of. rewrite B. symmetry. apply (objective_value s k Kn R _ _ _ B).
    + intros a b t v T E. rewrite <- mean_scal. apply mean_ext. intros k w K. rewrite (E t k w T K). reflexivity.
    + intros a b t v T E. rewrite <- mean_scal. apply mean_ext. intros k w K. rewrite (E t k w T K). reflexivity.
Qed.

Lemma solved_objective answer s r k : api_study s -> solved answer s r -> k < st_nb_scn s ->
  (total_cost s r k == objective (program_of s k) (answer k (program_of s k)))%Q.
Proof.
  intros A SV K. destruct (solved_weak _ _ _ A SV) as (R & M & Ca). destruct (Ca k K) as ((vs & B) & CA & _).
  rewrite (cost_eq s r R M k _ CA), (objective_value s k K R _ vs _ B). reflexivity.
Qed.
Lemma solved_usable' answer s r : api_study s -> solved answer s r -> usable_converters s.
Proof. intros A SV. destruct (api_facts s A) as (W & G & Hh & Hn). eapply solved_usable; eauto. Qed.

(** So a study of mean quantities tells too little: its cost is at most the mean of the costs. *)
Theorem C91_mean_quantities_cost_less : forall ws answer answer' s s' r r' m, api_study s -> api_study s' ->
  weights (st_nb_scn s) ws -> m < st_nb_scn s' -> mean_quantities ws s s' m ->
  solved answer s r -> solved answer' s' r' -> (forall k w, In (k, w) ws -> feasible_answer answer s k) -> optimal_answer answer' s' m ->
  (total_cost s' r' m <= mean ws (fun k => total_cost s r k))%Q.
Proof.
  intros ws answer answer' s s' r r' m A A' W M CM SV SV' O [_ Best].
  destruct (C91_mixed_solutions ws s s' m (fun k => answer k (program_of s k)) A A' (solved_usable' _ _ _ A SV) (solved_usable' _ _ _ A' SV') W M CM O) as [F E].
  rewrite (solved_objective _ _ _ _ A' SV' M).
  rewrite (mean_ext ws (fun k => total_cost s r k) (fun k => objective (program_of s k) (answer k (program_of s k))))
    by (intros k w K; apply (solved_objective _ _ _ _ A SV), (wt_scn _ _ W k w K)).
  rewrite <- E. apply Best. exact F.
Qed.

(** A study of mean quantities is solvable as soon as all these scenarios are. *)
Theorem C91_mean_solvable : forall ws s s' m, api_study s -> api_study s' -> usable_converters s -> usable_converters s' ->
  weights (st_nb_scn s) ws -> m < st_nb_scn s' -> mean_quantities ws s s' m ->
  (forall k w, In (k, w) ws -> exists x, satisfies (program_of s k) x) -> exists x, optimal (program_of s' m) x.
Proof.
  intros ws s s' m A A' U U' W M CM X.
  assert (C : exists x, forall k w, In (k, w) ws -> satisfies (program_of s k) (x k)).
  { clear W CM. induction ws as [| [k w] l IH]; [exists (fun _ _ => 0%Q); intros k w [] |].
    destruct IH as (x & H); [intros k' w' I; apply (X k' w'); now right |]. destruct (X k w (or_introl eq_refl)) as (y & Y).
    exists (fun k' => if Nat.eqb k' k then y else x k'). intros k' w' [[= <- <-] | I]; [now rewrite Nat.eqb_refl |].
    destruct (Nat.eqb k' k) eqn:E; [apply Nat.eqb_eq in E; now subst | eauto]. }
  destruct C as (x & C). destruct (C91_mixed_solutions ws s s' m x A A' U U' W M CM C) as [F _].
  destruct (C81_optimum_or_nothing s' m A' U' M) as [O | N]; [exact O | exfalso; exact (N _ F)].
Qed.

(** Prices averaged over scenarios, quantities as in all of them: the solutions are the same,
    and cost the mean of what they cost in the scenarios. *)
Theorem C91_same_solutions : forall ws s s' m x, api_study s -> api_study s' -> usable_converters s -> usable_converters s' ->
  weights (st_nb_scn s) ws -> m < st_nb_scn s' -> mean_prices ws s s' m -> satisfies (program_of s' m) x ->
  (forall k w, In (k, w) ws -> satisfies (program_of s k) x) /\
  (objective (program_of s' m) x == mean ws (fun k => objective (program_of s k) x))%Q.
Proof.
  intros ws s s' m x A A' U U' W M CM X.
  pose proof (api_ready s A U) as R. pose proof (api_ready s' A' U') as R'.
  destruct (build_ok s' m M R') as (p' & B' & _). assert (E' : program_of s' m = p') by (unfold program_of; now rewrite B').
  rewrite E' in *. split.
  - intros k w K. pose proof (wt_scn _ _ W k w K) as Kn. destruct (build_ok s k Kn R) as (p & B & _).
    assert (E : program_of s k = p) by (unfold program_of; now rewrite B). rewrite E. apply (sat_iff s' m M R' _ _ _ B') in X.
    pose proof (cm_horizon _ _ _ _ _ _ _ CM) as HH.
    pose proof (cmp_back (st_horizon s) ws m _ _ s s' k w eq_refl K CM) as CB. rewrite <- HH in CB.
    assert (XM : xok s k (mixed [(m, 1%Q)] (fun _ => x))).
    { apply (mixed_ok [(m, 1%Q)] s' s k (fun _ => x) _ _ (one_weight _ _ M) CB). intros k' w' [[= <- <-] | []]. exact X. }
    apply (sat_iff s k Kn R _ _ _ B) in XM. revert XM. apply satisfies_ext. intros v. unfold mixed, mean. cbn [map fst snd].
    change (qsum [?u]) with (u + 0)%Q. ring.
  - rewrite (objective_value s' m M R' _ _ _ B').
    rewrite (mean_cost ws s s' m (fun _ => x) x _ _ _ _ _ W CM).
    + apply mean_ext. intros k w K. pose proof (wt_scn _ _ W k w K) as Kn. destruct (build_ok s k Kn R) as (p & B & _).
      unfold program_of. rewrite B. symmetry. apply (objective_value s k Kn R _ _ _ B).
    + intros a b t v T E. rewrite (E t T), Qmult_comm, <- mean_scal. apply mean_ext. intros k w K. ring.
    + intros a b t v T E. rewrite (E t T), Qmult_comm, <- mean_scal. apply mean_ext. intros k w K. ring.
Qed.

(** So a study of mean prices tells too much: its cost is at least the mean of the costs. *)
Theorem C91_mean_prices_cost_more : forall ws answer answer' s s' r r' m, api_study s -> api_study s' ->
  weights (st_nb_scn s) ws -> m < st_nb_scn s' -> mean_prices ws s s' m ->
  solved answer s r -> solved answer' s' r' -> (forall k w, In (k, w) ws -> optimal_answer answer s k) -> feasible_answer answer' s' m ->
  (mean ws (fun k => total_cost s r k) <= total_cost s' r' m)%Q.
Proof.
  intros ws answer answer' s s' r r' m A A' W M CM SV SV' O F.
  destruct (C91_same_solutions ws s s' m _ A A' (solved_usable' _ _ _ A SV) (solved_usable' _ _ _ A' SV') W M CM F) as [FS E].
  rewrite (solved_objective _ _ _ _ A' SV' M), E. apply (mean_le _ _ W). intros k w K.
  rewrite (solved_objective _ _ _ _ A SV (wt_scn _ _ W k w K)). apply (O k w K). apply (FS k w K).
Qed.

(** ** Examples *)
Ltac cmp_tac := cbn [fst snd n_cons n_prods n_stors n_links v_src v_dnet v_dnode v_max v_cost
    c_qty c_cost p_qty p_cost s_capacity s_flow_in s_flow_out s_init s_eff s_cost l_dest l_qty l_cost];
  lazymatch goal with
  | |- Forall2 _ [] [] => apply Forall2_nil
  | |- Forall2 _ _ _ => apply Forall2_cons; cmp_tac
  | |- node_cmp _ _ _ _ _ => constructor; cmp_tac
  | |- conv_cmp _ _ _ _ _ => unfold conv_cmp; cmp_tac
  | |- _ /\ _ => split; cmp_tac
  | |- mean_at _ _ _ _ _ => intros t T; replace t with 0 by lia; vm_compute; reflexivity
  | |- omean_at _ _ _ _ _ => intros t T; replace t with 0 by lia; vm_compute; reflexivity
  | |- same_in _ _ _ _ _ => intros t k w T [[= <- <-] | [[= <- <-] | []]]; replace t with 0 by lia; vm_compute; reflexivity
  | |- osame_in _ _ _ _ _ => intros t k w T [[= <- <-] | [[= <- <-] | []]]; replace t with 0 by lia; vm_compute; reflexivity
  | |- _ => vm_compute; reflexivity
  end.
Ltac best_tac p :=
  let q := eval vm_compute in p in
  unfold optimal_answer; change p with q; split;
  [ apply satb_ok; vm_compute; reflexivity
  | let y := fresh "y" in let F := fresh "F" in let V := fresh "V" in let K := fresh "K" in
    intros y F; pose proof (satisfies_vars _ _ F) as V; pose proof (satisfies_cons _ _ F) as K;
    cbn [sv_vars sv_cons] in V, K; open_forall V; open_forall K; unfold objective; cbn; lra ].
Definition chances : list (nat * Q) := [(0, (1 # 4)%Q); (1, (3 # 4)%Q)].
Lemma chances_ok : weights 2 chances.
Proof.
  constructor; [| | vm_compute; reflexivity]; intros k w [[= <- <-] | [[= <- <-] | []]]; try lia; discriminate.
Qed.

(** A calm and a windy scenario, and the mean wind. *)
Definition winds_calls (wind : pyval) : list call :=
  [ OnStudy_network "net"; OnSel 0 (MNode "a"); OnSel 1 (MConsumption "load" (jn 100) (jn 10)); OnSel 2 (MProduction "gas" (jn 30) (jn 8));
    OnSel 3 (MStorage "cell" (jn 4) (jn 2) (jn 2) (jn 1) 0%Q (PJson (JNum (1 # 2))));
    OnSel 4 (MNode "b"); OnSel 5 (MProduction "wind" (jn 1) wind); OnSel 6 (MLink "b" "a" (jn 2) (jn 9));
    OnSel 7 (MNetwork "gas"); OnSel 8 (MNode "g"); OnSel 9 (MProduction "well" (jn 4) (jn 10));
    OnSel 10 (MToConverter "plant" (PJson (JNum (1 # 2)))); OnSel 11 (MConverter "plant" "net" "a" (jn 2) (jn 3)) ].
Definition winds : study := Eval vm_compute in w_study (run (start 1 2 None) (winds_calls (jm [[0]; [12]]%Z))).
Definition breeze : study := Eval vm_compute in w_study (run (start 1 1 None) (winds_calls (jn 9))).
Lemma winds_api : api_study winds.
Proof. exists 1, 2, None, (winds_calls (jm [[0]; [12]]%Z)). split; [lia|]. split; [lia|]. split; [plain_tac | vm_compute; reflexivity]. Qed.
Lemma breeze_api : api_study breeze.
Proof. exists 1, 1, None, (winds_calls (jn 9)). split; [lia|]. split; [lia|]. split; [plain_tac | vm_compute; reflexivity]. Qed.
Definition windy_x (v : var) : Q :=
  match v with VProd _ "b" _ _ => 9 | VLink _ _ _ _ => 9 | VProd _ "g" _ _ => 2 | VSrc _ _ _ _ => 2 | VDest _ _ => 1 | _ => 0 end%Q.
Definition calm_x (v : var) : Q :=
  match v with VProd _ "a" _ _ => 8 | VProd _ "g" _ _ => 4 | VSrc _ _ _ _ => 4 | VDest _ _ => 2 | _ => 0 end%Q.
Definition winds_answer (scn : nat) (_ : solver) : var -> Q := if Nat.eqb scn 0 then calm_x else windy_x.
Definition breeze_answer (_ : nat) (_ : solver) : var -> Q := windy_x.
Lemma winds_optimal0 : optimal_answer winds_answer winds 0. Proof. best_tac (program_of winds 0). Qed.
Lemma winds_optimal1 : optimal_answer winds_answer winds 1. Proof. best_tac (program_of winds 1). Qed.
Lemma breeze_optimal : optimal_answer breeze_answer breeze 0. Proof. best_tac (program_of breeze 0). Qed.
Definition winds_result : result := Eval vm_compute in
  match solve_lp winds_answer [1; 0] no_bench winds with Ok r => r | Err _ => Result [] [] no_bench end.
Definition breeze_result : result := Eval vm_compute in
  match solve_lp breeze_answer [0] no_bench breeze with Ok r => r | Err _ => Result [] [] no_bench end.
Lemma winds_mean : mean_quantities chances winds breeze 0.
Proof.
  unfold mean_quantities. change (st_horizon winds) with 1. cbv zeta.
  constructor; [vm_compute; reflexivity | |]; unfold winds, breeze; cbn [st_networks st_converters st_horizon]; cmp_tac.
Qed.
Example C91_quantities_example : api_study winds /\ api_study breeze /\ usable_converters winds /\ usable_converters breeze /\
  weights (st_nb_scn winds) chances /\ mean_quantities chances winds breeze 0 /\
  solved winds_answer winds winds_result /\ solved breeze_answer breeze breeze_result /\
  (forall k w, In (k, w) chances -> optimal_answer winds_answer winds k) /\ optimal_answer breeze_answer breeze 0 /\
  (total_cost breeze breeze_result 0 == 38)%Q /\ (mean chances (fun k => total_cost winds winds_result k) == 94)%Q.
Proof.
  split; [apply winds_api |]. split; [apply breeze_api |].
  split; [apply usableb_ok; vm_compute; reflexivity |]. split; [apply usableb_ok; vm_compute; reflexivity |].
  split; [apply chances_ok |]. split; [apply winds_mean |].
  split. { exists [1; 0], no_bench. split; [apply perm_swap | vm_compute; reflexivity]. }
  split. { exists [0], no_bench. split; [reflexivity | vm_compute; reflexivity]. }
  split. { intros k w [[= <- <-] | [[= <- <-] | []]]; [apply winds_optimal0 | apply winds_optimal1]. }
  split; [apply breeze_optimal |]. split; vm_compute; reflexivity.
Qed.

(** Cheap or dear gas beside oil, and the mean price. *)
Definition fares_calls (gas : pyval) : list call :=
  [ OnStudy_network "net"; OnSel 0 (MNode "a"); OnSel 1 (MConsumption "load" (jn 100) (jn 10));
    OnSel 2 (MProduction "gas" gas (jn 10)); OnSel 3 (MProduction "oil" (jn 30) (jn 10)) ].
Definition fares : study := Eval vm_compute in w_study (run (start 1 2 None) (fares_calls (jm [[10]; [50]]%Z))).
Definition fare : study := Eval vm_compute in w_study (run (start 1 1 None) (fares_calls (jn 40))).
Lemma fares_api : api_study fares.
Proof. exists 1, 2, None, (fares_calls (jm [[10]; [50]]%Z)). split; [lia|]. split; [lia|]. split; [plain_tac | vm_compute; reflexivity]. Qed.
Lemma fare_api : api_study fare.
Proof. exists 1, 1, None, (fares_calls (jn 40)). split; [lia|]. split; [lia|]. split; [plain_tac | vm_compute; reflexivity]. Qed.
Definition gas_x (v : var) : Q := match v with VProd _ _ 0 _ => 10 | _ => 0 end%Q.
Definition oil_x (v : var) : Q := match v with VProd _ _ 1 _ => 10 | _ => 0 end%Q.
Definition fares_answer (scn : nat) (_ : solver) : var -> Q := if Nat.eqb scn 0 then gas_x else oil_x.
Definition fare_answer (_ : nat) (_ : solver) : var -> Q := oil_x.
Lemma fares_optimal0 : optimal_answer fares_answer fares 0. Proof. best_tac (program_of fares 0). Qed.
Lemma fares_optimal1 : optimal_answer fares_answer fares 1. Proof. best_tac (program_of fares 1). Qed.
Lemma fare_optimal : optimal_answer fare_answer fare 0. Proof. best_tac (program_of fare 0). Qed.
Definition fares_result : result := Eval vm_compute in
  match solve_lp fares_answer [1; 0] no_bench fares with Ok r => r | Err _ => Result [] [] no_bench end.
Definition fare_result : result := Eval vm_compute in
  match solve_lp fare_answer [0] no_bench fare with Ok r => r | Err _ => Result [] [] no_bench end.
Lemma fares_mean : mean_prices chances fares fare 0.
Proof.
  unfold mean_prices. change (st_horizon fares) with 1. cbv zeta.
  constructor; [vm_compute; reflexivity | |]; unfold fares, fare; cbn [st_networks st_converters st_horizon]; cmp_tac.
Qed.
Example C91_prices_example : api_study fares /\ api_study fare /\ weights (st_nb_scn fares) chances /\ mean_prices chances fares fare 0 /\
  solved fares_answer fares fares_result /\ solved fare_answer fare fare_result /\
  (forall k w, In (k, w) chances -> optimal_answer fares_answer fares k) /\ optimal_answer fare_answer fare 0 /\
  (total_cost fare fare_result 0 == 300)%Q /\ (mean chances (fun k => total_cost fares fares_result k) == 250)%Q.
Proof.
  split; [apply fares_api |]. split; [apply fare_api |]. split; [apply chances_ok |]. split; [apply fares_mean |].
  split. { exists [1; 0], no_bench. split; [apply perm_swap | vm_compute; reflexivity]. }
  split. { exists [0], no_bench. split; [reflexivity | vm_compute; reflexivity]. }
  split. { intros k w [[= <- <-] | [[= <- <-] | []]]; [apply fares_optimal0 | apply fares_optimal1]. }
  split; [apply fare_optimal |]. split; vm_compute; reflexivity.
Qed.

Print Assumptions C91_mixed_solutions.
Print Assumptions C91_mean_quantities_cost_less.
Print Assumptions C91_mean_solvable.
Print Assumptions C91_same_solutions.
Print Assumptions C91_mean_prices_cost_more.
