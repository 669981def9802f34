(** The closed form of [LPSat.v] read on a result. *)
From Coq Require Import String List ZArith QArith Bool Arith Lia Lqa.
From Verif Require Import Base BaseFacts Numeric Study Fluent SpecStudy StudyFacts Output LP SpecLP LPFacts LPBuild LPSat.
Import ListNotations.
Open Scope nat_scope.

(** ** Pairs of lists *)
Lemma Forall2_nth {A C} (P : A -> C -> Prop) l m :
  Forall2 P l m <-> length l = length m /\
  forall i x y, nth_error l i = Some x -> nth_error m i = Some y -> P x y.
Proof.
  split.
  - induction 1 as [|a c l m Pac F [L IH]]; simpl.
    + split; auto. intros [|i] x y E; discriminate.
    + split; [congruence|]. intros [|i] x y E1 E2; simpl in *; [congruence | eauto].
  - revert m. induction l as [|a l IH]; intros [|c m] [L H]; simpl in L; try discriminate; constructor.
    + apply (H 0 a c); auto.
    + apply IH. split; [lia|]. intros i x y E1 E2. apply (H (S i)); auto.
Qed.

Lemma Forall2_imp {A C} (P R : A -> C -> Prop) l m : (forall x y, P x y -> R x y) -> Forall2 P l m -> Forall2 R l m.
Proof. intros H F. induction F; constructor; auto. Qed.

Lemma Forall2_len {A C} (P : A -> C -> Prop) l m : Forall2 P l m -> length l = length m.
Proof. induction 1; simpl; auto. Qed.

Lemma Forall2_get {A C} (P : A -> C -> Prop) l m i x :
  Forall2 P l m -> nth_error l i = Some x -> exists y, nth_error m i = Some y /\ P x y.
Proof.
  intros F. revert i. induction F as [|a c l m Pac F IH]; intros [|i] E; simpl in *; try discriminate; eauto.
  inversion E; subst. eauto.
Qed.
Lemma Forall2_get_r {A C} (P : A -> C -> Prop) l m i y :
  Forall2 P l m -> nth_error m i = Some y -> exists x, nth_error l i = Some x /\ P x y.
Proof.
  intros F. revert i. induction F as [|a c l m Pac F IH]; intros [|i] E; simpl in *; try discriminate; eauto.
  inversion E; subst. eauto.
Qed.

Lemma Forall2_dget {K V W} `{EqB K} (R : K -> V -> W -> Prop) (d : dict K V) (d' : dict K W) k :
  Forall2 (fun kv kw => fst kw = fst kv /\ R (fst kv) (snd kv) (snd kw)) d d' ->
  match dget k d, dget k d' with
  | Some v, Some w => R k v w
  | None, None => True
  | _, _ => False
  end.
Proof.
  induction 1 as [|[k1 v1] [k2 v2] d d' [E P] F IH]; simpl in *; auto. subst k2.
  destruct (eqb k k1) eqn:E; auto. apply eqb_eq in E. subst. auto.
Qed.

Lemma Forall2_keys {K V W} (R : K -> V -> W -> Prop) (d : dict K V) (d' : dict K W) :
  Forall2 (fun kv kw => fst kw = fst kv /\ R (fst kv) (snd kv) (snd kw)) d d' -> dkeys d' = dkeys d.
Proof. induction 1 as [|? ? ? ? [E _] F IH]; simpl; congruence. Qed.

Lemma qsum_pair {A C} (f : A -> Q) (g : C -> Q) l m :
  Forall2 (fun a c => (f a == g c)%Q) l m -> (qsum (map f l) == qsum (map g m))%Q.
Proof. induction 1; simpl; [lra|]. rewrite H, IHForall2. lra. Qed.

Lemma qsum_sumi {A C} (f : C -> Q) (g : nat -> A -> Q) l m :
  length l = length m ->
  (forall i x y, nth_error l i = Some x -> nth_error m i = Some y -> (f y == g i x)%Q) ->
  (qsum (map f m) == sumi g l)%Q.
Proof.
  unfold sumi. intros L H.
  assert (X : forall i, (forall j x y, nth_error l j = Some x -> nth_error m j = Some y -> (f y == g (i + j)%nat x)%Q) ->
              (qsum (map f m) == qsum (mapi g i l))%Q).
  { clear H. revert m L. induction l as [|a l IH]; intros [|c m] L i H; simpl in *; try discriminate; [lra|].
    rewrite (IH m ltac:(lia) (S i)).
    - pose proof (H 0 a c eq_refl eq_refl) as E. rewrite Nat.add_0_r in E. rewrite E. lra.
    - intros j x y E1 E2. pose proof (H (S j) x y E1 E2) as E. now rewrite Nat.add_succ_r in E. }
  apply X. auto.
Qed.

Lemma combine_sumi {A C} (f : A * C -> Q) (g : nat -> A -> Q) l m :
  length l = length m ->
  (forall i x y, nth_error l i = Some x -> nth_error m i = Some y -> (f (x, y) == g i x)%Q) ->
  (qsum (map f (combine l m)) == sumi g l)%Q.
Proof.
  intros L H. apply qsum_sumi.
  - rewrite combine_length, L. lia.
  - intros i x [x' y] E1 E2.
    assert (E3 : nth_error l i = Some x' /\ nth_error m i = Some y).
    { clear H E1. revert m L i E2. induction l as [|a l IH]; intros [|c m] L [|i] E; simpl in *; try discriminate.
      - inversion E; auto.
      - apply IH; auto. }
    destruct E3 as [E3 E4]. rewrite E1 in E3. inversion E3; subst. apply H; auto.
Qed.

Lemma combine_pair {A C} (f : A * C -> Q) (g : A -> Q) l m :
  Forall2 (fun a c => (f (a, c) == g a)%Q) l m -> (qsum (map f (combine l m)) == qsum (map g l))%Q.
Proof. induction 1; simpl; [lra|]. rewrite H, IHForall2. lra. Qed.

Lemma Forall2_In {A C} (P : A -> C -> Prop) l m :
  Forall2 P l m -> Forall2 (fun x y => In x l /\ In y m /\ P x y) l m.
Proof.
  induction 1 as [|a c l m Pac F IH]; constructor; simpl; auto.
  eapply Forall2_imp; [|exact IH]. intros x y (? & ? & ?). auto.
Qed.

Section Mirror.
Variables (s : study) (r : result).
Hypothesis Hs : laid s.
Hypothesis Hm : mirrors s r.

Lemma mirror_net net : match dget net (st_networks s), dget net (r_networks r) with
  | Some ns, Some rns => Forall2 (fun (kd : string * node) (kr : string * onode) =>
                          fst kr = fst kd /\ node_like s (snd kd) (snd kr)) ns rns
  | None, None => True
  | _, _ => False
  end.
Proof.
  apply (Forall2_dget (fun _ (ns : network) (rns : onetwork) => Forall2 (fun (kd : string * node) (kr : string * onode) =>
                          fst kr = fst kd /\ node_like s (snd kd) (snd kr)) ns rns)).
  exact (mr_nodes _ _ Hm).
Qed.

Lemma mirror_node net nd : match node_at s net nd, rnode_at r net nd with
  | Some n, Some rn => node_like s n rn
  | None, None => True
  | _, _ => False
  end.
Proof.
  unfold node_at, rnode_at. pose proof (mirror_net net) as M.
  destruct (dget net (st_networks s)) as [ns|], (dget net (r_networks r)) as [rns|]; auto; try tauto.
  apply (Forall2_dget (fun _ n rn => node_like s n rn)). exact M.
Qed.

Lemma mirror_node_l net nd n : node_at s net nd = Some n -> exists rn, rnode_at r net nd = Some rn /\ node_like s n rn.
Proof. intros E. pose proof (mirror_node net nd) as M. rewrite E in M. destruct (rnode_at r net nd); [eauto|tauto]. Qed.
Lemma mirror_node_r net nd rn : rnode_at r net nd = Some rn -> exists n, node_at s net nd = Some n /\ node_like s n rn.
Proof. intros E. pose proof (mirror_node net nd) as M. rewrite E in M. destruct (node_at s net nd); [eauto|tauto]. Qed.

Lemma mirror_conv name : match conv_at s name, rconv_at r name with
  | Some v, Some rv => conv_like s name v rv
  | None, None => True
  | _, _ => False
  end.
Proof.
  unfold conv_at, rconv_at. apply (Forall2_dget (fun k v rv => conv_like s k v rv)). exact (mr_convs _ _ Hm).
Qed.
Lemma mirror_conv_l name v : conv_at s name = Some v -> exists rv, rconv_at r name = Some rv /\ conv_like s name v rv.
Proof. intros E. pose proof (mirror_conv name) as M. rewrite E in M. destruct (rconv_at r name); [eauto|tauto]. Qed.
Lemma mirror_conv_r name rv : rconv_at r name = Some rv -> exists v, conv_at s name = Some v /\ conv_like s name v rv.
Proof. intros E. pose proof (mirror_conv name) as M. rewrite E in M. destruct (conv_at s name); [eauto|tauto]. Qed.

Lemma conv_at_In name v : In (name, v) (st_converters s) -> conv_at s name = Some v.
Proof. intros I. apply In_dget; auto. apply ld_convs; auto. Qed.

Lemma rconv_at_In name rv : In (name, rv) (r_converters r) -> rconv_at r name = Some rv.
Proof.
  intros I. apply In_dget; auto.
  rewrite (Forall2_keys (fun k v rv => conv_like s k v rv) _ _ (mr_convs _ _ Hm)). apply ld_convs; auto.
Qed.

Lemma rnode_at_In net rns nd rn : In (net, rns) (r_networks r) -> In (nd, rn) rns -> rnode_at r net nd = Some rn.
Proof.
  intros I J. unfold rnode_at.
  assert (D : dget net (r_networks r) = Some rns).
  { apply In_dget; auto.
    rewrite (Forall2_keys (fun _ (ns : network) (rns : onetwork) => Forall2 (fun (kd : string * node) (kr : string * onode) =>
                          fst kr = fst kd /\ node_like s (snd kd) (snd kr)) ns rns) _ _ (mr_nodes _ _ Hm)).
    apply ld_networks; auto. }
  rewrite D. apply In_dget; auto. pose proof (mirror_net net) as M. rewrite D in M.
  destruct (dget net (st_networks s)) as [ns|] eqn:E; [|tauto].
  rewrite (Forall2_keys (fun _ n rn => node_like s n rn) _ _ M). eapply ld_nodes; eauto.
Qed.

Variables (scn : nat) (x : var -> Q).
Hypothesis Hc : carries_answer s r scn x.

Section Time.
Variable t : nat.
Hypothesis Ht : t < st_horizon s.

Section Node.
Variables (net nd : string) (n : node) (rn : onode).
Hypothesis Hn : node_at s net nd = Some n.
Hypothesis Hr : rnode_at r net nd = Some rn.

Lemma Hl : node_like s n rn.
Proof. pose proof (mirror_node net nd) as M. now rewrite Hn, Hr in M. Qed.

Lemma served_eq : (served scn rn t == sumi (fun i c => value (c_qty c) scn t - x (VLol net nd i t)) (n_cons n))%Q.
Proof.
  apply qsum_sumi; [exact (Forall2_len _ _ _ (nl_cons _ _ _ Hl))|].
  intros i c o E1 E2. apply (ca_cons _ _ _ _ Hc net nd n rn i c o t); auto.
Qed.
Lemma produced_eq : (produced scn rn t == sumi (fun i _ => x (VProd net nd i t)) (n_prods n))%Q.
Proof.
  apply qsum_sumi; [exact (Forall2_len _ _ _ (nl_prods _ _ _ Hl))|].
  intros i c o E1 E2. apply (ca_prods _ _ _ _ Hc net nd n rn i c o t); auto.
Qed.
Lemma stored_eq : (stored scn rn t == sumi (fun i _ => x (VIn net nd i t)) (n_stors n))%Q.
Proof.
  apply qsum_sumi; [exact (Forall2_len _ _ _ (nl_stors _ _ _ Hl))|].
  intros i c o E1 E2. apply (ca_stors _ _ _ _ Hc net nd n rn i c o t); auto.
Qed.
Lemma withdrawn_eq : (withdrawn scn rn t == sumi (fun i _ => x (VOut net nd i t)) (n_stors n))%Q.
Proof.
  apply qsum_sumi; [exact (Forall2_len _ _ _ (nl_stors _ _ _ Hl))|].
  intros i c o E1 E2. apply (ca_stors _ _ _ _ Hc net nd n rn i c o t); auto.
Qed.
Lemma exported_eq : (exported scn rn t == sumi (fun i _ => x (VLink net nd i t)) (n_links n))%Q.
Proof.
  apply qsum_sumi; [exact (Forall2_len _ _ _ (nl_links _ _ _ Hl))|].
  intros i c o E1 E2. apply (ca_links _ _ _ _ Hc net nd n rn i c o t); auto.
Qed.

Lemma looped_eq : (looped scn nd rn t == xself x t net nd n)%Q.
Proof.
  unfold looped, total, xself. apply (qsum_sumi _ (fun i l => if String.eqb (l_dest l) nd then x (VLink net nd i t) else 0%Q)).
  - eapply Forall2_len, nl_links, Hl.
  - pose proof (nl_links _ _ _ Hl) as F. intros i l o E1 E2.
    destruct (Forall2_get _ _ _ _ _ F E1) as (o' & E3 & D & _). rewrite E2 in E3. inversion E3; subst o'. rewrite D.
    destruct (String.eqb (l_dest l) nd); [|reflexivity]. eapply (ca_links _ _ _ _ Hc); eauto.
Qed.

Lemma node_cost_eq : (node_cost scn n rn t == ncost scn x t net nd n)%Q.
Proof.
  unfold node_cost, ncost, total.
  rewrite (combine_sumi _ (fun i c => value (c_cost c) scn t * x (VLol net nd i t))%Q (n_cons n));
    [|exact (Forall2_len _ _ _ (nl_cons _ _ _ Hl))|].
  2:{ intros i c o E1 E2. cbn [fst snd]. rewrite (ca_cons _ _ _ _ Hc net nd n rn i c o t) by auto. lra. }
  rewrite (combine_sumi _ (fun i p => value (p_cost p) scn t * x (VProd net nd i t))%Q (n_prods n));
    [|exact (Forall2_len _ _ _ (nl_prods _ _ _ Hl))|].
  2:{ intros i c o E1 E2. cbn [fst snd]. rewrite (ca_prods _ _ _ _ Hc net nd n rn i c o t) by auto. lra. }
  rewrite (combine_sumi _ (fun i y => value (s_cost y) scn t * x (VCap net nd i t))%Q (n_stors n));
    [|exact (Forall2_len _ _ _ (nl_stors _ _ _ Hl))|].
  2:{ intros i c o E1 E2. cbn [fst snd]. destruct (ca_stors _ _ _ _ Hc net nd n rn i c o t) as (E & _); auto. rewrite E. lra. }
  rewrite (combine_sumi _ (fun i y => value (l_cost y) scn t * x (VLink net nd i t))%Q (n_links n));
    [|exact (Forall2_len _ _ _ (nl_links _ _ _ Hl))|].
  2:{ intros i c o E1 E2. cbn [fst snd]. rewrite (ca_links _ _ _ _ Hc net nd n rn i c o t) by auto. lra. }
  lra.
Qed.
End Node.

Lemma imported_eq net nd : (imported r scn net nd t == ximport s x t net nd)%Q.
Proof.
  unfold imported, ximport, nodes_in. pose proof (mirror_net net) as M.
  destruct (dget net (st_networks s)) as [ns|] eqn:D1, (dget net (r_networks r)) as [rns|] eqn:D2; try tauto; [|simpl; lra].
  symmetry. apply qsum_pair. apply Forall2_In in M. eapply Forall2_imp; [|exact M].
  intros [nd1 n] [nd2 rn] (I & J & E & NL). cbn [fst snd] in *. subst nd2.
  apply dget_In in D1, D2.
  pose proof (node_at_In s Hs _ _ _ _ D1 I) as N. pose proof (rnode_at_In _ _ _ _ D2 J) as R.
  symmetry. apply qsum_sumi; [exact (Forall2_len _ _ _ (nl_links _ _ _ NL))|].
  intros i l o E1 E2.
  destruct (Forall2_get _ _ _ _ _ (nl_links _ _ _ NL) E1) as (o' & E2' & ED & _). rewrite E2 in E2'. inversion E2'; subst o'.
  rewrite ED. destruct (String.eqb (l_dest l) nd); [|lra].
  apply (ca_links _ _ _ _ Hc net nd1 n rn i l o t); auto.
Qed.

Lemma conv_src_rel name v rv : conv_at s name = Some v -> rconv_at r name = Some rv ->
  Forall2 (fun (kr : string * string * numval) (ka : string * string * ndarray) =>
    fst ka = fst kr /\ (entry (snd ka) scn t == x (vsrc name t (fst kr)))%Q) (v_src v) (ov_src rv).
Proof.
  intros E R. pose proof (mirror_conv name) as M. rewrite E, R in M. destruct M as (_ & _ & M).
  apply Forall2_In in M. eapply Forall2_imp; [|exact M].
  intros [k q] [k' a] (I & J & F & _). cbn [fst snd] in *. subst k'. split; auto.
  destruct k as [net nd]. apply (ca_src _ _ _ _ Hc name v rv net nd a t); auto.
Qed.

Lemma convs_pair (P : string -> converter -> oconverter -> Prop) :
  (forall name v rv, conv_at s name = Some v -> rconv_at r name = Some rv -> P name v rv) ->
  Forall2 (fun (kv : string * converter) (ko : string * oconverter) => fst ko = fst kv /\ P (fst kv) (snd kv) (snd ko))
          (st_converters s) (r_converters r).
Proof.
  intros H. pose proof (Forall2_In _ _ _ (mr_convs _ _ Hm)) as M. eapply Forall2_imp; [|exact M].
  intros [a v] [a' rv] (I & J & E & _). cbn [fst snd] in *. subst a'. split; auto.
  apply H; [apply conv_at_In | apply rconv_at_In]; auto.
Qed.

Lemma convs_eq net nd :
  (qsum (map (fun kv => xconv x t net nd (fst kv) (snd kv)) (st_converters s)) ==
   received s r scn net nd t - sent r scn net nd t)%Q.
Proof.
  unfold received, sent, total. rewrite <- qsum_map_sub.
  apply qsum_pair. eapply Forall2_imp; [|apply (convs_pair (fun name v rv =>
     conv_at s name = Some v /\ rconv_at r name = Some rv)); auto].
  intros [a v] [a' rv] [E [C R]]. cbn [fst snd] in *. subst a'.
  unfold xconv, goes_to. rewrite C.
  rewrite (qsum_pair (fun kr => if pair_eqb (fst kr) (net, nd) then x (vsrc a t (fst kr)) else 0%Q)
                     (fun ka => if pair_eqb (fst ka) (net, nd) then entry (snd ka) scn t else 0%Q) (v_src v) (ov_src rv)).
  - destruct (String.eqb (v_dnet v) net && String.eqb (v_dnode v) nd); [|lra].
    rewrite (ca_dest _ _ _ _ Hc a v rv t) by auto. lra.
  - eapply Forall2_imp; [|apply (conv_src_rel a v rv C R)].
    intros [k q] [k' b] [F G]. cbn [fst snd] in *. subst k'. destruct (pair_eqb k (net, nd)); [|lra]. now rewrite G.
Qed.

Lemma balance_iff net nd n rn : node_at s net nd = Some n -> rnode_at r net nd = Some rn ->
  (xbalance s scn x t net nd n <->
   (served scn rn t + exported scn rn t + stored scn rn t + sent r scn net nd t ==
    produced scn rn t + imported r scn net nd t + withdrawn scn rn t + received s r scn net nd t
    + looped scn nd rn t)%Q).
Proof.
  intros N R. unfold xbalance. rewrite convs_eq, <- imported_eq, <- (looped_eq net nd n rn) by auto. unfold xnode.
  rewrite (served_eq net nd n rn), (produced_eq net nd n rn), (stored_eq net nd n rn),
          (withdrawn_eq net nd n rn), (exported_eq net nd n rn) by auto.
  assert (E1 : (sumi (fun i c => value (c_qty c) scn t - x (VLol net nd i t)) (n_cons n) ==
                qsum (map (fun c => value (c_qty c) scn t) (n_cons n)) - sumi (fun i _ => x (VLol net nd i t)) (n_cons n))%Q).
  { rewrite (sumi_ext _ (fun i c => value (c_qty c) scn t + - x (VLol net nd i t))%Q) by (intros; lra).
    rewrite (sumi_add (fun _ c => value (c_qty c) scn t) (fun i _ => - x (VLol net nd i t))%Q).
    rewrite (sumi_opp (fun i _ => x (VLol net nd i t))), sumi_map. lra. }
  assert (E2 : (sumi (fun i (_ : storage) => - x (VIn net nd i t) + x (VOut net nd i t)) (n_stors n) ==
                - sumi (fun i _ => x (VIn net nd i t)) (n_stors n) + sumi (fun i _ => x (VOut net nd i t)) (n_stors n))%Q).
  { rewrite (sumi_add (fun i _ => - x (VIn net nd i t))%Q (fun i _ => x (VOut net nd i t))).
    rewrite (sumi_opp (fun i _ => x (VIn net nd i t))). lra. }
  rewrite E1, E2. split; intros; lra.
Qed.

Lemma step_cost_eq : (step_cost s r scn t ==
    qsum (map (fun kn => qsum (map (fun kd => ncost scn x t (fst kn) (fst kd) (snd kd)) (snd kn))) (st_networks s))
    + qsum (map (fun kv => ovalue (v_cost (snd kv)) scn t * x (VDest (fst kv) t)) (st_converters s)))%Q.
Proof.
  unfold step_cost, total. apply Qplus_comp.
  - apply combine_pair. pose proof (Forall2_In _ _ _ (mr_nodes _ _ Hm)) as M. eapply Forall2_imp; [|exact M].
    intros [net ns] [net' rns] (I & J & E & F). cbn [fst snd] in *. subst net'.
    apply combine_pair. apply Forall2_In in F. eapply Forall2_imp; [|exact F].
    intros [nd n] [nd' rn] (I' & J' & E' & _). cbn [fst snd] in *. subst nd'.
    apply node_cost_eq; [eapply node_at_In; eauto | eapply rnode_at_In; eauto].
  - apply combine_pair. eapply Forall2_imp; [|apply (convs_pair (fun name v rv =>
     conv_at s name = Some v /\ rconv_at r name = Some rv)); auto].
    intros [a v] [a' rv] [E [C R]]. cbn [fst snd] in *. subst a'.
    rewrite (ca_dest _ _ _ _ Hc a v rv t) by auto. lra.
Qed.
End Time.

Theorem cost_eq : (total_cost s r scn == xcost s scn x)%Q.
Proof.
  unfold total_cost, xcost, total. apply qsum_map_ext. intros t I. apply in_seq in I. apply step_cost_eq. lia.
Qed.

(** ** The pieces of the documented model *)
Definition balanced_up_to_loops : Prop := forall t net nd rn, t < st_horizon s -> rnode_at r net nd = Some rn ->
    (served scn rn t + exported scn rn t + stored scn rn t + sent r scn net nd t ==
     produced scn rn t + imported r scn net nd t + withdrawn scn rn t + received s r scn net nd t + looped scn nd rn t)%Q.

Theorem loops_iff : balanced_up_to_loops <->
  (forall t net nd n, t < st_horizon s -> node_at s net nd = Some n -> xbalance s scn x t net nd n).
Proof.
  split.
  - intros H t net nd n T N. destruct (mirror_node_l _ _ _ N) as (rn & R & _).
    apply (balance_iff t T net nd n rn N R). apply H; auto.
  - intros H t net nd rn T R. destruct (mirror_node_r _ _ _ R) as (n & N & _).
    apply (balance_iff t T net nd n rn N R). apply H; auto.
Qed.

Lemma no_loop t net nd rn : no_self_link s -> rnode_at r net nd = Some rn -> (looped scn nd rn t == 0)%Q.
Proof.
  intros NS R. destruct (mirror_node_r _ _ _ R) as (n & N & L). unfold looped, total. apply qsum_map_zero.
  intros o I. apply In_nth_error in I as [i I]. destruct (Forall2_get_r _ _ _ _ _ (nl_links _ _ _ L) I) as (l & E & D & _).
  rewrite D. rewrite (proj2 (String.eqb_neq _ _)); [reflexivity|]. eapply NS; eauto. eapply nth_error_In; eauto.
Qed.

Theorem balanced_iff : no_self_link s -> (balanced s r scn <->
  (forall t net nd n, t < st_horizon s -> node_at s net nd = Some n -> xbalance s scn x t net nd n)).
Proof.
  intros NS. rewrite <- loops_iff. split.
  - intros H t net nd rn T R. rewrite (no_loop t net nd rn) by auto. rewrite (H t net nd rn) by auto. lra.
  - intros H t net nd rn T R. rewrite (H t net nd rn) by auto. rewrite (no_loop t net nd rn) by auto. lra.
Qed.

Theorem converters_iff : converters_convert s r scn <->
  (forall t name v, t < st_horizon s -> conv_at s name = Some v -> xmix scn x t name v).
Proof.
  split.
  - intros H t name v T E k q I. destruct (mirror_conv_l _ _ E) as (rv & R & _).
    specialize (H name v rv t E R T). pose proof (conv_src_rel t T name v rv E R) as F.
    apply In_nth_error in I as [i I].
    destruct (Forall2_get _ _ _ _ _ F I) as ([k' a] & J & EK & EA). cbn [fst snd] in *.
    destruct (Forall2_get _ _ _ _ _ H I) as ([k2 a2] & J2 & EQ). rewrite J in J2. inversion J2; subst. cbn [fst snd] in *.
    rewrite <- EA, EQ. apply (ca_dest _ _ _ _ Hc name v rv t); auto.
  - intros H name v rv t E R T. pose proof (conv_src_rel t T name v rv E R) as F.
    apply Forall2_In in F. eapply Forall2_imp; [|exact F]. intros [k q] [k' a] (I & _ & EK & EA). cbn [fst snd] in *.
    rewrite EA, (ca_dest _ _ _ _ Hc name v rv t) by auto. apply (H t name v T E k q I).
Qed.

Lemma xstorage_first net nd n rn y o m m' :
  node_at s net nd = Some n -> rnode_at r net nd = Some rn -> n_stors n = y :: m -> on_stors rn = o :: m' ->
  (storage_evolves s scn y o <-> forall t, t < st_horizon s -> xstorage scn x t net nd n).
Proof.
  intros N R E1 E2. unfold storage_evolves, xstorage. rewrite E1.
  assert (X : forall t, t < st_horizon s -> (entry (os_capacity o) scn t == x (VCap net nd 0 t))%Q /\
    (entry (os_flow_in o) scn t == x (VIn net nd 0 t))%Q /\ (entry (os_flow_out o) scn t == x (VOut net nd 0 t))%Q).
  { intros t T. apply (ca_stors _ _ _ _ Hc net nd n rn 0 y o t); auto; [now rewrite E1 | now rewrite E2]. }
  split; intros H t T; specialize (H t T); destruct (X t T) as (A & C & D).
  - rewrite A, C, D in H. destruct t as [|t']; auto. destruct (X t' ltac:(lia)) as (A' & _). rewrite A' in H. auto.
  - rewrite A, C, D. destruct t as [|t']; auto. destruct (X t' ltac:(lia)) as (A' & _). rewrite A'. auto.
Qed.

Theorem storages_iff : one_storage s -> (storages_evolve s r scn <->
  (forall t net nd n, t < st_horizon s -> node_at s net nd = Some n -> xstorage scn x t net nd n)).
Proof.
  intros One. split.
  - intros H t net nd n T N. destruct (mirror_node_l _ _ _ N) as (rn & R & L).
    specialize (H net nd n rn N R). unfold xstorage. destruct (n_stors n) as [|y m] eqn:E; auto.
    destruct (on_stors rn) as [|o m'] eqn:E'; inversion H; subst.
    pose proof (proj1 (xstorage_first net nd n rn y o m m' N R E E')) as X. specialize (X H3 t T).
    unfold xstorage in X. now rewrite E in X.
  - intros H net nd n rn N R. destruct (mirror_node_l _ _ _ N) as (rn' & R' & L). rewrite R in R'. inversion R'; subst rn'.
    specialize (One net nd n N). pose proof (Forall2_len _ _ _ (nl_stors _ _ _ L)) as LE.
    destruct (n_stors n) as [|y [|y2 m]] eqn:E, (on_stors rn) as [|o [|o2 m']] eqn:E'; simpl in *; try lia; constructor; auto.
    apply (xstorage_first net nd n rn y o [] [] N R E E'). intros t T. apply H; auto.
Qed.

(** Bounds: the program's imply the documented ones, and conversely with the converter law. *)
(** The bounds of source flows above are not needed. *)
Theorem capacities_but_src y : xbounds s scn y ->
  (forall v, (forall a b c d, v <> VSrc a b c d) -> y v = x v) ->
  (forall t name v k q, t < st_horizon s -> conv_at s name = Some v -> In (k, q) (v_src v) -> (0 <= x (vsrc name t k))%Q) ->
  capacities_respected s r scn.
Proof.
  intros XB XY XS t T. split.
  - intros net nd n rn N R. pose proof (Hl net nd n rn N R) as L. unfold node_within.
    repeat split; apply Forall2_nth; (split; [first [exact (Forall2_len _ _ _ (nl_cons _ _ _ L)) | exact (Forall2_len _ _ _ (nl_prods _ _ _ L))
       | exact (Forall2_len _ _ _ (nl_stors _ _ _ L)) | exact (Forall2_len _ _ _ (nl_links _ _ _ L))]|]); intros i z o E1 E2.
    + destruct (xb_cons _ _ _ XB t net nd n i z T N E1). pose proof (ca_cons _ _ _ _ Hc net nd n rn i z o t T N R E1 E2).
      rewrite XY in * by discriminate. split; lra.
    + destruct (xb_prods _ _ _ XB t net nd n i z T N E1). pose proof (ca_prods _ _ _ _ Hc net nd n rn i z o t T N R E1 E2).
      rewrite XY in * by discriminate. split; lra.
    + destruct (xb_stors _ _ _ XB t net nd n i z T N E1) as ([] & [] & []).
      destruct (ca_stors _ _ _ _ Hc net nd n rn i z o t T N R E1 E2) as (? & ? & ?).
      rewrite !XY in * by discriminate. unfold within. repeat split; lra.
    + destruct (xb_links _ _ _ XB t net nd n i z T N E1). pose proof (ca_links _ _ _ _ Hc net nd n rn i z o t T N R E1 E2).
      rewrite XY in * by discriminate. split; lra.
  - intros name v rv E R. split.
    + destruct (xb_dest _ _ _ XB t name v T E). pose proof (ca_dest _ _ _ _ Hc name v rv t T E R).
      rewrite XY in * by discriminate. split; lra.
    + intros k a I. destruct k as [net nd]. pose proof (conv_src_rel t T name v rv E R) as F.
      apply In_nth_error in I as [i I]. destruct (Forall2_get_r _ _ _ _ _ F I) as ([k' q] & J & EK & EA). cbn [fst snd] in *.
      apply nth_error_In in J. pose proof (XS t name v k' q T E J). lra.
Qed.

Theorem capacities_of_bounds : xbounds s scn x -> capacities_respected s r scn.
Proof.
  intros XB. apply (capacities_but_src x); auto. intros t name v k q T E I. destruct (xb_src _ _ _ XB t name v k q T E I). auto.
Qed.

(** A ratio is positive, or the program leaves room for the source flow. *)
Theorem bounds_of_room : scn < st_nb_scn s ->
  (forall name v k q t, conv_at s name = Some v -> In (k, q) (v_src v) -> t < st_horizon s ->
     (0 < value q scn t)%Q \/ (0 <= ovalue (v_max v) scn t / value q scn t)%Q) ->
  capacities_respected s r scn -> converters_convert s r scn -> xbounds s scn x.
Proof.
  intros S P C M. rewrite converters_iff in M. constructor.
  - intros t net nd n i c T N E. destruct (mirror_node_l _ _ _ N) as (rn & R & L).
    destruct (C t T) as [CN _]. destruct (CN net nd n rn N R) as (W & _).
    destruct (Forall2_get _ _ _ _ _ W E) as (o & E2 & [A D]).
    pose proof (ca_cons _ _ _ _ Hc net nd n rn i c o t T N R E E2). split; lra.
  - intros t net nd n i c T N E. destruct (mirror_node_l _ _ _ N) as (rn & R & L).
    destruct (C t T) as [CN _]. destruct (CN net nd n rn N R) as (_ & W & _).
    destruct (Forall2_get _ _ _ _ _ W E) as (o & E2 & [A D]).
    pose proof (ca_prods _ _ _ _ Hc net nd n rn i c o t T N R E E2). split; lra.
  - intros t net nd n i c T N E. destruct (mirror_node_l _ _ _ N) as (rn & R & L).
    destruct (C t T) as [CN _]. destruct (CN net nd n rn N R) as (_ & _ & W & _).
    destruct (Forall2_get _ _ _ _ _ W E) as (o & E2 & [] & [] & []).
    destruct (ca_stors _ _ _ _ Hc net nd n rn i c o t T N R E E2) as (? & ? & ?). unfold within. repeat split; lra.
  - intros t net nd n i c T N E. destruct (mirror_node_l _ _ _ N) as (rn & R & L).
    destruct (C t T) as [CN _]. destruct (CN net nd n rn N R) as (_ & _ & _ & W).
    destruct (Forall2_get _ _ _ _ _ W E) as (o & E2 & [A D]).
    pose proof (ca_links _ _ _ _ Hc net nd n rn i c o t T N R E E2). split; lra.
  - intros t name v k q T E I. destruct (mirror_conv_l _ _ E) as (rv & R & _).
    destruct (C t T) as [_ CV]. destruct (CV name v rv E R) as [[A D] SRC].
    pose proof (ca_dest _ _ _ _ Hc name v rv t T E R) as ED.
    pose proof (conv_src_rel t T name v rv E R) as F.
    apply In_nth_error in I as [i I']. destruct (Forall2_get _ _ _ _ _ F I') as ([k' a] & J & EK & EA). cbn [fst snd] in *. subst k'.
    apply nth_error_In in J. specialize (SRC k a J). apply nth_error_In in I'.
    pose proof (M t name v T E k q I') as MX. split; [lra|]. destruct (Qlt_le_dec 0 (value q scn t)) as [PQ|PQ].
    + apply Qle_shift_div_l; auto. rewrite Qmult_comm. lra.
    + destruct (vr_src _ _ (ld_conv _ Hs _ _ E) k q I') as [_ NZ]. specialize (NZ scn t S T).
      destruct (P name v k q t E I' T) as [PP|PP]; [lra|]. set (y := x (vsrc name t k)) in *. set (q0 := value q scn t) in *.
      assert (Y : (0 <= y)%Q) by lra. assert (D0 : (0 <= x (VDest name t))%Q) by lra.
      assert (LT : (q0 < 0)%Q) by (destruct (Qlt_le_dec q0 0); auto; exfalso; apply NZ; lra).
      destruct (Qlt_le_dec 0 y) as [Y1|Y1]; [nra|]. lra.
  - intros t name v T E. destruct (mirror_conv_l _ _ E) as (rv & R & _).
    destruct (C t T) as [_ CV]. destruct (CV name v rv E R) as [[A D] _].
    pose proof (ca_dest _ _ _ _ Hc name v rv t T E R). split; lra.
Qed.

Theorem bounds_of_capacities : scn < st_nb_scn s -> positive_ratios s ->
  capacities_respected s r scn -> converters_convert s r scn -> xbounds s scn x.
Proof. intros S P C M. apply bounds_of_room; auto. intros name v k q t E I T. left. eapply P; eauto. Qed.

(** A documented dispatch satisfies the program, with any number of storages. *)
Theorem dispatch_sat : no_self_link s -> scn < st_nb_scn s ->
  (forall name v k q t, conv_at s name = Some v -> In (k, q) (v_src v) -> t < st_horizon s ->
     (0 < value q scn t)%Q \/ (0 <= ovalue (v_max v) scn t / value q scn t)%Q) ->
  dispatch_ok s r scn -> xok s scn x.
Proof.
  intros NS S P [C A D E]. constructor.
  - apply bounds_of_room; auto.
  - now apply balanced_iff.
  - intros t net nd n T N. destruct (mirror_node_l _ _ _ N) as (rn & R & L). specialize (D net nd n rn N R).
    unfold xstorage. destruct (n_stors n) as [|y m] eqn:EN; auto. destruct (on_stors rn) as [|o m'] eqn:ER; [inversion D|].
    inversion D as [|? ? ? ? D1 D2]; subst. pose proof (proj1 (xstorage_first net nd n rn y o m m' N R EN ER) D1 t T) as X.
    unfold xstorage in X. now rewrite EN in X.
  - now apply converters_iff.
Qed.

Theorem dispatch_iff : no_self_link s -> scn < st_nb_scn s -> one_storage s -> positive_ratios s ->
  (dispatch_ok s r scn <-> xok s scn x).
Proof.
  intros NS S One P. split.
  - intros [C A D E]. constructor.
    + apply bounds_of_capacities; auto.
    + now apply balanced_iff.
    + now apply storages_iff.
    + now apply converters_iff.
  - intros [C A D E]. constructor.
    + now apply capacities_of_bounds.
    + now apply balanced_iff.
    + now apply storages_iff.
    + now apply converters_iff.
Qed.
End Mirror.

(** ** Reading an assignment off a result *)
Definition read_result (s : study) (r : result) (scn : nat) (v : var) : Q :=
  match v with
  | VLol net nd i t =>
      match node_at s net nd, rnode_at r net nd with
      | Some n, Some rn => match nth_error (n_cons n) i, nth_error (on_cons rn) i with
                           | Some c, Some o => (value (c_qty c) scn t - entry (oc_qty o) scn t)%Q
                           | _, _ => 0%Q end
      | _, _ => 0%Q end
  | VProd net nd i t =>
      match rnode_at r net nd with
      | Some rn => match nth_error (on_prods rn) i with Some o => entry (op_qty o) scn t | None => 0%Q end
      | None => 0%Q end
  | VCap net nd i t =>
      match rnode_at r net nd with
      | Some rn => match nth_error (on_stors rn) i with Some o => entry (os_capacity o) scn t | None => 0%Q end
      | None => 0%Q end
  | VIn net nd i t =>
      match rnode_at r net nd with
      | Some rn => match nth_error (on_stors rn) i with Some o => entry (os_flow_in o) scn t | None => 0%Q end
      | None => 0%Q end
  | VOut net nd i t =>
      match rnode_at r net nd with
      | Some rn => match nth_error (on_stors rn) i with Some o => entry (os_flow_out o) scn t | None => 0%Q end
      | None => 0%Q end
  | VLink net nd i t =>
      match rnode_at r net nd with
      | Some rn => match nth_error (on_links rn) i with Some o => entry (ol_qty o) scn t | None => 0%Q end
      | None => 0%Q end
  | VSrc name net nd t =>
      match rconv_at r name with
      | Some rv => match dget (net, nd) (ov_src rv) with Some a => entry a scn t | None => 0%Q end
      | None => 0%Q end
  | VDest name t =>
      match rconv_at r name with Some rv => entry (ov_dest rv) scn t | None => 0%Q end
  end.

Theorem read_carries s r scn : laid s -> mirrors s r -> carries_answer s r scn (read_result s r scn).
Proof.
  intros Hs Hm. constructor.
  - intros. unfold read_result. rewrite H0, H1, H2, H3. lra.
  - intros. unfold read_result. rewrite H1, H3. lra.
  - intros. unfold read_result. rewrite H1, H3. repeat split; lra.
  - intros. unfold read_result. rewrite H1, H3. lra.
  - intros name v rv net nd a t T E R I. unfold read_result. rewrite R. rewrite (In_dget (net, nd) a); auto; [lra|].
    pose proof (mirror_conv s r Hm name) as M. rewrite E, R in M. destruct M as (_ & _ & M).
    rewrite (Forall2_keys (fun _ (_ : numval) o => has_dims s o) _ _ M). eapply ld_once; eauto.
  - intros name v rv t T E R. unfold read_result. rewrite R. lra.
Qed.
