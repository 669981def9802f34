(** Property C101: telling consumptions or productions of one price together or apart does
    not change the cost. *)
From Coq Require Import String List ZArith QArith Bool Arith Lia Lqa Permutation.
From Verif Require Import Base BaseFacts Numeric Study Fluent SpecStudy StudyFacts Output Json SpecJson JsonFacts P_Json
  LP SpecLP LPFacts LPBuild LPSat LPResult LPSolve LPReady LPOpt LPWeak LPMore P_LP P_Opt P_Accept P_Solvable P_Law P_Mean SpecRename P_Rename SpecGather.
Import ListNotations.
Open Scope nat_scope.
Open Scope string_scope.
Open Scope list_scope.

(** ** Sums by group *)
Definition part {A} (p : nat -> nat) (u : nat -> A -> Q) (j : nat) (l : list A) : Q := sumi (fun i a => if Nat.eqb (p i) j then u i a else 0%Q) l.

Lemma sumi_scale {A} (f : nat -> A -> Q) k l : (sumi (fun i a => k * f i a) l == k * sumi f l)%Q.
Proof.
  unfold sumi. generalize 0. induction l as [|a l IH]; intros i; cbn [mapi qsum fold_right]; [lra |].
  specialize (IH (Datatypes.S i)). unfold qsum in IH. rewrite IH. lra.
Qed.
Lemma sumi_le {A} (f g : nat -> A -> Q) l : (forall i a, nth_error l i = Some a -> (f i a <= g i a)%Q) -> (sumi f l <= sumi g l)%Q.
Proof.
  unfold sumi. assert (X : forall l k, (forall i a, nth_error l i = Some a -> (f (k + i)%nat a <= g (k + i)%nat a)%Q) -> (qsum (mapi f k l) <= qsum (mapi g k l))%Q).
  { clear. induction l as [|a l IH]; intros k H; cbn [mapi qsum fold_right]; [lra |]. pose proof (H 0 a eq_refl) as H0. rewrite Nat.add_0_r in H0.
    specialize (IH (Datatypes.S k)). unfold qsum in IH. assert (Y := IH (fun i b E => ltac:(specialize (H (Datatypes.S i) b E); rewrite Nat.add_succ_r in H; exact H))). lra. }
  apply (X l 0).
Qed.
Lemma sumi_cons0 {A} (f : nat -> A -> Q) a l : (sumi f (a :: l) == f 0%nat a + sumi (fun i b => f (Datatypes.S i) b) l)%Q.
Proof.
  unfold sumi. cbn [mapi qsum fold_right]. apply Qplus_comp; [reflexivity |]. fold (qsum (mapi f 1 l)).
  assert (X : forall l k, (qsum (mapi f (Datatypes.S k) l) == qsum (mapi (fun i b => f (Datatypes.S i) b) k l))%Q).
  { clear. induction l as [|b l IH]; intros k; cbn [mapi qsum fold_right]; [reflexivity |]. fold (qsum (mapi f (Datatypes.S (Datatypes.S k)) l)). rewrite IH. reflexivity. }
  apply X.
Qed.
Lemma sent_part {A} scn (qty : A -> numval) p j t l : (sent scn qty p j t l == part p (fun _ a => value (qty a) scn t) j l)%Q.
Proof.
  unfold sent, part, sumi. generalize 0. induction l as [|a l IH]; intros k; cbn [length seq combine filter mapi map fst snd]; [reflexivity |].
  specialize (IH (Datatypes.S k)). destruct (Nat.eqb (p k) j); cbn [map qsum fold_right]; fold (qsum (mapi (fun i b => if Nat.eqb (p i) j then value (qty b) scn t else 0%Q) (Datatypes.S k) l)).
  - fold (qsum (map (fun ia => value (qty (snd ia)) scn t) (filter (fun ia => Nat.eqb (p (fst ia)) j) (combine (seq (Datatypes.S k) (length l)) l)))). cbn [fst snd]. rewrite IH. reflexivity.
  - rewrite IH. lra.
Qed.

(** Summing by group, each group with its own weight. *)
Lemma sumi_parts {A} (l' : list A) (w : nat -> A -> Q) : forall (l : list A) (v : nat -> A -> Q) (u : nat -> A -> Q) p,
  (forall i a, nth_error l i = Some a -> exists b, nth_error l' (p i) = Some b /\ (v i a == w (p i) b)%Q) ->
  (sumi (fun j b => w j b * part p u j l) l' == sumi (fun i a => v i a * u i a) l)%Q.
Proof.
  induction l as [|a l IH]; intros v u p H.
  - unfold part. rewrite sumi_zero; [reflexivity |]. intros i x _. cbn. lra.
  - rewrite (sumi_cons0 (fun i a0 => v i a0 * u i a0)%Q).
    rewrite (sumi_ext _ (fun j b => (if Nat.eqb (p 0%nat) j then w j b * u 0%nat a else 0) + w j b * part (fun i => p (Datatypes.S i)) (fun i => u (Datatypes.S i)) j l)%Q).
    2:{ intros j b _. unfold part. rewrite (sumi_cons0 (fun i a0 => if Nat.eqb (p i) j then u i a0 else 0%Q)). destruct (Nat.eqb (p 0%nat) j); lra. }
    rewrite (sumi_add (fun j b => if Nat.eqb (p 0%nat) j then w j b * u 0%nat a else 0)%Q). apply Qplus_comp.
    + destruct (H 0 a eq_refl) as (b & B & E). rewrite (sumi_pick _ _ _ _ B). { rewrite Nat.eqb_refl, E. reflexivity. }
      intros i c _ N. destruct (Nat.eqb (p 0%nat) i) eqn:X; [apply Nat.eqb_eq in X; congruence | reflexivity].
    + apply (IH (fun i => v (Datatypes.S i)) (fun i => u (Datatypes.S i)) (fun i => p (Datatypes.S i))). intros i c C. exact (H (Datatypes.S i) c C).
Qed.

Section Group.
  Context {A : Type}.
  Variables (h scn : nat) (qty cost : A -> numval) (l l' : list A) (p : nat -> nat).
  Hypothesis HC : forall i a, nth_error l i = Some a -> exists b, nth_error l' (p i) = Some b /\
       forall t, t < h -> (value (cost a) scn t == value (cost b) scn t)%Q.
  Hypothesis HQ : forall j b, nth_error l' j = Some b -> forall t, t < h -> (value (qty b) scn t == sent scn qty p j t l)%Q.
  Variable t : nat.
  Hypothesis T : t < h.

  Lemma part_total u : (sumi (fun j _ => part p u j l) l' == sumi u l)%Q.
  Proof.
    rewrite (sumi_ext (fun j _ => part p u j l) (fun j _ => 1 * part p u j l)%Q) by (intros; lra). rewrite (sumi_parts l' (fun _ _ => 1%Q) l (fun _ _ => 1%Q)).
    - apply sumi_ext. intros; lra.
    - intros i a E. destruct (HC i a E) as (b & B & _). exists b. split; [auto | reflexivity].
  Qed.
  Lemma part_cost u : (sumi (fun j b => value (cost b) scn t * part p u j l) l' == sumi (fun i a => value (cost a) scn t * u i a) l)%Q.
  Proof.
    apply (sumi_parts l' (fun _ b => value (cost b) scn t) l (fun _ a => value (cost a) scn t)).
    intros i a E. destruct (HC i a E) as (b & B & C). exists b. split; auto.
  Qed.
  Lemma part_within u j b : nth_error l' j = Some b -> (forall i a, nth_error l i = Some a -> 0 <= u i a <= value (qty a) scn t)%Q ->
    (0 <= part p u j l <= value (qty b) scn t)%Q.
  Proof.
    intros E H. rewrite (HQ _ _ E t T), sent_part. unfold part. split.
    - rewrite <- (sumi_zero (fun _ (_ : A) => 0%Q) l) by (intros; reflexivity). apply sumi_le. intros i a K. destruct (Nat.eqb (p i) j); [apply (H i a K) | lra].
    - apply sumi_le. intros i a K. destruct (Nat.eqb (p i) j); [apply (H i a K) | lra].
  Qed.
  Lemma part_needs : (qsum (map (fun b => value (qty b) scn t) l') == qsum (map (fun a => value (qty a) scn t) l))%Q.
  Proof.
    rewrite <- (sumi_map (fun b => value (qty b) scn t)), <- (sumi_map (fun a => value (qty a) scn t)). rewrite <- part_total.
    apply sumi_ext. intros j b B. rewrite (HQ _ _ B t T). apply sent_part.
  Qed.

  (** Each element takes of what its group has in proportion to its quantity. *)
  Hypothesis ND : no_debt h scn qty l.
  Definition share (y : nat -> Q) (i : nat) : Q :=
    match nth_error l i with
    | Some a => match nth_error l' (p i) with Some b => (y (p i) * (value (qty a) scn t / value (qty b) scn t))%Q | None => 0%Q end
    | None => 0%Q
    end.
  Variable y : nat -> Q.
  Hypothesis Y : forall j b, nth_error l' j = Some b -> (0 <= y j <= value (qty b) scn t)%Q.
  Lemma share_at i a b : nth_error l i = Some a -> nth_error l' (p i) = Some b -> share y i = (y (p i) * (value (qty a) scn t / value (qty b) scn t))%Q.
  Proof. unfold share. intros -> ->. reflexivity. Qed.
  Lemma share_within i a : nth_error l i = Some a -> (0 <= share y i <= value (qty a) scn t)%Q.
  Proof.
    intros E. destruct (HC i a E) as (b & B & _). rewrite (share_at _ _ _ E B). specialize (Y _ _ B). pose proof (ND a t (nth_error_In _ _ E) T) as P.
    destruct (Qlt_le_dec 0 (value (qty b) scn t)) as [L | L].
    - assert (K : (0 <= y (p i) / value (qty b) scn t <= 1)%Q).
      { split; [apply Qle_shift_div_l; lra | apply Qle_shift_div_r; lra]. }
      assert (X : (y (p i) * (value (qty a) scn t / value (qty b) scn t) == y (p i) / value (qty b) scn t * value (qty a) scn t)%Q) by (field; lra).
      rewrite X. split; [apply Qmult_le_0_compat; lra |].
      assert (Z : (0 <= (1 - y (p i) / value (qty b) scn t) * value (qty a) scn t)%Q) by (apply Qmult_le_0_compat; lra). lra.
    - assert (X : (y (p i) == 0)%Q) by lra. rewrite X. lra.
  Qed.
  Lemma share_part j b : nth_error l' j = Some b -> (part p (fun i _ => share y i) j l == y j)%Q.
  Proof.
    intros B. unfold part. rewrite (sumi_ext _ (fun i a => (y j / value (qty b) scn t) * (if Nat.eqb (p i) j then value (qty a) scn t else 0))%Q).
    - rewrite sumi_scale. pose proof (HQ _ _ B t T) as Q. rewrite sent_part in Q. unfold part in Q. rewrite <- Q.
      specialize (Y _ _ B). destruct (Qeq_dec (value (qty b) scn t) 0) as [Z | Z].
      + rewrite Z in Y |- *. assert (X : (y j == 0)%Q) by lra. rewrite X. lra.
      + field. exact Z.
    - intros i a E. destruct (Nat.eqb (p i) j) eqn:K; [| lra]. apply Nat.eqb_eq in K. rewrite (share_at i a b E) by (rewrite K; auto). rewrite K.
      unfold Qdiv. lra.
  Qed.
  Lemma share_total : (sumi (fun i _ => share y i) l == sumi (fun j _ => y j) l')%Q.
  Proof. rewrite <- part_total. apply sumi_ext. intros j b B. apply (share_part j b B). Qed.
  Lemma share_cost : (sumi (fun i a => value (cost a) scn t * share y i) l == sumi (fun j b => value (cost b) scn t * y j) l')%Q.
  Proof. rewrite <- (part_cost (fun i _ => share y i)). apply sumi_ext. intros j b B. rewrite (share_part j b B). reflexivity. Qed.
End Group.

(** ** Two studies *)
Section Gather.
Variables (s s' : study) (scn : nat).
Hypothesis CO : coarser s s' scn.
Hypothesis RD : ready s.
Hypothesis RD' : ready s'.

Definition grouped {A} (qty cost : A -> numval) (l l' : list A) (p : nat -> nat) : Prop :=
  (forall i a, nth_error l i = Some a -> exists b, nth_error l' (p i) = Some b /\
     forall t, t < st_horizon s -> (value (cost a) scn t == value (cost b) scn t)%Q) /\
  (forall j b, nth_error l' j = Some b -> forall t, t < st_horizon s -> (value (qty b) scn t == sent scn qty p j t l)%Q).
Definition paired (c d : string * node) : Prop :=
  fst d = fst c /\ n_stors (snd d) = n_stors (snd c) /\ n_links (snd d) = n_links (snd c) /\
  gathered (st_horizon s) scn c_qty c_cost (n_cons (snd c)) (n_cons (snd d)) /\
  gathered (st_horizon s) scn p_qty p_cost (n_prods (snd c)) (n_prods (snd d)).
Definition paired_node (n n' : node) : Prop := n_stors n' = n_stors n /\ n_links n' = n_links n /\
  gathered (st_horizon s) scn c_qty c_cost (n_cons n) (n_cons n') /\ gathered (st_horizon s) scn p_qty p_cost (n_prods n) (n_prods n').

Lemma net_down net ns : dget net (st_networks s) = Some ns -> exists ns', dget net (st_networks s') = Some ns' /\ Forall2 paired ns ns'.
Proof.
  intros D. apply dget_In in D. destruct (Forall2_In_l _ _ _ _ (co_networks _ _ _ CO) D) as ([k ns'] & J & E & H). cbn [fst snd] in *. subst k.
  exists ns'. split; auto. apply In_dget; auto. apply wf_networks, RD'.
Qed.
Lemma node_down net nd n : node_at s net nd = Some n -> exists n', node_at s' net nd = Some n' /\ paired_node n n'.
Proof.
  unfold node_at at 1. destruct (dget net (st_networks s)) as [ns|] eqn:D; [| discriminate]. intros E. destruct (net_down _ _ D) as (ns' & D' & H).
  apply dget_In in E. destruct (Forall2_In_l _ _ _ _ H E) as ([k n'] & J & K & X). cbn [fst snd] in *. subst k. exists n'. split; auto.
  unfold node_at. rewrite D'. apply In_dget; auto. exact (wf_nodes _ (rd_wf _ RD') _ _ D').
Qed.
Lemma node_up net nd n' : node_at s' net nd = Some n' -> exists n, node_at s net nd = Some n /\ paired_node n n'.
Proof.
  unfold node_at at 1. destruct (dget net (st_networks s')) as [ns'|] eqn:D; [| discriminate]. intros E.
  assert (SW : Forall2 (fun b a => fst b = fst a /\ Forall2 paired (snd a) (snd b)) (st_networks s') (st_networks s)).
  { eapply Forall2_swap; [apply (co_networks _ _ _ CO) |]. intros a b _ _ X. exact X. }
  apply dget_In in D. destruct (Forall2_In_l _ _ _ _ SW D) as ([k ns] & J & K & H). cbn [fst snd] in *. subst k.
  assert (SN : Forall2 (fun d c => paired c d) ns' ns).
  { eapply Forall2_swap; [apply H |]. intros a b _ _ X. exact X. }
  apply dget_In in E. destruct (Forall2_In_l _ _ _ _ SN E) as ([k n] & J' & K & X). cbn [fst snd] in *. subst k. exists n. split; auto.
  eapply node_at_In; eauto.
Qed.

Lemma groups_exist : exists F : string * string -> (nat -> nat) * (nat -> nat), forall net nd n n', node_at s net nd = Some n -> node_at s' net nd = Some n' ->
  grouped c_qty c_cost (n_cons n) (n_cons n') (fst (F (net, nd))) /\ grouped p_qty p_cost (n_prods n) (n_prods n') (snd (F (net, nd))).
Proof.
  pose (ks := flat_map (fun a => map (fun p => (fst a, fst p)) (snd a)) (st_networks s)).
  destruct (choose_keys (fun k ps => forall n n', node_at s (fst k) (snd k) = Some n -> node_at s' (fst k) (snd k) = Some n' ->
     grouped c_qty c_cost (n_cons n) (n_cons n') (fst ps) /\ grouped p_qty p_cost (n_prods n) (n_prods n') (snd ps)) (fun i => i, fun i => i) ks) as (F & H).
  - intros [net nd] J. cbn [fst snd]. apply in_flat_map in J as ([net1 ns] & J & K). apply in_map_iff in K as ([nd1 n] & [= <- <-] & K). cbn [fst snd] in *.
    pose proof (node_at_In s RD net1 ns nd1 n J K) as N. destruct (node_down _ _ _ N) as (n' & N' & _ & _ & (pc & C) & (pp & P)).
    exists (pc, pp). intros m m' M M'. rewrite N in M. rewrite N' in M'. inversion M; inversion M'; subst. split; [exact C | exact P].
  - exists F. intros net nd n n' N N'. refine (H (net, nd) _ n n' N N').
    unfold node_at in N. destruct (dget net (st_networks s)) as [ns|] eqn:D; [| discriminate]. apply dget_In in D, N.
    apply in_flat_map. exists (net, ns). split; auto. apply in_map_iff. exists (nd, n). auto.
Qed.

Variable F : string * string -> (nat -> nat) * (nat -> nat).
Hypothesis GR : forall net nd n n', node_at s net nd = Some n -> node_at s' net nd = Some n' ->
  grouped c_qty c_cost (n_cons n) (n_cons n') (fst (F (net, nd))) /\ grouped p_qty p_cost (n_prods n) (n_prods n') (snd (F (net, nd))).

Lemma hor_eq t : t < st_horizon s' <-> t < st_horizon s.
Proof. rewrite (co_horizon _ _ _ CO). tauto. Qed.
Lemma conv_eq name : conv_at s' name = conv_at s name.
Proof. unfold conv_at. now rewrite (co_convs _ _ _ CO). Qed.

(** What both studies share depends on the other variables alone. *)
Definition alike_vars (x x' : var -> Q) : Prop := forall v, (match v with VLol _ _ _ _ => False | VProd _ _ _ _ => False | _ => True end) -> x' v = x v.
Lemma import_eq x x' t net nd : alike_vars x x' -> has_node s net nd -> (ximport s' x' t net nd == ximport s x t net nd)%Q.
Proof.
  intros AV H. unfold ximport, nodes_in. destruct (dget net (st_networks s)) as [ns|] eqn:D; [| exfalso; apply has_node_network in H; apply H; auto].
  destruct (net_down _ _ D) as (ns' & D' & SH). rewrite D'. clear D D'. induction SH as [|[k n] [k' n'] ns ns' (E & _ & EL & _) SH IH]; cbn [map qsum fold_right]; [reflexivity |].
  cbn [fst snd] in *. subst k'. rewrite EL. apply Qplus_comp; [| exact IH]. apply sumi_ext. intros i l _. rewrite (AV (VLink net k i t) Logic.I). reflexivity.
Qed.
Lemma convs_eq x x' t net nd : alike_vars x x' ->
  (qsum (map (fun kv => xconv x' t net nd (fst kv) (snd kv)) (st_converters s')) == qsum (map (fun kv => xconv x t net nd (fst kv) (snd kv)) (st_converters s)))%Q.
Proof.
  intros AV. rewrite (co_convs _ _ _ CO). apply qsum_map_ext. intros [k v] _. cbn [fst snd]. unfold xconv. rewrite (AV (VDest k t) Logic.I).
  apply Qplus_comp; [reflexivity |]. apply Qopp_comp, qsum_map_ext. intros [[a b] q] _. unfold vsrc. cbn [fst snd]. rewrite (AV (VSrc k a b t) Logic.I). reflexivity.
Qed.
Lemma self_eq x x' t net nd n n' : alike_vars x x' -> n_links n' = n_links n -> (xself x' t net nd n' == xself x t net nd n)%Q.
Proof. intros AV E. unfold xself. rewrite E. apply sumi_ext. intros i l _. rewrite (AV (VLink net nd i t) Logic.I). reflexivity. Qed.
Lemma stor_eq x x' t net nd n n' : alike_vars x x' -> n_stors n' = n_stors n -> (xstorage scn x' t net nd n' <-> xstorage scn x t net nd n).
Proof.
  intros AV E. unfold xstorage. rewrite E. destruct (n_stors n); [tauto |].
  rewrite (AV (VCap net nd 0 t) Logic.I), (AV (VIn net nd 0 t) Logic.I), (AV (VOut net nd 0 t) Logic.I).
  destruct t; [| rewrite (AV (VCap net nd 0 t) Logic.I)]; tauto.
Qed.
Lemma mix_eq x x' t name v : alike_vars x x' -> (xmix scn x' t name v <-> xmix scn x t name v).
Proof.
  intros AV. unfold xmix, vsrc. split; intros H k q J; specialize (H k q J); rewrite (AV (VDest name t) Logic.I), (AV (VSrc name (fst k) (snd k) t) Logic.I) in *; exact H.
Qed.
(** The consumptions and the productions of a node take and give the same together. *)
Record like_node (x x' : var -> Q) (t : nat) (net nd : string) (n n' : node) : Prop := {
  ln_lol : (sumi (fun i _ => x' (VLol net nd i t)) (n_cons n') == sumi (fun i _ => x (VLol net nd i t)) (n_cons n))%Q;
  ln_prod : (sumi (fun i _ => x' (VProd net nd i t)) (n_prods n') == sumi (fun i _ => x (VProd net nd i t)) (n_prods n))%Q;
  ln_clol : (sumi (fun i a => value (c_cost a) scn t * x' (VLol net nd i t)) (n_cons n') == sumi (fun i a => value (c_cost a) scn t * x (VLol net nd i t)) (n_cons n))%Q;
  ln_cprod : (sumi (fun i a => value (p_cost a) scn t * x' (VProd net nd i t)) (n_prods n') == sumi (fun i a => value (p_cost a) scn t * x (VProd net nd i t)) (n_prods n))%Q
}.
Lemma node_eq x x' t net nd n n' : alike_vars x x' -> paired_node n n' -> like_node x x' t net nd n n' -> (xnode x' t net nd n' == xnode x t net nd n)%Q.
Proof.
  intros AV (ES & EL & _) [L P _ _]. unfold xnode. rewrite L, P, ES, EL. repeat apply Qplus_comp; try reflexivity.
  - apply sumi_ext. intros i y _. rewrite (AV (VIn net nd i t) Logic.I), (AV (VOut net nd i t) Logic.I). reflexivity.
  - apply Qopp_comp, sumi_ext. intros i y _. rewrite (AV (VLink net nd i t) Logic.I). reflexivity.
Qed.
Lemma needs_eq t net nd n n' : t < st_horizon s -> node_at s net nd = Some n -> node_at s' net nd = Some n' ->
  (qsum (map (fun c => value (c_qty c) scn t) (n_cons n')) == qsum (map (fun c => value (c_qty c) scn t) (n_cons n)))%Q.
Proof. intros T N N'. destruct (GR _ _ _ _ N N') as [[HC HQ] _]. exact (part_needs _ _ _ _ _ _ _ HC HQ t T). Qed.
Lemma balance_eq x x' t net nd n n' : alike_vars x x' -> t < st_horizon s -> node_at s net nd = Some n -> node_at s' net nd = Some n' -> paired_node n n' ->
  like_node x x' t net nd n n' -> (xbalance s' scn x' t net nd n' <-> xbalance s scn x t net nd n).
Proof.
  intros AV T N N' PN LN. unfold xbalance. rewrite (node_eq _ _ _ _ _ _ _ AV PN LN), (convs_eq _ _ _ _ _ AV), (import_eq _ _ _ _ _ AV), (needs_eq _ _ _ _ _ T N N').
  - rewrite (self_eq _ _ _ _ _ _ _ AV (proj1 (proj2 PN))). tauto.
  - unfold has_node. congruence.
Qed.
Lemma cost_like x x' : alike_vars x x' ->
  (forall t net nd n n', t < st_horizon s -> node_at s net nd = Some n -> node_at s' net nd = Some n' -> like_node x x' t net nd n n') ->
  (xcost s' scn x' == xcost s scn x)%Q.
Proof.
  intros AV LN. unfold xcost. rewrite (co_horizon _ _ _ CO). apply qsum_map_ext. intros t J. apply in_seq in J. assert (T : t < st_horizon s) by lia. apply Qplus_comp.
  - assert (X : forall l l', Forall2 (fun a b => fst b = fst a /\ Forall2 paired (snd a) (snd b)) l l' ->
      (forall a, In a l -> In a (st_networks s)) -> (forall a, In a l' -> In a (st_networks s')) ->
      (qsum (map (fun kn => qsum (map (fun kd => ncost scn x' t (fst kn) (fst kd) (snd kd)) (snd kn))) l') ==
       qsum (map (fun kn => qsum (map (fun kd => ncost scn x t (fst kn) (fst kd) (snd kd)) (snd kn))) l))%Q).
    { induction 1 as [|[net ns] [net' ns'] l l' [E SH] FA IH]; intros I1 I2; cbn [map qsum fold_right]; [reflexivity |]. cbn [fst snd] in *. subst net'.
      apply Qplus_comp; [| apply IH; intros; [apply I1 | apply I2]; cbn; auto].
      assert (Y : forall m m', Forall2 paired m m' -> (forall a, In a m -> In a ns) -> (forall a, In a m' -> In a ns') ->
        (qsum (map (fun kd => ncost scn x' t net (fst kd) (snd kd)) m') == qsum (map (fun kd => ncost scn x t net (fst kd) (snd kd)) m))%Q).
      { induction 1 as [|[nd n] [nd' n'] m m' (E & ES & EL & _) FB IHm]; intros J1 J2; cbn [map qsum fold_right]; [reflexivity |]. cbn [fst snd] in *. subst nd'.
        apply Qplus_comp; [| apply IHm; intros; [apply J1 | apply J2]; cbn; auto].
        pose proof (node_at_In s RD _ _ _ _ (I1 _ (or_introl eq_refl)) (J1 _ (or_introl eq_refl))) as N.
        pose proof (node_at_In s' RD' _ _ _ _ (I2 _ (or_introl eq_refl)) (J2 _ (or_introl eq_refl))) as N'.
        destruct (LN t net nd n n' T N N') as [_ _ C P]. unfold ncost. rewrite C, P, ES, EL. repeat apply Qplus_comp; try reflexivity.
        - apply sumi_ext. intros i y _. rewrite (AV (VCap net nd i t) Logic.I). reflexivity.
        - apply sumi_ext. intros i y _. rewrite (AV (VLink net nd i t) Logic.I). reflexivity. }
      apply Y; auto. }
    apply X; auto. apply (co_networks _ _ _ CO).
  - rewrite (co_convs _ _ _ CO). apply qsum_map_ext. intros [k v] _. cbn [fst snd]. rewrite (AV (VDest k t) Logic.I). reflexivity.
Qed.

(** From the fine study to the coarse one. *)
Definition add_up (x : var -> Q) (v : var) : Q :=
  match v with
  | VLol net nd j t => match node_at s net nd with Some n => part (fst (F (net, nd))) (fun i _ => x (VLol net nd i t)) j (n_cons n) | None => 0%Q end
  | VProd net nd j t => match node_at s net nd with Some n => part (snd (F (net, nd))) (fun i _ => x (VProd net nd i t)) j (n_prods n) | None => 0%Q end
  | v => x v
  end.
Lemma add_up_vars x : alike_vars x (add_up x).
Proof. intros v. destruct v; cbn; tauto. Qed.
Lemma add_up_like x t net nd n n' : t < st_horizon s -> node_at s net nd = Some n -> node_at s' net nd = Some n' -> like_node x (add_up x) t net nd n n'.
Proof.
  intros T N N'. destruct (GR _ _ _ _ N N') as [[CC CQ] [PC PQ]]. constructor; cbn [add_up]; rewrite N.
  - exact (part_total _ _ _ _ _ _ CC _).
  - exact (part_total _ _ _ _ _ _ PC _).
  - exact (part_cost _ _ _ _ _ _ CC t T _).
  - exact (part_cost _ _ _ _ _ _ PC t T _).
Qed.
Theorem add_up_ok x : xok s scn x -> xok s' scn (add_up x).
Proof.
  intros [[XC XP XS XL XR XD] XB XT XM]. pose proof (add_up_vars x) as AV. unfold within in *. constructor.
  - constructor; unfold within.
    + intros t net nd n' j b T N' J. apply hor_eq in T. destruct (node_up _ _ _ N') as (n & N & _). destruct (GR _ _ _ _ N N') as [[CC CQ] _]. cbn [add_up]. rewrite N.
      apply (part_within _ _ _ _ _ _ CQ t T _ j b J). intros i a K. apply (XC t net nd n i a T N K).
    + intros t net nd n' j b T N' J. apply hor_eq in T. destruct (node_up _ _ _ N') as (n & N & _). destruct (GR _ _ _ _ N N') as [_ [PC PQ]]. cbn [add_up]. rewrite N.
      apply (part_within _ _ _ _ _ _ PQ t T _ j b J). intros i a K. apply (XP t net nd n i a T N K).
    + intros t net nd n' j b T N' J. apply hor_eq in T. destruct (node_up _ _ _ N') as (n & N & ES & EL & _). rewrite ES in J. cbn [add_up]. exact (XS t net nd n j b T N J).
    + intros t net nd n' j b T N' J. apply hor_eq in T. destruct (node_up _ _ _ N') as (n & N & ES & EL & _). rewrite EL in J. cbn [add_up]. exact (XL t net nd n j b T N J).
    + intros t name v k q T V J. apply hor_eq in T. rewrite conv_eq in V. exact (XR t name v k q T V J).
    + intros t name v T V. apply hor_eq in T. rewrite conv_eq in V. exact (XD t name v T V).
  - intros t net nd n' T N'. apply hor_eq in T. destruct (node_up _ _ _ N') as (n & N & PN). apply (balance_eq _ _ _ _ _ _ _ AV T N N' PN (add_up_like x _ _ _ _ _ T N N')). auto.
  - intros t net nd n' T N'. apply hor_eq in T. destruct (node_up _ _ _ N') as (n & N & PN). apply (stor_eq _ _ _ _ _ _ _ AV (proj1 PN)). auto.
  - intros t name v T V. apply hor_eq in T. rewrite conv_eq in V. apply (mix_eq _ _ _ _ _ AV). auto.
Qed.
Theorem add_up_cost x : (xcost s' scn (add_up x) == xcost s scn x)%Q.
Proof. apply cost_like; [apply add_up_vars |]. intros. now apply add_up_like. Qed.

(** From the coarse study to the fine one. *)
Hypothesis UD : undebted s scn.
Definition divide (x' : var -> Q) (v : var) : Q :=
  match v with
  | VLol net nd i t => match node_at s net nd, node_at s' net nd with
    | Some n, Some n' => share scn c_qty (n_cons n) (n_cons n') (fst (F (net, nd))) t (fun j => x' (VLol net nd j t)) i | _, _ => 0%Q end
  | VProd net nd i t => match node_at s net nd, node_at s' net nd with
    | Some n, Some n' => share scn p_qty (n_prods n) (n_prods n') (snd (F (net, nd))) t (fun j => x' (VProd net nd j t)) i | _, _ => 0%Q end
  | v => x' v
  end.
Lemma divide_vars x' : alike_vars (divide x') x'.
Proof. intros v. destruct v; cbn; tauto. Qed.
Lemma divide_like x' t net nd n n' : xbounds s' scn x' -> t < st_horizon s -> node_at s net nd = Some n -> node_at s' net nd = Some n' -> like_node (divide x') x' t net nd n n'.
Proof.
  intros [XC XP _ _ _ _] T N N'. destruct (GR _ _ _ _ N N') as [[CC CQ] [PC PQ]]. unfold within in *. pose proof (proj2 (hor_eq t) T) as T'.
  assert (YC := fun j b => XC t net nd n' j b T' N'). assert (YP := fun j b => XP t net nd n' j b T' N').
  constructor; cbn [divide]; rewrite N, N'; symmetry.
  - exact (share_total _ _ _ _ _ _ _ CC CQ t T (fun j => x' (VLol net nd j t)) YC).
  - exact (share_total _ _ _ _ _ _ _ PC PQ t T (fun j => x' (VProd net nd j t)) YP).
  - exact (share_cost _ _ _ _ _ _ _ CC CQ t T (fun j => x' (VLol net nd j t)) YC).
  - exact (share_cost _ _ _ _ _ _ _ PC PQ t T (fun j => x' (VProd net nd j t)) YP).
Qed.
Theorem divide_ok x' : xok s' scn x' -> xok s scn (divide x').
Proof.
  intros [XX XB XT XM]. pose proof (divide_vars x') as AV. pose proof XX as [XC XP XS XL XR XD]. unfold within in *. constructor.
  - constructor; unfold within.
    + intros t net nd n i a T N J. pose proof (proj2 (hor_eq t) T) as T'. destruct (node_down _ _ _ N) as (n' & N' & _). destruct (GR _ _ _ _ N N') as [[CC CQ] _]. cbn [divide]. rewrite N, N'.
      exact (share_within _ _ _ _ _ _ _ CC t T (proj1 (UD _ _ _ N)) (fun j => x' (VLol net nd j t)) (fun j b => XC t net nd n' j b T' N') i a J).
    + intros t net nd n i a T N J. pose proof (proj2 (hor_eq t) T) as T'. destruct (node_down _ _ _ N) as (n' & N' & _). destruct (GR _ _ _ _ N N') as [_ [PC PQ]]. cbn [divide]. rewrite N, N'.
      exact (share_within _ _ _ _ _ _ _ PC t T (proj2 (UD _ _ _ N)) (fun j => x' (VProd net nd j t)) (fun j b => XP t net nd n' j b T' N') i a J).
    + intros t net nd n i a T N J. pose proof (proj2 (hor_eq t) T) as T'. destruct (node_down _ _ _ N) as (n' & N' & ES & EL & _). rewrite <- ES in J. cbn [divide]. exact (XS t net nd n' i a T' N' J).
    + intros t net nd n i a T N J. pose proof (proj2 (hor_eq t) T) as T'. destruct (node_down _ _ _ N) as (n' & N' & ES & EL & _). rewrite <- EL in J. cbn [divide]. exact (XL t net nd n' i a T' N' J).
    + intros t name v k q T V J. apply hor_eq in T. rewrite <- conv_eq in V. exact (XR t name v k q T V J).
    + intros t name v T V. apply hor_eq in T. rewrite <- conv_eq in V. exact (XD t name v T V).
  - intros t net nd n T N. pose proof (proj2 (hor_eq t) T) as T'. destruct (node_down _ _ _ N) as (n' & N' & PN). apply (balance_eq _ _ _ _ _ _ _ AV T N N' PN (divide_like x' _ _ _ _ _ XX T N N')). auto.
  - intros t net nd n T N. pose proof (proj2 (hor_eq t) T) as T'. destruct (node_down _ _ _ N) as (n' & N' & PN). apply (proj1 (stor_eq _ _ _ _ _ _ _ AV (proj1 PN))). auto.
  - intros t name v T V. apply hor_eq in T. rewrite <- conv_eq in V. apply (proj1 (mix_eq _ _ t name v AV)). auto.
Qed.
Theorem divide_cost x' : xok s' scn x' -> (xcost s scn (divide x') == xcost s' scn x')%Q.
Proof. intros X. symmetry. apply cost_like; [apply divide_vars |]. intros. apply divide_like; auto. apply X. Qed.
End Gather.

Theorem coarse_exists s s' scn x : coarser s s' scn -> ready s -> ready s' -> xok s scn x ->
  exists x', xok s' scn x' /\ (xcost s' scn x' == xcost s scn x)%Q.
Proof.
  intros CO RD RD' X. destruct (groups_exist _ _ _ CO RD RD') as (F & GR). exists (add_up s F x). split.
  - eapply add_up_ok; eauto.
  - eapply add_up_cost; eauto.
Qed.
Theorem fine_exists s s' scn x' : coarser s s' scn -> undebted s scn -> ready s -> ready s' -> xok s' scn x' ->
  exists x, xok s scn x /\ (xcost s scn x == xcost s' scn x')%Q.
Proof.
  intros CO UD RD RD' X. destruct (groups_exist _ _ _ CO RD RD') as (F & GR). exists (divide s s' scn F x'). split.
  - eapply divide_ok; eauto.
  - eapply divide_cost; eauto.
Qed.

(** ** C101 *)
(** Each dispatch of a study is matched by one, of the same cost, of the study told more
    coarsely, and conversely. *)
Theorem C101_same_dispatches : forall s s' scn, api_study s -> api_study s' -> usable_converters s -> usable_converters s' ->
  scn < st_nb_scn s -> scn < st_nb_scn s' -> coarser s s' scn -> undebted s scn -> forall cost,
  (exists r, mirrors s r /\ law_ok s r scn /\ (total_cost s r scn == cost)%Q) <->
  (exists r', mirrors s' r' /\ law_ok s' r' scn /\ (total_cost s' r' scn == cost)%Q).
Proof.
  intros s s' scn A A' U U' S S' CO UD cost. pose proof (api_ready s A U) as R. pose proof (api_ready s' A' U') as R'.
  destruct (build_ok s scn S R) as (p & B & _). destruct (build_ok s' scn S' R') as (p' & B' & _).
  destruct (C15_program_exact s scn A U S) as (_ & DX & XD & D). destruct (C15_program_exact s' scn A' U' S') as (_ & DX' & XD' & D').
  unfold program_of in D, D'. rewrite B in D. rewrite B' in D'. split.
  - intros (r & M & L & C). destruct (DX r M) as (x & CA). destruct (D r x M CA) as [DF DO]. apply DF, (sat_iff s scn S R _ _ _ B) in L.
    destruct (coarse_exists _ _ _ _ CO R R' L) as (x' & X & E). destruct (XD' x') as (r' & M' & CA'). destruct (D' r' x' M' CA') as [DF' DO'].
    exists r'. split; auto. split; [now apply DF', (sat_iff s' scn S' R' _ _ _ B') |]. rewrite <- DO', <- C, <- DO.
    rewrite (objective_value s scn S R _ _ _ B), (objective_value s' scn S' R' _ _ _ B'). exact E.
  - intros (r' & M' & L' & C'). destruct (DX' r' M') as (x' & CA'). destruct (D' r' x' M' CA') as [DF' DO']. apply DF', (sat_iff s' scn S' R' _ _ _ B') in L'.
    destruct (fine_exists _ _ _ _ CO UD R R' L') as (x & X & E). destruct (XD x) as (r & M & CA). destruct (D r x M CA) as [DF DO].
    exists r. split; auto. split; [now apply DF, (sat_iff s scn S R _ _ _ B) |]. rewrite <- DO, <- C', <- DO'.
    rewrite (objective_value s scn S R _ _ _ B), (objective_value s' scn S' R' _ _ _ B'). exact E.
Qed.

(** Solved by an optimal solver, both cost the same. *)
Theorem C101_same_optimum : forall answer answer' s s' r r' scn, api_study s -> api_study s' ->
  coarser s s' scn -> undebted s scn -> scn < st_nb_scn s -> scn < st_nb_scn s' ->
  solved answer s r -> solved answer' s' r' -> optimal_answer answer s scn -> optimal_answer answer' s' scn ->
  (total_cost s r scn == total_cost s' r' scn)%Q.
Proof.
  intros answer answer' s s' r r' scn A A' CO UD S S' SV SV' [F Best] [F' Best'].
  destruct (solved_weak _ _ _ A SV) as (R & M & C). destruct (C scn S) as ((vs & B) & CA & _).
  destruct (solved_weak _ _ _ A' SV') as (R' & M' & C'). destruct (C' scn S') as ((vs' & B') & CA' & _).
  rewrite (cost_eq s r R M scn _ CA), (cost_eq s' r' R' M' scn _ CA').
  apply (sat_iff s scn S R _ vs _ B) in F. apply (sat_iff s' scn S' R' _ vs' _ B') in F'. apply Qle_antisym.
  - destruct (fine_exists _ _ _ _ CO UD R R' F') as (x & X & E). rewrite <- E.
    apply (sat_iff s scn S R _ vs _ B) in X. specialize (Best _ X). rewrite !(objective_value s scn S R _ vs _ B) in Best. exact Best.
  - destruct (coarse_exists _ _ _ _ CO R R' F) as (x & X & E). rewrite <- E.
    apply (sat_iff s' scn S' R' _ vs' _ B') in X. specialize (Best' _ X). rewrite !(objective_value s' scn S' R' _ vs' _ B') in Best'. exact Best'.
Qed.

(** ** A town told by its streets *)
Definition fine_calls : list call :=
  [ OnStudy_network "net"; OnSel 0 (MNode "a"); OnSel 1 (MConsumption "east" (jn 100) (jn 4)); OnSel 2 (MConsumption "mine" (jn 50) (jn 3));
    OnSel 3 (MConsumption "west" (jn 100) (jn 6)); OnSel 4 (MProduction "one" (jn 10) (jn 2)); OnSel 5 (MProduction "two" (jn 10) (jn 1));
    OnSel 6 (MNode "b"); OnSel 7 (MProduction "wind" (jn 1) (jn 7)); OnSel 8 (MLink "b" "a" (jn 2) (jn 8)) ].
Definition coarse_calls : list call :=
  [ OnStudy_network "net"; OnSel 0 (MNode "a"); OnSel 1 (MConsumption "mine" (jn 50) (jn 3)); OnSel 2 (MConsumption "town" (jn 100) (jn 10));
    OnSel 3 (MProduction "both" (jn 10) (jn 3)); OnSel 4 (MProduction "none" (jn 7) (jn 0));
    OnSel 5 (MNode "b"); OnSel 6 (MProduction "wind" (jn 1) (jn 7)); OnSel 7 (MLink "b" "a" (jn 2) (jn 8)) ].
Definition fine : study := Eval vm_compute in w_study (run (start 1 1 None) fine_calls).
Definition coarse : study := Eval vm_compute in w_study (run (start 1 1 None) coarse_calls).
Lemma fine_api : api_study fine.
Proof. exists 1, 1, None, fine_calls. split; [lia|]. split; [lia|]. split; [plain_tac | vm_compute; reflexivity]. Qed.
Lemma coarse_api : api_study coarse.
Proof. exists 1, 1, None, coarse_calls. split; [lia|]. split; [lia|]. split; [plain_tac | vm_compute; reflexivity]. Qed.

Ltac only_t T := lazymatch type of T with ?t < _ => replace t with 0 by (cbn in T; lia) end.
Ltac spots i E := let rec go n := lazymatch n with 0 => idtac | Datatypes.S ?m => destruct i as [|i]; [| go m] end in go 4; cbn in E; try (destruct i; discriminate E); try discriminate E.
Ltac gathered_tac p := exists p; split;
  [ let i := fresh in let a := fresh in let E := fresh in intros i a E; spots i E; injection E as <-; eexists; (split; [reflexivity | intros ? T; only_t T; vm_compute; reflexivity])
  | let i := fresh in let a := fresh in let E := fresh in intros i a E; spots i E; injection E as <-; intros ? T; only_t T; vm_compute; reflexivity ].
Lemma fine_coarse : coarser fine coarse 0.
Proof.
  constructor; [reflexivity | reflexivity |]. unfold fine, coarse, st_networks, st_horizon. constructor; [| constructor]. split; [reflexivity |].
  constructor; [| constructor; [| constructor]]; cbn [fst snd n_cons n_prods n_stors n_links]; (split; [reflexivity | split; [reflexivity | split; [reflexivity | split]]]).
  - gathered_tac (fun i => match i with 1 => 0 | _ => 1 end).
  - gathered_tac (fun _ : nat => 0).
  - gathered_tac (fun i : nat => i).
  - gathered_tac (fun i : nat => i).
Qed.
Lemma fine_undebted : undebted fine 0.
Proof.
  intros net nd n N. apply node_at_inv in N as (ns & J & K). unfold fine, st_networks in J. destruct J as [J|[]]. injection J as <- <-.
  destruct K as [K|[K|[]]]; injection K as <- <-; split; intros a t J T; only_t T; cbn in J;
    repeat (destruct J as [J|J]; [subst a; vm_compute; discriminate |]); destruct J.
Qed.
Definition fine_x (v : var) : Q :=
  match v with VLol _ _ 1 _ => 3 | VProd _ "a" 0 _ => 2 | VProd _ "a" _ _ => 1 | VProd _ "b" _ _ => 7 | VLink _ _ _ _ => 7 | _ => 0 end%Q.
Definition coarse_x (v : var) : Q :=
  match v with VLol _ _ 0 _ => 3 | VProd _ "a" 0 _ => 3 | VProd _ "b" _ _ => 7 | VLink _ _ _ _ => 7 | _ => 0 end%Q.
Definition fine_answer (_ : nat) (_ : solver) : var -> Q := fine_x.
Definition coarse_answer (_ : nat) (_ : solver) : var -> Q := coarse_x.
Lemma fine_optimal : optimal_answer fine_answer fine 0. Proof. best_tac (program_of fine 0). Qed.
Lemma coarse_optimal : optimal_answer coarse_answer coarse 0. Proof. best_tac (program_of coarse 0). Qed.
Definition fine_result : result := Eval vm_compute in
  match solve_lp fine_answer [0] no_bench fine with Ok r => r | Err _ => Result [] [] no_bench end.
Definition coarse_result : result := Eval vm_compute in
  match solve_lp coarse_answer [0] no_bench coarse with Ok r => r | Err _ => Result [] [] no_bench end.
Example C101_example : api_study fine /\ api_study coarse /\ usable_converters fine /\ usable_converters coarse /\ coarser fine coarse 0 /\ undebted fine 0 /\
  solved fine_answer fine fine_result /\ solved coarse_answer coarse coarse_result /\
  optimal_answer fine_answer fine 0 /\ optimal_answer coarse_answer coarse 0 /\
  (total_cost fine fine_result 0 == 201)%Q /\ (total_cost coarse coarse_result 0 == 201)%Q.
Proof.
  split; [apply fine_api |]. split; [apply coarse_api |]. split; [apply usableb_ok; vm_compute; reflexivity |]. split; [apply usableb_ok; vm_compute; reflexivity |].
  split; [apply fine_coarse |]. split; [apply fine_undebted |].
  split. { exists [0], no_bench. split; [reflexivity | vm_compute; reflexivity]. }
  split. { exists [0], no_bench. split; [reflexivity | vm_compute; reflexivity]. }
  split; [apply fine_optimal |]. split; [apply coarse_optimal |]. split; vm_compute; reflexivity.
Qed.

(** A series that is not negative throughout is accepted. Told apart, it leaves no dispatch;
    told with another that makes up for it, it leaves some. *)
Definition owing_calls : list call :=
  [ OnStudy_network "net"; OnSel 0 (MNode "a"); OnSel 1 (MConsumption "load" (jn 100) (jn 2)); OnSel 2 (MProduction "one" (jn 10) (jl [(-1)%Z; 2%Z]));
    OnSel 3 (MProduction "two" (jn 10) (jl [3%Z; 1%Z])) ].
Definition owed_calls : list call :=
  [ OnStudy_network "net"; OnSel 0 (MNode "a"); OnSel 1 (MConsumption "load" (jn 100) (jn 2)); OnSel 2 (MProduction "both" (jn 10) (jl [2%Z; 3%Z])) ].
Definition owing : study := Eval vm_compute in w_study (run (start 2 1 None) owing_calls).
Definition owed : study := Eval vm_compute in w_study (run (start 2 1 None) owed_calls).
Lemma owing_api : api_study owing.
Proof. exists 2, 1, None, owing_calls. split; [lia|]. split; [lia|]. split; [plain_tac | vm_compute; reflexivity]. Qed.
Lemma owed_api : api_study owed.
Proof. exists 2, 1, None, owed_calls. split; [lia|]. split; [lia|]. split; [plain_tac | vm_compute; reflexivity]. Qed.
Ltac two_t T := lazymatch type of T with ?t < _ => let Q := fresh in assert (Q : t = 0 \/ t = 1) by (cbn in T; lia); destruct Q as [-> | ->] end.
Lemma owing_owed : coarser owing owed 0.
Proof.
  constructor; [reflexivity | reflexivity |]. unfold owing, owed, st_networks, st_horizon. constructor; [| constructor]. split; [reflexivity |].
  constructor; [| constructor]; cbn [fst snd n_cons n_prods n_stors n_links]; (split; [reflexivity | split; [reflexivity | split; [reflexivity | split]]]); exists (fun _ : nat => 0); split.
  - intros i a E. spots i E. injection E as <-. eexists. split; [reflexivity |]. intros t T. two_t T; vm_compute; reflexivity.
  - intros i a E. spots i E. injection E as <-. intros t T. two_t T; vm_compute; reflexivity.
  - intros i a E. spots i E; injection E as <-; (eexists; split; [reflexivity |]); intros t T; two_t T; vm_compute; reflexivity.
  - intros i a E. spots i E. injection E as <-. intros t T. two_t T; vm_compute; reflexivity.
Qed.
Lemma owing_owes : exists n a, node_at owing "net" "a" = Some n /\ nth_error (n_prods n) 0 = Some a /\ (value (p_qty a) 0 0 == -1)%Q /\ 0 < st_horizon owing.
Proof. do 2 eexists. split; [reflexivity |]. split; [reflexivity |]. split; [vm_compute; reflexivity | cbn; lia]. Qed.
Lemma owing_usable : usable_converters owing. Proof. apply usableb_ok. vm_compute. reflexivity. Qed.
Lemma owed_usable : usable_converters owed. Proof. apply usableb_ok. vm_compute. reflexivity. Qed.
Lemma owing_scn : 0 < st_nb_scn owing. Proof. cbn. lia. Qed.
Lemma owed_scn : 0 < st_nb_scn owed. Proof. cbn. lia. Qed.
Lemma owed_sat : satisfies (program_of owed 0) (shed_first owed 0). Proof. apply satb_ok. vm_compute. reflexivity. Qed.
Lemma owing_none x : ~ satisfies (program_of owing 0) x.
Proof.
  pose proof (api_ready _ owing_api owing_usable) as R. pose proof owing_scn as S0. destruct owing_owes as (n & a & N & E & Q & T). revert N R S0 T. generalize owing. intros s N R S0 T L.
  destruct (build_ok s 0 S0 R) as (p & B & _). unfold program_of in L. rewrite B in L. apply (sat_iff s 0 S0 R _ _ _ B) in L.
  destruct L as [[_ XP _ _ _ _] _ _ _]. specialize (XP 0 "net" "a" n 0 a T N E). unfold within in XP. lra.
Qed.
Theorem C101_debt_refuted : exists s s' scn, api_study s /\ api_study s' /\ usable_converters s /\ usable_converters s' /\
  scn < st_nb_scn s /\ scn < st_nb_scn s' /\ coarser s s' scn /\
  (exists r', mirrors s' r' /\ law_ok s' r' scn) /\ forall r, mirrors s r -> ~ law_ok s r scn.
Proof.
  exists owing, owed, 0. split; [apply owing_api |]. split; [apply owed_api |]. split; [apply owing_usable |]. split; [apply owed_usable |]. split; [apply owing_scn |]. split; [apply owed_scn |].
  split; [apply owing_owed |]. split.
  - destruct (C15_program_exact owed 0 owed_api owed_usable owed_scn) as (_ & _ & XD & D).
    destruct (XD (shed_first owed 0)) as (r & M & CA). exists r. split; [exact M |]. exact (proj1 (proj1 (D r _ M CA)) owed_sat).
  - intros r M L. destruct (C15_program_exact owing 0 owing_api owing_usable owing_scn) as (_ & DX & _ & D).
    destruct (DX r M) as (x & CA). exact (owing_none x (proj2 (proj1 (D r x M CA)) L)).
Qed.

Print Assumptions C101_same_dispatches.
Print Assumptions C101_same_optimum.
Print Assumptions C101_debt_refuted.
