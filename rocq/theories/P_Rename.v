(** Property C99: names and the order of declarations do not change the cost. *)
From Coq Require Import String List ZArith QArith Bool Arith Lia Lqa Permutation FinFun.
From Verif Require Import Base BaseFacts Numeric Study Fluent SpecStudy StudyFacts Output Json SpecJson JsonFacts P_Json
  LP SpecLP LPFacts LPBuild LPSat LPResult LPSolve LPReady LPOpt LPWeak LPMore P_LP P_Opt P_Accept P_Solvable P_Law P_Mean SpecRename.
Import ListNotations.
Open Scope nat_scope.
Open Scope string_scope.
Open Scope list_scope.

(** ** Shuffled lists *)
Lemma Forall2_swap {A B} (R : A -> B -> Prop) (R' : B -> A -> Prop) l m : Forall2 R l m ->
  (forall a b, In a l -> In b m -> R a b -> R' b a) -> Forall2 R' m l.
Proof. induction 1; intros K; constructor; [apply K; cbn; auto | apply IHForall2; intros; apply K; cbn; auto]. Qed.

Lemma shuffled_sym {A} (R R' : A -> A -> Prop) l l' : shuffled R l l' ->
  (forall a b, In a l -> In b l' -> R a b -> R' b a) -> shuffled R' l' l.
Proof.
  intros (l1 & P & F) K. assert (G : Forall2 (fun a b => R' b a) l1 l').
  { eapply Forall2_swap; [eapply Forall2_swap; [exact F |] |].
    - intros a b J J' X. apply (K a b); auto. eapply Permutation_in; [apply Permutation_sym, P | exact J].
    - intros a b _ _ X. exact X. }
  destruct (Permutation_Forall2 (Permutation_sym P) G) as (l2 & P2 & F2). exists l2. split; auto.
  eapply Forall2_swap; [exact F2 |]. auto.
Qed.

Lemma Forall2_In_l {A B} (R : A -> B -> Prop) l m a : Forall2 R l m -> In a l -> exists b, In b m /\ R a b.
Proof. induction 1; cbn [In]; [tauto |]. intros [<-|J]; [eauto |]. destruct (IHForall2 J) as (b & ? & ?). eauto. Qed.
Lemma shuffled_In {A} (R : A -> A -> Prop) l l' a : shuffled R l l' -> In a l -> exists b, In b l' /\ R a b.
Proof. intros (l1 & P & F) J. eapply Forall2_In_l; [exact F |]. eapply Permutation_in; eauto. Qed.

Lemma qsum_shuffled {A} (R : A -> A -> Prop) (u v : A -> Q) l l' : shuffled R l l' ->
  (forall a b, In a l -> In b l' -> R a b -> (u a == v b)%Q) -> (qsum (map u l) == qsum (map v l'))%Q.
Proof.
  intros (l1 & P & F) H. rewrite (qsum_perm _ _ (Permutation_map u P)).
  assert (K : forall a b, In a l1 -> In b l' -> R a b -> (u a == v b)%Q).
  { intros a b J. apply H. eapply Permutation_in; [apply Permutation_sym, P | exact J]. }
  clear P H. induction F as [|a b l1 l' Rab F IH]; [reflexivity |]. cbn [map qsum fold_right]. apply Qplus_comp; [apply K; cbn; auto |].
  apply IH. intros; apply K; cbn; auto.
Qed.

Lemma NoDup_map_same {A B} (h : A -> B) l a b : NoDup (map h l) -> In a l -> In b l -> h a = h b -> a = b.
Proof.
  induction l as [|c l IH]; cbn [map In]; [tauto |]. intros ND J K E. inversion ND as [|? ? NI ND']; subst.
  destruct J as [->|J], K as [->|K]; auto.
  - exfalso. apply NI. rewrite E. now apply in_map.
  - exfalso. apply NI. rewrite <- E. now apply in_map.
Qed.
Lemma shuffled_inj {V} (h : string -> string) (P : string * V -> string * V -> Prop) (l l' : dict string V) : NoDup (dkeys l') ->
  shuffled (fun a b => fst b = h (fst a) /\ P a b) l l' -> forall a b, In a l -> In b l -> h (fst a) = h (fst b) -> a = b.
Proof.
  intros ND (l1 & PM & F) a b J K E. apply (NoDup_map_same (fun p => h (fst p)) l1).
  - replace (map (fun p => h (fst p)) l1) with (dkeys l'); auto. unfold dkeys. clear -F. induction F as [|? ? ? ? [E _] ? IH]; cbn [map]; [reflexivity |]. now rewrite E, IH.
  - eapply Permutation_in; eauto.
  - eapply Permutation_in; eauto.
  - exact E.
Qed.

(** *** Positions *)
Definition matches {A} (R : A -> A -> Prop) (p : nat -> nat) (l l' : list A) : Prop :=
  (forall i a, nth_error l i = Some a -> exists b, nth_error l' (p i) = Some b /\ R a b) /\
  Permutation (map p (seq 0 (length l))) (seq 0 (length l')).

Lemma Forall2_nth_l {A B} (R : A -> B -> Prop) l m : Forall2 R l m -> forall i a, nth_error l i = Some a -> exists b, nth_error m i = Some b /\ R a b.
Proof. induction 1; intros [|i] a E; cbn in *; try discriminate; [inversion E; subst; eauto | eauto]. Qed.

Lemma shuffled_matches {A} (R : A -> A -> Prop) l l' : shuffled R l l' -> exists p, matches R p l l'.
Proof.
  intros (l1 & P & F). apply Permutation_sym, Permutation_nth_error in P as (L & p & IN & E). pose proof (Forall2_len _ _ _ F) as L'. exists p.
  assert (GE : forall i a, nth_error l i = Some a -> exists b, nth_error l' (p i) = Some b /\ R a b).
  { intros i a J. rewrite E in J. exact (Forall2_nth_l _ _ _ F _ _ J). }
  split; auto. apply NoDup_Permutation_bis.
  - apply Injective_map_NoDup; auto. apply seq_NoDup.
  - rewrite map_length, !seq_length. lia.
  - intros j J. apply in_map_iff in J as (i & <- & J). apply in_seq in J. destruct (nth_error l i) as [a|] eqn:N.
    + destruct (GE i a N) as (b & B & _). apply in_seq. split; [lia |]. apply nth_error_Some. congruence.
    + apply nth_error_None in N. lia.
Qed.

Lemma sumi_seq {A} (u : nat -> A -> Q) l :
  (sumi u l == qsum (map (fun i => match nth_error l i with Some a => u i a | None => 0%Q end) (seq 0 (length l))))%Q.
Proof.
  revert u. induction l as [|a l IH]; intros u; [reflexivity |]. rewrite sumi_cons, IH. cbn [length seq map qsum fold_right nth_error].
  rewrite <- seq_shift, map_map. reflexivity.
Qed.

Lemma sumi_matches {A} (R : A -> A -> Prop) p (u v : nat -> A -> Q) l l' : matches R p l l' ->
  (forall i a b, nth_error l i = Some a -> nth_error l' (p i) = Some b -> R a b -> (u i a == v (p i) b)%Q) -> (sumi u l == sumi v l')%Q.
Proof.
  intros [M P] H. rewrite !sumi_seq.
  rewrite <- (qsum_perm _ _ (Permutation_map (fun i => match nth_error l' i with Some a => v i a | None => 0%Q end) P)), map_map.
  apply qsum_map_ext. intros i J. destruct (nth_error l i) as [a|] eqn:N.
  - destruct (M i a N) as (b & B & Rab). rewrite B. auto.
  - apply in_seq in J. apply nth_error_None in N. lia.
Qed.

Lemma stors_matches h scn scn' l l' : same_stors h scn scn' l l' -> exists p, matches (same_stor h scn scn') p l l' /\ p 0 = 0.
Proof.
  destruct l as [|a m], l' as [|b m']; cbn [same_stors]; try tauto.
  - intros _. exists (fun i => i). split; auto. split; [intros [|i] a; discriminate | constructor].
  - intros [H S]. destruct (shuffled_matches _ _ _ S) as (p & M & P). exists (fun i => match i with 0 => 0 | Datatypes.S j => Datatypes.S (p j) end).
    split; auto. split.
    + intros [|i] c; cbn [nth_error]; [intros [= <-]; eauto | intros E; destruct (M i c E) as (d & D & X); eauto].
    + cbn [length seq map]. apply perm_skip. rewrite <- !seq_shift, map_map. rewrite <- (map_map p Datatypes.S). now apply Permutation_map.
Qed.

Lemma choose_keys {B} (P : string * string -> B -> Prop) (d : B) ks : (forall k, In k ks -> exists b, P k b) -> exists F, forall k, In k ks -> P k (F k).
Proof.
  induction ks as [|k ks IH]; intros H; [exists (fun _ => d); intros k [] |].
  destruct IH as (F & G); [intros; apply H; cbn; auto |]. destruct (H k) as (b & Pb); [cbn; auto |].
  exists (fun k' => if pair_eqb k' k then b else F k'). intros k' J. destruct (pair_eqb k' k) eqn:E.
  - apply pair_eqb_eq in E. now subst.
  - destruct J as [<-|J]; auto. assert (X : pair_eqb k k = true) by now apply pair_eqb_eq. congruence.
Qed.

(** ** From the second study to the first *)
Section Back.
Variables (s s' : study) (scn scn' : nat) (f : string -> string) (g : string -> string -> string) (c : string -> string).
Hypothesis SU : same_under f g c s s' scn scn'.
Hypothesis RD : ready s.
Hypothesis RD' : ready s'.

Lemma net_there net ns : dget net (st_networks s) = Some ns -> exists ns', dget (f net) (st_networks s') = Some ns' /\
  shuffled (fun p q => fst q = g net (fst p) /\ same_node (st_horizon s) scn scn' g net (snd p) (snd q)) ns ns'.
Proof.
  intros D. apply dget_In in D. destruct (shuffled_In _ _ _ _ (su_networks _ _ _ _ _ _ _ SU) D) as ([k ns'] & J & E & H). cbn [fst snd] in *. subst k.
  exists ns'. split; auto. apply In_dget; auto. apply wf_networks, RD'.
Qed.
Lemma node_there net nd n : node_at s net nd = Some n -> exists n', node_at s' (f net) (g net nd) = Some n' /\ same_node (st_horizon s) scn scn' g net n n'.
Proof.
  unfold node_at at 1. destruct (dget net (st_networks s)) as [ns|] eqn:D; [| discriminate]. intros E. destruct (net_there _ _ D) as (ns' & D' & H).
  apply dget_In in E. destruct (shuffled_In _ _ _ _ H E) as ([k n'] & J & K & X). cbn [fst snd] in *. subst k. exists n'. split; auto.
  unfold node_at. rewrite D'. apply In_dget; auto. exact (wf_nodes _ (rd_wf _ RD') _ _ D').
Qed.
Lemma conv_there name v : conv_at s name = Some v -> exists v', conv_at s' (c name) = Some v' /\ same_conv (st_horizon s) scn scn' f g v v'.
Proof.
  intros D. apply dget_In in D. destruct (shuffled_In _ _ _ _ (su_convs _ _ _ _ _ _ _ SU) D) as ([k v'] & J & E & H). cbn [fst snd] in *. subst k.
  exists v'. split; auto. apply In_dget; auto. apply wf_convs, RD'.
Qed.

Lemma f_inj net1 net2 : has_network s net1 -> has_network s net2 -> f net1 = f net2 -> net1 = net2.
Proof.
  unfold has_network. destruct (dget net1 (st_networks s)) as [n1|] eqn:D1; [| tauto]. destruct (dget net2 (st_networks s)) as [n2|] eqn:D2; [| tauto].
  intros _ _ E. apply dget_In in D1, D2.
  assert (X : (net1, n1) = (net2, n2)) by (eapply (shuffled_inj f _ _ _ (wf_networks _ (rd_wf _ RD')) (su_networks _ _ _ _ _ _ _ SU)); eauto). congruence.
Qed.
Lemma g_inj net nd1 nd2 : has_node s net nd1 -> has_node s net nd2 -> g net nd1 = g net nd2 -> nd1 = nd2.
Proof.
  unfold has_node, node_at. destruct (dget net (st_networks s)) as [ns|] eqn:D; [| tauto].
  destruct (dget nd1 ns) as [n1|] eqn:D1; [| tauto]. destruct (dget nd2 ns) as [n2|] eqn:D2; [| tauto]. intros _ _ E.
  destruct (net_there _ _ D) as (ns' & D' & H). apply dget_In in D1, D2.
  assert (X : (nd1, n1) = (nd2, n2)) by (eapply (shuffled_inj (g net) _ _ _ (wf_nodes _ (rd_wf _ RD') _ _ D') H); eauto). congruence.
Qed.
Lemma c_inj name1 name2 : conv_at s name1 <> None -> conv_at s name2 <> None -> c name1 = c name2 -> name1 = name2.
Proof.
  unfold conv_at. destruct (dget name1 (st_converters s)) as [n1|] eqn:D1; [| tauto]. destruct (dget name2 (st_converters s)) as [n2|] eqn:D2; [| tauto].
  intros _ _ E. apply dget_In in D1, D2.
  assert (X : (name1, n1) = (name2, n2)) by (eapply (shuffled_inj c _ _ _ (wf_convs _ (rd_wf _ RD')) (su_convs _ _ _ _ _ _ _ SU)); eauto). congruence.
Qed.
Lemma has_node_network net nd : has_node s net nd -> has_network s net.
Proof. unfold has_node, has_network, node_at. destruct (dget net (st_networks s)); congruence. Qed.
Lemma node_eqb net nd1 nd2 : has_node s net nd1 -> has_node s net nd2 -> String.eqb (g net nd1) (g net nd2) = String.eqb nd1 nd2.
Proof.
  intros H K. destruct (String.eqb nd1 nd2) eqn:E.
  - apply String.eqb_eq in E. subst. apply String.eqb_refl.
  - apply String.eqb_neq in E. apply String.eqb_neq. intros X. apply E. eapply g_inj; eauto.
Qed.
Definition rekey (k : string * string) : string * string := (f (fst k), g (fst k) (snd k)).
Lemma rekey_inj k1 k2 : has_node s (fst k1) (snd k1) -> has_node s (fst k2) (snd k2) -> rekey k1 = rekey k2 -> k1 = k2.
Proof.
  destruct k1 as [a1 b1], k2 as [a2 b2]. unfold rekey. cbn [fst snd]. intros H K [= E1 E2].
  assert (a1 = a2) by (apply f_inj; eauto using has_node_network). subst a2. f_equal. eapply g_inj; eauto.
Qed.
Lemma rekey_eqb k1 k2 : has_node s (fst k1) (snd k1) -> has_node s (fst k2) (snd k2) -> pair_eqb (rekey k1) (rekey k2) = pair_eqb k1 k2.
Proof.
  intros H K. destruct (pair_eqb k1 k2) eqn:E.
  - apply pair_eqb_eq in E. subst. now apply pair_eqb_eq.
  - destruct (pair_eqb (rekey k1) (rekey k2)) eqn:X; auto. apply pair_eqb_eq in X. apply rekey_inj in X; auto. subst k2.
    assert (Y : pair_eqb k1 k1 = true) by now apply pair_eqb_eq. congruence.
Qed.
Lemma dest_eqb d1 d2 net nd : has_node s d1 d2 -> has_node s net nd ->
  String.eqb (f d1) (f net) && String.eqb (g d1 d2) (g net nd) = String.eqb d1 net && String.eqb d2 nd.
Proof.
  intros H K. pose proof (rekey_eqb (d1, d2) (net, nd) H K) as E. exact E.
Qed.
Lemma at_has net nd n : node_at s net nd = Some n -> has_node s net nd.
Proof. unfold has_node. congruence. Qed.
Lemma link_has net nd n l : node_at s net nd = Some n -> In l (n_links n) -> has_node s net (l_dest l).
Proof. intros N J. exact (wf_dests _ _ _ (wf_node _ (rd_wf _ RD) _ _ _ N) l J). Qed.
Lemma src_has name v k q : conv_at s name = Some v -> In (k, q) (v_src v) -> has_node s (fst k) (snd k).
Proof.
  intros V J. destruct k as [a b]. apply (wf_srcs _ _ _ (wf_conv _ (rd_wf _ RD) _ _ V)). unfold dkeys. apply in_map_iff. exists ((a, b), q). auto.
Qed.
Lemma conv_has name v : conv_at s name = Some v -> has_node s (v_dnet v) (v_dnode v).
Proof. intros V. apply (vr_dest _ _ (rd_conv _ RD _ _ V)). Qed.
Lemma convs_at a : In a (st_converters s) -> conv_at s (fst a) = Some (snd a).
Proof. intros J. destruct a. apply In_dget; auto. apply wf_convs, RD. Qed.

(** Where the elements of each node are. *)
Record places (net nd : string) (ps : (nat -> nat) * (nat -> nat) * (nat -> nat) * (nat -> nat)) : Prop := {
  pl_cons : forall n n', node_at s net nd = Some n -> node_at s' (f net) (g net nd) = Some n' ->
    matches (same_cons (st_horizon s) scn scn') (fst (fst (fst ps))) (n_cons n) (n_cons n');
  pl_prods : forall n n', node_at s net nd = Some n -> node_at s' (f net) (g net nd) = Some n' ->
    matches (same_prod (st_horizon s) scn scn') (snd (fst (fst ps))) (n_prods n) (n_prods n');
  pl_stors : forall n n', node_at s net nd = Some n -> node_at s' (f net) (g net nd) = Some n' ->
    matches (same_stor (st_horizon s) scn scn') (snd (fst ps)) (n_stors n) (n_stors n');
  pl_first : snd (fst ps) 0 = 0;
  pl_links : forall n n', node_at s net nd = Some n -> node_at s' (f net) (g net nd) = Some n' ->
    matches (same_link (st_horizon s) scn scn' g net) (snd ps) (n_links n) (n_links n')
}.
Lemma places_exist : exists F, forall net nd, has_node s net nd -> places net nd (F (net, nd)).
Proof.
  pose (ks := flat_map (fun a => map (fun p => (fst a, fst p)) (snd a)) (st_networks s)).
  destruct (choose_keys (fun k ps => places (fst k) (snd k) ps) (fun i => i, fun i => i, fun i => i, fun i => i) ks) as (F & H).
  - intros [net nd] J. cbn [fst snd]. apply in_flat_map in J as ([net1 ns] & J & K). apply in_map_iff in K as ([nd1 n] & [= <- <-] & K). cbn [fst snd] in *.
    pose proof (node_at_In s RD net1 ns nd1 n J K) as N. destruct (node_there _ _ _ N) as (n' & N' & [C P S L]).
    apply shuffled_matches in C as (pc & C), P as (pp & P), L as (pl & L). apply stors_matches in S as (ps & S & S0).
    exists (pc, pp, ps, pl). constructor; cbn [fst snd]; auto; intros m m' M M'; rewrite N in M; rewrite N' in M'; inversion M; inversion M'; subst; auto.
  - exists F. intros net nd HN. apply (H (net, nd)). unfold has_node in HN. destruct (node_at s net nd) as [n|] eqn:N; [| tauto].
    unfold node_at in N. destruct (dget net (st_networks s)) as [ns|] eqn:D; [| discriminate]. apply dget_In in D, N.
    apply in_flat_map. exists (net, ns). split; auto. apply in_map_iff. exists (nd, n). auto.
Qed.

Variable x' : var -> Q.
Variable F : string * string -> (nat -> nat) * (nat -> nat) * (nat -> nat) * (nat -> nat).
Hypothesis PL : forall net nd, has_node s net nd -> places net nd (F (net, nd)).
Hypothesis X' : xok s' scn' x'.

Definition back (v : var) : Q :=
  match v with
  | VLol net nd i t => x' (VLol (f net) (g net nd) (fst (fst (fst (F (net, nd)))) i) t)
  | VProd net nd i t => x' (VProd (f net) (g net nd) (snd (fst (fst (F (net, nd)))) i) t)
  | VCap net nd i t => x' (VCap (f net) (g net nd) (snd (fst (F (net, nd))) i) t)
  | VIn net nd i t => x' (VIn (f net) (g net nd) (snd (fst (F (net, nd))) i) t)
  | VOut net nd i t => x' (VOut (f net) (g net nd) (snd (fst (F (net, nd))) i) t)
  | VLink net nd i t => x' (VLink (f net) (g net nd) (snd (F (net, nd)) i) t)
  | VSrc name net nd t => x' (VSrc (c name) (f net) (g net nd) t)
  | VDest name t => x' (VDest (c name) t)
  end.

Ltac here net nd N n' N' SN P := destruct (node_there _ _ _ N) as (n' & N' & SN); pose proof (PL net nd (at_has _ _ _ N)) as P.

Lemma hor t : t < st_horizon s -> t < st_horizon s'.
Proof. rewrite (su_horizon _ _ _ _ _ _ _ SU). auto. Qed.

Lemma back_bounds : xbounds s scn back.
Proof.
  destruct X' as [[XC XP XS XL XR XD] _ _ _]. unfold within in *. constructor; unfold within; cbn [back].
  - intros t net nd n i a T N J. here net nd N n' N' SN P. destruct (proj1 (pl_cons _ _ _ P n n' N N') i a J) as (b & B & Q & _).
    specialize (XC t _ _ n' _ b (hor t T) N' B). rewrite (Q t T). exact XC.
  - intros t net nd n i a T N J. here net nd N n' N' SN P. destruct (proj1 (pl_prods _ _ _ P n n' N N') i a J) as (b & B & Q & _).
    specialize (XP t _ _ n' _ b (hor t T) N' B). rewrite (Q t T). exact XP.
  - intros t net nd n i a T N J. here net nd N n' N' SN P. destruct (proj1 (pl_stors _ _ _ P n n' N N') i a J) as (b & B & Q1 & Q2 & Q3 & _).
    specialize (XS t _ _ n' _ b (hor t T) N' B). rewrite (Q1 t T), (Q2 t T), (Q3 t T). exact XS.
  - intros t net nd n i a T N J. here net nd N n' N' SN P. destruct (proj1 (pl_links _ _ _ P n n' N N') i a J) as (b & B & _ & Q & _).
    specialize (XL t _ _ n' _ b (hor t T) N' B). rewrite (Q t T). exact XL.
  - intros t name v k q T V J. destruct (conv_there _ _ V) as (v' & V' & [SR _ _ MX _]). destruct (shuffled_In _ _ _ _ SR J) as ([k' q'] & J' & E & Q). cbn [fst snd] in E, Q.
    specialize (XR t _ v' k' q' (hor t T) V' J'). unfold vsrc in *. rewrite E in XR. cbn [fst snd back] in *. rewrite (Q t T), (MX t T). exact XR.
  - intros t name v T V. destruct (conv_there _ _ V) as (v' & V' & [_ _ _ MX _]). specialize (XD t _ v' (hor t T) V'). rewrite (MX t T). exact XD.
Qed.

Lemma back_node t net nd n n' : node_at s net nd = Some n -> node_at s' (f net) (g net nd) = Some n' ->
  (xnode back t net nd n == xnode x' t (f net) (g net nd) n')%Q.
Proof.
  intros N N'. pose proof (PL net nd (at_has _ _ _ N)) as P. unfold xnode.
  rewrite (sumi_matches _ _ _ (fun i _ => x' (VLol (f net) (g net nd) i t)) _ _ (pl_cons _ _ _ P _ _ N N')) by reflexivity.
  rewrite (sumi_matches _ _ _ (fun i _ => x' (VProd (f net) (g net nd) i t)) _ _ (pl_prods _ _ _ P _ _ N N')) by reflexivity.
  rewrite (sumi_matches _ _ _ (fun i _ => - x' (VIn (f net) (g net nd) i t) + x' (VOut (f net) (g net nd) i t))%Q _ _ (pl_stors _ _ _ P _ _ N N')) by reflexivity.
  rewrite (sumi_matches _ _ _ (fun i _ => x' (VLink (f net) (g net nd) i t)) _ _ (pl_links _ _ _ P _ _ N N')) by reflexivity.
  reflexivity.
Qed.

Lemma back_into t net nd nd0 n n' : has_node s net nd0 -> node_at s net nd = Some n -> node_at s' (f net) (g net nd) = Some n' ->
  (sumi (fun i l => if String.eqb (l_dest l) nd0 then back (VLink net nd i t) else 0%Q) (n_links n) ==
   sumi (fun i l => if String.eqb (l_dest l) (g net nd0) then x' (VLink (f net) (g net nd) i t) else 0%Q) (n_links n'))%Q.
Proof.
  intros H N N'. pose proof (PL net nd (at_has _ _ _ N)) as P.
  apply (sumi_matches _ _ _ _ _ _ (pl_links _ _ _ P _ _ N N')). intros i a b J _ (E & _). apply nth_error_In in J.
  rewrite E, node_eqb by eauto using link_has. reflexivity.
Qed.

Lemma back_import t net nd : has_node s net nd -> (ximport s back t net nd == ximport s' x' t (f net) (g net nd))%Q.
Proof.
  intros H. unfold ximport, nodes_in. destruct (dget net (st_networks s)) as [ns|] eqn:D; [| exfalso; apply has_node_network in H; apply H; auto].
  destruct (net_there _ _ D) as (ns' & D' & SH). rewrite D'. apply (qsum_shuffled _ _ _ _ _ SH). intros [nd1 n1] [nd2 n2] J J' [E SN]. cbn [fst snd] in *. subst nd2.
  apply back_into; auto; unfold node_at; [rewrite D | rewrite D']; apply In_dget; auto.
  - exact (wf_nodes _ (rd_wf _ RD) _ _ D).
  - exact (wf_nodes _ (rd_wf _ RD') _ _ D').
Qed.

Lemma back_convs t net nd : has_node s net nd ->
  (qsum (map (fun kv => xconv back t net nd (fst kv) (snd kv)) (st_converters s)) ==
   qsum (map (fun kv => xconv x' t (f net) (g net nd) (fst kv) (snd kv)) (st_converters s')))%Q.
Proof.
  intros H. apply (qsum_shuffled _ _ _ _ _ (su_convs _ _ _ _ _ _ _ SU)). intros [k v] [k' v'] J J' [E [SR E1 E2 _ _]]. cbn [fst snd] in *. subst k'.
  pose proof (convs_at _ J) as V. cbn [fst snd] in V. unfold xconv. rewrite E1, E2, dest_eqb by eauto using conv_has. apply Qplus_comp; [reflexivity |]. apply Qopp_comp.
  apply (qsum_shuffled _ _ _ _ _ SR). intros [k1 q1] [k2 q2] I1 I2 [E _]. cbn [fst snd] in *. subst k2.
  pose proof (rekey_eqb k1 (net, nd) (src_has _ _ _ _ V I1) H) as RK. unfold rekey in RK. cbn [fst snd] in RK. rewrite RK. destruct (pair_eqb k1 (net, nd)); reflexivity.
Qed.

Lemma back_ok : xok s scn back.
Proof.
  pose proof back_bounds as BB. destruct X' as [_ XB XS XM]. constructor; auto.
  - intros t net nd n T N. destruct (node_there _ _ _ N) as (n' & N' & SN). specialize (XB t _ _ n' (hor t T) N'). unfold xbalance, xself in *.
    pose proof (at_has _ _ _ N) as HN. rewrite (back_node _ _ _ _ _ N N'), back_convs, back_import, (back_into _ _ _ _ _ _ HN N N') by auto. rewrite XB.
    symmetry. apply (qsum_shuffled _ _ _ _ _ (sn_cons _ _ _ _ _ _ _ SN)). intros a b _ _ [Q _]. apply Q, T.
  - intros t net nd n T N. destruct (node_there _ _ _ N) as (n' & N' & SN). specialize (XS t _ _ n' (hor t T) N'). unfold xstorage in *.
    pose proof (pl_first _ _ _ (PL net nd (at_has _ _ _ N))) as P0. destruct SN as [_ _ SS _]. cbn [back]. rewrite P0.
    destruct (n_stors n) as [|y m], (n_stors n') as [|y' m']; cbn [same_stors] in SS; try tauto. destruct SS as [(_ & _ & _ & Q1 & Q2 & _) _].
    rewrite (Q2 t T). destruct t; [rewrite Q1 |]; exact XS.
  - intros t name v T V k q J. destruct (conv_there _ _ V) as (v' & V' & [SR _ _ _ _]). destruct (shuffled_In _ _ _ _ SR J) as ([k' q'] & J' & E & Q). cbn [fst snd] in E, Q.
    specialize (XM t _ v' (hor t T) V' k' q' J'). unfold vsrc in *. rewrite E in XM. cbn [fst snd back] in *. rewrite (Q t T). exact XM.
Qed.

Lemma back_cost : (xcost s scn back == xcost s' scn' x')%Q.
Proof.
  unfold xcost. rewrite (su_horizon _ _ _ _ _ _ _ SU). apply qsum_map_ext. intros t J. apply in_seq in J. assert (T : t < st_horizon s) by lia. apply Qplus_comp.
  - apply (qsum_shuffled _ _ _ _ _ (su_networks _ _ _ _ _ _ _ SU)). intros [net ns] [net' ns'] I1 I2 [E SH]. cbn [fst snd] in *. subst net'.
    apply (qsum_shuffled _ _ _ _ _ SH). intros [nd n] [nd' n'] J1 J2 [E SN]. cbn [fst snd] in *. subst nd'.
    pose proof (node_at_In s RD _ _ _ _ I1 J1) as N. pose proof (node_at_In s' RD' _ _ _ _ I2 J2) as N'. pose proof (PL net nd (at_has _ _ _ N)) as P.
    unfold ncost. repeat apply Qplus_comp.
    + apply (sumi_matches _ _ _ _ _ _ (pl_cons _ _ _ P _ _ N N')). intros i a b _ _ [_ Q]. cbn [back]. rewrite (Q t T). reflexivity.
    + apply (sumi_matches _ _ _ _ _ _ (pl_prods _ _ _ P _ _ N N')). intros i a b _ _ [_ Q]. cbn [back]. rewrite (Q t T). reflexivity.
    + apply (sumi_matches _ _ _ _ _ _ (pl_stors _ _ _ P _ _ N N')). intros i a b _ _ (_ & _ & _ & _ & _ & Q). cbn [back]. rewrite (Q t T). reflexivity.
    + apply (sumi_matches _ _ _ _ _ _ (pl_links _ _ _ P _ _ N N')). intros i a b _ _ (_ & _ & Q). cbn [back]. rewrite (Q t T). reflexivity.
  - apply (qsum_shuffled _ _ _ _ _ (su_convs _ _ _ _ _ _ _ SU)). intros [k v] [k' v'] _ _ [E [_ _ _ _ Q]]. cbn [fst snd back] in *. subst k'. rewrite (Q t T). reflexivity.
Qed.
End Back.

Theorem back_exists s s' scn scn' f g c x' : same_under f g c s s' scn scn' -> ready s -> ready s' -> xok s' scn' x' ->
  exists x, xok s scn x /\ (xcost s scn x == xcost s' scn' x')%Q.
Proof.
  intros SU RD RD' X'. destruct (places_exist _ _ _ _ _ _ _ SU RD RD') as (F & PL). exists (back f g c x' F). split.
  - eapply back_ok; eauto.
  - eapply back_cost; eauto.
Qed.

(** ** The relation goes both ways *)
Lemma alike_sym h scn scn' v w : alike h scn scn' v w -> alike h scn' scn w v.
Proof. intros H t T. symmetry. auto. Qed.
Lemma oalike_sym h scn scn' v w : oalike h scn scn' v w -> oalike h scn' scn w v.
Proof. intros H t T. symmetry. auto. Qed.
Local Hint Resolve alike_sym oalike_sym : alike.
Lemma same_stor_sym h scn scn' a b : same_stor h scn scn' a b -> same_stor h scn' scn b a.
Proof. intros (?&?&?&?&?&?). unfold same_stor. repeat (split; auto with alike). now symmetry. Qed.

Lemma same_sym f g c s s' scn scn' : same_under f g c s s' scn scn' -> ready s -> ready s' ->
  exists f' g' c', same_under f' g' c' s' s scn' scn.
Proof.
  intros SU RD RD'.
  pose (f' := fun k => match find (fun a => String.eqb (f (fst a)) k) (st_networks s) with Some a => fst a | None => k end).
  pose (g' := fun k nd => match find (fun p => String.eqb (g (f' k) (fst p)) nd) (nodes_in s (f' k)) with Some p => fst p | None => nd end).
  pose (c' := fun k => match find (fun a => String.eqb (c (fst a)) k) (st_converters s) with Some a => fst a | None => k end).
  assert (FF : forall net ns, dget net (st_networks s) = Some ns -> f' (f net) = net).
  { intros net ns D. unfold f'. destruct (find _ (st_networks s)) as [[net1 ns1]|] eqn:E.
    - apply find_some in E as [J E]. cbn [fst] in *. apply String.eqb_eq in E.
      apply (f_inj _ _ _ _ _ _ _ SU RD'); auto; unfold has_network; [| congruence]. rewrite (In_dget _ _ _ (wf_networks _ (rd_wf _ RD)) J). discriminate.
    - exfalso. apply dget_In in D. pose proof (find_none _ _ E _ D) as X. cbn [fst] in X. rewrite String.eqb_refl in X. discriminate. }
  assert (GG : forall net nd, has_node s net nd -> g' (f net) (g net nd) = nd).
  { intros net nd H. pose proof H as H0. unfold has_node, node_at in H0. destruct (dget net (st_networks s)) as [ns|] eqn:D; [| tauto].
    destruct (dget nd ns) as [n|] eqn:DN; [| tauto]. unfold g'. rewrite (FF _ _ D). unfold nodes_in. rewrite D. destruct (find _ ns) as [[nd1 n1]|] eqn:E.
    - apply find_some in E as [J E]. cbn [fst] in *. apply String.eqb_eq in E. apply (g_inj _ _ _ _ _ _ _ SU RD' net); auto.
      unfold has_node, node_at. rewrite D. rewrite (In_dget _ _ _ (wf_nodes _ (rd_wf _ RD) _ _ D) J). discriminate.
    - exfalso. apply dget_In in DN. pose proof (find_none _ _ E _ DN) as X. cbn [fst] in X. rewrite String.eqb_refl in X. discriminate. }
  assert (CC : forall k v, conv_at s k = Some v -> c' (c k) = k).
  { intros k v D. unfold c'. destruct (find _ (st_converters s)) as [[k1 v1]|] eqn:E.
    - apply find_some in E as [J E]. cbn [fst] in *. apply String.eqb_eq in E. apply (c_inj _ _ _ _ _ _ _ SU RD'); auto; [| congruence].
      unfold conv_at. rewrite (In_dget _ _ _ (wf_convs _ (rd_wf _ RD)) J). discriminate.
    - exfalso. apply dget_In in D. pose proof (find_none _ _ E _ D) as X. cbn [fst] in X. rewrite String.eqb_refl in X. discriminate. }
  exists f', g', c'. pose proof (su_horizon _ _ _ _ _ _ _ SU) as HH. constructor; auto; rewrite HH.
  - apply (shuffled_sym _ _ _ _ (su_networks _ _ _ _ _ _ _ SU)). intros [net ns] [net' ns'] J J' [E SH]. cbn [fst snd] in *. subst net'.
    pose proof (In_dget _ _ _ (wf_networks _ (rd_wf _ RD)) J) as D. rewrite (FF _ _ D). split; auto.
    apply (shuffled_sym _ _ _ _ SH). intros [nd n] [nd' n'] K K' [E [SC SP SS SL]]. cbn [fst snd] in *. subst nd'.
    pose proof (node_at_In s RD _ _ _ _ J K) as N. split. { symmetry. apply GG. unfold has_node. congruence. }
    constructor.
    + apply (shuffled_sym _ _ _ _ SC). intros a b _ _ [? ?]. split; auto with alike.
    + apply (shuffled_sym _ _ _ _ SP). intros a b _ _ [? ?]. split; auto with alike.
    + destruct (n_stors n), (n_stors n'); cbn [same_stors] in *; try tauto. destruct SS as [S0 SS]. split; [now apply same_stor_sym |].
      apply (shuffled_sym _ _ _ _ SS). intros a b _ _. apply same_stor_sym.
    + apply (shuffled_sym _ _ _ _ SL). intros a b I1 _ (E & ? & ?). split; [| split; auto with alike]. rewrite E. symmetry. apply GG.
      exact (wf_dests _ _ _ (wf_node _ (rd_wf _ RD) _ _ _ N) a I1).
  - apply (shuffled_sym _ _ _ _ (su_convs _ _ _ _ _ _ _ SU)). intros [k v] [k' v'] J _ [E [SR E1 E2 MX CO]]. cbn [fst snd] in *. subst k'.
    pose proof (convs_at _ RD _ J) as V. cbn [fst snd] in V. split. { symmetry. eapply CC; eauto. }
    pose proof (conv_has _ RD _ _ V) as HD. assert (DF : forall net nd, has_node s net nd -> f' (f net) = net).
    { intros net nd H. apply has_node_network in H. unfold has_network in H. destruct (dget net (st_networks s)) eqn:D; [eauto | tauto]. }
    constructor; auto with alike.
    + apply (shuffled_sym _ _ _ _ SR). intros [[a1 a2] q1] [k2 q2] I1 _ [E Q]. cbn [fst snd] in *. subst k2. cbn [fst snd].
      pose proof (src_has _ RD _ _ _ _ V I1) as H. cbn [fst snd] in H. rewrite (DF _ _ H), (GG _ _ H). split; auto with alike.
    + rewrite E1. symmetry. eauto.
    + rewrite E1, E2. symmetry. auto.
Qed.

(** ** C99 *)
Lemma same_costs s s' scn scn' : api_study s -> api_study s' -> usable_converters s -> usable_converters s' ->
  scn < st_nb_scn s -> scn' < st_nb_scn s' -> same_system s s' scn scn' -> forall x', satisfies (program_of s' scn') x' ->
  exists x, satisfies (program_of s scn) x /\ (objective (program_of s scn) x == objective (program_of s' scn') x')%Q.
Proof.
  intros A A' U U' S S' (f & g & c & SU) x' X'. pose proof (api_ready s A U) as R. pose proof (api_ready s' A' U') as R'.
  destruct (build_ok s scn S R) as (p & B & _). destruct (build_ok s' scn' S' R') as (p' & B' & _).
  unfold program_of in *. rewrite B. rewrite B' in X' |- *. apply (sat_iff s' scn' S' R' _ _ _ B') in X'.
  destruct (back_exists _ _ _ _ _ _ _ _ SU R R' X') as (x & X & E). exists x. split; [now apply (sat_iff s scn S R _ _ _ B) |].
  rewrite (objective_value s scn S R _ _ _ B), (objective_value s' scn' S' R' _ _ _ B'). exact E.
Qed.
Lemma same_system_sym s s' scn scn' : api_study s -> api_study s' -> usable_converters s -> usable_converters s' ->
  same_system s s' scn scn' -> same_system s' s scn' scn.
Proof.
  intros A A' U U' (f & g & c & SU). exact (same_sym _ _ _ _ _ _ _ SU (api_ready s A U) (api_ready s' A' U')).
Qed.

(** Whatever the names, whatever the order of declarations (the first storage of each node
    apart), the dispatches of both systems cost the same: each dispatch of the one is matched by
    one of the other. *)
Theorem C99_same_dispatches_partial : forall s s' scn scn', api_study s -> api_study s' -> usable_converters s -> usable_converters s' ->
  scn < st_nb_scn s -> scn' < st_nb_scn s' -> same_system s s' scn scn' -> forall cost,
  (exists r, mirrors s r /\ law_ok s r scn /\ (total_cost s r scn == cost)%Q) <->
  (exists r', mirrors s' r' /\ law_ok s' r' scn' /\ (total_cost s' r' scn' == cost)%Q).
Proof.
  assert (W : forall s s' scn scn', api_study s -> api_study s' -> usable_converters s -> usable_converters s' ->
    scn < st_nb_scn s -> scn' < st_nb_scn s' -> same_system s s' scn scn' -> forall cost,
    (exists r', mirrors s' r' /\ law_ok s' r' scn' /\ (total_cost s' r' scn' == cost)%Q) ->
    exists r, mirrors s r /\ law_ok s r scn /\ (total_cost s r scn == cost)%Q).
  { intros s s' scn scn' A A' U U' S S' SS cost (r' & M' & L' & C').
    destruct (C15_program_exact s scn A U S) as (_ & _ & XD & D). destruct (C15_program_exact s' scn' A' U' S') as (_ & DX' & _ & D').
    destruct (DX' r' M') as (x' & CA'). destruct (D' r' x' M' CA') as [DF' DO']. apply DF' in L'.
    destruct (same_costs s s' scn scn' A A' U U' S S' SS x' L') as (x & X & E). destruct (XD x) as (r & M & CA). destruct (D r x M CA) as [DF DO].
    exists r. split; auto. split; [now apply DF |]. rewrite <- DO, E, DO'. exact C'. }
  intros s s' scn scn' A A' U U' S S' SS cost. split.
  - apply (W s' s scn' scn A' A U' U S' S). now apply same_system_sym.
  - now apply (W s s' scn scn').
Qed.

Theorem C99_same_optimum_partial : forall answer answer' s s' r r' scn scn', api_study s -> api_study s' ->
  same_system s s' scn scn' -> scn < st_nb_scn s -> scn' < st_nb_scn s' ->
  solved answer s r -> solved answer' s' r' -> optimal_answer answer s scn -> optimal_answer answer' s' scn' ->
  (total_cost s r scn == total_cost s' r' scn')%Q.
Proof.
  assert (W : forall answer answer' s s' r r' scn scn', api_study s -> api_study s' ->
    same_system s s' scn scn' -> scn < st_nb_scn s -> scn' < st_nb_scn s' ->
    solved answer s r -> solved answer' s' r' -> optimal_answer answer s scn -> optimal_answer answer' s' scn' ->
    (total_cost s r scn <= total_cost s' r' scn')%Q).
  { intros answer answer' s s' r r' scn scn' A A' (f & g & c & SU) S S' SV SV' [F Best] [F' _].
    destruct (solved_weak _ _ _ A SV) as (R & M & C). destruct (C scn S) as ((vs & B) & CA & _).
    destruct (solved_weak _ _ _ A' SV') as (R' & M' & C'). destruct (C' scn' S') as ((vs' & B') & CA' & _).
    rewrite (cost_eq s r R M scn _ CA), (cost_eq s' r' R' M' scn' _ CA').
    apply (sat_iff s' scn' S' R' _ vs' _ B') in F'. destruct (back_exists _ _ _ _ _ _ _ _ SU R R' F') as (x & X & E). rewrite <- E.
    apply (sat_iff s scn S R _ vs _ B) in X. specialize (Best _ X). rewrite !(objective_value s scn S R _ vs _ B) in Best. exact Best. }
  intros answer answer' s s' r r' scn scn' A A' SS S S' SV SV' O O'. apply Qle_antisym.
  - now apply (W answer answer').
  - apply (W answer' answer); auto. destruct (solved_weak _ _ _ A SV) as (R & _). destruct (solved_weak _ _ _ A' SV') as (R' & _).
    destruct SS as (f & g & c & SU). exact (same_sym _ _ _ _ _ _ _ SU R R').
Qed.

(** ** The same system told twice *)
Definition told_calls : list call :=
  [ OnStudy_network "net"; OnSel 0 (MNode "a"); OnSel 1 (MConsumption "load" (jn 100) (jn 10)); OnSel 2 (MProduction "gas" (jn 30) (jn 8));
    OnSel 3 (MProduction "coal" (jn 20) (jn 5));
    OnSel 4 (MStorage "cell" (jn 4) (jn 2) (jn 2) (jn 1) 0%Q (PJson (JNum (1 # 2))));
    OnSel 5 (MStorage "x" (jn 1) (jn 2) (jn 1) (jn 1) 0%Q (jn 1)); OnSel 6 (MStorage "y" (jn 1) (jn 3) (jn 2) (jn 2) 0%Q (jn 1));
    OnSel 7 (MNode "b"); OnSel 8 (MProduction "wind" (jn 1) (jn 3)); OnSel 9 (MLink "b" "a" (jn 2) (jn 9));
    OnSel 10 (MNetwork "gas"); OnSel 11 (MNode "g"); OnSel 12 (MProduction "well" (jn 4) (jn 10));
    OnSel 13 (MToConverter "plant" (PJson (JNum (1 # 2)))); OnSel 14 (MConverter "plant" "net" "a" (jn 2) (jn 3)) ].
Definition again_calls : list call :=
  [ OnStudy_network "methane"; OnSel 0 (MNode "pit"); OnSel 1 (MProduction "hole" (jn 4) (jn 10)); OnSel 2 (MToConverter "motor" (PJson (JNum (1 # 2))));
    OnSel 3 (MNetwork "power"); OnSel 4 (MNode "south"); OnSel 5 (MProduction "mill" (jn 1) (jn 3)); OnSel 6 (MNode "north");
    OnSel 7 (MStorage "first" (jn 4) (jn 2) (jn 2) (jn 1) 0%Q (PJson (JNum (1 # 2))));
    OnSel 8 (MProduction "second" (jn 20) (jn 5)); OnSel 9 (MProduction "third" (jn 30) (jn 8));
    OnSel 10 (MStorage "big" (jn 1) (jn 3) (jn 2) (jn 2) 0%Q (jn 1)); OnSel 11 (MStorage "little" (jn 1) (jn 2) (jn 1) (jn 1) 0%Q (jn 1));
    OnSel 12 (MConsumption "town" (jn 100) (jn 10)); OnSel 13 (MLink "south" "north" (jn 2) (jn 9)); OnSel 14 (MConverter "motor" "power" "north" (jn 2) (jn 3)) ].
Definition told : study := Eval vm_compute in w_study (run (start 1 1 None) told_calls).
Definition again : study := Eval vm_compute in w_study (run (start 1 1 None) again_calls).
Lemma told_api : api_study told.
Proof. exists 1, 1, None, told_calls. split; [lia|]. split; [lia|]. split; [plain_tac | vm_compute; reflexivity]. Qed.
Lemma again_api : api_study again.
Proof. exists 1, 1, None, again_calls. split; [lia|]. split; [lia|]. split; [plain_tac | vm_compute; reflexivity]. Qed.

Ltac shuffle_tac :=
  lazymatch goal with
  | |- Forall2 _ [] [] => apply Forall2_nil
  | |- Forall2 _ _ _ => apply Forall2_cons; shuffle_tac
  | |- shuffled _ [] [] => exists []; split; [apply Permutation_refl | shuffle_tac]
  | |- shuffled _ [?a] [_] => exists [a]; split; [apply Permutation_refl | shuffle_tac]
  | |- shuffled _ [?a; ?b] [_; _] => exists [b; a]; split; [apply perm_swap | shuffle_tac]
  | |- same_stors _ _ _ _ _ => unfold same_stors; shuffle_tac
  | |- same_stor _ _ _ _ _ => unfold same_stor; shuffle_tac
  | |- same_node _ _ _ _ _ _ _ => constructor; unfold fst, snd; unfold n_cons, n_prods, n_stors, n_links; shuffle_tac
  | |- same_conv _ _ _ _ _ _ _ => constructor; unfold fst, snd; unfold v_src; shuffle_tac
  | |- _ /\ _ => split; unfold fst, snd; shuffle_tac
  | |- alike _ _ _ _ _ => intros t T; replace t with 0 by (cbn in T; lia); vm_compute; reflexivity
  | |- oalike _ _ _ _ _ => intros t T; replace t with 0 by (cbn in T; lia); vm_compute; reflexivity
  | |- _ => idtac
  end.
Definition new_net (k : string) : string := if String.eqb k "net" then "power" else "methane".
Definition new_node (_ : string) (k : string) : string := if String.eqb k "a" then "north" else if String.eqb k "b" then "south" else "pit".
Lemma told_again : same_system told again 0 0.
Proof.
  exists new_net, new_node, (fun _ => "motor"). constructor.
  - reflexivity.
  - unfold told, again, st_networks, st_horizon. shuffle_tac; vm_compute; auto.
  - unfold told, again, st_converters, st_horizon. shuffle_tac; vm_compute; auto.
Qed.

Definition told_x (v : var) : Q :=
  match v with
  | VProd _ "a" 1 _ => 2 | VOut _ _ 1 _ => 1 | VOut _ _ 2 _ => 2 | VProd _ "b" _ _ => 3 | VLink _ _ _ _ => 3
  | VProd _ "g" _ _ => 4 | VSrc _ _ _ _ => 4 | VDest _ _ => 2 | _ => 0 end%Q.
Definition again_x (v : var) : Q :=
  match v with
  | VProd _ "north" 0 _ => 2 | VOut _ _ 1 _ => 2 | VOut _ _ 2 _ => 1 | VProd _ "south" _ _ => 3 | VLink _ _ _ _ => 3
  | VProd _ "pit" _ _ => 4 | VSrc _ _ _ _ => 4 | VDest _ _ => 2 | _ => 0 end%Q.
Definition told_answer (_ : nat) (_ : solver) : var -> Q := told_x.
Definition again_answer (_ : nat) (_ : solver) : var -> Q := again_x.
Lemma told_optimal : optimal_answer told_answer told 0. Proof. best_tac (program_of told 0). Qed.
Lemma again_optimal : optimal_answer again_answer again 0. Proof. best_tac (program_of again 0). Qed.
Definition told_result : result := Eval vm_compute in
  match solve_lp told_answer [0] no_bench told with Ok r => r | Err _ => Result [] [] no_bench end.
Definition again_result : result := Eval vm_compute in
  match solve_lp again_answer [0] no_bench again with Ok r => r | Err _ => Result [] [] no_bench end.
Example C99_example : api_study told /\ api_study again /\ usable_converters told /\ usable_converters again /\ same_system told again 0 0 /\
  solved told_answer told told_result /\ solved again_answer again again_result /\
  optimal_answer told_answer told 0 /\ optimal_answer again_answer again 0 /\
  (total_cost told told_result 0 == 71)%Q /\ (total_cost again again_result 0 == 71)%Q.
Proof.
  split; [apply told_api |]. split; [apply again_api |]. split; [apply usableb_ok; vm_compute; reflexivity |]. split; [apply usableb_ok; vm_compute; reflexivity |].
  split; [apply told_again |].
  split. { exists [0], no_bench. split; [reflexivity | vm_compute; reflexivity]. }
  split. { exists [0], no_bench. split; [reflexivity | vm_compute; reflexivity]. }
  split; [apply told_optimal |]. split; [apply again_optimal |]. split; vm_compute; reflexivity.
Qed.

(** The order of storages matters: the first of a node alone keeps its content, the others
    give what they do not hold. *)
Definition pile_calls (a b : meth) : list call :=
  [ OnStudy_network "net"; OnSel 0 (MNode "a"); OnSel 1 (MConsumption "load" (jn 100) (jn 10)); OnSel 2 a; OnSel 3 b ].
Definition hold := MStorage "hold" (jn 10) (jn 0) (jn 10) (jn 0) 0%Q (jn 1).
Definition idle := MStorage "idle" (jn 10) (jn 0) (jn 0) (jn 0) 0%Q (jn 1).
Definition pile : study := Eval vm_compute in w_study (run (start 1 1 None) (pile_calls hold idle)).
Definition piled : study := Eval vm_compute in w_study (run (start 1 1 None) (pile_calls idle hold)).
Definition pile_answer (_ : nat) (_ : solver) : var -> Q := fun v => match v with VLol _ _ _ _ => 10 | _ => 0 end%Q.
Definition piled_answer (_ : nat) (_ : solver) : var -> Q := fun v => match v with VOut _ _ 1 _ => 10 | _ => 0 end%Q.
Lemma pile_optimal : optimal_answer pile_answer pile 0. Proof. best_tac (program_of pile 0). Qed.
Lemma piled_optimal : optimal_answer piled_answer piled 0. Proof. best_tac (program_of piled 0). Qed.
Definition pile_result : result := Eval vm_compute in
  match solve_lp pile_answer [0] no_bench pile with Ok r => r | Err _ => Result [] [] no_bench end.
Definition piled_result : result := Eval vm_compute in
  match solve_lp piled_answer [0] no_bench piled with Ok r => r | Err _ => Result [] [] no_bench end.
Theorem C99_storage_order_refuted : exists s s' answer answer' r r' net nd n n' y z,
  api_study s /\ api_study s' /\ st_horizon s' = st_horizon s /\ st_networks s = [(net, [(nd, n)])] /\ st_networks s' = [(net, [(nd, n')])] /\
  st_converters s = [] /\ st_converters s' = [] /\
  n_cons n' = n_cons n /\ n_prods n' = n_prods n /\ n_links n' = n_links n /\ n_stors n = [y; z] /\ n_stors n' = [z; y] /\
  solved answer s r /\ solved answer' s' r' /\ optimal_answer answer s 0 /\ optimal_answer answer' s' 0 /\
  (total_cost s' r' 0 < total_cost s r 0)%Q.
Proof.
  exists pile, piled, pile_answer, piled_answer, pile_result, piled_result. unfold pile at 3, piled at 3. cbn [st_networks]. do 6 eexists.
  split. { exists 1, 1, None, (pile_calls hold idle). split; [lia|]. split; [lia|]. split; [plain_tac | vm_compute; reflexivity]. }
  split. { exists 1, 1, None, (pile_calls idle hold). split; [lia|]. split; [lia|]. split; [plain_tac | vm_compute; reflexivity]. }
  split; [reflexivity |]. split; [reflexivity |]. split; [reflexivity |]. split; [reflexivity |]. split; [reflexivity |].
  split; [reflexivity |]. split; [reflexivity |]. split; [reflexivity |]. split; [reflexivity |]. split; [reflexivity |].
  split. { exists [0], no_bench. split; [reflexivity | vm_compute; reflexivity]. }
  split. { exists [0], no_bench. split; [reflexivity | vm_compute; reflexivity]. }
  split; [apply pile_optimal |]. split; [apply piled_optimal |]. vm_compute. reflexivity.
Qed.

Print Assumptions C99_same_dispatches_partial.
Print Assumptions C99_same_optimum_partial.
Print Assumptions C99_storage_order_refuted.
