(** Property C104: solving in stages. *)
From Coq Require Import String List ZArith QArith Bool Arith Lia Lqa Permutation.
From Verif Require Import Base BaseFacts Numeric Study Fluent SpecStudy StudyFacts Output Json SpecJson JsonFacts P_Json
  LP SpecLP LPFacts LPBuild LPSat LPResult LPSolve LPReady LPOpt LPWeak LPMore P_LP P_Opt P_Accept P_More P_Solvable P_Law P_Mean SpecRename P_Rename SpecBounds P_Bounds SpecRolling.
Import ListNotations.
Open Scope nat_scope.
Open Scope string_scope.
Open Scope list_scope.

(** ** Constraints of one time *)
Record okat (s : study) (scn : nat) (x : var -> Q) (t : nat) (c : string -> string -> Q) : Prop := {
  oa_cons : forall net nd n i e, node_at s net nd = Some n -> nth_error (n_cons n) i = Some e -> within 0 (x (VLol net nd i t)) (value (c_qty e) scn t);
  oa_prods : forall net nd n i e, node_at s net nd = Some n -> nth_error (n_prods n) i = Some e -> within 0 (x (VProd net nd i t)) (value (p_qty e) scn t);
  oa_stors : forall net nd n i e, node_at s net nd = Some n -> nth_error (n_stors n) i = Some e ->
    within 0 (x (VCap net nd i t)) (value (s_capacity e) scn t) /\ within 0 (x (VIn net nd i t)) (value (s_flow_in e) scn t) /\
    within 0 (x (VOut net nd i t)) (value (s_flow_out e) scn t);
  oa_links : forall net nd n i e, node_at s net nd = Some n -> nth_error (n_links n) i = Some e -> within 0 (x (VLink net nd i t)) (value (l_qty e) scn t);
  oa_src : forall name v k q, conv_at s name = Some v -> In (k, q) (v_src v) -> within 0 (x (vsrc name t k)) (ovalue (v_max v) scn t / value q scn t);
  oa_dest : forall name v, conv_at s name = Some v -> within 0 (x (VDest name t)) (ovalue (v_max v) scn t);
  oa_balance : forall net nd n, node_at s net nd = Some n -> xbalance s scn x t net nd n;
  oa_storage : forall net nd n y ys, node_at s net nd = Some n -> n_stors n = y :: ys ->
    (x (VCap net nd 0 t) == c net nd + value (s_eff y) scn t * x (VIn net nd 0 t) - x (VOut net nd 0 t))%Q;
  oa_mix : forall name v, conv_at s name = Some v -> xmix scn x t name v
}.
(** Content of the first storage before a time. *)
Definition init_of (s : study) (net nd : string) : Q :=
  match node_at s net nd with Some n => match n_stors n with y :: _ => s_init y | [] => 0%Q end | None => 0%Q end.
Definition before_time (s : study) (x : var -> Q) (t : nat) (net nd : string) : Q :=
  match t with O => init_of s net nd | Datatypes.S j => x (VCap net nd 0 j) end.

Lemma xok_times s scn x : xok s scn x <-> forall t, t < st_horizon s -> okat s scn x t (before_time s x t).
Proof.
  split.
  - intros [[B1 B2 B3 B4 B5 B6] X2 X3 X4] t T. constructor; eauto.
    intros net nd n y ys N Y. specialize (X3 t net nd n T N). unfold xstorage in X3. rewrite Y in X3. unfold before_time, init_of. destruct t; [rewrite N, Y |]; exact X3.
  - intros H. constructor; [constructor | ..].
    + intros t net nd n i e T. exact (oa_cons _ _ _ _ _ (H t T) net nd n i e).
    + intros t net nd n i e T. exact (oa_prods _ _ _ _ _ (H t T) net nd n i e).
    + intros t net nd n i e T. exact (oa_stors _ _ _ _ _ (H t T) net nd n i e).
    + intros t net nd n i e T. exact (oa_links _ _ _ _ _ (H t T) net nd n i e).
    + intros t name v k q T. exact (oa_src _ _ _ _ _ (H t T) name v k q).
    + intros t name v T. exact (oa_dest _ _ _ _ _ (H t T) name v).
    + intros t net nd n T. exact (oa_balance _ _ _ _ _ (H t T) net nd n).
    + intros t net nd n T N. unfold xstorage. destruct (n_stors n) as [| y ys] eqn:Y; [exact Logic.I |].
      pose proof (oa_storage _ _ _ _ _ (H t T) net nd n y ys N Y) as Z. unfold before_time, init_of in Z. destruct t; [rewrite N, Y in Z |]; exact Z.
    + intros t name v T. exact (oa_mix _ _ _ _ _ (H t T) name v).
Qed.

(** ** From a time of one study to a time of another *)
Definition at_time (t : nat) (v : var) : var :=
  match v with
  | VLol a b i _ => VLol a b i t | VProd a b i _ => VProd a b i t | VCap a b i _ => VCap a b i t | VIn a b i _ => VIn a b i t
  | VOut a b i _ => VOut a b i t | VLink a b i _ => VLink a b i t | VSrc a b c _ => VSrc a b c t | VDest a _ => VDest a t
  end.
Definition moved (x x' : var -> Q) (t t' : nat) : Prop := forall v, (x' (at_time t' v) == x (at_time t v))%Q.

Lemma sumi_pair {A B} (P : A -> B -> Prop) (f : nat -> A -> Q) (g : nat -> B -> Q) l m : Forall2 P l m ->
  (forall i a b, P a b -> (f i a == g i b)%Q) -> (sumi f l == sumi g m)%Q.
Proof.
  intros F H. unfold sumi. generalize 0. induction F as [| a b l m Pab F IH]; intros k; cbn [mapi qsum fold_right]; [reflexivity |].
  apply Qplus_comp; [auto | apply IH].
Qed.
Lemma qsum_pair {A B} (P : A -> B -> Prop) (f : A -> Q) (g : B -> Q) l m : Forall2 P l m ->
  (forall a b, P a b -> (f a == g b)%Q) -> (qsum (map f l) == qsum (map g m))%Q.
Proof. intros F H. induction F; cbn [map qsum fold_right]; [reflexivity |]. apply Qplus_comp; auto. Qed.
Lemma Forall2_back {A B} (P : A -> B -> Prop) l m i y : Forall2 P l m -> nth_error m i = Some y -> exists x, nth_error l i = Some x /\ P x y.
Proof. intros F. revert i. induction F as [| a c l m Pac F IH]; intros [| i] E; simpl in *; try discriminate; eauto. inversion E; subst. eauto. Qed.

Lemma same_value_sym scn scn' t t' v v' : same_value scn scn' t t' v v' -> same_value scn' scn t' t v' v.
Proof. unfold same_value. intros H. now symmetry. Qed.
Lemma same_ovalue_sym scn scn' t t' v v' : same_ovalue scn scn' t t' v v' -> same_ovalue scn' scn t' t v' v.
Proof. unfold same_ovalue. intros H. now symmetry. Qed.
Lemma Forall2_turn {A B} (R : A -> B -> Prop) (R' : B -> A -> Prop) l m : Forall2 R l m -> (forall a b, R a b -> R' b a) -> Forall2 R' m l.
Proof. induction 1; constructor; auto. Qed.
Lemma same_at_sym scn scn' t t' s s' : same_at scn scn' t t' s s' -> same_at scn' scn t' t s' s.
Proof.
  intros [N C]. constructor.
  - eapply Forall2_turn; [exact N |]. intros a b [E F]. split; auto. eapply Forall2_turn; [exact F |]. intros d e [E2 [A1 A2 A3 A4]]. split; auto. constructor.
    + eapply Forall2_turn; [exact A1 |]. intros u v (? & ?). auto using same_value_sym.
    + eapply Forall2_turn; [exact A2 |]. intros u v (? & ?). auto using same_value_sym.
    + eapply Forall2_turn; [exact A3 |]. intros u v (? & ? & ? & ? & ?). auto 10 using same_value_sym.
    + eapply Forall2_turn; [exact A4 |]. intros u v (? & ? & ?). auto using same_value_sym.
  - eapply Forall2_turn; [exact C |]. intros a b [E (F & ? & ? & ? & ?)]. split; auto. unfold conv_same. repeat split; auto using same_ovalue_sym.
    eapply Forall2_turn; [exact F |]. intros u v [? ?]. auto using same_value_sym.
Qed.

Section Move.
Variables (s s' : study) (scn scn' t t' : nat) (x x' : var -> Q).
Hypothesis SA : same_at scn scn' t t' s s'.
Hypothesis MV : moved x x' t t'.

Lemma mv_lol net nd i : (x' (VLol net nd i t') == x (VLol net nd i t))%Q. Proof. exact (MV (VLol net nd i 0)). Qed.
Lemma mv_prod net nd i : (x' (VProd net nd i t') == x (VProd net nd i t))%Q. Proof. exact (MV (VProd net nd i 0)). Qed.
Lemma mv_cap net nd i : (x' (VCap net nd i t') == x (VCap net nd i t))%Q. Proof. exact (MV (VCap net nd i 0)). Qed.
Lemma mv_in net nd i : (x' (VIn net nd i t') == x (VIn net nd i t))%Q. Proof. exact (MV (VIn net nd i 0)). Qed.
Lemma mv_out net nd i : (x' (VOut net nd i t') == x (VOut net nd i t))%Q. Proof. exact (MV (VOut net nd i 0)). Qed.
Lemma mv_link net nd i : (x' (VLink net nd i t') == x (VLink net nd i t))%Q. Proof. exact (MV (VLink net nd i 0)). Qed.
Lemma mv_src name k : (x' (vsrc name t' k) == x (vsrc name t k))%Q. Proof. exact (MV (VSrc name (fst k) (snd k) 0)). Qed.
Lemma mv_dest name : (x' (VDest name t') == x (VDest name t))%Q. Proof. exact (MV (VDest name 0)). Qed.

Lemma mv_nodes net : Forall2 (fun d e : string * node => fst e = fst d /\ node_same scn scn' t t' (snd d) (snd e)) (nodes_in s net) (nodes_in s' net).
Proof.
  pose (R := fun (_ : string) (ns ns' : network) => Forall2 (fun c d : string * node => fst d = fst c /\ node_same scn scn' t t' (snd c) (snd d)) ns ns').
  pose proof (Forall2_dget R (st_networks s) (st_networks s') net (sa_nodes _ _ _ _ _ _ SA)) as D. unfold R in D. unfold nodes_in.
  destruct (dget net (st_networks s)), (dget net (st_networks s')); try contradiction; [exact D | constructor].
Qed.
Lemma mv_node net nd n' : node_at s' net nd = Some n' -> exists n, node_at s net nd = Some n /\ node_same scn scn' t t' n n'.
Proof.
  intros N. pose proof (mv_nodes net) as D. unfold nodes_in in D. unfold node_at in *.
  pose (R := fun (_ : string) (ns ns' : network) => Forall2 (fun c d : string * node => fst d = fst c /\ node_same scn scn' t t' (snd c) (snd d)) ns ns').
  pose proof (Forall2_dget R (st_networks s) (st_networks s') net (sa_nodes _ _ _ _ _ _ SA)) as P.
  destruct (dget net (st_networks s')) as [ns'|]; [| discriminate]. destruct (dget net (st_networks s)) as [ns|]; [| contradiction].
  pose proof (Forall2_dget (fun _ => node_same scn scn' t t') ns ns' nd D) as E. rewrite N in E. destruct (dget nd ns) as [n|]; [eauto | contradiction].
Qed.
Lemma mv_conv name v' : conv_at s' name = Some v' -> exists v, conv_at s name = Some v /\ conv_same scn scn' t t' v v'.
Proof.
  intros V. pose proof (Forall2_dget (fun _ => conv_same scn scn' t t') _ _ name (sa_convs _ _ _ _ _ _ SA)) as D. unfold conv_at in *. rewrite V in D.
  destruct (dget name (st_converters s)) as [v|]; [eauto | contradiction].
Qed.

Lemma mv_cost : (tcost s scn x t == tcost s' scn' x' t')%Q.
Proof.
  unfold tcost. apply Qplus_comp.
  - eapply qsum_pair; [apply SA |]. intros [net ns] [net2 ns'] [E F]. cbn [fst snd] in *. subst net2. eapply qsum_pair; [exact F |].
    intros [nd n] [nd2 n'] [E [A1 A2 A3 A4]]. cbn [fst snd] in *. subst nd2. unfold ncost. repeat apply Qplus_comp.
    + eapply sumi_pair; [exact A1 |]. intros i a b [_ H]. unfold same_value, same_ovalue in H. rewrite mv_lol, H. reflexivity.
    + eapply sumi_pair; [exact A2 |]. intros i a b [_ H]. unfold same_value, same_ovalue in H. rewrite mv_prod, H. reflexivity.
    + eapply sumi_pair; [exact A3 |]. intros i a b (_ & _ & _ & _ & H). unfold same_value, same_ovalue in H. rewrite mv_cap, H. reflexivity.
    + eapply sumi_pair; [exact A4 |]. intros i a b (_ & _ & H). unfold same_value, same_ovalue in H. rewrite mv_link, H. reflexivity.
  - eapply qsum_pair; [apply SA |]. intros [a v] [b v'] [E (_ & _ & _ & _ & H)]. cbn [fst snd] in *. subst b. unfold same_value, same_ovalue in H. rewrite mv_dest, H. reflexivity.
Qed.

Lemma mv_balance net nd n n' : node_same scn scn' t t' n n' -> xbalance s scn x t net nd n -> xbalance s' scn' x' t' net nd n'.
Proof.
  intros [A1 A2 A3 A4] B. unfold xbalance in *.
  assert (L : (qsum (map (fun c => value (c_qty c) scn t) (n_cons n)) == qsum (map (fun c => value (c_qty c) scn' t') (n_cons n')))%Q)
    by (eapply qsum_pair; [exact A1 |]; intros a b [H _]; exact H).
  rewrite <- L, <- B. clear B L. apply Qplus_comp; [apply Qplus_comp; [apply Qplus_comp |] |].
  - unfold xnode. apply Qplus_comp; [apply Qplus_comp; [apply Qplus_comp |] | apply Qopp_comp]; symmetry.
    + eapply sumi_pair; [exact A1 |]. intros i _ _ _. symmetry. apply mv_lol.
    + eapply sumi_pair; [exact A2 |]. intros i _ _ _. symmetry. apply mv_prod.
    + eapply sumi_pair; [exact A3 |]. intros i _ _ _. rewrite mv_in, mv_out. reflexivity.
    + eapply sumi_pair; [exact A4 |]. intros i _ _ _. symmetry. apply mv_link.
  - symmetry. eapply qsum_pair; [apply SA |]. intros [a v] [b v'] [E (F & D1 & D2 & _ & _)]. cbn [fst snd] in *. subst b. unfold xconv. rewrite D1, D2.
    apply Qplus_comp; [destruct (String.eqb (v_dnet v) net && String.eqb (v_dnode v) nd); [symmetry; apply mv_dest | reflexivity] |]. apply Qopp_comp.
    eapply qsum_pair; [exact F |]. intros k k' [E _]. rewrite E. destruct (pair_eqb (fst k) (net, nd)); [symmetry; apply mv_src | reflexivity].
  - symmetry. unfold ximport. eapply qsum_pair; [apply mv_nodes |]. intros [a m] [b m'] [E [_ _ _ F]]. cbn [fst snd] in *. subst b.
    eapply sumi_pair; [exact F |]. intros i l l' [E _]. rewrite E. destruct (String.eqb (l_dest l) nd); [symmetry; apply mv_link | reflexivity].
  - symmetry. unfold xself. eapply sumi_pair; [exact A4 |]. intros i l l' [E _]. rewrite E. destruct (String.eqb (l_dest l) nd); [symmetry; apply mv_link | reflexivity].
Qed.

Lemma okat_move c c' : (forall net nd n' y ys, node_at s' net nd = Some n' -> n_stors n' = y :: ys -> (c' net nd == c net nd)%Q) -> okat s scn x t c -> okat s' scn' x' t' c'.
Proof.
  intros CC [O1 O2 O3 O4 O5 O6 O7 O8 O9]. unfold within in *. constructor; unfold within.
  - intros net nd n' i e N I. destruct (mv_node _ _ _ N) as (n & N2 & [A1 A2 A3 A4]). destruct (Forall2_back _ _ _ _ _ A1 I) as (a & J & H & _).
    specialize (O1 net nd n i a N2 J). unfold same_value in *. rewrite mv_lol, <- H. exact O1.
  - intros net nd n' i e N I. destruct (mv_node _ _ _ N) as (n & N2 & [A1 A2 A3 A4]). destruct (Forall2_back _ _ _ _ _ A2 I) as (a & J & H & _).
    specialize (O2 net nd n i a N2 J). unfold same_value in *. rewrite mv_prod, <- H. exact O2.
  - intros net nd n' i e N I. destruct (mv_node _ _ _ N) as (n & N2 & [A1 A2 A3 A4]). destruct (Forall2_back _ _ _ _ _ A3 I) as (a & J & H1 & H2 & H3 & _).
    specialize (O3 net nd n i a N2 J). unfold same_value in *. rewrite mv_cap, mv_in, mv_out, <- H1, <- H2, <- H3. exact O3.
  - intros net nd n' i e N I. destruct (mv_node _ _ _ N) as (n & N2 & [A1 A2 A3 A4]). destruct (Forall2_back _ _ _ _ _ A4 I) as (a & J & _ & H & _).
    specialize (O4 net nd n i a N2 J). unfold same_value in *. rewrite mv_link, <- H. exact O4.
  - intros name v' k q V I. destruct (mv_conv _ _ V) as (v & V2 & (F & _ & _ & M & _)). apply In_nth_error in I as [i I].
    destruct (Forall2_back _ _ _ _ _ F I) as ([k2 q2] & J & E & H). cbn [fst snd] in *. subst k2. apply nth_error_In in J.
    specialize (O5 name v k q2 V2 J). unfold same_value, same_ovalue in *. rewrite mv_src, <- H, <- M. exact O5.
  - intros name v' V. destruct (mv_conv _ _ V) as (v & V2 & (_ & _ & _ & M & _)). specialize (O6 name v V2). unfold same_ovalue in M. rewrite mv_dest, <- M. exact O6.
  - intros net nd n' N. destruct (mv_node _ _ _ N) as (n & N2 & NS). exact (mv_balance net nd n n' NS (O7 net nd n N2)).
  - intros net nd n' y' ys' N Y. destruct (mv_node _ _ _ N) as (n & N2 & [_ _ A3 _]). rewrite (CC _ _ _ _ _ N Y). rewrite Y in A3. inversion A3 as [| y y0 ys ys0 (_ & _ & _ & H & _) F E1 E2]; subst.
    pose proof (O8 net nd n y ys N2 (eq_sym E1)) as Z. unfold same_value in H. rewrite mv_cap, mv_in, mv_out, <- H. exact Z.
  - intros name v' V k q I. destruct (mv_conv _ _ V) as (v & V2 & (F & _)). apply In_nth_error in I as [i I].
    destruct (Forall2_back _ _ _ _ _ F I) as ([k2 q2] & J & E & H). cbn [fst snd] in *. subst k2. apply nth_error_In in J.
    pose proof (O9 name v V2 k q2 J) as Z. unfold same_value in H. rewrite mv_src, mv_dest, <- H. exact Z.
Qed.
End Move.

(** ** Parts in time *)
Definition time_of (v : var) : nat := fst (owner v).
Definition slice (k : nat) (x : var -> Q) (v : var) : Q := x (at_time (k + time_of v) v).
Definition glue (k : nat) (x z : var -> Q) (v : var) : Q := if Nat.ltb (time_of v) k then x v else z (at_time (time_of v - k) v).

Lemma time_at t v : time_of (at_time t v) = t. Proof. now destruct v. Qed.
Lemma at_at t u v : at_time t (at_time u v) = at_time t v. Proof. now destruct v. Qed.
Lemma slice_moved k x t : moved x (slice k x) (k + t) t.
Proof. intros v. unfold slice. rewrite time_at, at_at. reflexivity. Qed.
Lemma glue_early k x z t : t < k -> moved x (glue k x z) t t.
Proof. intros T v. unfold glue. rewrite time_at. apply Nat.ltb_lt in T. rewrite T. reflexivity. Qed.
Lemma glue_late k x z t : moved z (glue k x z) t (k + t).
Proof.
  intros v. unfold glue. rewrite time_at, at_at. replace (Nat.ltb (k + t) k) with false by (symmetry; apply Nat.ltb_ge; lia).
  replace (k + t - k) with t by lia. reflexivity.
Qed.
Lemma moved_self x t : moved x x t t. Proof. intros v. reflexivity. Qed.
Lemma same_self scn t s : same_at scn scn t t s s.
Proof.
  constructor.
  - apply Forall2_same. intros a. split; auto. apply Forall2_same. intros b. split; auto.
    constructor; apply Forall2_same; intros e; unfold same_value; repeat split; reflexivity.
  - apply Forall2_same. intros a. split; auto. unfold conv_same, same_ovalue. repeat split; try reflexivity. apply Forall2_same. intros e. split; [auto | unfold same_value; reflexivity].
Qed.

(** What the storages of the part hold at first. *)
Definition begins (s s' : study) (x : var -> Q) (k : nat) : Prop := forall net nd n' y ys,
  node_at s' net nd = Some n' -> n_stors n' = y :: ys -> (s_init y == before_time s x k net nd)%Q.

Lemma slice_ok s s' scn scn' k len x : part_of s s' scn scn' k len -> k + len <= st_horizon s -> begins s s' x k ->
  xok s scn x -> xok s' scn' (slice k x).
Proof.
  intros [HL P] K B X. apply xok_times. rewrite HL. intros t T. pose proof (proj1 (xok_times s scn x) X (k + t) ltac:(lia)) as O.
  apply (okat_move s s' scn scn' (k + t) t x (slice k x) (P t T) (slice_moved k x t) (before_time s x (k + t))); [| exact O].
  intros net nd n' y ys N Y. destruct t as [| j].
  - unfold before_time at 1. unfold init_of. rewrite N, Y, Nat.add_0_r. eapply B; eauto.
  - rewrite Nat.add_succ_r. cbn [before_time]. reflexivity.
Qed.
Lemma slice_cost s s' scn scn' k len x : part_of s s' scn scn' k len ->
  (xcost s' scn' (slice k x) == qsum (map (tcost s scn x) (seq k len)))%Q.
Proof.
  intros [HL P]. rewrite xcost_times, HL. replace (seq k len) with (map (fun t => k + t) (seq 0 len)).
  - rewrite map_map. apply qsum_map_ext. intros t T. apply in_seq in T. symmetry. apply mv_cost; [apply P; lia | apply slice_moved].
  - clear. revert k. induction len as [| len IH]; intros k; [reflexivity |]. cbn [seq map]. rewrite Nat.add_0_r. f_equal.
    rewrite <- (IH (Datatypes.S k)), <- seq_shift, map_map. apply map_ext. intros a. lia.
Qed.

Lemma glue_ok s s' scn scn' k x z : part_of s s' scn scn' k (st_horizon s - k) -> k <= st_horizon s -> begins s s' x k ->
  (forall t, t < k -> okat s scn x t (before_time s x t)) -> xok s' scn' z -> xok s scn (glue k x z).
Proof.
  intros [HL P] K B E Z. apply xok_times. intros t T. destruct (Nat.lt_ge_cases t k) as [L | L].
  - apply (okat_move s s scn scn t t x (glue k x z) (same_self scn t s) (glue_early k x z t L) (before_time s x t)); [| apply E, L].
    intros net nd n y ys N Y. destruct t as [| j]; [reflexivity |]. cbn [before_time]. assert (J : j < k) by lia. exact (glue_early k x z j J (VCap net nd 0 0)).
  - replace t with (k + (t - k)) by lia. assert (T' : t - k < st_horizon s - k) by lia. revert T'. generalize (t - k). clear t T L. intros t T.
    pose proof (proj1 (xok_times s' scn' z) Z t ltac:(rewrite HL; exact T)) as O. pose proof (P t T) as SA.
    apply (okat_move s' s scn' scn t (k + t) z (glue k x z) (same_at_sym _ _ _ _ _ _ SA) (glue_late k x z t) (before_time s' z t)); [| exact O].
    intros net nd n y ys N Y. destruct (mv_node s' s scn' scn t (k + t) (same_at_sym _ _ _ _ _ _ SA) net nd n N) as (n' & N' & [_ _ S3 _]).
    rewrite Y in S3. inversion S3 as [| y' y0 ys' ys0 _ _ E1 E2]; subst. destruct t as [| j].
    + rewrite Nat.add_0_r. cbn [before_time]. unfold init_of at 1. rewrite N', <- E1. rewrite (B net nd n' y' ys' N' (eq_sym E1)).
      destruct k as [| j]; cbn [before_time]; [reflexivity |]. exact (glue_early (Datatypes.S j) x z j ltac:(lia) (VCap net nd 0 0)).
    + rewrite Nat.add_succ_r. cbn [before_time]. exact (glue_late k x z j (VCap net nd 0 0)).
Qed.
Lemma glue_cost s s' scn scn' k x z : part_of s s' scn scn' k (st_horizon s - k) -> k <= st_horizon s ->
  (xcost s scn (glue k x z) == qsum (map (tcost s scn x) (seq 0 k)) + xcost s' scn' z)%Q.
Proof.
  intros PP K. pose proof PP as [HL P]. rewrite xcost_times. replace (st_horizon s) with (k + (st_horizon s - k)) at 1 by lia. rewrite seq_app, map_app, qsum_app, Nat.add_0_l.
  apply Qplus_comp.
  - apply qsum_map_ext. intros t T. apply in_seq in T. symmetry. apply mv_cost; [apply same_self | apply glue_early; lia].
  - rewrite <- (slice_cost s s' scn scn' k _ (glue k x z) PP). rewrite !xcost_times, HL. apply qsum_map_ext. intros t T.
    apply (mv_cost s' s' scn' scn' t t); [apply same_self |]. intros v. unfold slice. rewrite time_at, at_at. symmetry. exact (glue_late k x z t v).
Qed.

Lemma from_begins answer s s' r scn scn' k len : api_study s -> api_study s' -> solved answer s r -> scn < st_nb_scn s ->
  part_of s s' scn scn' k len -> k <= st_horizon s -> starts_from s s' r scn k -> begins s s' (answer scn (program_of s scn)) k.
Proof.
  intros Api Api' SV K [HL P] KH ST net nd n' y' ys' N' Y'. destruct (solved_weak _ _ _ Api SV) as (R & M & C). destruct (C scn K) as (_ & CA & _).
  destruct (api_facts s' Api') as (_ & _ & Hh & _). rewrite HL in Hh. pose proof (P 0 Hh) as SA.
  destruct (mv_node s s' scn scn' (k + 0) 0 SA net nd n' N') as (n & N & [_ _ S3 _]). rewrite Y' in S3. inversion S3 as [| y y0 ys ys0 _ _ E1 E2]; subst.
  destruct (mirror_node_l s r M net nd n N) as (rn & RN & NL). pose proof (nl_stors _ _ _ NL) as NS. rewrite <- E1 in NS. inversion NS as [| y1 o ys1 os _ _ E3 E4]; subst.
  specialize (ST net nd n n' rn N N' RN). rewrite <- E1, Y', <- E4 in ST. rewrite ST. unfold before_time, init_of. destruct k as [| j]; [rewrite N, <- E1; reflexivity |].
  refine (proj1 (ca_stors _ _ _ _ CA net nd n rn 0 y o j _ N RN _ _)); [lia | now rewrite <- E1 | now rewrite <- E4].
Qed.

(** ** C104 *)

(** Solving the first times, then the others from what the storages hold then, is never
    cheaper than solving all at once. *)
Theorem C104_stages_never_cheaper : forall answer answer1 answer2 s s1 s2 r r1 r2 scn scn1 scn2 k,
  api_study s -> api_study s1 -> api_study s2 -> scn < st_nb_scn s -> scn1 < st_nb_scn s1 -> scn2 < st_nb_scn s2 -> k <= st_horizon s ->
  part_of s s1 scn scn1 0 k -> part_of s s2 scn scn2 k (st_horizon s - k) -> same_start s s1 -> starts_from s1 s2 r1 scn1 k ->
  solved answer s r -> solved answer1 s1 r1 -> solved answer2 s2 r2 ->
  optimal_answer answer s scn -> feasible_answer answer1 s1 scn1 -> feasible_answer answer2 s2 scn2 ->
  (total_cost s r scn <= total_cost s1 r1 scn1 + total_cost s2 r2 scn2)%Q.
Proof.
  intros answer answer1 answer2 s s1 s2 r r1 r2 scn scn1 scn2 k Api Api1 Api2 S S1 S2 K P1 P2 Same St SV SV1 SV2 [F Best] F1 F2.
  pose proof (api_facts s1 Api1) as (_ & _ & Hh1 & _). pose proof P1 as [HL1 P1']. rewrite HL1 in Hh1.
  assert (B12 : begins s1 s2 (answer1 scn1 (program_of s1 scn1)) k).
  { pose proof P2 as [HL2 P2']. intros net nd n' y' ys' N' Y'. destruct (solved_weak _ _ _ Api1 SV1) as (R & M & C). destruct (C scn1 S1) as (_ & CA & _).
    destruct (api_facts s2 Api2) as (_ & _ & Hh & _). rewrite HL2 in Hh.
    destruct (mv_node s s2 scn scn2 (k + 0) 0 (P2' 0 Hh) net nd n' N') as (n0 & N0 & [_ _ S3 _]). rewrite Y' in S3. inversion S3 as [| y0 yy ys0 yys _ _ E1 E2]; subst yy yys.
    destruct (mv_node s1 s scn1 scn 0 (0 + 0) (same_at_sym _ _ _ _ _ _ (P1' 0 Hh1)) net nd n0 N0) as (n & N & [_ _ S4 _]). rewrite <- E1 in S4.
    inversion S4 as [| y yy ys yys _ _ E3 E4]; subst yy yys.
    destruct (mirror_node_l s1 r1 M net nd n N) as (rn & RN & NL). pose proof (nl_stors _ _ _ NL) as NS. rewrite <- E3 in NS. inversion NS as [| y1 o ys1 os _ _ E5 E6]; subst y1 ys1.
    specialize (St net nd n n' rn N N' RN). rewrite <- E3, Y', <- E6 in St. rewrite St. unfold before_time, init_of. destruct k as [| j]; [lia |].
    refine (proj1 (ca_stors _ _ _ _ CA net nd n rn 0 y o j _ N RN _ _)); [lia | now rewrite <- E3 | now rewrite <- E6]. }
  destruct (solved_weak _ _ _ Api SV) as (R & M & C). destruct (C scn S) as ((vs & B) & CA & _).
  destruct (solved_weak _ _ _ Api1 SV1) as (R1 & M1 & C1). destruct (C1 scn1 S1) as ((vs1 & B1) & CA1 & _).
  destruct (solved_weak _ _ _ Api2 SV2) as (R2 & M2 & C2). destruct (C2 scn2 S2) as ((vs2 & B2) & CA2 & _).
  rewrite (cost_eq s r R M scn _ CA), (cost_eq s1 r1 R1 M1 scn1 _ CA1), (cost_eq s2 r2 R2 M2 scn2 _ CA2).
  apply (sat_iff s1 scn1 S1 R1 _ vs1 _ B1) in F1. apply (sat_iff s2 scn2 S2 R2 _ vs2 _ B2) in F2.
  set (x := answer scn (program_of s scn)) in *. set (x1 := answer1 scn1 (program_of s1 scn1)) in *. set (x2 := answer2 scn2 (program_of s2 scn2)) in *.
  assert (G : xok s scn (glue k x1 x2)).
  { apply (glue_ok s s2 scn scn2); auto.
    - intros net nd n' y ys N Y. rewrite (B12 net nd n' y ys N Y). destruct k; [lia | reflexivity].
    - intros t T. pose proof (proj1 (xok_times s1 scn1 x1) F1 t ltac:(lia)) as O. pose proof (same_at_sym _ _ _ _ _ _ (P1' t T)) as SA. rewrite Nat.add_0_l in SA.
      apply (okat_move s1 s scn1 scn t t x1 x1 SA (moved_self x1 t) (before_time s1 x1 t)); [| exact O].
      intros net nd n y ys N Y. destruct t; [| reflexivity]. cbn [before_time]. unfold init_of.
      destruct (mv_node s1 s scn1 scn 0 0 SA net nd n N) as (n1 & N1 & [_ _ S3 _]). rewrite N, N1, Y. rewrite Y in S3. inversion S3 as [| y1 y0 ys1 ys0 _ _ E1 E2]; subst.
      specialize (Same net nd n n1 N N1). rewrite Y, <- E1 in Same. symmetry. exact Same. }
  apply (sat_iff s scn S R _ vs _ B) in G. specialize (Best _ G). rewrite !(objective_value s scn S R _ vs _ B) in Best.
  rewrite (glue_cost s s2 scn scn2 k x1 x2 P2 K) in Best.
  assert (E1 : (qsum (map (tcost s scn x1) (seq 0 k)) == xcost s1 scn1 x1)%Q).
  { rewrite xcost_times, HL1. apply qsum_map_ext. intros t T. apply in_seq in T. apply mv_cost; [apply (P1' t); lia | apply moved_self]. }
  rewrite E1 in Best. exact Best.
Qed.

(** What an optimal dispatch does from a time on is optimal from what the storages hold then. *)
Theorem C104_the_rest_is_optimal : forall answer answer2 s s2 r r2 scn scn2 k,
  api_study s -> api_study s2 -> scn < st_nb_scn s -> scn2 < st_nb_scn s2 -> k <= st_horizon s ->
  part_of s s2 scn scn2 k (st_horizon s - k) -> starts_from s s2 r scn k ->
  solved answer s r -> solved answer2 s2 r2 -> optimal_answer answer s scn -> optimal_answer answer2 s2 scn2 ->
  (total (step_cost s r scn) (seq k (st_horizon s - k)) == total_cost s2 r2 scn2)%Q.
Proof.
  intros answer answer2 s s2 r r2 scn scn2 k Api Api2 S S2 K P2 St SV SV2 [F Best] [F2 Best2].
  pose proof (from_begins answer s s2 r scn scn2 k _ Api Api2 SV S P2 K St) as Beg.
  destruct (solved_weak _ _ _ Api SV) as (R & M & C). destruct (C scn S) as ((vs & B) & CA & _).
  destruct (solved_weak _ _ _ Api2 SV2) as (R2 & M2 & C2). destruct (C2 scn2 S2) as ((vs2 & B2) & CA2 & _).
  rewrite (cost_eq s2 r2 R2 M2 scn2 _ CA2).
  assert (E : (total (step_cost s r scn) (seq k (st_horizon s - k)) == qsum (map (tcost s scn (answer scn (program_of s scn))) (seq k (st_horizon s - k))))%Q).
  { unfold total. apply qsum_map_ext. intros t T. apply in_seq in T. exact (step_cost_eq s r R M scn _ CA t ltac:(lia)). }
  rewrite E. apply (sat_iff s scn S R _ vs _ B) in F. apply (sat_iff s2 scn2 S2 R2 _ vs2 _ B2) in F2.
  set (x := answer scn (program_of s scn)) in *. set (x2 := answer2 scn2 (program_of s2 scn2)) in *.
  assert (G : xok s scn (glue k x x2)).
  { apply (glue_ok s s2 scn scn2); auto. intros t T. apply (proj1 (xok_times s scn x) F). lia. }
  assert (H : xok s2 scn2 (slice k x)) by (apply (slice_ok s s2 scn scn2 k (st_horizon s - k)); auto; lia).
  apply (sat_iff s scn S R _ vs _ B) in G. apply (sat_iff s2 scn2 S2 R2 _ vs2 _ B2) in H.
  specialize (Best _ G). specialize (Best2 _ H). rewrite !(objective_value s scn S R _ vs _ B) in Best. rewrite !(objective_value s2 scn2 S2 R2 _ vs2 _ B2) in Best2.
  rewrite (slice_cost s s2 scn scn2 k _ x P2) in Best2. rewrite (glue_cost s s2 scn scn2 k x x2 P2 K) in Best.
  rewrite xcost_times in Best. replace (st_horizon s) with (k + (st_horizon s - k)) in Best at 1 by lia. rewrite seq_app, map_app, qsum_app, Nat.add_0_l in Best.
  change (xcost s2 scn2 (x_read s2 x2 r2 scn2)) with (xcost s2 scn2 x2). lra.
Qed.

(** ** Examples *)
Definition tank_calls (price load : pyval) (init : Q) : list call :=
  [ OnStudy_network "net"; OnSel 0 (MNode "a"); OnSel 1 (MConsumption "load" price load); OnSel 2 (MStorage "tank" (jn 5) (jn 5) (jn 5) (jn 0) init (jn 1)) ].
Definition both : study := Eval vm_compute in w_study (run (start 2 1 None) (tank_calls (jl [10; 100]%Z) (jl [2; 3]%Z) 2)).
Definition early : study := Eval vm_compute in w_study (run (start 1 1 None) (tank_calls (jn 10) (jn 2) 2)).
Definition late (init : Q) : study := w_study (run (start 1 1 None) (tank_calls (jn 100) (jn 3) init)).
Definition late_empty : study := Eval vm_compute in late 0.
Definition late_full : study := Eval vm_compute in late 2.
Lemma both_api : api_study both.
Proof. exists 2, 1, None, (tank_calls (jl [10; 100]%Z) (jl [2; 3]%Z) 2). split; [lia|]. split; [lia|]. split; [plain_tac | vm_compute; reflexivity]. Qed.
Lemma early_api : api_study early.
Proof. exists 1, 1, None, (tank_calls (jn 10) (jn 2) 2). split; [lia|]. split; [lia|]. split; [plain_tac | vm_compute; reflexivity]. Qed.
Lemma late_empty_api : api_study late_empty.
Proof. exists 1, 1, None, (tank_calls (jn 100) (jn 3) 0). split; [lia|]. split; [lia|]. split; [plain_tac | vm_compute; reflexivity]. Qed.
Lemma late_full_api : api_study late_full.
Proof. exists 1, 1, None, (tank_calls (jn 100) (jn 3) 2). split; [lia|]. split; [lia|]. split; [plain_tac | vm_compute; reflexivity]. Qed.
Definition both_answer (_ : nat) (_ : solver) (v : var) : Q :=
  match v with VLol _ _ _ 0 => 2 | VLol _ _ _ _ => 1 | VCap _ _ _ 0 => 2 | VOut _ _ _ 1 => 2 | _ => 0 end%Q.
Definition early_answer (_ : nat) (_ : solver) (v : var) : Q := match v with VOut _ _ _ _ => 2 | _ => 0 end%Q.
Definition empty_answer (_ : nat) (_ : solver) (v : var) : Q := match v with VLol _ _ _ _ => 3 | _ => 0 end%Q.
Definition full_answer (_ : nat) (_ : solver) (v : var) : Q := match v with VLol _ _ _ _ => 1 | VOut _ _ _ _ => 2 | _ => 0 end%Q.
Lemma both_optimal : optimal_answer both_answer both 0. Proof. best_tac (program_of both 0). Qed.
Lemma early_optimal : optimal_answer early_answer early 0. Proof. best_tac (program_of early 0). Qed.
Lemma empty_optimal : optimal_answer empty_answer late_empty 0. Proof. best_tac (program_of late_empty 0). Qed.
Lemma full_optimal : optimal_answer full_answer late_full 0. Proof. best_tac (program_of late_full 0). Qed.
Definition both_result : result := Eval vm_compute in
  match solve_lp both_answer [0] no_bench both with Ok r => r | Err _ => Result [] [] no_bench end.
Definition early_result : result := Eval vm_compute in
  match solve_lp early_answer [0] no_bench early with Ok r => r | Err _ => Result [] [] no_bench end.
Definition empty_result : result := Eval vm_compute in
  match solve_lp empty_answer [0] no_bench late_empty with Ok r => r | Err _ => Result [] [] no_bench end.
Definition full_result : result := Eval vm_compute in
  match solve_lp full_answer [0] no_bench late_full with Ok r => r | Err _ => Result [] [] no_bench end.
Ltac part_tac := split; [reflexivity |]; let t := fresh "t" in let T := fresh "T" in intros t T; replace t with 0 by (cbn in T; lia); clear t T;
  constructor; [repeat first [constructor | split; [reflexivity |]] | constructor].
Lemma both_early : part_of both early 0 0 0 1. Proof. part_tac; vm_compute; reflexivity. Qed.
Lemma both_empty : part_of both late_empty 0 0 1 1. Proof. part_tac; vm_compute; reflexivity. Qed.
Lemma both_full : part_of both late_full 0 0 1 1. Proof. part_tac; vm_compute; reflexivity. Qed.
Lemma one_node net nd : net = "net" /\ nd = "a" \/ node_at both net nd = None /\ node_at early net nd = None.
Proof.
  unfold node_at, both, early, st_networks. cbn [dget]. destruct (eqb net "net") eqn:E; [| now right]. cbn [dget].
  destruct (eqb nd "a") eqn:F; [| now right]. apply String.eqb_eq in E, F. now left.
Qed.
Lemma both_early_start : same_start both early.
Proof.
  intros net nd n n' N N'. destruct (one_node net nd) as [[-> ->] | [E _]]; [| congruence]. vm_compute in N, N'. inversion N; subst n. inversion N'; subst n'. vm_compute. reflexivity.
Qed.
Lemma early_empty_start : starts_from early late_empty early_result 0 1.
Proof.
  intros net nd n n' rn N N' RN. destruct (one_node net nd) as [[-> ->] | [_ E]]; [| congruence]. vm_compute in N, N', RN. inversion N; subst n. inversion N'; subst n'. inversion RN; subst rn.
  vm_compute. reflexivity.
Qed.
Lemma both_full_start : starts_from both late_full both_result 0 1.
Proof.
  intros net nd n n' rn N N' RN. destruct (one_node net nd) as [[-> ->] | [E _]]; [| congruence]. vm_compute in N, N', RN. inversion N; subst n. inversion N'; subst n'. inversion RN; subst rn.
  vm_compute. reflexivity.
Qed.
Example C104_rest_example : api_study both /\ api_study late_full /\ part_of both late_full 0 0 1 1 /\ starts_from both late_full both_result 0 1 /\
  solved both_answer both both_result /\ solved full_answer late_full full_result /\ optimal_answer both_answer both 0 /\ optimal_answer full_answer late_full 0 /\
  (total_cost both both_result 0 == 120)%Q /\ (total_cost late_full full_result 0 == 100)%Q.
Proof.
  split; [apply both_api |]. split; [apply late_full_api |]. split; [apply both_full |]. split; [apply both_full_start |].
  split. { exists [0], no_bench. split; [reflexivity | vm_compute; reflexivity]. } split. { exists [0], no_bench. split; [reflexivity | vm_compute; reflexivity]. }
  split; [apply both_optimal |]. split; [apply full_optimal |]. split; vm_compute; reflexivity.
Qed.

(** The stages may well be dearer: each empties the storage, as if nothing came after. *)
Theorem C104_stages_refuted : exists answer answer1 answer2 s s1 s2 r r1 r2,
  api_study s /\ api_study s1 /\ api_study s2 /\ part_of s s1 0 0 0 1 /\ part_of s s2 0 0 1 (st_horizon s - 1) /\ same_start s s1 /\ starts_from s1 s2 r1 0 1 /\
  solved answer s r /\ solved answer1 s1 r1 /\ solved answer2 s2 r2 /\
  optimal_answer answer s 0 /\ optimal_answer answer1 s1 0 /\ optimal_answer answer2 s2 0 /\
  (total_cost s r 0 == 120)%Q /\ (total_cost s1 r1 0 + total_cost s2 r2 0 == 300)%Q.
Proof.
  exists both_answer, early_answer, empty_answer, both, early, late_empty, both_result, early_result, empty_result.
  split; [apply both_api |]. split; [apply early_api |]. split; [apply late_empty_api |]. split; [apply both_early |]. split; [apply both_empty |].
  split; [apply both_early_start |]. split; [apply early_empty_start |].
  split. { exists [0], no_bench. split; [reflexivity | vm_compute; reflexivity]. } split. { exists [0], no_bench. split; [reflexivity | vm_compute; reflexivity]. }
  split. { exists [0], no_bench. split; [reflexivity | vm_compute; reflexivity]. }
  split; [apply both_optimal |]. split; [apply early_optimal |]. split; [apply empty_optimal |]. split; vm_compute; reflexivity.
Qed.

Print Assumptions C104_stages_never_cheaper.
Print Assumptions C104_the_rest_is_optimal.
Print Assumptions C104_stages_refuted.
