(** Properties C76 and C77: parts of a study that are not connected are solved apart. *)
From Coq Require Import String List ZArith QArith Bool Arith Lia Lqa Permutation.
From Verif Require Import Base BaseFacts Numeric Study Fluent SpecStudy StudyFacts Output Json SpecJson JsonFacts P_Json
  LP SpecLP LPFacts LPBuild LPSat LPResult LPSolve LPReady LPOpt LPWeak LPMore P_LP P_Opt P_Law.
Import ListNotations.
Open Scope nat_scope.
Open Scope string_scope.
Open Scope list_scope.

(** ** Specification *)

(** The first study puts the two others side by side. *)
Record side_by_side (s s1 s2 : study) : Prop := {
  sb_horizon : st_horizon s1 = st_horizon s /\ st_horizon s2 = st_horizon s;
  sb_scenarios : st_nb_scn s1 = st_nb_scn s /\ st_nb_scn s2 = st_nb_scn s;
  sb_networks : Permutation (st_networks s) (st_networks s1 ++ st_networks s2);
  sb_converters : Permutation (st_converters s) (st_converters s1 ++ st_converters s2)
}.
Definition no_storage (s : study) : Prop := forall net nd n, node_at s net nd = Some n -> n_stors n = [].

(** ** Only the variables of a study count *)
Definition belongs (s : study) (v : var) : Prop :=
  match snd (owner v) with
  | inl (net, nd) => node_at s net nd <> None
  | inr name => conv_at s name <> None
  end.

Section Agree.
Variables (s : study) (scn : nat) (x y : var -> Q).
Hypothesis W : study_wf s.

Lemma conv_known kv : In kv (st_converters s) -> conv_at s (fst kv) <> None.
Proof. intros I. destruct kv as [k v]. unfold conv_at. cbn [fst]. rewrite (In_dget k v); [discriminate | apply W | auto]. Qed.
Lemma nodes_known net kd : In kd (nodes_in s net) -> node_at s net (fst kd) <> None.
Proof.
  unfold nodes_in, node_at. destruct (dget net (st_networks s)) as [ns|] eqn:E; [| easy]. intros I. destruct kd as [nd n]. cbn [fst].
  rewrite (In_dget nd n); [discriminate | exact (wf_nodes _ W _ _ E) | auto].
Qed.

(** At one time. *)
Section At.
Variable t : nat.
Hypothesis A : forall v, belongs s v -> fst (owner v) = t -> (x v == y v)%Q.
Ltac ag := apply A; [| reflexivity]; unfold belongs; cbn [owner snd].

Lemma agree_node net nd n : node_at s net nd = Some n -> (xnode x t net nd n == xnode y t net nd n)%Q.
Proof.
  intros N. assert (K : node_at s net nd <> None) by congruence. unfold xnode.
  rewrite (sumi_ext (fun i _ => x (VLol net nd i t)) (fun i _ => y (VLol net nd i t))) by (intros; ag; auto).
  rewrite (sumi_ext (fun i _ => x (VProd net nd i t)) (fun i _ => y (VProd net nd i t))) by (intros; ag; auto).
  rewrite (sumi_ext (fun i _ => - x (VIn net nd i t) + x (VOut net nd i t))%Q (fun i _ => - y (VIn net nd i t) + y (VOut net nd i t))%Q)
    by (intros; apply Qplus_comp; [apply Qopp_comp |]; ag; auto).
  rewrite (sumi_ext (fun i _ => x (VLink net nd i t)) (fun i _ => y (VLink net nd i t))) by (intros; ag; auto).
  reflexivity.
Qed.
Lemma agree_into net nd1 nd n : node_at s net nd1 <> None ->
  (sumi (fun i l => if String.eqb (l_dest l) nd then x (VLink net nd1 i t) else 0%Q) (n_links n) ==
   sumi (fun i l => if String.eqb (l_dest l) nd then y (VLink net nd1 i t) else 0%Q) (n_links n))%Q.
Proof. intros K. apply sumi_ext. intros j l _. destruct (String.eqb (l_dest l) nd); [ag; auto | reflexivity]. Qed.
Lemma agree_conv net nd name v : conv_at s name <> None -> (xconv x t net nd name v == xconv y t net nd name v)%Q.
Proof.
  intros K. unfold xconv. apply Qplus_comp.
  - destruct (String.eqb (v_dnet v) net && String.eqb (v_dnode v) nd); [ag; auto | reflexivity].
  - apply Qopp_comp. apply qsum_map_ext. intros kr _. destruct (pair_eqb (fst kr) (net, nd)); [unfold vsrc; ag; auto | reflexivity].
Qed.
Lemma agree_balance net nd n : node_at s net nd = Some n -> xbalance s scn x t net nd n -> xbalance s scn y t net nd n.
Proof.
  intros N B. unfold xbalance, xself, ximport in *. rewrite <- (agree_node _ _ _ N), <- (agree_into net nd nd n) by congruence.
  rewrite (qsum_map_ext (fun kv => xconv y t net nd (fst kv) (snd kv)) (fun kv => xconv x t net nd (fst kv) (snd kv)))
    by (intros kv I; symmetry; apply agree_conv, conv_known, I).
  rewrite (qsum_map_ext (fun kd => sumi (fun i l => if String.eqb (l_dest l) nd then y (VLink net (fst kd) i t) else 0%Q) (n_links (snd kd)))
    (fun kd => sumi (fun i l => if String.eqb (l_dest l) nd then x (VLink net (fst kd) i t) else 0%Q) (n_links (snd kd))))
    by (intros kd I; symmetry; eapply agree_into, nodes_known, I). exact B.
Qed.
Lemma agree_mix name v : conv_at s name = Some v -> xmix scn x t name v -> xmix scn y t name v.
Proof.
  intros V M k q I. specialize (M k q I). assert (K : conv_at s name <> None) by congruence. unfold vsrc in *.
  rewrite <- (A (VSrc name (fst k) (snd k) t)), <- (A (VDest name t)); auto.
Qed.
Lemma agree_ncost net nd n : node_at s net nd = Some n -> (ncost scn x t net nd n == ncost scn y t net nd n)%Q.
Proof.
  intros N. assert (K : node_at s net nd <> None) by congruence. unfold ncost. repeat apply Qplus_comp; apply sumi_ext; intros; (apply Qmult_comp; [reflexivity |]); ag; auto.
Qed.
End At.

Lemma agree_ok : (forall v, belongs s v -> (x v == y v)%Q) -> xok s scn x -> xok s scn y.
Proof.
  intros A [[XC XP XS XL XR XD] XB XT XM]. unfold within in *. constructor; [constructor | | |]; unfold within.
  - intros t net nd n i c T N I. rewrite <- A; [eapply XC; eauto |]. unfold belongs; cbn; congruence.
  - intros t net nd n i c T N I. rewrite <- A; [eapply XP; eauto |]. unfold belongs; cbn; congruence.
  - intros t net nd n i c T N I. rewrite <- !A; [eapply XS; eauto | | |]; unfold belongs; cbn; congruence.
  - intros t net nd n i c T N I. rewrite <- A; [eapply XL; eauto |]. unfold belongs; cbn; congruence.
  - intros t name v k q T V I. rewrite <- A; [eapply XR; eauto |]. unfold belongs; cbn; congruence.
  - intros t name v T V. rewrite <- A; [eapply XD; eauto |]. unfold belongs; cbn; congruence.
  - intros t net nd n T N. apply agree_balance; auto.
  - intros t net nd n T N. specialize (XT t net nd n T N). unfold xstorage in *. destruct (n_stors n); auto.
    rewrite <- !A; [| unfold belongs; cbn; congruence ..]. destruct t; [exact XT |]. rewrite <- A; [exact XT |]. unfold belongs; cbn; congruence.
  - intros t name v T V. apply agree_mix; auto.
Qed.
Lemma agree_cost : (forall v, belongs s v -> (x v == y v)%Q) -> (xcost s scn x == xcost s scn y)%Q.
Proof.
  intros A. unfold xcost. apply qsum_map_ext. intros t _. apply Qplus_comp; apply qsum_map_ext.
  - intros [net ns] I. apply qsum_map_ext. intros [nd n] J. cbn [fst snd]. apply agree_ncost; auto.
    unfold node_at. rewrite (In_dget net ns); [| apply W | auto]. apply In_dget; auto. apply (wf_nodes _ W net). apply In_dget; auto. apply W.
  - intros kv I. apply Qmult_comp; [reflexivity |]. apply A. unfold belongs. cbn [owner snd]. now apply conv_known.
Qed.
End Agree.

(** ** Side by side *)
Lemma side_swap s s1 s2 : side_by_side s s1 s2 -> side_by_side s s2 s1.
Proof.
  intros [[H1 H2] [S1 S2] N C]. constructor; auto.
  - rewrite N. apply Permutation_app_comm.
  - rewrite C. apply Permutation_app_comm.
Qed.
Lemma dget_perm {V} (d d1 d2 : dict string V) k v : NoDup (dkeys d) -> NoDup (dkeys d1) -> Permutation d (d1 ++ d2) ->
  dget k d1 = Some v -> dget k d = Some v.
Proof.
  intros ND N1 P G. apply In_dget; auto. eapply Permutation_in; [symmetry; exact P |]. apply in_app_iff. left. now apply dget_In.
Qed.
Lemma dget_split {V} (d d1 d2 : dict string V) k v : NoDup (dkeys d1) -> NoDup (dkeys d2) -> Permutation d (d1 ++ d2) ->
  dget k d = Some v -> dget k d1 = Some v \/ dget k d2 = Some v.
Proof.
  intros N1 N2 P G. apply dget_In in G. eapply Permutation_in in G; [| exact P]. apply in_app_iff in G as [G | G]; [left | right]; now apply In_dget.
Qed.
Lemma dget_apart {V} (d d1 d2 : dict string V) k v w : NoDup (dkeys d) -> Permutation d (d1 ++ d2) ->
  dget k d1 = Some v -> dget k d2 = Some w -> False.
Proof.
  intros ND P G1 G2. assert (N : NoDup (dkeys (d1 ++ d2))) by (eapply Permutation_NoDup; [apply Permutation_map, P | exact ND]).
  unfold dkeys in N. rewrite map_app in N. apply dget_In in G1, G2. apply (in_map fst) in G1, G2. cbn [fst] in G1, G2.
  induction (map fst d1) as [| a m IH]; [easy |]. cbn [app] in N. inversion N as [| a' m' NI N']; subst. destruct G1 as [-> | G1]; auto.
  apply NI, in_app_iff. now right.
Qed.

Section Side.
Variables (s s1 s2 : study) (scn : nat).
Hypothesis SB : side_by_side s s1 s2.
Hypothesis W : study_wf s.
Hypothesis W1 : study_wf s1.
Hypothesis W2 : study_wf s2.
Hypothesis U2 : usable_converters s2.

Lemma side_net net ns : dget net (st_networks s1) = Some ns -> dget net (st_networks s) = Some ns.
Proof. eapply dget_perm; [apply W | apply W1 | apply SB]. Qed.
Lemma side_node net nd n : node_at s1 net nd = Some n -> node_at s net nd = Some n.
Proof.
  unfold node_at. destruct (dget net (st_networks s1)) as [ns|] eqn:E; [| discriminate]. now rewrite (side_net _ _ E).
Qed.
Lemma side_conv name v : conv_at s1 name = Some v -> conv_at s name = Some v.
Proof. eapply dget_perm; [apply W | apply W1 | apply SB]. Qed.
Lemma side_node_split net nd n : node_at s net nd = Some n -> node_at s1 net nd = Some n \/ node_at s2 net nd = Some n.
Proof.
  unfold node_at. destruct (dget net (st_networks s)) as [ns|] eqn:E; [| discriminate]. intros G.
  apply (dget_split _ _ _ _ _ (wf_networks _ W1) (wf_networks _ W2) (sb_networks _ _ _ SB)) in E as [E | E]; rewrite E; auto.
Qed.
Lemma side_conv_split name v : conv_at s name = Some v -> conv_at s1 name = Some v \/ conv_at s2 name = Some v.
Proof. apply dget_split; [apply W1 | apply W2 | apply SB]. Qed.
Lemma side_apart net nd nd' : node_at s1 net nd <> None -> ~ has_node s2 net nd'.
Proof.
  unfold has_node, node_at. intros H1 H2. destruct (dget net (st_networks s1)) as [ns1|] eqn:E1; [| easy].
  destruct (dget net (st_networks s2)) as [ns2|] eqn:E2; [| easy]. exact (dget_apart _ _ _ _ _ _ (wf_networks _ W) (sb_networks _ _ _ SB) E1 E2).
Qed.
Lemma side_conv_apart name : conv_at s1 name <> None -> conv_at s2 name <> None -> False.
Proof.
  unfold conv_at. destruct (dget name (st_converters s1)) as [v1|] eqn:E1; [| easy]. destruct (dget name (st_converters s2)) as [v2|] eqn:E2; [| easy].
  intros _ _. exact (dget_apart _ _ _ _ _ _ (wf_convs _ W) (sb_converters _ _ _ SB) E1 E2).
Qed.
Lemma side_nodes_in net nd : node_at s1 net nd <> None -> nodes_in s net = nodes_in s1 net.
Proof. unfold node_at, nodes_in. destruct (dget net (st_networks s1)) as [ns|] eqn:E; [| easy]. now rewrite (side_net _ _ E). Qed.

(** The converters of the other study do not reach the nodes of this one. *)
Lemma side_convs x t net nd : node_at s1 net nd <> None ->
  (qsum (map (fun kv => xconv x t net nd (fst kv) (snd kv)) (st_converters s)) ==
   qsum (map (fun kv => xconv x t net nd (fst kv) (snd kv)) (st_converters s1)))%Q.
Proof.
  intros N. rewrite (qsum_perm _ _ (Permutation_map _ (sb_converters _ _ _ SB))), map_app, qsum_app.
  rewrite (qsum_map_zero _ (st_converters s2)); [lra |]. intros [name v] I. cbn [fst snd].
  assert (V : conv_at s2 name = Some v) by (apply In_dget; auto; apply W2).
  destruct (wf_conv _ W2 _ _ V) as [_ _ SR DS]. destruct (U2 _ _ V) as (UC & _ & _). unfold xconv.
  rewrite (qsum_map_zero _ (v_src v)).
  - destruct DS as [(_ & _ & E & _) | D]; [congruence |]. destruct (String.eqb_spec (v_dnet v) net) as [E |]; [| cbn [andb]; lra].
    subst net. exfalso. eapply side_apart; eauto.
  - intros [[net' nd'] q] J. cbn [fst snd]. destruct (pair_eqb (net', nd') (net, nd)) eqn:E; [| reflexivity].
    apply pair_eqb_eq in E. inversion E; subst net' nd'. exfalso. eapply side_apart; [exact N |]. apply (SR net nd). apply in_map_iff. exists ((net, nd), q). auto.
Qed.
Lemma side_balance x t net nd n : node_at s1 net nd = Some n -> (xbalance s scn x t net nd n <-> xbalance s1 scn x t net nd n).
Proof.
  intros N. assert (K : node_at s1 net nd <> None) by congruence. unfold xbalance, ximport. rewrite (side_nodes_in net nd K), (side_convs x t net nd K). reflexivity.
Qed.
Lemma side_ok_l x : xok s scn x -> xok s1 scn x.
Proof.
  destruct (sb_horizon _ _ _ SB) as [HH _]. intros [[XC XP XS XL XR XD] XB XT XM]. constructor; [constructor | | |]; rewrite HH.
  - intros t net nd n i c T N. apply side_node in N. eauto.
  - intros t net nd n i c T N. apply side_node in N. eauto.
  - intros t net nd n i c T N. apply side_node in N. eauto.
  - intros t net nd n i c T N. apply side_node in N. eauto.
  - intros t name v k q T V. apply side_conv in V. eauto.
  - intros t name v T V. apply side_conv in V. eauto.
  - intros t net nd n T N. apply (side_balance x t net nd n N). apply XB; auto. now apply side_node.
  - intros t net nd n T N. apply side_node in N. eauto.
  - intros t name v T V. apply side_conv in V. eauto.
Qed.
End Side.

Lemma side_ok s s1 s2 scn x : side_by_side s s1 s2 -> study_wf s -> study_wf s1 -> study_wf s2 -> usable_converters s1 -> usable_converters s2 ->
  (xok s scn x <-> xok s1 scn x /\ xok s2 scn x).
Proof.
  intros SB W W1 W2 U1 U2. pose proof (side_swap _ _ _ SB) as SB'. split.
  - intros X. split; [apply (side_ok_l s s1 s2) | apply (side_ok_l s s2 s1)]; auto.
  - destruct (sb_horizon _ _ _ SB) as [H1 H2]. intros [[[XC XP XS XL XR XD] XB XT XM] [[YC YP YS YL YR YD] YB YT YM]].
    rewrite H1 in *. rewrite H2 in *. constructor; [constructor | | |].
    + intros t net nd n i c T N I. apply (side_node_split s s1 s2 SB W1 W2) in N as [N | N]; eauto.
    + intros t net nd n i c T N I. apply (side_node_split s s1 s2 SB W1 W2) in N as [N | N]; eauto.
    + intros t net nd n i c T N I. apply (side_node_split s s1 s2 SB W1 W2) in N as [N | N]; eauto.
    + intros t net nd n i c T N I. apply (side_node_split s s1 s2 SB W1 W2) in N as [N | N]; eauto.
    + intros t name v k q T V I. apply (side_conv_split s s1 s2 SB W1 W2) in V as [V | V]; eauto.
    + intros t name v T V. apply (side_conv_split s s1 s2 SB W1 W2) in V as [V | V]; eauto.
    + intros t net nd n T N. apply (side_node_split s s1 s2 SB W1 W2) in N as [N | N].
      * apply (side_balance s s1 s2 scn SB W W1 W2 U2 x t net nd n N). auto.
      * apply (side_balance s s2 s1 scn SB' W W2 W1 U1 x t net nd n N). auto.
    + intros t net nd n T N. apply (side_node_split s s1 s2 SB W1 W2) in N as [N | N]; eauto.
    + intros t name v T V. apply (side_conv_split s s1 s2 SB W1 W2) in V as [V | V]; eauto.
Qed.
Lemma regroup a b a1 a2 b1 b2 : (a == a1 + a2 -> b == b1 + b2 -> a + b == a1 + b1 + (a2 + b2))%Q.
Proof. intros. lra. Qed.
Lemma side_cost s s1 s2 scn x : side_by_side s s1 s2 -> (xcost s scn x == xcost s1 scn x + xcost s2 scn x)%Q.
Proof.
  intros [[H1 H2] _ N C]. unfold xcost. rewrite H1, H2, <- qsum_map_add. apply qsum_map_ext. intros t _.
  match goal with |- (qsum (map ?f _) + qsum (map ?g _) == _)%Q =>
    pose proof (qsum_perm _ _ (Permutation_map f N)) as E1; pose proof (qsum_perm _ _ (Permutation_map g C)) as E2 end.
  rewrite map_app, qsum_app in E1, E2. exact (regroup _ _ _ _ _ _ E1 E2).
Qed.
Lemma side_usable s s1 s2 : side_by_side s s1 s2 -> study_wf s -> study_wf s1 -> usable_converters s -> usable_converters s1.
Proof.
  intros SB W W1 U name v V. destruct (U name v (side_conv s s1 s2 SB W W1 _ _ V)) as (A & B & C).
  destruct (sb_horizon _ _ _ SB) as [H _]. destruct (sb_scenarios _ _ _ SB) as [K _]. rewrite <- H, <- K in C. auto.
Qed.

(** Takes the variables of the first study from [y], the others from [x]. *)
Definition belongsb (s : study) (v : var) : bool :=
  match snd (owner v) with
  | inl (net, nd) => match node_at s net nd with Some _ => true | None => false end
  | inr name => match conv_at s name with Some _ => true | None => false end
  end.
Lemma belongsb_ok s v : belongsb s v = true <-> belongs s v.
Proof.
  unfold belongsb, belongs. destruct (snd (owner v)) as [[net nd] | name]; [destruct (node_at s net nd) | destruct (conv_at s name)]; split; easy.
Qed.
Definition spliced (s1 : study) (y x : var -> Q) (v : var) : Q := if belongsb s1 v then y v else x v.
Lemma spliced_in s1 y x v : belongs s1 v -> (y v == spliced s1 y x v)%Q.
Proof. intros B. unfold spliced. apply belongsb_ok in B. rewrite B. reflexivity. Qed.
Lemma spliced_out s s1 s2 y x v : side_by_side s s1 s2 -> study_wf s -> belongs s2 v -> (x v == spliced s1 y x v)%Q.
Proof.
  intros SB W B. unfold spliced. destruct (belongsb s1 v) eqn:E; [| reflexivity]. apply belongsb_ok in E. exfalso. revert B E. unfold belongs.
  destruct (snd (owner v)) as [[net nd] | name]; intros B E; [eapply side_apart | eapply side_conv_apart]; eauto.
Qed.

(** ** C76 *)
Theorem C76_parts_apart : forall s s1 s2 scn, api_study s -> api_study s1 -> api_study s2 -> side_by_side s s1 s2 ->
  usable_converters s -> scn < st_nb_scn s ->
  (forall x, (satisfies (program_of s scn) x <-> satisfies (program_of s1 scn) x /\ satisfies (program_of s2 scn) x) /\
     (objective (program_of s scn) x == objective (program_of s1 scn) x + objective (program_of s2 scn) x)%Q /\
     (optimal (program_of s scn) x <-> optimal (program_of s1 scn) x /\ optimal (program_of s2 scn) x)) /\
  (forall y1 y2, exists x,
     (satisfies (program_of s1 scn) y1 -> satisfies (program_of s1 scn) x) /\ (satisfies (program_of s2 scn) y2 -> satisfies (program_of s2 scn) x) /\
     (objective (program_of s1 scn) x == objective (program_of s1 scn) y1)%Q /\ (objective (program_of s2 scn) x == objective (program_of s2 scn) y2)%Q).
Proof.
  intros s s1 s2 scn A A1 A2 SB U S. pose proof (side_swap _ _ _ SB) as SB'.
  destruct (api_facts s A) as (W & _). destruct (api_facts s1 A1) as (W1 & _). destruct (api_facts s2 A2) as (W2 & _).
  assert (U1 : usable_converters s1) by (eapply side_usable; eauto). assert (U2 : usable_converters s2) by (eapply (side_usable s s2 s1); eauto).
  destruct (sb_scenarios _ _ _ SB) as [K1 K2]. assert (S1 : scn < st_nb_scn s1) by lia. assert (S2 : scn < st_nb_scn s2) by lia.
  pose proof (api_ready s A U) as R. pose proof (api_ready s1 A1 U1) as R1. pose proof (api_ready s2 A2 U2) as R2.
  destruct (build_ok s scn S R) as (p & B & _). assert (E : program_of s scn = p) by (unfold program_of; now rewrite B).
  destruct (build_ok s1 scn S1 R1) as (p1 & B1 & _). assert (E1 : program_of s1 scn = p1) by (unfold program_of; now rewrite B1).
  destruct (build_ok s2 scn S2 R2) as (p2 & B2 & _). assert (E2 : program_of s2 scn = p2) by (unfold program_of; now rewrite B2).
  rewrite E, E1, E2.
  assert (SAT : forall x, satisfies p x <-> satisfies p1 x /\ satisfies p2 x).
  { intros x. rewrite (sat_iff s scn S R _ _ _ B), (sat_iff s1 scn S1 R1 _ _ _ B1), (sat_iff s2 scn S2 R2 _ _ _ B2). now apply side_ok. }
  assert (OBJ : forall x, (objective p x == objective p1 x + objective p2 x)%Q).
  { intros x. rewrite (objective_value s scn S R _ _ _ B), (objective_value s1 scn S1 R1 _ _ _ B1), (objective_value s2 scn S2 R2 _ _ _ B2). now apply side_cost. }
  assert (SPL : forall y1 y2, exists x,
     (satisfies p1 y1 -> satisfies p1 x) /\ (satisfies p2 y2 -> satisfies p2 x) /\ (objective p1 x == objective p1 y1)%Q /\ (objective p2 x == objective p2 y2)%Q).
  { intros y1 y2. exists (spliced s1 y1 y2).
    assert (I1 : forall v, belongs s1 v -> (y1 v == spliced s1 y1 y2 v)%Q) by (intros; now apply spliced_in).
    assert (I2 : forall v, belongs s2 v -> (y2 v == spliced s1 y1 y2 v)%Q) by (intros; eapply spliced_out; eauto).
    rewrite !(sat_iff s1 scn S1 R1 _ _ _ B1), !(sat_iff s2 scn S2 R2 _ _ _ B2), !(objective_value s1 scn S1 R1 _ _ _ B1), !(objective_value s2 scn S2 R2 _ _ _ B2).
    split; [intros X; now apply (agree_ok s1 scn y1) |]. split; [intros X; now apply (agree_ok s2 scn y2) |].
    split; symmetry; [now apply (agree_cost s1) | now apply (agree_cost s2)]. }
  split; [| exact SPL]. intros x. split; [apply SAT |]. split; [apply OBJ |]. unfold optimal. rewrite SAT. split.
  - intros [[F1 F2] Best]. split; (split; [assumption |]); intros y G.
    + destruct (SPL y x) as (z & Z1 & Z2 & O1 & O2). specialize (Best z). rewrite SAT, !OBJ, O1, O2 in Best. specialize (Best (conj (Z1 G) (Z2 F2))). lra.
    + destruct (SPL x y) as (z & Z1 & Z2 & O1 & O2). specialize (Best z). rewrite SAT, !OBJ, O1, O2 in Best. specialize (Best (conj (Z1 F1) (Z2 G))). lra.
  - intros [[F1 Best1] [F2 Best2]]. split; auto. intros y G. apply SAT in G as [G1 G2]. specialize (Best1 _ G1). specialize (Best2 _ G2). rewrite !OBJ. lra.
Qed.

(** The costs of the parts add up. *)
Theorem C76_costs_add : forall answer answer1 answer2 s s1 s2 r r1 r2 scn,
  api_study s -> api_study s1 -> api_study s2 -> side_by_side s s1 s2 -> scn < st_nb_scn s ->
  solved answer s r -> solved answer1 s1 r1 -> solved answer2 s2 r2 ->
  optimal_answer answer s scn -> optimal_answer answer1 s1 scn -> optimal_answer answer2 s2 scn ->
  (total_cost s r scn == total_cost s1 r1 scn + total_cost s2 r2 scn)%Q.
Proof.
  intros answer answer1 answer2 s s1 s2 r r1 r2 scn A A1 A2 SB S SV SV1 SV2 O O1 O2.
  assert (U : usable_converters s) by (destruct (api_facts s A) as (W & G & Hh & Hn); eapply solved_usable; eauto).
  destruct (sb_scenarios _ _ _ SB) as [K1 K2]. assert (S1 : scn < st_nb_scn s1) by lia. assert (S2 : scn < st_nb_scn s2) by lia.
  destruct (solved_weak _ _ _ A SV) as (R & M & Ca). destruct (Ca scn S) as ((vs & B) & CA & _).
  destruct (solved_weak _ _ _ A1 SV1) as (R1 & M1 & Ca1). destruct (Ca1 scn S1) as ((vs1 & B1) & CA1 & _).
  destruct (solved_weak _ _ _ A2 SV2) as (R2 & M2 & Ca2). destruct (Ca2 scn S2) as ((vs2 & B2) & CA2 & _).
  destruct (C76_parts_apart s s1 s2 scn A A1 A2 SB U S) as (P & _). unfold optimal_answer in *.
  set (x := answer scn (program_of s scn)) in *. set (x1 := answer1 scn (program_of s1 scn)) in *. set (x2 := answer2 scn (program_of s2 scn)) in *.
  destruct (P x) as (_ & PO & PP). apply PP in O as [[F1 L1] [F2 L2]]. destruct O1 as [G1 N1]. destruct O2 as [G2 N2].
  specialize (L1 _ G1). specialize (L2 _ G2). specialize (N1 _ F1). specialize (N2 _ F2).
  rewrite (objective_value s1 scn S1 R1 _ vs1 _ B1) in L1, N1, PO. rewrite (objective_value s2 scn S2 R2 _ vs2 _ B2) in L2, N2, PO.
  rewrite (objective_value s1 scn S1 R1 _ vs1 _ B1) in L1, N1. rewrite (objective_value s2 scn S2 R2 _ vs2 _ B2) in L2, N2.
  rewrite (objective_value s scn S R _ vs _ B) in PO.
  pose proof (cost_eq s r R M scn _ CA) as T. pose proof (cost_eq s1 r1 R1 M1 scn _ CA1) as T1. pose proof (cost_eq s2 r2 R2 M2 scn _ CA2) as T2.
  change (xcost s scn (x_read s x r scn)) with (xcost s scn x) in T. change (xcost s1 scn (x_read s1 x1 r1 scn)) with (xcost s1 scn x1) in T1.
  change (xcost s2 scn (x_read s2 x2 r2 scn)) with (xcost s2 scn x2) in T2. rewrite T, T1, T2. lra.
Qed.

(** ** Times apart *)
Definition xstep (s : study) (scn : nat) (x : var -> Q) (t : nat) : Q :=
  (qsum (map (fun kn => qsum (map (fun kd => ncost scn x t (fst kn) (fst kd) (snd kd)) (snd kn))) (st_networks s))
   + qsum (map (fun kv => ovalue (v_cost (snd kv)) scn t * x (VDest (fst kv) t)) (st_converters s)))%Q.
(** Takes the variables of time [t0] from [y], the others from [x]. *)
Definition at_time (t0 : nat) (y x : var -> Q) (v : var) : Q := if Nat.eqb (fst (owner v)) t0 then y v else x v.

Lemma qsum_pair_le' {A} (f g : A -> Q) l : (forall a, In a l -> (f a <= g a)%Q) -> (qsum (map f l) <= qsum (map g l))%Q.
Proof.
  induction l as [| a l IH]; intros H; cbn [map qsum fold_right]; [lra |]. fold (qsum (map f l)). fold (qsum (map g l)).
  specialize (IH (fun b I => H b (or_intror I))). specialize (H a (or_introl eq_refl)). lra.
Qed.

Section Times.
Variables (s : study) (scn t0 : nat) (x y : var -> Q).
Hypothesis W : study_wf s.
Hypothesis NS : no_storage s.
Hypothesis X : xok s scn x.
Hypothesis Y : xok s scn y.
Lemma at_time_x t : t <> t0 -> forall v, belongs s v -> fst (owner v) = t -> (x v == at_time t0 y x v)%Q.
Proof. intros T v _ E. unfold at_time. rewrite E. destruct (Nat.eqb_spec t t0); [contradiction | reflexivity]. Qed.
Lemma at_time_y v : belongs s v -> fst (owner v) = t0 -> (y v == at_time t0 y x v)%Q.
Proof. intros _ E. unfold at_time. rewrite E, Nat.eqb_refl. reflexivity. Qed.
Lemma at_time_ok : xok s scn (at_time t0 y x).
Proof.
  destruct X as [[XC XP XS XL XR XD] XB XT XM]. destruct Y as [[YC YP YS YL YR YD] YB YT YM].
  constructor; [constructor | | |]; unfold at_time; cbn [owner fst vsrc].
  - intros t net nd n i c T N I. destruct (Nat.eqb t t0); eauto.
  - intros t net nd n i c T N I. destruct (Nat.eqb t t0); eauto.
  - intros t net nd n i c T N I. destruct (Nat.eqb t t0); eauto.
  - intros t net nd n i c T N I. destruct (Nat.eqb t t0); eauto.
  - intros t name v k q T V I. destruct (Nat.eqb t t0); eauto.
  - intros t name v T V. destruct (Nat.eqb t t0); eauto.
  - intros t net nd n T N. destruct (Nat.eq_dec t t0) as [-> | D].
    + apply (agree_balance s scn y _ W t0 at_time_y); auto.
    + apply (agree_balance s scn x _ W t (at_time_x t D)); auto.
  - intros t net nd n T N. unfold xstorage. now rewrite (NS _ _ _ N).
  - intros t name v T V. destruct (Nat.eq_dec t t0) as [-> | D].
    + apply (agree_mix s scn y _ t0 at_time_y); auto.
    + apply (agree_mix s scn x _ t (at_time_x t D)); auto.
Qed.
Lemma agree_step t a b : (forall v, belongs s v -> fst (owner v) = t -> (a v == b v)%Q) -> (xstep s scn a t == xstep s scn b t)%Q.
Proof.
  intros A. unfold xstep. apply Qplus_comp; apply qsum_map_ext.
  - intros [net ns] I. apply qsum_map_ext. intros [nd n] J. cbn [fst snd]. apply (agree_ncost s); auto.
    unfold node_at. rewrite (In_dget net ns); [| apply W | auto]. apply In_dget; auto. apply (wf_nodes _ W net). apply In_dget; auto. apply W.
  - intros kv I. apply Qmult_comp; [reflexivity |]. apply A; auto. unfold belongs. cbn [owner snd]. now apply conv_known.
Qed.
End Times.

Lemma qsum_one_changed (f g : nat -> Q) t0 l : NoDup l -> In t0 l -> (forall t, t <> t0 -> (f t == g t)%Q) ->
  (qsum (map f l) - qsum (map g l) == f t0 - g t0)%Q.
Proof.
  intros ND I H. induction ND as [| a m NI ND IH]; [easy |]. cbn [map qsum fold_right]. fold (qsum (map f m)). fold (qsum (map g m)).
  destruct I as [-> | I].
  - rewrite (qsum_map_ext f g m); [lra |]. intros t J. apply H. intros ->. auto.
  - specialize (IH I). rewrite (H a); [lra |]. intros ->. auto.
Qed.

(** ** C77 *)

(** Without storages a result is optimal exactly when it is optimal at each time. *)
Theorem C77_times_apart_partial : forall s r scn, api_study s -> usable_converters s -> scn < st_nb_scn s -> no_storage s ->
  mirrors s r -> law_ok s r scn ->
  ((forall r', mirrors s r' -> law_ok s r' scn -> (total_cost s r scn <= total_cost s r' scn)%Q) <->
   (forall r' t, mirrors s r' -> law_ok s r' scn -> t < st_horizon s -> (step_cost s r scn t <= step_cost s r' scn t)%Q)).
Proof.
  intros s r scn A U S NS M L. destruct (api_facts s A) as (W & _). pose proof (api_ready s A U) as R. split.
  - intros Best r' t0 M' L' T.
    pose proof (read_carries s r scn R M) as C. pose proof (read_carries s r' scn R M') as C'.
    set (x := read_result s r scn) in *. set (y := read_result s r' scn) in *.
    pose proof (proj1 (law_iff s r R M scn x C S) L) as X. pose proof (proj1 (law_iff s r' R M' scn y C' S) L') as Y.
    pose proof (at_time_ok s scn t0 x y W NS X Y) as Z. set (z := at_time t0 y x) in *.
    pose proof (result_of_mirrors s (fun _ => z)) as MZ.
    specialize (Best (result_of s (fun _ => z)) MZ).
    assert (CZ' : carries_answer s (result_of s (fun _ => z)) scn z) by (now apply (result_of_carries s (fun _ => z))).
    specialize (Best (proj2 (law_iff s _ R MZ scn z CZ' S) Z)).
    rewrite (cost_eq s r R M scn x C), (cost_eq s _ R MZ scn z CZ') in Best.
    rewrite (step_cost_eq s r R M scn x C t0 T), (step_cost_eq s r' R M' scn y C' t0 T).
    change (xstep s scn x t0 <= xstep s scn y t0)%Q.
    rewrite (agree_step s scn W t0 y z (at_time_y s t0 x y)).
    assert (D : (xcost s scn x - xcost s scn z == xstep s scn x t0 - xstep s scn z t0)%Q).
    { apply (qsum_one_changed (xstep s scn x) (xstep s scn z) t0); [apply seq_NoDup | apply in_seq; lia |].
      intros t N. apply agree_step; auto. now apply at_time_x. }
    lra.
  - intros Best r' M' L'. unfold total_cost, total. apply qsum_pair_le'. intros t I. apply in_seq in I. apply Best; auto. lia.
Qed.

(** With the answer of an optimal solver. *)
Theorem C77_each_time_optimal : forall answer s r scn, api_study s -> no_storage s -> solved answer s r -> scn < st_nb_scn s ->
  optimal_answer answer s scn -> law_ok s r scn -> forall r' t, mirrors s r' -> law_ok s r' scn -> t < st_horizon s ->
  (step_cost s r scn t <= step_cost s r' scn t)%Q.
Proof.
  intros answer s r scn A NS SV S O L.
  assert (U : usable_converters s) by (destruct (api_facts s A) as (W & G & Hh & Hn); eapply solved_usable; eauto).
  destruct (solved_weak _ _ _ A SV) as (_ & M & _).
  apply (proj1 (C77_times_apart_partial s r scn A U S NS M L)). intros r' M' L'. eapply C20_never_beaten; eauto.
Qed.

(** With a storage the optimum may pay more at one time to save at another. *)
Theorem C77_times_apart_refuted : exists answer s r scn r' t, api_study s /\ plain_sources s /\ solved answer s r /\ scn < st_nb_scn s /\
  optimal_answer answer s scn /\ mirrors s r /\ law_ok s r scn /\ mirrors s r' /\ law_ok s r' scn /\ t < st_horizon s /\
  (step_cost s r' scn t < step_cost s r scn t)%Q.
Proof.
  exists best_answer, mix, best_result, 0, mix_result, 0.
  pose proof (solved_facts _ _ _ mix_api mix_plain best_solved) as (_ & M & C). destruct (C 0 ltac:(vm_compute; lia)) as (vs & B & CA).
  pose proof (solved_facts _ _ _ mix_api mix_plain mix_solved) as (_ & M' & C'). destruct (C' 0 ltac:(vm_compute; lia)) as (vs' & B' & CA').
  destruct (C15_program_exact mix 0 mix_api mix_usable ltac:(vm_compute; lia)) as (_ & _ & _ & D).
  split; [apply mix_api |]. split; [apply mix_plain |]. split; [apply best_solved |]. split; [vm_compute; lia |]. split; [apply best_optimal |].
  split; [exact M |]. split; [apply (D _ _ M CA), best_optimal |]. split; [exact M' |].
  split; [apply (D _ _ M' CA'), mix_feasible; lia |]. split; [vm_compute; lia | vm_compute; reflexivity].
Qed.

(** ** Examples *)

(** A network of heat alone, without storage, and beside [mix]. *)
Definition heat_calls : list call :=
  [ OnStudy_network "heat"; OnSel 0 (MNode "h"); OnSel 1 (MConsumption "load" (jn 100) (jl [5; 9]%Z)); OnSel 2 (MProduction "boiler" (jl [2; 3]%Z) (jn 7)) ].
Definition heat : study := Eval vm_compute in w_study (run (start 2 2 None) heat_calls).
Lemma heat_api : api_study heat.
Proof. exists 2, 2, None, heat_calls. split; [lia|]. split; [lia|]. split; [plain_tac | vm_compute; reflexivity]. Qed.
Definition both_calls : list call :=
  [ OnStudy_network "elec"; OnSel 0 (MNode "a"); OnSel 1 (MConsumption "load" (jn 1000) (jm [[10; 20]; [5; 7]]%Z));
    OnSel 2 (MStorage "cell" (jn 6) (jn 4) (jn 4) (jn 1) 2%Q (PJson (JNum (1 # 2))));
    OnSel 3 (MNode "b"); OnSel 4 (MProduction "wind" (jn 3) (jl [12; 9]%Z)); OnSel 5 (MLink "b" "a" (jn 2) (jn 8)); OnSel 6 (MLink "a" "b" (jn 2) (jn 8));
    OnStudy_network "heat"; OnSel 8 (MNode "h"); OnSel 9 (MConsumption "load" (jn 100) (jl [5; 9]%Z)); OnSel 10 (MProduction "boiler" (jl [2; 3]%Z) (jn 7));
    OnStudy_network "gas"; OnSel 12 (MNode "g"); OnSel 13 (MProduction "well" (jn 10) (jn 30));
    OnSel 14 (MToConverter "plant" (PJson (JNum (1 # 2)))); OnSel 15 (MConverter "plant" "elec" "a" (jn 9) (jn 4)) ].
Definition both : study := Eval vm_compute in w_study (run (start 2 2 None) both_calls).
Lemma both_api : api_study both.
Proof. exists 2, 2, None, both_calls. split; [lia|]. split; [lia|]. split; [plain_tac | vm_compute; reflexivity]. Qed.
Lemma both_usable : usable_converters both. Proof. apply usableb_ok. vm_compute. reflexivity. Qed.
Lemma both_side : side_by_side both mix heat.
Proof.
  constructor; [split; reflexivity | split; reflexivity | |].
  - unfold both, mix, heat. cbn [st_networks app]. apply perm_skip, perm_swap.
  - unfold both, mix, heat. cbn [st_converters app]. apply Permutation_refl.
Qed.
Definition heat_x (v : var) : Q :=
  match v with
  | VProd "heat" _ _ O => 5 | VProd "heat" _ _ (Datatypes.S O) => 7 | VLol "heat" _ _ (Datatypes.S O) => 2
  | _ => 0
  end%Q.
Definition both_x (v : var) : Q := if belongsb heat v then heat_x v else best_x v.
Definition heat_answer (_ : nat) (_ : solver) : var -> Q := heat_x.
Definition both_answer (_ : nat) (_ : solver) : var -> Q := both_x.
Definition heat_result : result := Eval vm_compute in
  match solve_lp heat_answer [0; 1] no_bench heat with Ok r => r | Err _ => Result [] [] no_bench end.
Definition both_result : result := Eval vm_compute in
  match solve_lp both_answer [1; 0] no_bench both with Ok r => r | Err _ => Result [] [] no_bench end.
Lemma heat_solved : solved heat_answer heat heat_result.
Proof. exists [0; 1], no_bench. split; [reflexivity | vm_compute; reflexivity]. Qed.
Lemma both_solved : solved both_answer both both_result.
Proof. exists [1; 0], no_bench. split; [apply perm_swap | vm_compute; reflexivity]. Qed.
Definition heat0 : solver := Eval vm_compute in program_of heat 0.
Lemma heat_optimal : optimal_answer heat_answer heat 0.
Proof.
  unfold optimal_answer, heat_answer. change (program_of heat 0) with heat0. split.
  - apply satb_ok. vm_compute. reflexivity.
  - intros y F. pose proof (satisfies_vars _ _ F) as V. pose proof (satisfies_cons _ _ F) as K.
    unfold heat0 in V, K. cbn [sv_vars sv_cons] in V, K. open_forall V. open_forall K.
    assert (E : (objective heat0 heat_x == 231)%Q) by (vm_compute; reflexivity). rewrite E. cbn. lra.
Qed.
Definition both0 : solver := Eval vm_compute in program_of both 0.
Lemma both_optimal : optimal_answer both_answer both 0.
Proof.
  unfold optimal_answer, both_answer. change (program_of both 0) with both0. split.
  - apply satb_ok. vm_compute. reflexivity.
  - intros y F. pose proof (satisfies_vars _ _ F) as V. pose proof (satisfies_cons _ _ F) as K.
    unfold both0 in V, K. cbn [sv_vars sv_cons] in V, K. open_forall V. open_forall K.
    assert (E : (objective both0 both_x == 626)%Q) by (vm_compute; reflexivity). rewrite E. cbn. lra.
Qed.
Example C76_example : api_study both /\ api_study mix /\ api_study heat /\ side_by_side both mix heat /\ usable_converters both /\
  solved both_answer both both_result /\ solved best_answer mix best_result /\ solved heat_answer heat heat_result /\
  optimal_answer both_answer both 0 /\ optimal_answer best_answer mix 0 /\ optimal_answer heat_answer heat 0 /\
  (total_cost both both_result 0 == 626)%Q /\ (total_cost mix best_result 0 == 395)%Q /\ (total_cost heat heat_result 0 == 231)%Q.
Proof.
  split; [apply both_api |]. split; [apply mix_api |]. split; [apply heat_api |]. split; [apply both_side |]. split; [apply both_usable |].
  split; [apply both_solved |]. split; [apply best_solved |]. split; [apply heat_solved |]. split; [apply both_optimal |]. split; [apply best_optimal |].
  split; [apply heat_optimal |]. split; [vm_compute; reflexivity |]. split; vm_compute; reflexivity.
Qed.

(** The times of [heat] cost 10 and 221; a dispatch that serves less is dearer at each. *)
Definition cold_x (v : var) : Q :=
  match v with
  | VProd "heat" _ _ O => 4 | VLol "heat" _ _ O => 1 | VProd "heat" _ _ (Datatypes.S O) => 6 | VLol "heat" _ _ (Datatypes.S O) => 3
  | _ => 0
  end%Q.
Example C77_example : api_study heat /\ no_storage heat /\ solved heat_answer heat heat_result /\ optimal_answer heat_answer heat 0 /\
  mirrors heat heat_result /\ law_ok heat heat_result 0 /\
  (step_cost heat heat_result 0 0 == 10)%Q /\ (step_cost heat heat_result 0 1 == 221)%Q /\
  exists r', mirrors heat r' /\ law_ok heat r' 0 /\ (step_cost heat r' 0 0 == 108)%Q /\ (step_cost heat r' 0 1 == 318)%Q.
Proof.
  assert (U : usable_converters heat) by (apply usableb_ok; vm_compute; reflexivity).
  assert (P : plain_sources heat) by (apply plainb_ok; vm_compute; reflexivity).
  destruct (C15_program_exact heat 0 heat_api U ltac:(vm_compute; lia)) as (_ & _ & _ & D).
  pose proof (solved_facts _ _ _ heat_api P heat_solved) as (_ & M & C). destruct (C 0 ltac:(vm_compute; lia)) as (vs & B & CA).
  split; [apply heat_api |]. split.
  { intros net nd n N. apply node_at_all in N. vm_compute in N. destruct N as [N | []]. inversion N. reflexivity. }
  split; [apply heat_solved |]. split; [apply heat_optimal |]. split; [exact M |]. split; [apply (D _ _ M CA), heat_optimal |].
  split; [vm_compute; reflexivity |]. split; [vm_compute; reflexivity |].
  exists (result_of heat (fun _ => cold_x)). pose proof (result_of_mirrors heat (fun _ => cold_x)) as M'. split; [exact M' |].
  split; [| split; vm_compute; reflexivity].
  apply (D _ cold_x M'); [apply (result_of_carries heat (fun _ => cold_x)); vm_compute; lia |]. apply satb_ok. vm_compute. reflexivity.
Qed.

Print Assumptions C76_parts_apart.
Print Assumptions C76_costs_add.
Print Assumptions C77_times_apart_partial.
Print Assumptions C77_each_time_optimal.
Print Assumptions C77_times_apart_refuted.
