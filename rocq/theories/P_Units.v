(** Property C75: the units of energy and of money do not matter. *)
From Coq Require Import String List ZArith QArith Bool Arith Lia Lqa Permutation.
From Verif Require Import Base BaseFacts Numeric Study Fluent SpecStudy StudyFacts Output Json SpecJson JsonFacts P_Json
  LP SpecLP LPFacts LPBuild LPSat LPResult LPSolve LPReady LPOpt LPWeak LPMore P_LP P_Opt.
Import ListNotations.
Open Scope nat_scope.
Open Scope string_scope.
Open Scope list_scope.

(** ** Specification: a study written in other units *)
Section Units.
  (** A unit of energy counts [k] new ones, a price per unit of energy [c] new ones. *)
  Variables (k c : Q) (h scn : nat).
  Definition times_at (f : Q) (v w : numval) : Prop := forall t, t < h -> (value w scn t == f * value v scn t)%Q.
  Definition otimes_at (f : Q) (v w : option numval) : Prop := forall t, t < h -> (ovalue w scn t == f * ovalue v scn t)%Q.
  Definition cons_units (a b : consumption) : Prop := times_at k (c_qty a) (c_qty b) /\ times_at c (c_cost a) (c_cost b).
  Definition prod_units (a b : production) : Prop := times_at k (p_qty a) (p_qty b) /\ times_at c (p_cost a) (p_cost b).
  Definition stor_units (a b : storage) : Prop :=
    times_at k (s_capacity a) (s_capacity b) /\ times_at k (s_flow_in a) (s_flow_in b) /\ times_at k (s_flow_out a) (s_flow_out b) /\
    (s_init b == k * s_init a)%Q /\ times_at 1 (s_eff a) (s_eff b) /\ times_at c (s_cost a) (s_cost b).
  Definition link_units (a b : link) : Prop :=
    l_dest b = l_dest a /\ times_at k (l_qty a) (l_qty b) /\ times_at c (l_cost a) (l_cost b).
  Definition conv_units (a b : converter) : Prop :=
    Forall2 (fun kq kq' => fst kq' = fst kq /\ times_at 1 (snd kq) (snd kq')) (v_src a) (v_src b) /\
    v_dnet b = v_dnet a /\ v_dnode b = v_dnode a /\
    otimes_at k (v_max a) (v_max b) /\ otimes_at c (v_cost a) (v_cost b).
  Record node_units (a b : node) : Prop := {
    nu_cons : Forall2 cons_units (n_cons a) (n_cons b);
    nu_prods : Forall2 prod_units (n_prods a) (n_prods b);
    nu_stors : Forall2 stor_units (n_stors a) (n_stors b);
    nu_links : Forall2 link_units (n_links a) (n_links b)
  }.
End Units.

(** Efficiencies and ratios have no unit. *)
Record other_units (k c : Q) (s s' : study) (scn : nat) : Prop := {
  ou_horizon : st_horizon s' = st_horizon s;
  ou_nodes : Forall2 (fun a b => fst b = fst a /\
    Forall2 (fun d e => fst e = fst d /\ node_units k c (st_horizon s) scn (snd d) (snd e)) (snd a) (snd b))
    (st_networks s) (st_networks s');
  ou_convs : Forall2 (fun a b => fst b = fst a /\ conv_units k c (st_horizon s) scn (snd a) (snd b))
    (st_converters s) (st_converters s')
}.

(** ** Lemmas *)
Lemma qsum_mapi_pairs {A C} (P : A -> C -> Prop) f (g : nat -> C -> Q) (e : nat -> A -> Q) l l' : Forall2 P l l' -> forall i,
  (forall j a b, nth_error l j = Some a -> P a b -> (g (i + j)%nat b == f * e (i + j)%nat a)%Q) ->
  (qsum (mapi g i l') == f * qsum (mapi e i l))%Q.
Proof.
  induction 1 as [|a b l l' P1 F IH]; intros i H; cbn [mapi qsum fold_right]; [lra |].
  fold (qsum (mapi g (S i) l')). fold (qsum (mapi e (S i) l)). rewrite (IH (S i)).
  - pose proof (H 0 a b eq_refl P1) as H0. rewrite Nat.add_0_r in H0. rewrite H0. lra.
  - intros j x y J. specialize (H (S j) x y J). rewrite Nat.add_succ_r in H. exact H.
Qed.
Lemma sumi_pairs {A C} (P : A -> C -> Prop) f (g : nat -> C -> Q) (e : nat -> A -> Q) l l' : Forall2 P l l' ->
  (forall j a b, nth_error l j = Some a -> P a b -> (g j b == f * e j a)%Q) -> (sumi g l' == f * sumi e l)%Q.
Proof. intros F H. exact (qsum_mapi_pairs P f g e l l' F 0 H). Qed.
Lemma qsum_pairs {A C} (P : A -> C -> Prop) f (g : C -> Q) (e : A -> Q) l l' : Forall2 P l l' ->
  (forall a b, P a b -> (g b == f * e a)%Q) -> (qsum (map g l') == f * qsum (map e l))%Q.
Proof. intros F H. rewrite <- !sumi_map. apply (sumi_pairs P); auto. Qed.
Lemma Forall2_swap {A C} (P : A -> C -> Prop) (R : C -> A -> Prop) l m : (forall a b, P a b -> R b a) -> Forall2 P l m -> Forall2 R m l.
Proof. intros H F. induction F; constructor; auto. Qed.

Lemma lin_ext d x y : (forall v, x v == y v)%Q -> (lin d x == lin d y)%Q.
Proof. intros H. unfold lin. apply qsum_map_ext. intros [v q] _. cbn [fst snd]. rewrite (H v). reflexivity. Qed.
Lemma objective_ext p x y : (forall v, x v == y v)%Q -> (objective p x == objective p y)%Q.
Proof. apply lin_ext. Qed.
Lemma satisfies_ext p x y : (forall v, x v == y v)%Q -> satisfies p x -> satisfies p y.
Proof.
  intros H [SV SC]. split.
  - intros v lo up I. specialize (SV v lo up I). unfold within in *. rewrite <- (H v). exact SV.
  - intros q I. specialize (SC q I). unfold within in *. rewrite <- (lin_ext _ _ _ H). exact SC.
Qed.

Section Scale.
Variables (k c : Q) (s s' : study) (scn : nat) (x : var -> Q).
Hypothesis Pk : (0 < k)%Q.
Hypothesis OU : other_units k c s s' scn.
Definition scaled (v : var) : Q := (k * x v)%Q.

Lemma ou_node' net nd n' : node_at s' net nd = Some n' -> exists n, node_at s net nd = Some n /\ node_units k c (st_horizon s) scn n n'.
Proof.
  intros E. pose (R := fun (_ : string) (ns ns' : network) => Forall2 (fun d e : string * node => fst e = fst d /\
    node_units k c (st_horizon s) scn (snd d) (snd e)) ns ns').
  pose proof (Forall2_dget R (st_networks s) (st_networks s') net (ou_nodes _ _ _ _ _ OU)) as D. unfold R in D. unfold node_at in *.
  destruct (dget net (st_networks s')) as [ns'|]; [| discriminate]. destruct (dget net (st_networks s)) as [ns|]; [| contradiction].
  pose proof (Forall2_dget (fun _ => node_units k c (st_horizon s) scn) ns ns' nd D) as G. rewrite E in G.
  destruct (dget nd ns) as [n|]; [eauto | contradiction].
Qed.
Lemma ou_conv' name v' : conv_at s' name = Some v' -> exists v, conv_at s name = Some v /\ conv_units k c (st_horizon s) scn v v'.
Proof.
  intros E. pose proof (Forall2_dget (fun _ => conv_units k c (st_horizon s) scn) (st_converters s) (st_converters s') name (ou_convs _ _ _ _ _ OU)) as D.
  unfold conv_at in *. rewrite E in D. destruct (dget name (st_converters s)) as [v|]; [eauto | contradiction].
Qed.

Lemma scale_within a y b b' : (b' == k * b)%Q -> within a y b -> (a == 0)%Q -> within 0 (k * y) b'.
Proof. unfold within. intros E [H1 H2] Z. rewrite E. split; nra. Qed.

Lemma scaled_bounds : xbounds s scn x -> xbounds s' scn scaled.
Proof.
  intros [XC XP XS XL XR XD]. constructor; rewrite (ou_horizon _ _ _ _ _ OU); unfold scaled.
  - intros t net nd n' i e' T N' I. destruct (ou_node' _ _ _ N') as (n & N & [F _ _ _]). destruct (Forall2_get_r _ _ _ _ _ F I) as (e & J & U & _).
    apply (scale_within 0 _ _ _ (U t T)); [eapply XC; eauto | reflexivity].
  - intros t net nd n' i e' T N' I. destruct (ou_node' _ _ _ N') as (n & N & [_ F _ _]). destruct (Forall2_get_r _ _ _ _ _ F I) as (e & J & U & _).
    apply (scale_within 0 _ _ _ (U t T)); [eapply XP; eauto | reflexivity].
  - intros t net nd n' i e' T N' I. destruct (ou_node' _ _ _ N') as (n & N & [_ _ F _]). destruct (Forall2_get_r _ _ _ _ _ F I) as (e & J & U1 & U2 & U3 & _).
    destruct (XS t net nd n i e T N J) as (B1 & B2 & B3). split; [| split];
      [apply (scale_within 0 _ _ _ (U1 t T)) | apply (scale_within 0 _ _ _ (U2 t T)) | apply (scale_within 0 _ _ _ (U3 t T))]; auto; reflexivity.
  - intros t net nd n' i e' T N' I. destruct (ou_node' _ _ _ N') as (n & N & [_ _ _ F]). destruct (Forall2_get_r _ _ _ _ _ F I) as (e & J & _ & U & _).
    apply (scale_within 0 _ _ _ (U t T)); [eapply XL; eauto | reflexivity].
  - intros t name v' key q' T V' I. destruct (ou_conv' _ _ V') as (v & V & (F & _ & _ & M & _)). apply In_nth_error in I as (i & I).
    destruct (Forall2_get_r _ _ _ _ _ F I) as ([k0 q] & J & EK & U). cbn [fst snd] in EK, U. subst k0. apply nth_error_In in J.
    apply (scale_within 0 _ (ovalue (v_max v) scn t / value q scn t)); [| eapply XR; eauto | reflexivity].
    rewrite (M t T), (U t T), Qmult_1_l. unfold Qdiv. lra.
  - intros t name v' T V'. destruct (ou_conv' _ _ V') as (v & V & (_ & _ & _ & M & _)).
    apply (scale_within 0 _ _ _ (M t T)); [eapply XD; eauto | reflexivity].
Qed.

Lemma scaled_into t net nd1 nd n n' : node_units k c (st_horizon s) scn n n' ->
  (sumi (fun i l => if String.eqb (l_dest l) nd then scaled (VLink net nd1 i t) else 0%Q) (n_links n') ==
   k * sumi (fun i l => if String.eqb (l_dest l) nd then x (VLink net nd1 i t) else 0%Q) (n_links n))%Q.
Proof.
  intros [_ _ _ L]. apply (sumi_pairs _ _ _ _ _ _ L). intros j a b _ (D & _). rewrite D. unfold scaled. destruct (String.eqb (l_dest a) nd); lra.
Qed.

Lemma scaled_ok : xok s scn x -> xok s' scn scaled.
Proof.
  intros [XB XN XS XM]. pose proof (ou_horizon _ _ _ _ _ OU) as HH. constructor; [now apply scaled_bounds | | |]; rewrite HH.
  - intros t net nd n' T N'. destruct (ou_node' _ _ _ N') as (n & N & U). pose proof (XN t net nd n T N) as B. unfold xbalance, xself in *.
    assert (E1 : (xnode scaled t net nd n' == k * xnode x t net nd n)%Q).
    { destruct U as [C P S L]. unfold xnode, scaled.
      rewrite (sumi_pairs _ k _ (fun i _ => x (VLol net nd i t)) _ _ C) by (intros; lra).
      rewrite (sumi_pairs _ k _ (fun i _ => x (VProd net nd i t)) _ _ P) by (intros; lra).
      rewrite (sumi_pairs _ k _ (fun i _ => - x (VIn net nd i t) + x (VOut net nd i t))%Q _ _ S) by (intros; lra).
      rewrite (sumi_pairs _ k _ (fun i _ => x (VLink net nd i t)) _ _ L) by (intros; lra). lra. }
    assert (E2 : (qsum (map (fun kv => xconv scaled t net nd (fst kv) (snd kv)) (st_converters s')) ==
                  k * qsum (map (fun kv => xconv x t net nd (fst kv) (snd kv)) (st_converters s)))%Q).
    { apply (qsum_pairs _ _ _ _ _ _ (ou_convs _ _ _ _ _ OU)). intros a b [EK (F & D1 & D2 & _)]. unfold xconv, scaled. rewrite EK, D1, D2.
      rewrite (qsum_pairs _ k _ (fun kr => if pair_eqb (fst kr) (net, nd) then x (vsrc (fst a) t (fst kr)) else 0%Q) _ _ F).
      - destruct (String.eqb (v_dnet (snd a)) net && String.eqb (v_dnode (snd a)) nd); lra.
      - intros kq kq' [EQ _]. rewrite EQ. destruct (pair_eqb (fst kq) (net, nd)); lra. }
    assert (E3 : (ximport s' scaled t net nd == k * ximport s x t net nd)%Q).
    { unfold ximport, nodes_in. pose (R := fun (_ : string) (ns ns' : network) => Forall2 (fun d e : string * node => fst e = fst d /\
        node_units k c (st_horizon s) scn (snd d) (snd e)) ns ns').
      pose proof (Forall2_dget R (st_networks s) (st_networks s') net (ou_nodes _ _ _ _ _ OU)) as D. unfold R in D.
      destruct (dget net (st_networks s)) as [ns|], (dget net (st_networks s')) as [ns'|]; try contradiction; [| cbn; lra].
      apply (qsum_pairs _ _ _ _ _ _ D). intros a b [EK NU]. rewrite EK. now apply scaled_into. }
    rewrite E1, E2, E3, (scaled_into _ _ _ _ _ _ U). destruct U as [C _ _ _].
    rewrite (qsum_pairs _ k _ (fun e => value (c_qty e) scn t) _ _ C) by (intros a b [H _]; apply H, T). rewrite <- B. lra.
  - intros t net nd n' T N'. destruct (ou_node' _ _ _ N') as (n & N & [_ _ S _]). specialize (XS t net nd n T N). unfold xstorage in *.
    destruct S as [|y y' m m' (_ & _ & _ & I & E & _) S]; auto. unfold scaled. rewrite XS, (E t T). destruct t; [rewrite I |]; lra.
  - intros t name v' T V' key q' I. destruct (ou_conv' _ _ V') as (v & V & (F & _)). apply In_nth_error in I as (i & I).
    destruct (Forall2_get_r _ _ _ _ _ F I) as ([k0 q] & J & EK & U). cbn [fst snd] in EK, U. subst k0. apply nth_error_In in J.
    specialize (XM t name v T V key q J). unfold scaled. rewrite (U t T), <- XM. lra.
Qed.

Lemma scaled_cost : (xcost s' scn scaled == k * c * xcost s scn x)%Q.
Proof.
  unfold xcost. rewrite (ou_horizon _ _ _ _ _ OU).
  assert (R : Forall2 (fun t t' : nat => t' = t /\ t < st_horizon s) (seq 0 (st_horizon s)) (seq 0 (st_horizon s))).
  { apply Forall2_nth. split; auto. intros i a b I J. rewrite I in J. inversion J; subst. apply nth_error_In, in_seq in I. split; auto. lia. }
  apply (qsum_pairs _ _ _ _ _ _ R). intros t t' [-> T].
  rewrite (qsum_pairs _ (k * c) _ (fun kn => qsum (map (fun kd => ncost scn x t (fst kn) (fst kd) (snd kd)) (snd kn))) _ _ (ou_nodes _ _ _ _ _ OU)).
  - rewrite (qsum_pairs _ (k * c) _ (fun kv => ovalue (v_cost (snd kv)) scn t * x (VDest (fst kv) t))%Q _ _ (ou_convs _ _ _ _ _ OU)); [lra |].
    intros a b [EK (_ & _ & _ & _ & U)]. rewrite EK, (U t T). unfold scaled. lra.
  - intros a b [EK NS]. rewrite EK. apply (qsum_pairs _ _ _ _ _ _ NS). intros d e [ED [C P S L]]. rewrite ED. unfold ncost, scaled.
    rewrite (sumi_pairs _ (k * c) _ (fun i e => value (c_cost e) scn t * x (VLol (fst a) (fst d) i t))%Q _ _ C) by (intros j u v _ [_ U]; rewrite (U t T); lra).
    rewrite (sumi_pairs _ (k * c) _ (fun i e => value (p_cost e) scn t * x (VProd (fst a) (fst d) i t))%Q _ _ P) by (intros j u v _ [_ U]; rewrite (U t T); lra).
    rewrite (sumi_pairs _ (k * c) _ (fun i e => value (s_cost e) scn t * x (VCap (fst a) (fst d) i t))%Q _ _ S) by (intros j u v _ (_ & _ & _ & _ & _ & U); rewrite (U t T); lra).
    rewrite (sumi_pairs _ (k * c) _ (fun i e => value (l_cost e) scn t * x (VLink (fst a) (fst d) i t))%Q _ _ L) by (intros j u v _ (_ & _ & U); rewrite (U t T); lra).
    lra.
Qed.
End Scale.

Lemma times_back k h scn v w : (0 < k)%Q -> times_at h scn k v w -> times_at h scn (/ k) w v.
Proof. intros P H t T. rewrite (H t T). field. lra. Qed.
Lemma otimes_back k h scn v w : (0 < k)%Q -> otimes_at h scn k v w -> otimes_at h scn (/ k) w v.
Proof. intros P H t T. rewrite (H t T). field. lra. Qed.
Lemma times1_back h scn v w : times_at h scn 1 v w -> times_at h scn 1 w v.
Proof. intros H t T. rewrite (H t T). lra. Qed.
Lemma other_units_back k c s s' scn : (0 < k)%Q -> (0 < c)%Q -> other_units k c s s' scn -> other_units (/ k) (/ c) s' s scn.
Proof.
  intros K C [HH N V]. constructor; [auto | |]; rewrite HH.
  - eapply Forall2_swap; [| exact N]. intros a b [E F]. split; auto. eapply Forall2_swap; [| exact F]. intros d e [E2 [A1 A2 A3 A4]]. split; auto. constructor.
    + eapply Forall2_swap; [| exact A1]. intros u v [H1 H2]. split; now apply times_back.
    + eapply Forall2_swap; [| exact A2]. intros u v [H1 H2]. split; now apply times_back.
    + eapply Forall2_swap; [| exact A3]. intros u v (H1 & H2 & H3 & H4 & H5 & H6).
      repeat apply conj; try (now apply times_back); [rewrite H4; field; lra | now apply times1_back].
    + eapply Forall2_swap; [| exact A4]. intros u v (H1 & H2 & H3). split; auto. split; now apply times_back.
  - eapply Forall2_swap; [| exact V]. intros a b [E (F & D1 & D2 & M & Co)]. split; auto.
    split; [| split; [auto | split; [auto | split; now apply otimes_back]]].
    eapply Forall2_swap; [| exact F]. intros u v [E2 H]. split; auto. now apply times1_back.
Qed.

(** ** C75 *)

(** The two programs have the same solutions up to the unit of energy, at costs in the
    ratio of the units. *)
Theorem C75_programs_in_units : forall k c s s' scn, (0 < k)%Q -> (0 < c)%Q ->
  api_study s -> api_study s' -> usable_converters s -> usable_converters s' -> scn < st_nb_scn s -> scn < st_nb_scn s' ->
  other_units k c s s' scn -> forall x,
  (satisfies (program_of s scn) x <-> satisfies (program_of s' scn) (fun v => k * x v)%Q) /\
  (objective (program_of s' scn) (fun v => k * x v)%Q == k * c * objective (program_of s scn) x)%Q /\
  (optimal (program_of s scn) x <-> optimal (program_of s' scn) (fun v => k * x v)%Q).
Proof.
  intros k c s s' scn K C A A' U U' S S' OU.
  pose proof (api_ready s A U) as R. pose proof (api_ready s' A' U') as R'.
  destruct (build_ok s scn S R) as (p & B & _). assert (E : program_of s scn = p) by (unfold program_of; now rewrite B).
  destruct (build_ok s' scn S' R') as (p' & B' & _). assert (E' : program_of s' scn = p') by (unfold program_of; now rewrite B').
  rewrite E, E'. pose proof (other_units_back k c s s' scn K C OU) as OB.
  assert (K' : (0 < / k)%Q) by now apply Qinv_lt_0_compat.
  assert (SAT : forall x, satisfies p x <-> satisfies p' (fun v => k * x v)%Q).
  { intros x. rewrite (sat_iff s scn S R _ _ _ B), (sat_iff s' scn S' R' _ _ _ B'). split; [apply (scaled_ok k c); auto |].
    intros X. apply (scaled_ok (/ k) (/ c) s' s) in X; auto. unfold scaled in X. apply (sat_iff s scn S R _ _ _ B) in X. apply (sat_iff s scn S R _ _ _ B).
    revert X. apply satisfies_ext. intros v. field. lra. }
  assert (OBJ : forall x, (objective p' (fun v => k * x v) == k * c * objective p x)%Q).
  { intros x. rewrite (objective_value s scn S R _ _ _ B), (objective_value s' scn S' R' _ _ _ B'). apply (scaled_cost k c s s'); auto. }
  intros x. split; [apply SAT |]. split; [apply OBJ |]. unfold optimal. rewrite <- SAT. split.
  - intros [F Best]. split; auto. intros y G.
    assert (G2 : satisfies p' (fun v => k * ((fun u => / k * y u) v))%Q) by (revert G; apply satisfies_ext; intros v; field; lra).
    apply SAT in G2. specialize (Best _ G2). rewrite OBJ.
    assert (O2 : (objective p' y == k * c * objective p (fun u => / k * y u))%Q) by (rewrite <- OBJ; apply objective_ext; intros v; field; lra).
    rewrite O2. assert (0 < k * c)%Q by nra. nra.
  - intros [F Best]. split; auto. intros y G. apply SAT in G. specialize (Best _ G). rewrite !OBJ in Best.
    assert (0 < k * c)%Q by nra. nra.
Qed.

(** Hence the cost of the optimum follows the units. *)
Theorem C75_costs_in_units : forall k c answer answer' s s' r r' scn, (0 < k)%Q -> (0 < c)%Q ->
  api_study s -> api_study s' -> scn < st_nb_scn s -> scn < st_nb_scn s' -> other_units k c s s' scn ->
  solved answer s r -> solved answer' s' r' -> optimal_answer answer s scn -> optimal_answer answer' s' scn ->
  (total_cost s' r' scn == k * c * total_cost s r scn)%Q.
Proof.
  intros k c answer answer' s s' r r' scn K C A A' S S' OU SV SV' O O'.
  assert (U : usable_converters s) by (destruct (api_facts s A) as (W & G & Hh & Hn); eapply solved_usable; eauto).
  assert (U' : usable_converters s') by (destruct (api_facts s' A') as (W & G & Hh & Hn); eapply solved_usable; eauto).
  destruct (solved_weak _ _ _ A SV) as (R & M & Ca). destruct (Ca scn S) as ((vs & B) & CA & _).
  destruct (solved_weak _ _ _ A' SV') as (R' & M' & Ca'). destruct (Ca' scn S') as ((vs' & B') & CA' & _).
  destruct (C75_programs_in_units k c s s' scn K C A A' U U' S S' OU (answer scn (program_of s scn))) as (_ & OB & OP).
  apply OP in O as O1. destruct O1 as [F1 B1]. destruct O' as [F2 B2]. pose proof (B1 _ F2) as L1. pose proof (B2 _ F1) as L2.
  assert (E : (objective (program_of s' scn) (answer' scn (program_of s' scn)) == k * c * objective (program_of s scn) (answer scn (program_of s scn)))%Q)
    by (rewrite <- OB; lra).
  rewrite (objective_value s scn S R _ vs _ B), (objective_value s' scn S' R' _ vs' _ B') in E.
  rewrite (cost_eq s r R M scn _ CA), (cost_eq s' r' R' M' scn _ CA'). exact E.
Qed.

(** The study [mix] in units of energy three times smaller and prices in half units. *)
Definition mix3_calls : list call :=
  [ OnStudy_network "elec"; OnSel 0 (MNode "a"); OnSel 1 (MConsumption "load" (jn 500) (jm [[30; 60]; [15; 21]]%Z));
    OnSel 2 (MStorage "cell" (jn 18) (jn 12) (jn 12) (PJson (JNum (1 # 2))) 6%Q (PJson (JNum (1 # 2))));
    OnSel 3 (MNode "b"); OnSel 4 (MProduction "wind" (PJson (JNum (3 # 2))) (jl [36; 27]%Z));
    OnSel 5 (MLink "b" "a" (jn 1) (jn 24)); OnSel 6 (MLink "a" "b" (jn 1) (jn 24));
    OnSel 7 (MNetwork "gas"); OnSel 8 (MNode "g"); OnSel 9 (MProduction "well" (jn 5) (jn 90));
    OnSel 10 (MToConverter "plant" (PJson (JNum (1 # 2)))); OnSel 11 (MConverter "plant" "elec" "a" (jn 27) (jn 2)) ].
Definition mix3 : study := Eval vm_compute in w_study (run (start 2 2 None) mix3_calls).
Lemma mix3_api : api_study mix3.
Proof. exists 2, 2, None, mix3_calls. split; [lia|]. split; [lia|]. split; [plain_tac | vm_compute; reflexivity]. Qed.
Lemma mix3_usable : usable_converters mix3. Proof. apply usableb_ok. vm_compute. reflexivity. Qed.
Definition best3_answer (_ : nat) (_ : solver) : var -> Q := fun v => (3 * best_x v)%Q.
Definition best3_result : result := Eval vm_compute in
  match solve_lp best3_answer [1; 0] no_bench mix3 with Ok r => r | Err _ => Result [] [] no_bench end.
Ltac units_tac := cbn [fst snd n_cons n_prods n_stors n_links v_src v_dnet v_dnode v_max v_cost
    c_qty c_cost p_qty p_cost s_capacity s_flow_in s_flow_out s_init s_eff s_cost l_dest l_qty l_cost];
  lazymatch goal with
  | |- Forall2 _ [] [] => apply Forall2_nil
  | |- Forall2 _ _ _ => apply Forall2_cons; units_tac
  | |- node_units _ _ _ _ _ _ => constructor; units_tac
  | |- conv_units _ _ _ _ _ _ => unfold conv_units; units_tac
  | |- cons_units _ _ _ _ _ _ => unfold cons_units; units_tac
  | |- prod_units _ _ _ _ _ _ => unfold prod_units; units_tac
  | |- stor_units _ _ _ _ _ _ => unfold stor_units; units_tac
  | |- link_units _ _ _ _ _ _ => unfold link_units; units_tac
  | |- _ /\ _ => split; units_tac
  | |- times_at _ _ _ _ _ => match goal with H : forall f v w, _ -> _ -> times_at _ _ f v w |- _ => apply H; vm_compute; reflexivity end
  | |- otimes_at _ _ _ _ _ => match goal with H : forall f v w, _ -> _ -> otimes_at _ _ f v w |- _ => apply H; vm_compute; reflexivity end
  | |- _ => vm_compute; reflexivity
  end.
Lemma mix3_units : other_units 3 (1 # 2) mix mix3 0.
Proof.
  assert (T2 : forall f v w, (value w 0 0 == f * value v 0 0)%Q -> (value w 0 1 == f * value v 0 1)%Q -> times_at 2 0 f v w).
  { intros f v w H0 H1 [|[|t]] T; auto. lia. }
  assert (O2 : forall f v w, (ovalue w 0 0 == f * ovalue v 0 0)%Q -> (ovalue w 0 1 == f * ovalue v 0 1)%Q -> otimes_at 2 0 f v w).
  { intros f v w H0 H1 [|[|t]] T; auto. lia. }
  constructor; [vm_compute; reflexivity | |]; unfold mix, mix3; cbn [st_networks st_converters st_horizon]; units_tac.
Qed.
Example C75_example : api_study mix /\ api_study mix3 /\ usable_converters mix /\ usable_converters mix3 /\ other_units 3 (1 # 2) mix mix3 0 /\
  solved best_answer mix best_result /\ solved best3_answer mix3 best3_result /\
  optimal_answer best_answer mix 0 /\ optimal_answer best3_answer mix3 0 /\
  (total_cost mix best_result 0 == 395)%Q /\ (total_cost mix3 best3_result 0 == 1185 # 2)%Q.
Proof.
  split; [apply mix_api |]. split; [apply mix3_api |]. split; [apply mix_usable |]. split; [apply mix3_usable |]. split; [apply mix3_units |].
  split; [apply best_solved |]. split. { exists [1; 0], no_bench. split; [| vm_compute; reflexivity]. apply perm_swap. }
  split; [apply best_optimal |]. split; [| split; vm_compute; reflexivity].
  unfold optimal_answer, best3_answer. 
  apply (C75_programs_in_units 3 (1 # 2) mix mix3 0 ltac:(reflexivity) ltac:(reflexivity) mix_api mix3_api mix_usable mix3_usable
    ltac:(vm_compute; lia) ltac:(vm_compute; lia) mix3_units best_x). apply best_optimal.
Qed.

Print Assumptions C75_programs_in_units.
Print Assumptions C75_costs_in_units.
