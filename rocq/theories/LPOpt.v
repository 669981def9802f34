(** Moving a little energy from one variable of an optimal answer to another. *)
From Coq Require Import String List ZArith QArith Bool Arith Lia Lqa Qminmax.
From Verif Require Import Base BaseFacts Numeric Study SpecStudy StudyFacts Output LP SpecLP LPFacts LPBuild LPSat.
Import ListNotations.
Open Scope nat_scope.

(** ** Directions *)
Definition unit1 (v u : var) : Q := if eqb u v then 1%Q else 0%Q.
Definition pert (x : var -> Q) (e : Q) (d : var -> Q) (u : var) : Q := (x u + e * d u)%Q.

Lemma unit1_same v : unit1 v v = 1%Q.
Proof. unfold unit1. now rewrite eqb_refl. Qed.
Lemma unit1_other v u : u <> v -> unit1 v u = 0%Q.
Proof. intros N. unfold unit1. now rewrite (proj2 (eqb_neq _ _) N). Qed.

Lemma lin_pert c x e d : (lin c (pert x e d) == lin c x + e * lin c d)%Q.
Proof. unfold lin, pert. induction c as [|[v q] c IH]; cbn [map qsum fold_right fst snd]; [lra|]. unfold qsum in IH. rewrite IH. lra. Qed.

Lemma lin_unit c v q : NoDup (map fst c) -> In (v, q) c -> (lin c (unit1 v) == q)%Q.
Proof.
  intros ND I. unfold lin. rewrite (qsum_single_key fst _ c (v, q) ND I).
  - cbn [fst snd]. rewrite unit1_same. lra.
  - intros [u q'] _ N. cbn [fst snd] in *. rewrite unit1_other by auto. lra.
Qed.

Lemma sumi_lin {A} (f g : nat -> A -> Q) e l : (sumi (fun i a => f i a + e * g i a) l == sumi f l + e * sumi g l)%Q.
Proof.
  rewrite (sumi_add f (fun i a => e * g i a)%Q). apply Qplus_comp; [reflexivity|].
  unfold sumi. generalize 0. induction l as [|a l IH]; intros i; cbn [mapi qsum fold_right]; [lra|].
  specialize (IH (S i)). unfold qsum in IH. rewrite IH. lra.
Qed.

Lemma sumi_pick {A} (f : nat -> A -> Q) l j a : nth_error l j = Some a ->
  (forall i b, nth_error l i = Some b -> i <> j -> (f i b == 0)%Q) -> (sumi f l == f j a)%Q.
Proof.
  unfold sumi. intros E Z.
  assert (X : forall l i0 j, nth_error l j = Some a -> (forall i b, nth_error l i = Some b -> i <> j -> (f (i0 + i)%nat b == 0)%Q) ->
     (qsum (mapi f i0 l) == f (i0 + j)%nat a)%Q).
  { clear. induction l as [|b l IH]; intros i0 j E Z; [destruct j; discriminate|]. cbn [mapi qsum fold_right].
    fold (qsum (mapi f (S i0) l)). destruct j as [|j].
    - injection E as ->. rewrite Nat.add_0_r.
      assert (Y : (qsum (mapi f (S i0) l) == 0)%Q).
      { rewrite (qsum_mapi_ext f (fun _ _ => 0%Q)); [rewrite mapi_map; apply qsum_map_zero; reflexivity|].
        intros j x F. specialize (Z (S j) x F ltac:(lia)). now rewrite Nat.add_succ_r in Z. }
      rewrite Y. lra.
    - simpl in E. rewrite (IH (S i0) j E).
      + specialize (Z 0 b eq_refl ltac:(lia)). rewrite Nat.add_0_r in Z. rewrite Z, Nat.add_succ_r. simpl. lra.
      + intros i b' F N. specialize (Z (S i) b' F ltac:(lia)). now rewrite Nat.add_succ_r in Z. }
  apply (X l 0 j E). simpl. exact Z.
Qed.

Section Opt.
Variables (s : study) (scn : nat).
Hypothesis Hscn : scn < st_nb_scn s.
Hypothesis Hs : ready s.

(** ** Linear forms *)
Definition xflow (x : var -> Q) (t : nat) (net nd : string) (n : node) : Q :=
  (xnode x t net nd n + qsum (map (fun kv => xconv x t net nd (fst kv) (snd kv)) (st_converters s))
   + ximport s x t net nd + xself x t net nd n)%Q.

Lemma xnode_pert x e d t net nd n : (xnode (pert x e d) t net nd n == xnode x t net nd n + e * xnode d t net nd n)%Q.
Proof.
  unfold xnode, pert. rewrite !sumi_lin.
  rewrite (sumi_ext (fun i _ => - (x (VIn net nd i t) + e * d (VIn net nd i t)) + (x (VOut net nd i t) + e * d (VOut net nd i t)))%Q
            (fun i _ => (- x (VIn net nd i t) + x (VOut net nd i t)) + e * (- d (VIn net nd i t) + d (VOut net nd i t)))%Q)
    by (intros; lra).
  rewrite (sumi_lin (fun i (_ : storage) => - x (VIn net nd i t) + x (VOut net nd i t))%Q). lra.
Qed.

Lemma qsum_map_lin {A} (f g : A -> Q) e l : (qsum (map (fun a => f a + e * g a) l) == qsum (map f l) + e * qsum (map g l))%Q.
Proof. rewrite (qsum_map_add f (fun a => e * g a)%Q). rewrite (qsum_map_scal e g). lra. Qed.

Lemma xflow_pert x e d t net nd n : (xflow (pert x e d) t net nd n == xflow x t net nd n + e * xflow d t net nd n)%Q.
Proof.
  unfold xflow. rewrite xnode_pert.
  assert (C : (qsum (map (fun kv => xconv (pert x e d) t net nd (fst kv) (snd kv)) (st_converters s)) ==
     qsum (map (fun kv => xconv x t net nd (fst kv) (snd kv)) (st_converters s)) + e * qsum (map (fun kv => xconv d t net nd (fst kv) (snd kv)) (st_converters s)))%Q).
  { rewrite <- qsum_map_lin. apply qsum_map_ext. intros [name v] _. cbn [fst snd]. unfold xconv, pert.
    rewrite (qsum_map_ext _ (fun kr => (if pair_eqb (fst kr) (net, nd) then x (vsrc name t (fst kr)) else 0) +
                e * (if pair_eqb (fst kr) (net, nd) then d (vsrc name t (fst kr)) else 0))%Q (v_src v))
      by (intros kr _; destruct (pair_eqb (fst kr) (net, nd)); lra).
    rewrite qsum_map_lin. destruct (String.eqb (v_dnet v) net && String.eqb (v_dnode v) nd); lra. }
  assert (I : (ximport s (pert x e d) t net nd == ximport s x t net nd + e * ximport s d t net nd)%Q).
  { unfold ximport. rewrite <- qsum_map_lin. apply qsum_map_ext. intros [nd' n'] _. cbn [fst snd].
    rewrite <- sumi_lin. apply sumi_ext. intros j l _. unfold pert. destruct (String.eqb (l_dest l) nd); lra. }
  assert (S : (xself (pert x e d) t net nd n == xself x t net nd n + e * xself d t net nd n)%Q).
  { unfold xself. rewrite <- sumi_lin. apply sumi_ext. intros j l _. unfold pert. destruct (String.eqb (l_dest l) nd); lra. }
  rewrite C, I, S. lra.
Qed.

(** A direction that changes no constraint. *)
Record neutral (d : var -> Q) : Prop := {
  nt_flow : forall t net nd n, t < st_horizon s -> node_at s net nd = Some n -> (xflow d t net nd n == 0)%Q;
  nt_stor : forall net nd i t, (d (VCap net nd i t) == 0)%Q /\ (d (VIn net nd i t) == 0)%Q /\ (d (VOut net nd i t) == 0)%Q;
  nt_conv : forall name net nd t, (d (VSrc name net nd t) == 0)%Q /\ (d (VDest name t) == 0)%Q
}.

Lemma neutral_ok x e d : xok s scn x -> neutral d -> xbounds s scn (pert x e d) -> xok s scn (pert x e d).
Proof.
  intros [XB XA XS XM] [NF NS NC] B. constructor; auto.
  - intros t net nd n T N. unfold xbalance. fold (xflow (pert x e d) t net nd n). rewrite xflow_pert, NF by auto.
    specialize (XA t net nd n T N). unfold xbalance in XA. fold (xflow x t net nd n) in XA. lra.
  - intros t net nd n T N. specialize (XS t net nd n T N). unfold xstorage in *. destruct (n_stors n) as [|y r]; auto.
    unfold pert. destruct (NS net nd 0 t) as (N1 & N2 & N3). rewrite N1, N2, N3. rewrite !Qmult_0_r, !Qplus_0_r.
    destruct t as [|t']; auto. destruct (NS net nd 0 t') as (M1 & _). rewrite M1. lra.
  - intros t name v T V k q I. specialize (XM t name v T V k q I). unfold pert, vsrc in *.
    destruct (NC name (fst k) (snd k) t) as [N1 N2]. rewrite N1, N2. lra.
Qed.

(** ** Perturbed answers *)
Variables (p : solver) (vs : list lpstep) (x : var -> Q).
Hypothesis Hp : build s scn = Ok (p, vs).
Hypothesis Ho : optimal p x.

Lemma vars_p : sv_vars p = g_vars (program s scn) /\ sv_obj p = g_obj (program s scn).
Proof.
  destruct (build_ok s scn Hscn Hs) as (p' & B & V & K & O). rewrite Hp in B. inversion B; subst p'. rewrite O.
  split; auto. apply dict_of_NoDup. solve [apply obj_NoDup; auto].
Qed.

Definition is_var (v : var) (ub c : Q) : Prop :=
  In (v, (0%Q, ub)) (sv_vars p) /\ In (v, c) (sv_obj p).

(** Moving [e] units from [b] to [a]. *)
Lemma not_cheaper d e : (0 < e)%Q -> neutral d -> (forall v lo up, In (v, (lo, up)) (sv_vars p) -> within lo (pert x e d v) up) ->
  (0 <= objective p d)%Q.
Proof.
  intros E N B. destruct Ho as [F O]. apply (sat_iff s scn Hscn Hs p vs x Hp) in F.
  destruct vars_p as [V _].
  assert (Y : satisfies p (pert x e d)).
  { apply (sat_iff s scn Hscn Hs p vs _ Hp). apply neutral_ok; auto. apply bounds_iff; auto. rewrite <- V. exact B. }
  specialize (O _ Y). unfold objective in *. rewrite lin_pert in O.
  destruct (Qlt_le_dec (lin (sv_obj p) d) 0); auto. nra.
Qed.

Lemma var_once v lo up lo' up' : In (v, (lo, up)) (sv_vars p) -> In (v, (lo', up')) (sv_vars p) -> lo = lo' /\ up = up'.
Proof.
  destruct vars_p as [V _]. rewrite V. pose proof (vars_NoDup s scn Hscn Hs) as ND. intros I J.
  apply In_dget in I; auto. apply In_dget in J; auto. rewrite I in J. now inversion J.
Qed.

Lemma exchange a ua ca b ub cb : is_var a ua ca -> is_var b ub cb -> a <> b ->
  neutral (fun u => unit1 a u + (-1) * unit1 b u)%Q ->
  (x a < ua)%Q -> (0 < x b)%Q -> (cb <= ca)%Q.
Proof.
  intros [A1 A2] [B1 B2] NE N XA XB. destruct vars_p as [_ VO].
  pose proof (obj_NoDup s scn Hscn Hs) as ND. rewrite <- VO in ND.
  set (e := Qmin (ua - x a) (x b)).
  assert (E0 : (0 < e)%Q) by (unfold e; apply Q.min_glb_lt; lra).
  assert (E1 : (e <= ua - x a)%Q) by apply Q.le_min_l.
  assert (E2 : (e <= x b)%Q) by apply Q.le_min_r.
  assert (O : (0 <= objective p (fun u => unit1 a u + (-1) * unit1 b u))%Q).
  { apply (not_cheaper _ e); auto. intros v lo up I. unfold pert.
    pose proof (sat_vars _ _ (proj1 Ho) v lo up I) as [W1 W2].
    destruct (eqb v a) eqn:Ea.
    - apply eqb_eq in Ea. subst v. destruct (var_once a lo up 0 ua I A1) as [-> ->].
      rewrite unit1_same, unit1_other by auto. split; lra.
    - apply eqb_neq in Ea. rewrite (unit1_other a) by auto. destruct (eqb v b) eqn:Eb.
      + apply eqb_eq in Eb. subst v. destruct (var_once b lo up 0 ub I B1) as [-> ->].
        rewrite unit1_same. split; lra.
      + apply eqb_neq in Eb. rewrite unit1_other by auto. split; lra. }
  unfold objective in O.
  change (fun u => unit1 a u + (-1) * unit1 b u)%Q with (pert (unit1 a) (-1)%Q (unit1 b)) in O.
  rewrite lin_pert, (lin_unit _ a ca), (lin_unit _ b cb) in O by auto. lra.
Qed.

(** Taking [e] units off both [a] and [b]. *)
Lemma withdraw a ua ca b ub cb : is_var a ua ca -> is_var b ub cb -> a <> b ->
  neutral (fun u => unit1 a u + 1 * unit1 b u)%Q -> (0 < x a)%Q -> (0 < x b)%Q -> (ca + cb <= 0)%Q.
Proof.
  intros [A1 A2] [B1 B2] NE N XA XB. destruct vars_p as [_ VO].
  pose proof (obj_NoDup s scn Hscn Hs) as ND. rewrite <- VO in ND.
  set (e := Qmin (x a) (x b)).
  assert (E0 : (0 < e)%Q) by (unfold e; apply Q.min_glb_lt; lra).
  assert (E1 : (e <= x a)%Q) by apply Q.le_min_l.
  assert (E2 : (e <= x b)%Q) by apply Q.le_min_r.
  assert (N' : neutral (fun u => 0 + (-1) * (unit1 a u + 1 * unit1 b u))%Q).
  { destruct N as [N1 N2 N3].
    assert (Z : forall t net nd n, (xflow (fun _ => 0%Q) t net nd n == 0)%Q).
    { intros t net nd n. pose proof (xflow_pert (fun _ => 0%Q) (-1)%Q (fun _ => 0%Q) t net nd n) as L.
      assert (R : (xflow (pert (fun _ => 0%Q) (-1) (fun _ => 0%Q)) t net nd n == xflow (fun _ => 0%Q) t net nd n)%Q) by reflexivity.
      lra. }
    constructor.
    - intros t net nd n T HN. change (fun u => 0 + (-1) * (unit1 a u + 1 * unit1 b u))%Q
        with (pert (fun _ => 0)%Q (-1)%Q (fun u => unit1 a u + 1 * unit1 b u)%Q).
      rewrite xflow_pert, N1, Z by auto. lra.
    - intros net nd i t. destruct (N2 net nd i t) as (M1 & M2 & M3). rewrite M1, M2, M3. repeat split; lra.
    - intros name net nd t. destruct (N3 name net nd t) as [M1 M2]. rewrite M1, M2. split; lra. }
  assert (O : (0 <= objective p (fun u => 0 + (-1) * (unit1 a u + 1 * unit1 b u)))%Q).
  { apply (not_cheaper _ e); auto. intros v lo up I. unfold pert.
    pose proof (sat_vars _ _ (proj1 Ho) v lo up I) as [W1 W2].
    destruct (eqb v a) eqn:Ea.
    - apply eqb_eq in Ea. subst v. destruct (var_once a lo up 0 ua I A1) as [-> ->].
      rewrite unit1_same, unit1_other by auto. split; lra.
    - apply eqb_neq in Ea. rewrite (unit1_other a) by auto. destruct (eqb v b) eqn:Eb.
      + apply eqb_eq in Eb. subst v. destruct (var_once b lo up 0 ub I B1) as [-> ->].
        rewrite unit1_same. split; lra.
      + apply eqb_neq in Eb. rewrite unit1_other by auto. split; lra. }
  unfold objective in O.
  change (fun u => 0 + (-1) * (unit1 a u + 1 * unit1 b u))%Q
    with (pert (fun _ => 0)%Q (-1)%Q (pert (unit1 a) 1%Q (unit1 b))) in O.
  rewrite !lin_pert, (lin_unit _ a ca), (lin_unit _ b cb) in O by auto.
  assert (Z : (lin (sv_obj p) (fun _ => 0) == 0)%Q) by (unfold lin; apply qsum_map_zero; intros; lra).
  lra.
Qed.

(** ** Elements of a node *)
Section Node.
Variables (net nd : string) (n : node) (t : nat).
Hypothesis Hn : node_at s net nd = Some n.
Hypothesis Ht : t < st_horizon s.

Lemma lol_var i c : nth_error (n_cons n) i = Some c ->
  is_var (VLol net nd i t) (value (c_qty c) scn t) (value (c_cost c) scn t).
Proof.
  intros E. destruct vars_p as [V O]. unfold is_var. rewrite V, O. unfold program, gapp, gop. cbn [g_vars g_obj]. rewrite !app_nil_r.
  rewrite (over_proj s scn g_vars), (over_proj s scn g_obj) by auto. split; apply (over_In s scn Hscn Hs); exists t; split; auto;
    left; exists net, nd, n; split; auto; cbn [g_vars g_obj node_inc].
  - unfold node_vars. rewrite !in_app_iff. left. apply In_mapi. exists i, c. auto.
  - unfold node_obj. cbn [pnode ln_cons]. rewrite !in_app_iff. left. rewrite map_mapi. apply In_mapi. exists i, c. auto.
Qed.
Lemma prod_var i c : nth_error (n_prods n) i = Some c ->
  is_var (VProd net nd i t) (value (p_qty c) scn t) (value (p_cost c) scn t).
Proof.
  intros E. destruct vars_p as [V O]. unfold is_var. rewrite V, O. unfold program, gapp, gop. cbn [g_vars g_obj]. rewrite !app_nil_r.
  rewrite (over_proj s scn g_vars), (over_proj s scn g_obj) by auto. split; apply (over_In s scn Hscn Hs); exists t; split; auto;
    left; exists net, nd, n; split; auto; cbn [g_vars g_obj node_inc].
  - unfold node_vars. rewrite !in_app_iff. right. left. apply In_mapi. exists i, c. auto.
  - unfold node_obj. cbn [pnode ln_prods]. rewrite !in_app_iff. right. left. rewrite map_mapi. apply In_mapi. exists i, c. auto.
Qed.
Lemma link_var i c : nth_error (n_links n) i = Some c ->
  is_var (VLink net nd i t) (value (l_qty c) scn t) (value (l_cost c) scn t).
Proof.
  intros E. destruct vars_p as [V O]. unfold is_var. rewrite V, O. unfold program, gapp, gop. cbn [g_vars g_obj]. rewrite !app_nil_r.
  rewrite (over_proj s scn g_vars), (over_proj s scn g_obj) by auto. split; apply (over_In s scn Hscn Hs); exists t; split; auto;
    left; exists net, nd, n; split; auto; cbn [g_vars g_obj node_inc].
  - unfold node_vars. rewrite !in_app_iff. right. right. right. apply In_mapi. exists i, c. auto.
  - unfold node_obj. cbn [pnode ln_links]. rewrite !in_app_iff. right. right. right. rewrite map_mapi. apply In_mapi. exists i, c. auto.
Qed.

(** Shedding and production variables of the node. *)
Definition local (v : var) : Prop :=
  (exists i c, v = VLol net nd i t /\ nth_error (n_cons n) i = Some c) \/
  (exists i c, v = VProd net nd i t /\ nth_error (n_prods n) i = Some c).

Definition here (t' : nat) (net' nd' : string) : Q :=
  if Nat.eqb t' t && String.eqb net' net && String.eqb nd' nd then 1%Q else 0%Q.

Lemma xnode_local v t' net' nd' n' : local v -> node_at s net' nd' = Some n' -> (xnode (unit1 v) t' net' nd' n' == here t' net' nd')%Q.
Proof.
  intros L N. unfold xnode, here.
  assert (Z1 : (sumi (fun i (_ : storage) => - unit1 v (VIn net' nd' i t') + unit1 v (VOut net' nd' i t')) (n_stors n') == 0)%Q).
  { apply sumi_zero. intros i y _. destruct L as [(j & c & -> & _)|(j & c & -> & _)]; rewrite !unit1_other by discriminate; lra. }
  assert (Z2 : (sumi (fun i (_ : link) => unit1 v (VLink net' nd' i t')) (n_links n') == 0)%Q).
  { apply sumi_zero. intros i y _. destruct L as [(j & c & -> & _)|(j & c & -> & _)]; rewrite !unit1_other by discriminate; lra. }
  rewrite Z1, Z2. clear Z1 Z2.
  destruct (Nat.eqb t' t && String.eqb net' net && String.eqb nd' nd) eqn:E.
  - apply andb_true_iff in E as [E E3]. apply andb_true_iff in E as [E1 E2].
    apply Nat.eqb_eq in E1. apply String.eqb_eq in E2, E3. subst. rewrite Hn in N. inversion N; subst n'.
    destruct L as [(j & c & -> & EL)|(j & c & -> & EL)].
    + rewrite (sumi_pick _ (n_cons n) j c EL) by (intros i b _ NE; rewrite unit1_other by congruence; lra).
      rewrite (sumi_zero _ (n_prods n)) by (intros; rewrite unit1_other by discriminate; lra). rewrite unit1_same. lra.
    + rewrite (sumi_pick _ (n_prods n) j c EL) by (intros i b _ NE; rewrite unit1_other by congruence; lra).
      rewrite (sumi_zero _ (n_cons n)) by (intros; rewrite unit1_other by discriminate; lra). rewrite unit1_same. lra.
  - assert (NE : ~ (t' = t /\ net' = net /\ nd' = nd)).
    { intros (-> & -> & ->). rewrite Nat.eqb_refl, !String.eqb_refl in E. discriminate. }
    destruct L as [(j & c & -> & EL)|(j & c & -> & EL)];
      rewrite (sumi_zero _ (n_cons n')), (sumi_zero _ (n_prods n')) by (intros; rewrite unit1_other by (try discriminate; intros X; inversion X; tauto); lra); lra.
Qed.

Lemma xflow_local v t' net' nd' n' : local v -> node_at s net' nd' = Some n' -> (xflow (unit1 v) t' net' nd' n' == here t' net' nd')%Q.
Proof.
  intros L N. unfold xflow. rewrite xnode_local by auto.
  rewrite (qsum_map_zero _ (st_converters s)).
  - unfold ximport, xself. rewrite (sumi_zero _ (n_links n')).
    + rewrite qsum_map_zero; [lra|]. intros [nd2 n2] _. apply sumi_zero. intros i l _.
      destruct L as [(j & c & -> & _)|(j & c & -> & _)]; rewrite unit1_other by discriminate; destruct (String.eqb (l_dest l) nd'); reflexivity.
    + intros i l _. destruct L as [(j & c & -> & _)|(j & c & -> & _)]; rewrite unit1_other by discriminate; destruct (String.eqb (l_dest l) nd'); reflexivity.
  - intros [name w] _. unfold xconv, vsrc. cbn [fst snd].
    rewrite (qsum_map_zero _ (v_src w)).
    + destruct L as [(j & c & -> & _)|(j & c & -> & _)]; rewrite unit1_other by discriminate;
        destruct (String.eqb (v_dnet w) net' && String.eqb (v_dnode w) nd'); lra.
    + intros kr _. destruct L as [(j & c & -> & _)|(j & c & -> & _)]; rewrite unit1_other by discriminate;
        destruct (pair_eqb (fst kr) (net', nd')); reflexivity.
Qed.

Lemma local_neutral a b : local a -> local b -> neutral (fun u => unit1 a u + (-1) * unit1 b u)%Q.
Proof.
  intros A B. constructor.
  - intros t' net' nd' n' T N. change (fun u => unit1 a u + (-1) * unit1 b u)%Q with (pert (unit1 a) (-1)%Q (unit1 b)).
    rewrite xflow_pert, !xflow_local by auto. lra.
  - intros net' nd' i t'.
    destruct A as [(j & c & -> & _)|(j & c & -> & _)]; destruct B as [(j' & c' & -> & _)|(j' & c' & -> & _)];
      rewrite !unit1_other by discriminate; repeat split; lra.
  - intros name net' nd' t'.
    destruct A as [(j & c & -> & _)|(j & c & -> & _)]; destruct B as [(j' & c' & -> & _)|(j' & c' & -> & _)];
      rewrite !unit1_other by discriminate; repeat split; lra.
Qed.
End Node.

(** ** Links *)
Lemma xflow_link net src dst n i l t t' net' nd' n' : node_at s net src = Some n -> nth_error (n_links n) i = Some l ->
  l_dest l = dst -> src <> dst -> node_at s net' nd' = Some n' ->
  (xflow (unit1 (VLink net src i t)) t' net' nd' n' == here net dst t t' net' nd' - here net src t t' net' nd')%Q.
Proof.
  intros N E D NE N'. unfold xflow.
  rewrite (qsum_map_zero _ (st_converters s)).
  2:{ intros [name w] _. unfold xconv, vsrc. cbn [fst snd]. rewrite (qsum_map_zero _ (v_src w)).
      - rewrite unit1_other by discriminate. destruct (String.eqb (v_dnet w) net' && String.eqb (v_dnode w) nd'); lra.
      - intros kr _. rewrite unit1_other by discriminate. destruct (pair_eqb (fst kr) (net', nd')); reflexivity. }
  assert (X1 : (xnode (unit1 (VLink net src i t)) t' net' nd' n' == - here net src t t' net' nd')%Q).
  { unfold xnode. rewrite (sumi_zero _ (n_cons n')), (sumi_zero _ (n_prods n')), (sumi_zero _ (n_stors n'))
      by (intros; rewrite !unit1_other by discriminate; lra).
    unfold here. destruct (Nat.eqb t' t && String.eqb net' net && String.eqb nd' src) eqn:B.
    - apply andb_true_iff in B as [B B3]. apply andb_true_iff in B as [B1 B2].
      apply Nat.eqb_eq in B1. apply String.eqb_eq in B2, B3. subst. rewrite N in N'. inversion N'; subst n'.
      rewrite (sumi_pick _ (n_links n) i l E) by (intros j b _ X; rewrite unit1_other by congruence; lra).
      rewrite unit1_same. lra.
    - assert (F : ~ (t' = t /\ net' = net /\ nd' = src)).
      { intros (-> & -> & ->). rewrite Nat.eqb_refl, !String.eqb_refl in B. discriminate. }
      rewrite (sumi_zero _ (n_links n')); [lra|]. intros j b _. rewrite unit1_other; [lra|]. intros X; inversion X; tauto. }
  assert (X2 : (xself (unit1 (VLink net src i t)) t' net' nd' n' == 0)%Q).
  { unfold xself. apply sumi_zero. intros j b EB. destruct (String.eqb (l_dest b) nd') eqn:B; [|reflexivity].
    apply String.eqb_eq in B. rewrite unit1_other; [reflexivity|]. intros X. inversion X; subst.
    rewrite N in N'. inversion N'; subst n'. rewrite E in EB. inversion EB; subst. congruence. }
  assert (X3 : (ximport s (unit1 (VLink net src i t)) t' net' nd' == here net dst t t' net' nd')%Q).
  { unfold ximport, nodes_in. pose proof (rd_wf _ Hs) as W.
    destruct (string_dec net' net) as [->|NN].
    - apply node_at_inv in N as N0. destruct N0 as (ns & I & J).
      assert (DN : dget net (st_networks s) = Some ns) by (apply In_dget; auto; apply wf_networks; auto).
      rewrite DN. rewrite (qsum_single_key fst _ ns (src, n)).
      + cbn [fst snd]. rewrite (sumi_pick _ (n_links n) i l E).
        * rewrite D. unfold here. rewrite String.eqb_refl, andb_true_r. rewrite (String.eqb_sym nd' dst).
          destruct (String.eqb dst nd'); [|now rewrite andb_false_r]. rewrite andb_true_r.
          destruct (Nat.eqb t' t) eqn:T; [apply Nat.eqb_eq in T; subst; now rewrite unit1_same|].
          apply Nat.eqb_neq in T. rewrite unit1_other by congruence. reflexivity.
        * intros j b _ NJ. destruct (String.eqb (l_dest b) nd'); [|reflexivity]. rewrite unit1_other by congruence. reflexivity.
      + eapply wf_nodes; eauto.
      + auto.
      + intros [nd2 n2] _ N2. cbn [fst snd] in *. apply sumi_zero. intros j b _.
        destruct (String.eqb (l_dest b) nd'); [|reflexivity]. rewrite unit1_other by congruence. reflexivity.
    - unfold here. rewrite (proj2 (String.eqb_neq _ _) NN), andb_false_r. cbn [andb].
      destruct (dget net' (st_networks s)) as [ns|]; [|reflexivity]. apply qsum_map_zero. intros [nd2 n2] _.
      apply sumi_zero. intros j b _. destruct (String.eqb (l_dest b) nd'); [|reflexivity]. rewrite unit1_other by congruence. reflexivity. }
  rewrite X1, X2, X3. lra.
Qed.

Lemma links_neutral net A B nA nB i j l m t :
  node_at s net A = Some nA -> nth_error (n_links nA) i = Some l -> l_dest l = B ->
  node_at s net B = Some nB -> nth_error (n_links nB) j = Some m -> l_dest m = A -> A <> B ->
  neutral (fun u => unit1 (VLink net A i t) u + 1 * unit1 (VLink net B j t) u)%Q.
Proof.
  intros NA EA DA NB EB DB NE. constructor.
  - intros t' net' nd' n' T N. change (fun u => unit1 (VLink net A i t) u + 1 * unit1 (VLink net B j t) u)%Q
      with (pert (unit1 (VLink net A i t)) 1%Q (unit1 (VLink net B j t))).
    rewrite xflow_pert. rewrite (xflow_link net A B nA i l) by auto. rewrite (xflow_link net B A nB j m) by auto. lra.
  - intros. rewrite !unit1_other by discriminate. repeat split; lra.
  - intros. rewrite !unit1_other by discriminate. repeat split; lra.
Qed.
End Opt.
