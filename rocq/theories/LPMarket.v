(** The cost of an assignment once nodes pay prices falls apart into what each element
    earns and spends. *)
From Coq Require Import String List ZArith QArith Bool Arith Lia Lqa.
From Verif Require Import Base BaseFacts Numeric Study Fluent SpecStudy StudyFacts Output LP SpecLP LPFacts LPBuild LPSat LPOpt Optimum LPPrice.
Import ListNotations.
Open Scope nat_scope.

Lemma sumi_swap {A C} (f : A -> nat -> C -> Q) m L :
  (qsum (map (fun a => sumi (f a) L) m) == sumi (fun i l => qsum (map (fun a => f a i l) m)) L)%Q.
Proof.
  induction m as [| a m IH]; cbn [map].
  - rewrite sumi_zero; reflexivity.
  - change (qsum (?u :: ?v)) with (u + qsum v)%Q. rewrite IH, <- sumi_add. apply sumi_ext. intros. reflexivity.
Qed.
Lemma sumi_scal {A} (q : Q) (f : nat -> A -> Q) l : (sumi (fun i a => q * f i a) l == q * sumi f l)%Q.
Proof.
  rewrite (sumi_ext _ (fun i a => 0 + q * f i a)%Q) by (intros; ring). rewrite (sumi_lin (fun _ _ => 0%Q) f q l).
  rewrite (sumi_zero (fun _ _ => 0%Q)) by reflexivity. ring.
Qed.

Section Market.
Variables (s : study) (scn : nat).
Hypothesis Hscn : scn < st_nb_scn s.
Hypothesis Hs : laid s.

(** ** Sums over nodes *)
Definition nsum (f : string -> string -> node -> Q) : Q :=
  qsum (map (fun kn => qsum (map (fun kd => f (fst kn) (fst kd) (snd kd)) (snd kn))) (st_networks s)).
Lemma nsum_ext f g : (forall net nd n, node_at s net nd = Some n -> (f net nd n == g net nd n)%Q) -> (nsum f == nsum g)%Q.
Proof.
  intros H. apply qsum_map_ext. intros [net ns] I. apply qsum_map_ext. intros [nd n] J. apply H. eapply node_at_In; eauto.
Qed.
Lemma nsum_add f g : (nsum (fun net nd n => f net nd n + g net nd n) == nsum f + nsum g)%Q.
Proof. unfold nsum. rewrite <- qsum_map_add. apply qsum_map_ext. intros kn _. now rewrite <- qsum_map_add. Qed.
Lemma nsum_opp f : (nsum (fun net nd n => - f net nd n) == - nsum f)%Q.
Proof. unfold nsum. rewrite <- qsum_map_opp. apply qsum_map_ext. intros kn _. now rewrite <- qsum_map_opp. Qed.
Lemma nsum_swap {A} (f : A -> string -> string -> node -> Q) l :
  (nsum (fun net nd n => qsum (map (fun a => f a net nd n) l)) == qsum (map (fun a => nsum (f a)) l))%Q.
Proof.
  unfold nsum. rewrite <- (qsum_swap (fun kn a => qsum (map (fun kd => f a (fst kn) (fst kd) (snd kd)) (snd kn)))).
  apply qsum_map_ext. intros kn _. apply (qsum_swap (fun kd a => f a (fst kn) (fst kd) (snd kd))).
Qed.
Lemma nsum_pick g a b n0 : node_at s a b = Some n0 ->
  (nsum (fun net nd n => if String.eqb a net && String.eqb b nd then g net nd n else 0%Q) == g a b n0)%Q.
Proof.
  intros N. pose proof Hs as W. pose proof N as N0. apply node_at_inv in N0 as (ns & I & J).
  assert (D : dget a (st_networks s) = Some ns) by (apply In_dget; auto; apply ld_networks; auto).
  unfold nsum. rewrite (qsum_single_key fst _ (st_networks s) (a, ns)).
  - cbn [fst snd]. rewrite (qsum_single_key fst _ ns (b, n0)).
    + cbn [fst snd]. now rewrite !String.eqb_refl.
    + eapply ld_nodes; eauto.
    + auto.
    + intros [nd n] _ NE. cbn [fst] in *. rewrite String.eqb_refl, (proj2 (String.eqb_neq _ _)) by congruence. reflexivity.
  - apply ld_networks; auto.
  - auto.
  - intros [net ns'] _ NE. cbn [fst snd] in *. apply qsum_map_zero. intros. rewrite (proj2 (String.eqb_neq _ _)) by congruence. reflexivity.
Qed.
Lemma nsum_import (p : string -> string -> Q) x t :
  (nsum (fun net nd n => p net nd * ximport s x t net nd) ==
   nsum (fun net nd n => sumi (fun i l => p net (l_dest l) * x (VLink net nd i t)) (n_links n)))%Q.
Proof.
  pose proof Hs as W. apply qsum_map_ext. intros [net ns] I. cbn [fst snd].
  assert (D : dget net (st_networks s) = Some ns) by (apply In_dget; auto; apply ld_networks; auto).
  assert (ND : NoDup (dkeys ns)) by (eapply ld_nodes; eauto).
  transitivity (qsum (map (fun kd => qsum (map (fun kd' => sumi (fun i l => if String.eqb (l_dest l) (fst kd) then p net (fst kd) * x (VLink net (fst kd') i t) else 0)
                                                 (n_links (snd kd'))) ns)) ns))%Q.
  { apply qsum_map_ext. intros kd _. unfold ximport, nodes_in. rewrite D, <- qsum_map_scal. apply qsum_map_ext. intros kd' _.
    rewrite <- sumi_scal. apply sumi_ext. intros i l _. destruct (String.eqb (l_dest l) (fst kd)); ring. }
  rewrite (qsum_swap (fun kd kd' => sumi (fun i l => if String.eqb (l_dest l) (fst kd) then p net (fst kd) * x (VLink net (fst kd') i t) else 0) (n_links (snd kd')))%Q).
  apply qsum_map_ext. intros [nd n] J. cbn [fst snd].
  rewrite (sumi_swap (fun kd i l => if String.eqb (l_dest l) (fst kd) then p net (fst kd) * x (VLink net nd i t) else 0)%Q). apply sumi_ext. intros i l L.
  assert (N : node_at s net nd = Some n) by (eapply node_at_In; eauto).
  pose proof (ld_dests _ W _ _ _ _ N (nth_error_In _ _ L)) as H. unfold has_node in H.
  destruct (node_at s net (l_dest l)) as [m|] eqn:EM; [| congruence]. unfold node_at in EM. rewrite D in EM. apply dget_In in EM.
  rewrite (qsum_single_key fst _ ns (l_dest l, m)); auto.
  - cbn [fst]. now rewrite String.eqb_refl.
  - intros [k m'] _ NE. cbn [fst] in *. rewrite (proj2 (String.eqb_neq _ _)) by congruence. reflexivity.
Qed.

(** ** Elements *)
Inductive part : Type :=
| ACons (t : nat) (net nd : string) (i : nat) (c : consumption)
| AProd (t : nat) (net nd : string) (i : nat) (p : production)
| ALink (t : nat) (net nd : string) (i : nat) (l : link)
| AStor (net nd : string) (i : nat) (y : storage)
| AConv (t : nat) (name : string) (v : converter).
Inductive pkey : Type :=
| KCons (t : nat) (net nd : string) (i : nat)
| KProd (t : nat) (net nd : string) (i : nat)
| KLink (t : nat) (net nd : string) (i : nat)
| KStor (net nd : string) (i : nat)
| KConv (t : nat) (name : string).
Lemma pkey_dec (a b : pkey) : {a = b} + {a <> b}.
Proof. decide equality; first [apply string_dec | apply Nat.eq_dec]. Qed.
Definition key_of (P : part) : pkey :=
  match P with
  | ACons t net nd i _ => KCons t net nd i
  | AProd t net nd i _ => KProd t net nd i
  | ALink t net nd i _ => KLink t net nd i
  | AStor net nd i _ => KStor net nd i
  | AConv t name _ => KConv t name
  end.
Definition part_of (v : var) : pkey :=
  match v with
  | VLol net nd i t => KCons t net nd i
  | VProd net nd i t => KProd t net nd i
  | VLink net nd i t => KLink t net nd i
  | VCap net nd i _ | VIn net nd i _ | VOut net nd i _ => KStor net nd i
  | VSrc name _ _ t | VDest name t => KConv t name
  end.
Definition parts : list part :=
  over s (fun t net nd n => mapi (ACons t net nd) 0 (n_cons n) ++ mapi (AProd t net nd) 0 (n_prods n) ++ mapi (ALink t net nd) 0 (n_links n))
         (fun t name v => [AConv t name v]) ++
  flat_map (fun kn => flat_map (fun kd => mapi (AStor (fst kn) (fst kd)) 0 (n_stors (snd kd))) (snd kn)) (st_networks s).

(** What an element costs once it pays for what it takes from nodes and is paid for what it brings. *)
Definition own (price : akey -> Q) (P : part) (x : var -> Q) : Q :=
  match P with
  | ACons t net nd i c => (value (c_cost c) scn t - price (t, net, nd)) * x (VLol net nd i t)
  | AProd t net nd i p => (value (p_cost p) scn t - price (t, net, nd)) * x (VProd net nd i t)
  | ALink t net nd i l => (value (l_cost l) scn t + price (t, net, nd) - price (t, net, l_dest l)
                           - (if String.eqb (l_dest l) nd then price (t, net, nd) else 0)) * x (VLink net nd i t)
  | AStor net nd i y => qsum (map (fun t => value (s_cost y) scn t * x (VCap net nd i t)
                                            + price (t, net, nd) * (x (VIn net nd i t) - x (VOut net nd i t))) (seq 0 (st_horizon s)))
  | AConv t name v => (ovalue (v_cost v) scn t - price (t, v_dnet v, v_dnode v)) * x (VDest name t)
                      + qsum (map (fun kr => price (t, fst (fst kr), snd (fst kr)) * x (vsrc name t (fst kr))) (v_src v))
  end%Q.
(** What an element is bound to, by itself. *)
Definition fits (P : part) (x : var -> Q) : Prop :=
  match P with
  | ACons t net nd i c => within 0 (x (VLol net nd i t)) (value (c_qty c) scn t)
  | AProd t net nd i p => within 0 (x (VProd net nd i t)) (value (p_qty p) scn t)
  | ALink t net nd i l => within 0 (x (VLink net nd i t)) (value (l_qty l) scn t)
  | AStor net nd i y => forall t, t < st_horizon s ->
      (within 0 (x (VCap net nd i t)) (value (s_capacity y) scn t) /\
       within 0 (x (VIn net nd i t)) (value (s_flow_in y) scn t) /\
       within 0 (x (VOut net nd i t)) (value (s_flow_out y) scn t)) /\
      (i = 0 -> (x (VCap net nd i t) == (match t with O => s_init y | S t' => x (VCap net nd i t') end)
                 + value (s_eff y) scn t * x (VIn net nd i t) - x (VOut net nd i t))%Q)
  | AConv t name v => within 0 (x (VDest name t)) (ovalue (v_max v) scn t) /\
      forall k q, In (k, q) (v_src v) -> within 0 (x (vsrc name t k)) (ovalue (v_max v) scn t / value q scn t) /\
                                         (value q scn t * x (vsrc name t k) == x (VDest name t))%Q
  end.

Lemma own_ext price P x y : (forall v, part_of v = key_of P -> (x v == y v)%Q) -> (own price P x == own price P y)%Q.
Proof.
  destruct P; intros H; cbn [own key_of] in *.
  - rewrite (H (VLol net nd i t) eq_refl). reflexivity.
  - rewrite (H (VProd net nd i t) eq_refl). reflexivity.
  - rewrite (H (VLink net nd i t) eq_refl). reflexivity.
  - apply qsum_map_ext. intros t _. rewrite (H (VCap net nd i t) eq_refl), (H (VIn net nd i t) eq_refl), (H (VOut net nd i t) eq_refl). reflexivity.
  - rewrite (H (VDest name t) eq_refl). apply Qplus_comp; [reflexivity |]. apply qsum_map_ext. intros kr _. rewrite (H (vsrc name t (fst kr)) eq_refl). reflexivity.
Qed.
Lemma fits_ext P x y : (forall v, part_of v = key_of P -> (x v == y v)%Q) -> fits P x -> fits P y.
Proof.
  unfold fits, within. destruct P; intros H; cbn [key_of] in *.
  - now rewrite (H (VLol net nd i t) eq_refl).
  - now rewrite (H (VProd net nd i t) eq_refl).
  - now rewrite (H (VLink net nd i t) eq_refl).
  - intros F t T. specialize (F t T). rewrite <- (H (VCap net nd i t) eq_refl), <- (H (VIn net nd i t) eq_refl), <- (H (VOut net nd i t) eq_refl).
    destruct F as [F E]. split; auto. intros Z. specialize (E Z). destruct t as [| t']; auto. now rewrite <- (H (VCap net nd i t') eq_refl).
  - intros [F E]. rewrite <- (H (VDest name t) eq_refl). split; auto. intros k q I. specialize (E k q I).
    rewrite <- (H (vsrc name t k) eq_refl), <- (H (VDest name t) eq_refl). exact E.
Qed.

Lemma parts_In P : In P parts <->
  match P with
  | ACons t net nd i c => t < st_horizon s /\ exists n, node_at s net nd = Some n /\ nth_error (n_cons n) i = Some c
  | AProd t net nd i p => t < st_horizon s /\ exists n, node_at s net nd = Some n /\ nth_error (n_prods n) i = Some p
  | ALink t net nd i l => t < st_horizon s /\ exists n, node_at s net nd = Some n /\ nth_error (n_links n) i = Some l
  | AStor net nd i y => exists n, node_at s net nd = Some n /\ nth_error (n_stors n) i = Some y
  | AConv t name v => t < st_horizon s /\ conv_at s name = Some v
  end.
Proof.
  unfold parts. rewrite in_app_iff, (over_In s scn Hscn Hs). split.
  - intros [(t & T & [(net & nd & n & N & I) | (name & v & V & [<-|[]])])|I].
    + rewrite !in_app_iff in I. destruct I as [I|[I|I]]; apply In_mapi in I as (i & a & E & ->); cbn; eauto.
    + auto.
    + apply in_flat_map in I as ([net ns] & I & J). apply in_flat_map in J as ([nd n] & J & K). apply In_mapi in K as (i & a & E & ->). cbn.
      exists n. split; auto. eapply node_at_In; eauto.
  - destruct P.
    + intros (T & n & N & E). left. exists t. split; auto. left. exists net, nd, n. split; auto. rewrite !in_app_iff. left. apply In_mapi. eauto.
    + intros (T & n & N & E). left. exists t. split; auto. left. exists net, nd, n. split; auto. rewrite !in_app_iff. right; left. apply In_mapi. eauto.
    + intros (T & n & N & E). left. exists t. split; auto. left. exists net, nd, n. split; auto. rewrite !in_app_iff. right; right. apply In_mapi. eauto.
    + intros (n & N & E). right. apply node_at_inv in N as (ns & I & J). apply in_flat_map. exists (net, ns). split; auto. apply in_flat_map. exists (nd, n). split; auto.
      apply In_mapi. eauto.
    + intros (T & V). left. exists t. split; auto. right. exists name, v. split; auto. now left.
Qed.
Lemma parts_key P P' : In P parts -> In P' parts -> key_of P = key_of P' -> P = P'.
Proof.
  intros I J E. apply parts_In in I, J. destruct P, P'; cbn in E; try discriminate; injection E; intros; subst;
    try (destruct I as (_ & n & N & X); destruct J as (_ & n' & N' & X'); rewrite N in N'; injection N' as <-; rewrite X in X'; injection X' as <-; reflexivity).
  - destruct I as (n & N & X); destruct J as (n' & N' & X'). rewrite N in N'. injection N' as <-. rewrite X in X'. now injection X' as <-.
  - destruct I as (_ & X); destruct J as (_ & X'). rewrite X in X'. now injection X' as <-.
Qed.
Lemma half_parts x : xhalf s scn x <-> forall P, In P parts -> fits P x.
Proof.
  split.
  - intros [[BC BP BS BL BR BD] XS XM] P I. apply parts_In in I. destruct P; cbn.
    + destruct I as (T & n & N & E). eapply BC; eauto.
    + destruct I as (T & n & N & E). eapply BP; eauto.
    + destruct I as (T & n & N & E). eapply BL; eauto.
    + destruct I as (n & N & E). intros t T. split; [eapply BS; eauto |]. intros ->. specialize (XS t net nd n T N). unfold xstorage in XS.
      destruct (n_stors n) as [| y0 r]; [discriminate |]. cbn in E. injection E as ->. exact XS.
    + destruct I as (T & V). split; [eapply BD; eauto |]. intros k q I. split; [eapply BR; eauto | eapply XM; eauto].
  - intros H. constructor; [constructor |  |].
    + intros t net nd n i c T N E. apply (H (ACons t net nd i c)), parts_In. eauto.
    + intros t net nd n i c T N E. apply (H (AProd t net nd i c)), parts_In. eauto.
    + intros t net nd n i c T N E. apply (H (AStor net nd i c)); auto. apply parts_In. eauto.
    + intros t net nd n i c T N E. apply (H (ALink t net nd i c)), parts_In. eauto.
    + intros t name v k q T V I. assert (F : fits (AConv t name v) x) by (apply H, parts_In; auto). now apply F.
    + intros t name v T V. assert (F : fits (AConv t name v) x) by (apply H, parts_In; auto). apply F.
    + intros t net nd n T N. unfold xstorage. destruct (n_stors n) as [| y r] eqn:E; auto.
      assert (F : fits (AStor net nd 0 y) x) by (apply H, parts_In; exists n; rewrite E; auto). now apply F.
    + intros t name v T V k q I. assert (F : fits (AConv t name v) x) by (apply H, parts_In; auto). now apply F.
Qed.

(** ** The sum of the elements *)
Definition fee (price : akey -> Q) : Q :=
  qsum (map (fun t => nsum (fun net nd n => price (t, net, nd) * qsum (map (fun c => value (c_qty c) scn t) (n_cons n)))) (seq 0 (st_horizon s)))%Q.
Lemma charged_sum price x : (charged s scn price x == qsum (map (fun t => nsum (fun net nd n => price (t, net, nd) * xexcess s scn x t net nd n)) (seq 0 (st_horizon s))))%Q.
Proof.
  unfold charged, places. rewrite over_sum. apply qsum_map_ext. intros t _.
  rewrite (qsum_map_zero _ (st_converters s)) by reflexivity. rewrite Qplus_0_r. unfold nsum. apply qsum_map_ext. intros [net ns] I.
  apply qsum_map_ext. intros [nd n] J. cbn [fst snd map]. change (qsum (?a :: [])) with (a + 0)%Q. unfold excess_at. cbn [fst snd].
  rewrite (node_at_In s Hs net ns nd n I J). ring.
Qed.
Lemma conv_pays (price : string -> string -> Q) x t name v : conv_at s name = Some v ->
  (nsum (fun net nd n => price net nd * xconv x t net nd name v) ==
   price (v_dnet v) (v_dnode v) * x (VDest name t) - qsum (map (fun kr => price (fst (fst kr)) (snd (fst kr)) * x (vsrc name t (fst kr))) (v_src v)))%Q.
Proof.
  intros V. assert (DN : exists n, node_at s (v_dnet v) (v_dnode v) = Some n).
  { pose proof (vr_dest _ _ (ld_conv _ Hs name v V)) as H. unfold has_node in H. destruct (node_at s (v_dnet v) (v_dnode v)); [eauto | congruence]. }
  destruct DN as (dn & DN).
  rewrite (nsum_ext _ (fun net nd n => (if String.eqb (v_dnet v) net && String.eqb (v_dnode v) nd then price net nd * x (VDest name t) else 0)
     + - qsum (map (fun kr => if String.eqb (fst (fst kr)) net && String.eqb (snd (fst kr)) nd then price net nd * x (vsrc name t (fst kr)) else 0) (v_src v)))%Q).
  - rewrite nsum_add, (nsum_pick (fun net nd _ => price net nd * x (VDest name t))%Q _ _ dn DN), nsum_opp.
    rewrite (nsum_swap (fun kr net nd _ => if String.eqb (fst (fst kr)) net && String.eqb (snd (fst kr)) nd then price net nd * x (vsrc name t (fst kr)) else 0)%Q).
    apply Qplus_comp; [reflexivity |]. apply Qopp_comp, qsum_map_ext. intros [[a b] q] I. cbn [fst snd].
    assert (H : has_node s a b) by (apply (ld_srcs _ Hs name v a b V); apply (in_map fst) in I; exact I).
    unfold has_node in H. destruct (node_at s a b) as [m|] eqn:E; [| congruence].
    apply (nsum_pick (fun net nd _ => price net nd * x (vsrc name t (a, b)))%Q _ _ m E).
  - intros net nd n _. unfold xconv. setoid_replace (price net nd * ((if String.eqb (v_dnet v) net && String.eqb (v_dnode v) nd then x (VDest name t) else 0) -
      qsum (map (fun kr => if pair_eqb (fst kr) (net, nd) then x (vsrc name t (fst kr)) else 0) (v_src v))))%Q
      with ((if String.eqb (v_dnet v) net && String.eqb (v_dnode v) nd then price net nd * x (VDest name t) else 0)
        + - (price net nd * qsum (map (fun kr => if pair_eqb (fst kr) (net, nd) then x (vsrc name t (fst kr)) else 0) (v_src v))))%Q
      by (destruct (String.eqb (v_dnet v) net && String.eqb (v_dnode v) nd); ring).
    apply Qplus_comp; [reflexivity |]. apply Qopp_comp. rewrite <- qsum_map_scal. apply qsum_map_ext. intros [[a b] q] _. cbn [fst snd].
    unfold pair_eqb. cbn [fst snd]. change (@eqb string _) with String.eqb. destruct (String.eqb a net && String.eqb b nd); ring.
Qed.
Lemma step_parts (price : string -> string -> Q) x t :
  (nsum (fun net nd n => ncost scn x t net nd n) + qsum (map (fun kv => ovalue (v_cost (snd kv)) scn t * x (VDest (fst kv) t)) (st_converters s))
   - nsum (fun net nd n => price net nd * xexcess s scn x t net nd n) ==
   nsum (fun net nd n => sumi (fun i c => (value (c_cost c) scn t - price net nd) * x (VLol net nd i t)) (n_cons n)
                       + sumi (fun i c => (value (p_cost c) scn t - price net nd) * x (VProd net nd i t)) (n_prods n)
                       + sumi (fun i l => (value (l_cost l) scn t + price net nd - price net (l_dest l) - (if String.eqb (l_dest l) nd then price net nd else 0)) * x (VLink net nd i t)) (n_links n))
   + nsum (fun net nd n => sumi (fun i y => value (s_cost y) scn t * x (VCap net nd i t) + price net nd * (x (VIn net nd i t) - x (VOut net nd i t))) (n_stors n))
   + qsum (map (fun kv => (ovalue (v_cost (snd kv)) scn t - price (v_dnet (snd kv)) (v_dnode (snd kv))) * x (VDest (fst kv) t)
         + qsum (map (fun kr => price (fst (fst kr)) (snd (fst kr)) * x (vsrc (fst kv) t (fst kr))) (v_src (snd kv)))) (st_converters s))
   + nsum (fun net nd n => price net nd * qsum (map (fun c => value (c_qty c) scn t) (n_cons n))))%Q.
Proof.
  (* converters *)
  assert (CV : (nsum (fun net nd n => price net nd * qsum (map (fun kv => xconv x t net nd (fst kv) (snd kv)) (st_converters s))) ==
     qsum (map (fun kv => price (v_dnet (snd kv)) (v_dnode (snd kv)) * x (VDest (fst kv) t)
         - qsum (map (fun kr => price (fst (fst kr)) (snd (fst kr)) * x (vsrc (fst kv) t (fst kr))) (v_src (snd kv)))) (st_converters s)))%Q).
  { rewrite (nsum_ext _ (fun net nd n => qsum (map (fun kv => price net nd * xconv x t net nd (fst kv) (snd kv)) (st_converters s)))%Q)
      by (intros; now rewrite <- qsum_map_scal).
    rewrite (nsum_swap (fun kv net nd _ => price net nd * xconv x t net nd (fst kv) (snd kv))%Q). apply qsum_map_ext. intros [name v] I. cbn [fst snd].
    apply conv_pays. apply In_dget; auto. apply (ld_convs _ Hs). }
  (* nodes *)
  rewrite (nsum_ext (fun net nd n => price net nd * xexcess s scn x t net nd n)%Q
    (fun net nd n => price net nd * (xnode x t net nd n + xself x t net nd n) + price net nd * qsum (map (fun kv => xconv x t net nd (fst kv) (snd kv)) (st_converters s))
       + price net nd * ximport s x t net nd + - (price net nd * qsum (map (fun c => value (c_qty c) scn t) (n_cons n))))%Q)
    by (intros; unfold xexcess; ring).
  rewrite !nsum_add, CV, nsum_import, nsum_opp.
  set (LHS := nsum (fun net nd n => ncost scn x t net nd n)).
  set (L1 := nsum (fun net nd n => price net nd * (xnode x t net nd n + xself x t net nd n))%Q).
  set (L2 := nsum (fun net nd n => sumi (fun i l => price net (l_dest l) * x (VLink net nd i t)) (n_links n))%Q).
  match goal with |- (_ == ?a + ?b + ?c + ?d)%Q => set (R1 := a); set (R2 := b); set (R3 := c); set (R4 := d) end.
  assert (NN : (LHS - L1 - L2 == R1 + R2)%Q).
  { unfold LHS, L1, L2, R1, R2. unfold Qminus. rewrite <- !nsum_opp, <- !nsum_add. apply nsum_ext. intros net nd n N. unfold ncost, xnode, xself.
    set (p := price net nd).
    rewrite (sumi_ext (fun i c => (value (c_cost c) scn t + - p) * x (VLol net nd i t))%Q (fun i c => value (c_cost c) scn t * x (VLol net nd i t) + - p * x (VLol net nd i t))%Q (n_cons n)) by (intros; ring).
    rewrite (sumi_lin (fun i c => value (c_cost c) scn t * x (VLol net nd i t))%Q (fun i _ => x (VLol net nd i t)) (- p)).
    rewrite (sumi_ext (fun i c => (value (p_cost c) scn t + - p) * x (VProd net nd i t))%Q (fun i c => value (p_cost c) scn t * x (VProd net nd i t) + - p * x (VProd net nd i t))%Q (n_prods n)) by (intros; ring).
    rewrite (sumi_lin (fun i c => value (p_cost c) scn t * x (VProd net nd i t))%Q (fun i _ => x (VProd net nd i t)) (- p)).
    rewrite (sumi_ext (fun i y => value (s_cost y) scn t * x (VCap net nd i t) + p * (x (VIn net nd i t) + - x (VOut net nd i t)))%Q
       (fun i y => value (s_cost y) scn t * x (VCap net nd i t) + - p * (- x (VIn net nd i t) + x (VOut net nd i t)))%Q (n_stors n)) by (intros; ring).
    rewrite (sumi_lin (fun i y => value (s_cost y) scn t * x (VCap net nd i t))%Q (fun i _ => - x (VIn net nd i t) + x (VOut net nd i t))%Q (- p)).
    rewrite (sumi_ext (fun i l => (value (l_cost l) scn t + p + - price net (l_dest l) + - (if String.eqb (l_dest l) nd then p else 0)) * x (VLink net nd i t))%Q
       (fun i l => (value (l_cost l) scn t * x (VLink net nd i t) + p * (x (VLink net nd i t) + - (if String.eqb (l_dest l) nd then x (VLink net nd i t) else 0))) + - (price net (l_dest l) * x (VLink net nd i t)))%Q (n_links n))
      by (intros i l _; destruct (String.eqb (l_dest l) nd); ring).
    rewrite (sumi_add (fun i l => value (l_cost l) scn t * x (VLink net nd i t) + p * (x (VLink net nd i t) + - (if String.eqb (l_dest l) nd then x (VLink net nd i t) else 0)))%Q
       (fun i l => - (price net (l_dest l) * x (VLink net nd i t)))%Q).
    rewrite (sumi_lin (fun i l => value (l_cost l) scn t * x (VLink net nd i t))%Q (fun i l => x (VLink net nd i t) + - (if String.eqb (l_dest l) nd then x (VLink net nd i t) else 0))%Q p).
    rewrite (sumi_add (fun i _ => x (VLink net nd i t)) (fun i l => - (if String.eqb (l_dest l) nd then x (VLink net nd i t) else 0))%Q).
    rewrite !sumi_opp. unfold Qminus. ring. }
  assert (CC : (qsum (map (fun kv => ovalue (v_cost (snd kv)) scn t * x (VDest (fst kv) t)) (st_converters s)) -
     qsum (map (fun kv => price (v_dnet (snd kv)) (v_dnode (snd kv)) * x (VDest (fst kv) t)
         - qsum (map (fun kr => price (fst (fst kr)) (snd (fst kr)) * x (vsrc (fst kv) t (fst kr))) (v_src (snd kv)))) (st_converters s)) == R3)%Q).
  { unfold R3. rewrite <- qsum_map_sub. apply qsum_map_ext. intros kv _. ring. }
  rewrite <- CC. lra.
Qed.
Theorem lag_parts price x : (xcost s scn x - charged s scn price x == fee price + qsum (map (fun P => own price P x) parts))%Q.
Proof.
  rewrite charged_sum. unfold xcost. rewrite <- qsum_map_sub.
  rewrite (qsum_map_ext _ _ _ (fun t _ => step_parts (fun net nd => price (t, net, nd)) x t)). rewrite !qsum_map_add.
  unfold parts. rewrite map_app, qsum_app, over_sum, qsum_map_add.
  match goal with |- (?a + ?b + ?c + ?d == ?f + (?a' + ?c' + ?b'))%Q => assert (EA : (a == a')%Q); [| assert (EB : (b == b')%Q); [| assert (EC : (c == c')%Q)]] end.
  - apply qsum_map_ext. intros t _. unfold nsum. apply qsum_map_ext. intros kn _. apply qsum_map_ext. intros kd _.
    rewrite !map_app, !qsum_app, !map_mapi. cbn [own]. unfold sumi. ring.
  - assert (X : forall {Y Z} (f : Z -> Q) (h : Y -> list Z) l, (qsum (map f (flat_map h l)) == qsum (map (fun y => qsum (map f (h y))) l))%Q).
    { intros Y Z f h l. induction l; simpl; [lra|]. rewrite map_app, qsum_app, IHl. lra. }
    rewrite X.
    rewrite <- (nsum_swap (fun t net nd n => sumi (fun i y => value (s_cost y) scn t * x (VCap net nd i t) + price (t, net, nd) * (x (VIn net nd i t) - x (VOut net nd i t))) (n_stors n))%Q).
    unfold nsum. apply qsum_map_ext. intros kn _. rewrite X. apply qsum_map_ext. intros kd _. rewrite map_mapi. cbn [own].
    apply (sumi_swap (fun t i y => value (s_cost y) scn t * x (VCap (fst kn) (fst kd) i t) + price (t, fst kn, fst kd) * (x (VIn (fst kn) (fst kd) i t) - x (VOut (fst kn) (fst kd) i t)))%Q).
  - apply qsum_map_ext. intros t _. apply qsum_map_ext. intros kv _. cbn [map own]. change (qsum (?a :: [])) with (a + 0)%Q. ring.
  - rewrite EA, EB, EC. unfold fee. ring.
Qed.

(** ** Supporting prices are those at which every element does its best *)
Definition does_best (price : akey -> Q) (x : var -> Q) : Prop :=
  forall P y, In P parts -> fits P y -> (own price P x <= own price P y)%Q.
Definition moved (P : part) (y x : var -> Q) (v : var) : Q := if pkey_dec (part_of v) (key_of P) then y v else x v.
Lemma moved_in P y x v : part_of v = key_of P -> (moved P y x v == y v)%Q.
Proof. intros E. unfold moved. destruct (pkey_dec (part_of v) (key_of P)); [reflexivity | congruence]. Qed.
Lemma moved_out P P' y x v : key_of P' <> key_of P -> part_of v = key_of P' -> (moved P y x v == x v)%Q.
Proof. intros N E. unfold moved. destruct (pkey_dec (part_of v) (key_of P)); [congruence | reflexivity]. Qed.
Lemma sum_of_one {A} (f : A -> Q) (a : A) l : In a l -> (forall b, In b l -> (f b == f a)%Q \/ (f b == 0)%Q) -> (0 <= qsum (map f l))%Q -> (0 <= f a)%Q.
Proof.
  intros I H S. destruct (Qlt_le_dec (f a) 0) as [N|]; auto. exfalso.
  assert (X : forall m, incl m l -> (qsum (map f m) <= 0)%Q /\ (In a m -> (qsum (map f m) <= f a)%Q)).
  { induction m as [| b m IH]; intros IM; [cbn; split; [lra | easy] |]. destruct IH as [L1 L2]; [intros u J; apply IM; now right |].
    cbn [map]. change (qsum (?u :: ?v)) with (u + qsum v)%Q. assert (IB : In b l) by (apply IM; now left). specialize (H b IB). split; [destruct H; lra |].
    intros [->|J]; [lra |]. specialize (L2 J). destruct H; lra. }
  destruct (X l (incl_refl l)) as [_ L]. specialize (L I). lra.
Qed.
Theorem supports_parts price x : xok s scn x -> (supports s scn price x <-> does_best price x).
Proof.
  intros X. pose proof (charged_zero s scn Hscn Hs price x X) as CZ. pose proof (lag_parts price x) as LX. rewrite CZ in LX.
  apply (xok_half s scn) in X as [HX _]. pose proof (proj1 (half_parts x) HX) as FX. split.
  - intros SU P y I F. set (z := moved P y x).
    assert (HZ : xhalf s scn z).
    { apply half_parts. intros P' I'. destruct (pkey_dec (key_of P') (key_of P)) as [E|E].
      - apply parts_key in E; auto. subst P'. apply (fits_ext P y z); auto. intros v V. symmetry. now apply moved_in.
      - apply (fits_ext P' x z); auto. intros v V. symmetry. now apply (moved_out P P'). }
    specialize (SU z HZ). rewrite lag_parts in SU.
    assert (S0 : (0 <= qsum (map (fun P' => own price P' z - own price P' x) parts))%Q) by (rewrite qsum_map_sub; lra).
    assert (OZ : (own price P z == own price P y)%Q) by (apply own_ext; intros v V; now apply moved_in).
    enough (0 <= own price P z - own price P x)%Q by lra.
    apply (sum_of_one (fun P' => own price P' z - own price P' x)%Q P parts I); auto.
    intros P' I'. destruct (pkey_dec (key_of P') (key_of P)) as [E|E].
    + apply parts_key in E; auto. subst P'. left. reflexivity.
    + right. rewrite (own_ext price P' z x); [ring |]. intros v V. now apply (moved_out P P').
  - intros D y HY. rewrite lag_parts. pose proof (proj1 (half_parts y) HY) as FY.
    enough (qsum (map (fun P => own price P x) parts) <= qsum (map (fun P => own price P y) parts))%Q by lra.
    assert (Z : forall l, incl l parts -> (qsum (map (fun P => own price P x) l) <= qsum (map (fun P => own price P y) l))%Q).
    { induction l as [| P l IH]; intros IL; [cbn; lra |]. cbn [map]. change (qsum (?u :: ?v)) with (u + qsum v)%Q.
      assert (I : In P parts) by (apply IL; now left). specialize (D P y I (FY P I)). assert (IL' : incl l parts) by (intros u J; apply IL; now right).
      specialize (IH IL'). lra. }
    apply Z, incl_refl.
Qed.
End Market.
