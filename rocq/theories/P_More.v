(** Property C74: a study that offers more never costs more. *)
From Coq Require Import String List ZArith QArith Bool Arith Lia Lqa Permutation.
From Verif Require Import Base BaseFacts Numeric Study Fluent SpecStudy StudyFacts Output Json SpecJson JsonFacts P_Json
  LP SpecLP LPFacts LPBuild LPSat LPResult LPSolve LPReady LPOpt LPWeak LPMore P_LP P_Opt P_Accept.
Import ListNotations.
Open Scope nat_scope.
Open Scope string_scope.
Open Scope list_scope.

(** ** Specification *)

(** [l'] is [l] with its elements replaced by better ones, then new elements. *)
Definition grows {A} (better : A -> A -> Prop) (l l' : list A) : Prop :=
  exists old more, l' = old ++ more /\ Forall2 better l old.

Section Offers.
  Variables (h scn : nat).
  Definition le_at (v w : numval) : Prop := forall t, t < h -> (value v scn t <= value w scn t)%Q.
  Definition eq_at (v w : numval) : Prop := forall t, t < h -> (value v scn t == value w scn t)%Q.
  Definition ole_at (v w : option numval) : Prop := forall t, t < h -> (ovalue v scn t <= ovalue w scn t)%Q.
  (** The same load, whose shedding is not dearer. *)
  Definition cons_offers (c c' : consumption) : Prop := eq_at (c_qty c) (c_qty c') /\ le_at (c_cost c') (c_cost c).
  Definition prod_offers (p p' : production) : Prop := le_at (p_qty p) (p_qty p') /\ le_at (p_cost p') (p_cost p).
  Definition stor_offers (y y' : storage) : Prop :=
    le_at (s_capacity y) (s_capacity y') /\ le_at (s_flow_in y) (s_flow_in y') /\ le_at (s_flow_out y) (s_flow_out y') /\
    (s_init y == s_init y')%Q /\ eq_at (s_eff y) (s_eff y') /\ le_at (s_cost y') (s_cost y).
  Definition link_offers (l l' : link) : Prop :=
    l_dest l' = l_dest l /\ le_at (l_qty l) (l_qty l') /\ le_at (l_cost l') (l_cost l).
  Definition conv_offers (v v' : converter) : Prop :=
    Forall2 (fun kq kq' => fst kq' = fst kq /\ eq_at (snd kq) (snd kq')) (v_src v) (v_src v') /\
    v_dnet v' = v_dnet v /\ v_dnode v' = v_dnode v /\
    ole_at (v_max v) (v_max v') /\ ole_at (v_cost v') (v_cost v).
  Record node_offers (n n' : node) : Prop := {
    no_cons : Forall2 cons_offers (n_cons n) (n_cons n');
    no_prods : grows prod_offers (n_prods n) (n_prods n');
    no_stors : Forall2 stor_offers (n_stors n) (n_stors n');
    no_links : grows link_offers (n_links n) (n_links n')
  }.
End Offers.

(** The second study has the same nodes and loads, and at least what the first offers
    to serve them, at most at the same prices: larger or additional productions, links
    and converters, larger storages. *)
Record offers_more (s s' : study) (scn : nat) : Prop := {
  om_horizon : st_horizon s' = st_horizon s;
  om_nodes : Forall2 (fun a b => fst b = fst a /\
    Forall2 (fun c d => fst d = fst c /\ node_offers (st_horizon s) scn (snd c) (snd d)) (snd a) (snd b))
    (st_networks s) (st_networks s');
  om_convs : grows (fun a b => fst b = fst a /\ conv_offers (st_horizon s) scn (snd a) (snd b))
    (st_converters s) (st_converters s')
}.

(** ** Lemmas *)
Lemma grows_refl {A} (better : A -> A -> Prop) l : (forall x, better x x) -> grows better l l.
Proof. intros R. exists l, []. rewrite app_nil_r. split; auto. induction l; constructor; auto. Qed.

Lemma grows_old {A} (better : A -> A -> Prop) l l' i a b : grows better l l' ->
  nth_error l i = Some a -> nth_error l' i = Some b -> better a b.
Proof.
  intros (old & more & -> & F) I J. destruct (Forall2_get _ _ _ _ _ F I) as (c & C & P).
  rewrite nth_error_app1 in J by (apply nth_error_Some; congruence). congruence.
Qed.

Lemma qsum_grows {A C} (P : A -> C -> Prop) (f : nat -> A -> Q) (g : nat -> C -> Q) l : forall i old more,
  Forall2 P l old ->
  (forall j a b, nth_error l j = Some a -> nth_error old j = Some b -> P a b -> (g (i + j)%nat b <= f (i + j)%nat a)%Q) ->
  (forall j b, nth_error more j = Some b -> (g (i + (length l + j))%nat b <= 0)%Q) ->
  (qsum (mapi g i (old ++ more)) <= qsum (mapi f i l))%Q.
Proof.
  intros i old more F. revert i. induction F as [|a b l old Pab F IH]; intros i H Z.
  - cbn [app length mapi qsum fold_right]. cbn [length Nat.add] in Z. clear H. revert i Z. induction more as [|b more IH]; intros i Z; [cbn; lra |].
    cbn [mapi qsum fold_right]. fold (qsum (mapi g (S i) more)). pose proof (Z 0 b eq_refl) as Z0. rewrite Nat.add_0_r in Z0.
    assert (Z1 : (qsum (mapi g (S i) more) <= 0)%Q) by (apply IH; intros j c J; specialize (Z (S j) c J); rewrite Nat.add_succ_r in Z; exact Z). lra.
  - cbn [app mapi qsum fold_right]. fold (qsum (mapi g (S i) (old ++ more))). fold (qsum (mapi f (S i) l)).
    pose proof (H 0 a b eq_refl eq_refl Pab) as H0. rewrite Nat.add_0_r in H0.
    assert (H1 : (qsum (mapi g (S i) (old ++ more)) <= qsum (mapi f (S i) l))%Q).
    { apply IH.
      - intros j c d J K PP. specialize (H (S j) c d J K PP). rewrite Nat.add_succ_r in H. exact H.
      - intros j c J. specialize (Z j c J). cbn [length] in Z. replace (S i + (length l + j)) with (i + (S (length l) + j)) by lia. exact Z. }
    lra.
Qed.

Lemma sumi_grows {A} (P : A -> A -> Prop) (f g : nat -> A -> Q) l l' : grows P l l' ->
  (forall j a b, nth_error l j = Some a -> nth_error l' j = Some b -> P a b -> (g j b <= f j a)%Q) ->
  (forall j b, nth_error l j = None -> nth_error l' j = Some b -> (g j b <= 0)%Q) ->
  (sumi g l' <= sumi f l)%Q.
Proof.
  intros (old & more & -> & F) H Z. pose proof (Forall2_len _ _ _ F) as L. unfold sumi. apply (qsum_grows P); auto; cbn [Nat.add].
  - intros j a b I J. apply H; auto. rewrite nth_error_app1; auto. apply nth_error_Some. congruence.
  - intros j b J. apply Z; [apply nth_error_None; lia |]. rewrite nth_error_app2 by lia. rewrite <- J. f_equal. lia.
Qed.
Lemma sumi_grows_eq {A} (P : A -> A -> Prop) (f g : nat -> A -> Q) l l' : grows P l l' ->
  (forall j a b, nth_error l j = Some a -> nth_error l' j = Some b -> P a b -> (g j b == f j a)%Q) ->
  (forall j b, nth_error l j = None -> nth_error l' j = Some b -> (g j b == 0)%Q) ->
  (sumi g l' == sumi f l)%Q.
Proof.
  intros G H Z. apply Qle_antisym.
  - apply (sumi_grows P); auto. { intros j a b I J K. rewrite (H j a b) by auto. lra. } intros j b I J. rewrite (Z j b) by auto. lra.
  - assert (X : (sumi (fun j b => - g j b) l' <= sumi (fun j a => - f j a) l)%Q).
    { apply (sumi_grows P); auto. { intros j a b I J K. rewrite (H j a b) by auto. lra. } intros j b I J. rewrite (Z j b) by auto. lra. }
    rewrite !sumi_opp in X. lra.
Qed.
Lemma Forall2_grows {A} (P : A -> A -> Prop) l l' : Forall2 P l l' -> grows P l l'.
Proof. intros F. exists l', []. now rewrite app_nil_r. Qed.
Lemma grows_dget {V} (R : V -> V -> Prop) (d d' : dict string V) k v :
  grows (fun a b => fst b = fst a /\ R (snd a) (snd b)) d d' -> dget k d = Some v -> exists v', dget k d' = Some v' /\ R v v'.
Proof.
  intros (old & more & -> & F). induction F as [|[k1 v1] [k2 v2] d old [EK P] F IH]; cbn [dget app fst snd]; [discriminate |]. cbn [fst] in EK. subst k2.
  destruct (eqb k k1); auto. intros E. inversion E; subst. eauto.
Qed.

Lemma NoDup_app_no {A} (l m : list A) : NoDup (l ++ m) -> forall a, In a l -> In a m -> False.
Proof.
  induction l as [|b l IH]; cbn [app]; intros ND a I J; [destruct I |]. inversion ND as [|? ? NI ND']; subst.
  destruct I as [->|I]; [apply NI, in_or_app; auto | exact (IH ND' a I J)].
Qed.
Lemma grows_new {V} (R : V -> V -> Prop) (d d' : dict string V) j b : NoDup (dkeys d') ->
  grows (fun a b => fst b = fst a /\ R (snd a) (snd b)) d d' -> nth_error d j = None -> nth_error d' j = Some b -> dget (fst b) d = None.
Proof.
  intros ND (old & more & -> & F) I J. pose proof (Forall2_len _ _ _ F) as L. apply nth_error_None in I.
  rewrite nth_error_app2 in J by lia. apply nth_error_In in J. destruct (dget (fst b) d) as [v|] eqn:D; auto. exfalso.
  apply dget_In in D. apply In_nth_error in D as (i & D). destruct (Forall2_get _ _ _ _ _ F D) as (c & C & EC & _). cbn [fst] in EC.
  apply nth_error_In in C. unfold dkeys in ND. rewrite map_app in ND.
  apply (NoDup_app_no _ _ ND (fst b)); [rewrite <- EC |]; now apply in_map.
Qed.

(** ** The dispatch of the first study, nothing on what is new *)
Section Carry.
Variables (s s' : study) (scn : nat) (x x2 : var -> Q).
Hypothesis OM : offers_more s s' scn.
Hypothesis X : xok s scn x.
Hypothesis X2 : xok s' scn x2.
Hypothesis RD : ready s.
Hypothesis W : study_wf s.
Hypothesis W' : study_wf s'.

Definition kept (v : var) : Q :=
  match v with
  | VProd net nd i _ => match node_at s net nd with
      | Some n => match nth_error (n_prods n) i with Some _ => x v | None => 0%Q end | None => 0%Q end
  | VLink net nd i _ => match node_at s net nd with
      | Some n => match nth_error (n_links n) i with Some _ => x v | None => 0%Q end | None => 0%Q end
  | VSrc name _ _ _ | VDest name _ => match conv_at s name with Some _ => x v | None => 0%Q end
  | _ => x v
  end.

Lemma om_node net nd : match node_at s net nd, node_at s' net nd with
  | Some n, Some n' => node_offers (st_horizon s) scn n n' | None, None => True | _, _ => False end.
Proof.
  destruct OM as [_ N _]. pose (R := fun (_ : string) (ns ns' : network) => Forall2 (fun c d : string * node => fst d = fst c /\
    node_offers (st_horizon s) scn (snd c) (snd d)) ns ns').
  pose proof (Forall2_dget R (st_networks s) (st_networks s') net N) as D. unfold R in D.
  unfold node_at. destruct (dget net (st_networks s)) as [ns|], (dget net (st_networks s')) as [ns'|]; try contradiction; [| exact Logic.I].
  pose proof (Forall2_dget (fun _ => node_offers (st_horizon s) scn) ns ns' nd D) as E. exact E.
Qed.
Lemma om_node' net nd n' : node_at s' net nd = Some n' -> exists n, node_at s net nd = Some n /\ node_offers (st_horizon s) scn n n'.
Proof. intros E. pose proof (om_node net nd) as D. rewrite E in D. destruct (node_at s net nd) as [n|]; [eauto | contradiction]. Qed.
Lemma om_conv name v : conv_at s name = Some v -> exists v', conv_at s' name = Some v' /\ conv_offers (st_horizon s) scn v v'.
Proof. intros E. destruct OM as [_ _ C]. exact (grows_dget _ _ _ _ _ C E). Qed.

Lemma kept_bounds : xbounds s' scn kept.
Proof.
  destruct X as [[XC XP XS XL XR XD] _ _ _]. destruct X2 as [[YC YP YS YL YR YD] _ _ _]. destruct OM as [HH _ _].
  unfold within in *. constructor; rewrite HH in *; unfold within.
  - intros t net nd n' i c' T N' I. destruct (om_node' _ _ _ N') as (n & N & [C _ _ _]).
    destruct (Forall2_get_r _ _ _ _ _ C I) as (c & J & Q & _). specialize (XC t net nd n i c T N J). cbn [kept].
    rewrite <- (Q t T). exact XC.
  - intros t net nd n' i p' T N' I. destruct (om_node' _ _ _ N') as (n & N & [_ P _ _]). cbn [kept]. rewrite N.
    destruct (nth_error (n_prods n) i) as [p|] eqn:J.
    + destruct (grows_old _ _ _ _ _ _ P J I) as (Q & _). specialize (XP t net nd n i p T N J). specialize (Q t T). lra.
    + specialize (YP t net nd n' i p' T N' I). lra.
  - intros t net nd n' i y' T N' I. destruct (om_node' _ _ _ N') as (n & N & [_ _ S _]).
    destruct (Forall2_get_r _ _ _ _ _ S I) as (y & J & Q1 & Q2 & Q3 & _). specialize (XS t net nd n i y T N J). cbn [kept].
    specialize (Q1 t T). specialize (Q2 t T). specialize (Q3 t T). lra.
  - intros t net nd n' i l' T N' I. destruct (om_node' _ _ _ N') as (n & N & [_ _ _ L]). cbn [kept]. rewrite N.
    destruct (nth_error (n_links n) i) as [l|] eqn:J.
    + destruct (grows_old _ _ _ _ _ _ L J I) as (_ & Q & _). specialize (XL t net nd n i l T N J). specialize (Q t T). lra.
    + specialize (YL t net nd n' i l' T N' I). lra.
  - intros t name v' k q' T V' I. unfold vsrc. cbn [kept]. pose proof (YR t name v' k q' T V' I) as YB. pose proof (YD t name v' T V') as YE.
    destruct (conv_at s name) as [v|] eqn:V; [| lra]. destruct (om_conv _ _ V) as (v2 & V2 & SR & _ & _ & MX & _).
    rewrite V' in V2. inversion V2; subst v2. apply In_nth_error in I as (i & I). destruct (Forall2_get_r _ _ _ _ _ SR I) as ([k0 q] & J & EK & EQ).
    cbn [fst snd] in EK, EQ. subst k0. apply nth_error_In in J. pose proof (XR t name v k q T V J) as XB. pose proof (XD t name v T V) as XE.
    unfold vsrc in XB. specialize (MX t T). specialize (EQ t T). rewrite <- EQ in YB |- *. split; [lra |].
    apply Qle_trans with (ovalue (v_max v) scn t / value q scn t)%Q; [lra |]. unfold Qdiv in *.
    set (m := ovalue (v_max v) scn t) in *. set (m' := ovalue (v_max v') scn t) in *. set (w := (/ value q scn t)%Q) in *.
    destruct (Qlt_le_dec w 0) as [Lw | Lw]; [| nra]. assert (M0 : (m' <= 0)%Q) by nra. assert (EM : (m' == 0)%Q) by lra. assert (EM' : (m == 0)%Q) by lra.
    rewrite EM, EM'. lra.
  - intros t name v' T V'. cbn [kept]. pose proof (YD t name v' T V') as YE. destruct (conv_at s name) as [v|] eqn:V; [| lra].
    destruct (om_conv _ _ V) as (v2 & V2 & _ & _ & _ & MX & _). rewrite V' in V2. inversion V2; subst v2.
    specialize (XD t name v T V). specialize (MX t T). lra.
Qed.

(** Sums over the elements of both studies. *)
Lemma kept_prod net nd i t n : node_at s net nd = Some n -> kept (VProd net nd i t) = match nth_error (n_prods n) i with Some _ => x (VProd net nd i t) | None => 0%Q end.
Proof. intros N. cbn [kept]. now rewrite N. Qed.
Lemma kept_link net nd i t n : node_at s net nd = Some n -> kept (VLink net nd i t) = match nth_error (n_links n) i with Some _ => x (VLink net nd i t) | None => 0%Q end.
Proof. intros N. cbn [kept]. now rewrite N. Qed.

Lemma kept_into t net nd1 nd n n' : node_at s net nd1 = Some n -> node_offers (st_horizon s) scn n n' ->
  (sumi (fun i l => if String.eqb (l_dest l) nd then kept (VLink net nd1 i t) else 0%Q) (n_links n') ==
   sumi (fun i l => if String.eqb (l_dest l) nd then x (VLink net nd1 i t) else 0%Q) (n_links n))%Q.
Proof.
  intros N [_ _ _ L]. apply (sumi_grows_eq _ _ _ _ _ L).
  - intros j a b I J (D & _). rewrite D, (kept_link _ _ _ _ _ N), I. reflexivity.
  - intros j b I J. rewrite (kept_link _ _ _ _ _ N), I. destruct (String.eqb (l_dest b) nd); reflexivity.
Qed.

Lemma kept_node t net nd n n' : node_at s net nd = Some n -> node_offers (st_horizon s) scn n n' ->
  (xnode kept t net nd n' == xnode x t net nd n)%Q.
Proof.
  intros N [C P S L]. unfold xnode.
  rewrite (sumi_grows_eq _ (fun i _ => x (VLol net nd i t)) _ _ _ (Forall2_grows _ _ _ C)).
  2: { intros j a b _ _ _. reflexivity. } 2: { intros j b I J. destruct (Forall2_get_r _ _ _ _ _ C J) as (a & K & _). congruence. }
  rewrite (sumi_grows_eq _ (fun i _ => x (VProd net nd i t)) _ _ _ P).
  2: { intros j a b I _ _. rewrite (kept_prod _ _ _ _ _ N), I. reflexivity. } 2: { intros j b I _. rewrite (kept_prod _ _ _ _ _ N), I. reflexivity. }
  rewrite (sumi_grows_eq _ (fun i _ => - x (VIn net nd i t) + x (VOut net nd i t))%Q _ _ _ (Forall2_grows _ _ _ S)).
  2: { intros j a b _ _ _. reflexivity. } 2: { intros j b I J. destruct (Forall2_get_r _ _ _ _ _ S J) as (a & K & _). congruence. }
  rewrite (sumi_grows_eq _ (fun i _ => x (VLink net nd i t)) _ _ _ L).
  2: { intros j a b I _ _. rewrite (kept_link _ _ _ _ _ N), I. reflexivity. } 2: { intros j b I _. rewrite (kept_link _ _ _ _ _ N), I. reflexivity. }
  reflexivity.
Qed.

Lemma kept_conv t net nd a b : conv_at s (fst a) = Some (snd a) -> fst b = fst a -> conv_offers (st_horizon s) scn (snd a) (snd b) ->
  (xconv kept t net nd (fst b) (snd b) == xconv x t net nd (fst a) (snd a))%Q.
Proof.
  intros V EB (SR & E1 & E2 & _). unfold xconv. rewrite EB, E1, E2. cbn [kept]. rewrite V. apply Qplus_comp; [reflexivity |]. apply Qopp_comp.
  induction SR as [|[k q] [k' q'] m m' [EK _] SR IH]; [reflexivity |]. cbn [fst] in EK. subst k'. cbn [map qsum fold_right fst snd].
  fold (qsum (map (fun kr => if pair_eqb (fst kr) (net, nd) then kept (vsrc (fst a) t (fst kr)) else 0%Q) m')).
  fold (qsum (map (fun kr => if pair_eqb (fst kr) (net, nd) then x (vsrc (fst a) t (fst kr)) else 0%Q) m)).
  rewrite IH. unfold vsrc. cbn [kept]. rewrite V. reflexivity.
Qed.

Lemma conv_entry j a : nth_error (st_converters s) j = Some a -> conv_at s (fst a) = Some (snd a).
Proof. intros I. apply nth_error_In in I. destruct a. apply In_dget; auto. apply wf_convs, W. Qed.

Lemma kept_convs t net nd :
  (qsum (map (fun kv => xconv kept t net nd (fst kv) (snd kv)) (st_converters s')) ==
   qsum (map (fun kv => xconv x t net nd (fst kv) (snd kv)) (st_converters s)))%Q.
Proof.
  rewrite <- !(sumi_map (fun kv => xconv _ t net nd (fst kv) (snd kv))). destruct OM as [_ _ C]. apply (sumi_grows_eq _ _ _ _ _ C).
  - intros j a b I J [EB CO]. apply kept_conv; auto. eapply conv_entry; eauto.
  - intros j b I J. pose proof (grows_new _ _ _ _ _ (wf_convs _ W') C I J) as D. unfold xconv. cbn [kept vsrc]. unfold conv_at. rewrite D.
    rewrite (qsum_map_zero _ (v_src (snd b))) by (intros kr _; destruct (pair_eqb (fst kr) (net, nd)); reflexivity).
    destruct (String.eqb (v_dnet (snd b)) net && String.eqb (v_dnode (snd b)) nd); lra.
Qed.

Lemma om_nodes_in net : Forall2 (fun c d => fst d = fst c /\ node_at s net (fst c) = Some (snd c) /\ node_offers (st_horizon s) scn (snd c) (snd d))
  (nodes_in s net) (nodes_in s' net).
Proof.
  pose (R := fun (_ : string) (ns ns' : network) => Forall2 (fun c d : string * node => fst d = fst c /\
    node_offers (st_horizon s) scn (snd c) (snd d)) ns ns').
  pose proof (Forall2_dget R (st_networks s) (st_networks s') net (om_nodes _ _ _ OM)) as D. unfold R in D. unfold nodes_in.
  destruct (dget net (st_networks s)) as [ns|] eqn:N, (dget net (st_networks s')) as [ns'|]; try contradiction; [| constructor].
  apply Forall2_nth in D. destruct D as [L D]. apply Forall2_nth. split; auto. intros i c d I J. destruct (D i c d I J) as [EK NO].
  split; auto. split; auto. apply nth_error_In in I. destruct c as [nd n]. unfold node_at. rewrite N. apply In_dget; auto. exact (wf_nodes _ W _ _ N).
Qed.

Lemma kept_import t net nd : (ximport s' kept t net nd == ximport s x t net nd)%Q.
Proof.
  unfold ximport. pose proof (om_nodes_in net) as F. induction F as [|c d m m' (EK & N & NO) F IH]; [reflexivity |]. cbn [map qsum fold_right].
  apply Qplus_comp; [| exact IH]. rewrite EK. now apply kept_into.
Qed.

Lemma kept_ok : xok s' scn kept.
Proof.
  pose proof kept_bounds as KB. destruct X as [_ XB XS XM]. destruct OM as [HH _ C]. constructor; auto; rewrite HH.
  - intros t net nd n' T N'. destruct (om_node' _ _ _ N') as (n & N & NO). specialize (XB t net nd n T N). unfold xbalance, xself in *.
    rewrite (kept_node _ _ _ _ _ N NO), kept_convs, kept_import, (kept_into _ _ _ _ _ _ N NO), XB. clear XB. destruct NO as [CO _ _ _].
    induction CO as [|c c' m m' [Q _] CO IH]; [reflexivity |]. cbn [map qsum fold_right]. apply Qplus_comp; [apply Q, T | exact IH].
  - intros t net nd n' T N'. destruct (om_node' _ _ _ N') as (n & N & [_ _ S _]). specialize (XS t net nd n T N). unfold xstorage in *.
    destruct S as [|y y' m m' (_ & _ & _ & Q1 & Q2 & _) S]; auto. cbn [kept]. destruct t as [|t].
    + rewrite <- Q1, <- (Q2 0 T). exact XS.
    + rewrite <- (Q2 (Datatypes.S t) T). exact XS.
  - intros t name v' T V' k q' I. unfold vsrc. cbn [kept]. destruct (conv_at s name) as [v|] eqn:V; [| lra].
    destruct (om_conv _ _ V) as (v2 & V2 & SR & _). rewrite V' in V2. inversion V2; subst v2. apply In_nth_error in I as (i & I).
    destruct (Forall2_get_r _ _ _ _ _ SR I) as ([k0 q] & J & EK & EQ). cbn [fst snd] in EK, EQ. subst k0. apply nth_error_In in J.
    specialize (XM t name v T V k q J). unfold vsrc in XM. rewrite <- (EQ t T). exact XM.
Qed.

(** ** Its cost *)
Lemma times_le a b y : (a <= b -> 0 <= y -> a * y <= b * y)%Q.
Proof. intros L P. nra. Qed.

Lemma kept_ncost t net nd n n' : t < st_horizon s -> node_at s net nd = Some n -> node_offers (st_horizon s) scn n n' ->
  (ncost scn kept t net nd n' <= ncost scn x t net nd n)%Q.
Proof.
  intros T N [C P S L]. destruct X as [[XC XP XS XL _ _] _ _ _]. unfold ncost, within in *. repeat apply Qplus_le_compat.
  - apply (sumi_grows _ _ _ _ _ (Forall2_grows _ _ _ C)).
    + intros j a b I _ [_ Q]. cbn [kept]. apply times_le; [apply Q, T | apply (XC t net nd n j a T N I)].
    + intros j b I J. destruct (Forall2_get_r _ _ _ _ _ C J) as (a & K & _). congruence.
  - apply (sumi_grows _ _ _ _ _ P).
    + intros j a b I _ [_ Q]. rewrite (kept_prod _ _ _ _ _ N), I. apply times_le; [apply Q, T | apply (XP t net nd n j a T N I)].
    + intros j b I J. rewrite (kept_prod _ _ _ _ _ N), I. lra.
  - apply (sumi_grows _ _ _ _ _ (Forall2_grows _ _ _ S)).
    + intros j a b I _ (_ & _ & _ & _ & _ & Q). cbn [kept]. apply times_le; [apply Q, T | apply (XS t net nd n j a T N I)].
    + intros j b I J. destruct (Forall2_get_r _ _ _ _ _ S J) as (a & K & _). congruence.
  - apply (sumi_grows _ _ _ _ _ L).
    + intros j a b I _ (_ & _ & Q). rewrite (kept_link _ _ _ _ _ N), I. apply times_le; [apply Q, T | apply (XL t net nd n j a T N I)].
    + intros j b I J. rewrite (kept_link _ _ _ _ _ N), I. lra.
Qed.

Lemma qsum_pair_le {A C} (f : A -> Q) (g : C -> Q) l m : Forall2 (fun a c => (g c <= f a)%Q) l m -> (qsum (map g m) <= qsum (map f l))%Q.
Proof. induction 1; simpl; [lra|]. fold (qsum (map f l)). fold (qsum (map g l')). lra. Qed.

Lemma kept_cost : (xcost s' scn kept <= xcost s scn x)%Q.
Proof.
  unfold xcost. rewrite (om_horizon _ _ _ OM). apply qsum_pair_le. apply Forall2_nth. split; auto.
  intros i t t' I J. rewrite I in J. inversion J; subst t'. clear J. apply nth_error_In, in_seq in I. assert (T : t < st_horizon s) by lia. apply Qplus_le_compat.
  - apply qsum_pair_le. pose proof (om_nodes _ _ _ OM) as F. apply Forall2_nth. apply Forall2_nth in F as [L F]. split; auto.
    intros k [net ns] [net' ns'] K K'. destruct (F k _ _ K K') as [EK NS]. cbn [fst snd] in *. subst net'. apply qsum_pair_le.
    apply nth_error_In in K. apply Forall2_nth. apply Forall2_nth in NS as [L2 NS]. split; auto.
    intros q [nd n] [nd' n'] U U'. destruct (NS q _ _ U U') as [EU NO]. cbn [fst snd] in *. subst nd'. apply nth_error_In in U.
    apply kept_ncost; auto. eapply node_at_In; eauto.
  - rewrite <- !(sumi_map (fun kv => (ovalue (v_cost (snd kv)) scn t * _ (VDest (fst kv) t))%Q)). pose proof (om_convs _ _ _ OM) as C. apply (sumi_grows _ _ _ _ _ C).
    + intros j a b I1 J [EB (_ & _ & _ & _ & Q)]. rewrite EB. pose proof (conv_entry _ _ I1) as V. cbn [kept]. rewrite V.
      apply times_le; [apply Q, T | apply (xb_dest _ _ _ (xo_bounds _ _ _ X) t _ _ T V)].
    + intros j b I1 J. pose proof (grows_new _ _ _ _ _ (wf_convs _ W') C I1 J) as D. cbn [kept]. unfold conv_at. rewrite D. lra.
Qed.
End Carry.

(** ** C74 *)
Theorem C74_more_never_dearer : forall answer answer' s s' r r' scn,
  api_study s -> api_study s' -> offers_more s s' scn -> scn < st_nb_scn s -> scn < st_nb_scn s' ->
  solved answer s r -> solved answer' s' r' -> optimal_answer answer s scn -> optimal_answer answer' s' scn ->
  (total_cost s' r' scn <= total_cost s r scn)%Q.
Proof.
  intros answer answer' s s' r r' scn A A' OM S S' SV SV' [F _] [F' Best].
  destruct (solved_weak _ _ _ A SV) as (R & M & C). destruct (C scn S) as ((vs & B) & CA & _).
  destruct (solved_weak _ _ _ A' SV') as (R' & M' & C'). destruct (C' scn S') as ((vs' & B') & CA' & _).
  rewrite (cost_eq s r R M scn _ CA), (cost_eq s' r' R' M' scn _ CA').
  destruct (api_facts s A) as (W & _). destruct (api_facts s' A') as (W' & _).
  apply (sat_iff s scn S R _ vs _ B) in F. pose proof (proj1 (sat_iff s' scn S' R' _ vs' _ B' ) F') as X'.
  pose proof (kept_ok s s' scn _ _ OM F X' W W') as K. apply (sat_iff s' scn S' R' _ vs' _ B') in K. specialize (Best _ K).
  rewrite !(objective_value s' scn S' R' _ vs' _ B') in Best. eapply Qle_trans; [exact Best |].
  exact (kept_cost s s' scn _ OM F R W W').
Qed.

(** ** Building more *)
Lemma le_at_refl h scn v : le_at h scn v v.
Proof. intros t _. lra. Qed.
Lemma ole_at_refl h scn v : ole_at h scn v v.
Proof. intros t _. lra. Qed.
Lemma eq_at_refl h scn v : eq_at h scn v v.
Proof. intros t _. reflexivity. Qed.
Lemma Forall2_same {A} (P : A -> A -> Prop) l : (forall a, P a a) -> Forall2 P l l.
Proof. intros R. induction l; constructor; auto. Qed.
Local Hint Resolve le_at_refl ole_at_refl eq_at_refl : offers.
Lemma prod_offers_refl h scn p : prod_offers h scn p p. Proof. split; auto with offers. Qed.
Lemma link_offers_refl h scn p : link_offers h scn p p. Proof. repeat split; auto with offers. Qed.
Lemma cons_offers_refl h scn p : cons_offers h scn p p. Proof. split; auto with offers. Qed.
Lemma stor_offers_refl h scn p : stor_offers h scn p p. Proof. unfold stor_offers. repeat split; auto with offers. Qed.
Lemma conv_offers_refl h scn p : conv_offers h scn p p.
Proof. unfold conv_offers. repeat split; auto with offers. apply Forall2_same. intros a. split; auto with offers. Qed.
Local Hint Resolve prod_offers_refl link_offers_refl cons_offers_refl stor_offers_refl conv_offers_refl Forall2_same grows_refl : offers.
Lemma node_offers_refl h scn n : node_offers h scn n n.
Proof. constructor; auto with offers. Qed.
Local Hint Resolve node_offers_refl : offers.
Lemma offers_more_refl s scn : offers_more s s scn.
Proof.
  constructor; auto.
  - apply Forall2_same. intros a. split; auto. apply Forall2_same. intros b. split; auto with offers.
  - apply grows_refl. intros a. split; auto with offers.
Qed.

Lemma Forall2_dset {V} (R : V -> V -> Prop) (d : dict string V) k v w : (forall a, R a a) -> dget k d = Some v -> R v w ->
  Forall2 (fun a b => fst b = fst a /\ R (snd a) (snd b)) d (dset k w d).
Proof.
  intros RR. induction d as [|[k1 v1] d IH]; cbn [dget dset]; [discriminate |]. destruct (eqb k k1) eqn:E.
  - apply eqb_eq in E. subst k1. intros G P. inversion G; subst. constructor; [split; auto |]. apply Forall2_same. intros a. split; auto.
  - intros G P. constructor; [split; auto |]. now apply IH.
Qed.

Lemma upd_offers net nd f s scn s' r : (forall n, node_offers (st_horizon s) scn n (f n)) -> upd_node net nd f s = (s', r) -> offers_more s s' scn.
Proof.
  intros NO E. pose proof (upd_node_spec net nd f s) as U. destruct (node_at s net nd) as [n|].
  - destruct U as (ns & G1 & G2 & U). rewrite U in E. inversion E; subst s' r. constructor; [reflexivity | | apply grows_refl; intros a; split; auto with offers].
    change (st_networks (set_networks s (dset net (dset nd (f n) ns) (st_networks s)))) with (dset net (dset nd (f n) ns) (st_networks s)).
    apply (Forall2_dset (fun m m' : network => Forall2 (fun c d : string * node => fst d = fst c /\ node_offers (st_horizon s) scn (snd c) (snd d)) m m') _ _ ns).
    + intros m. apply Forall2_same. intros c. split; auto with offers.
    + exact G1.
    + apply (Forall2_dset _ _ _ n); auto with offers.
  - rewrite U in E. inversion E; subst. apply offers_more_refl.
Qed.

Lemma reads_then {A B} (m : ST study A) (k : A -> ST study B) scn : reads m ->
  (forall a s s' r, k a s = (s', r) -> offers_more s s' scn) -> forall s s' r, sbind m k s = (s', r) -> offers_more s s' scn.
Proof.
  intros RM K s s' r E. pose proof (RM s) as M. unfold sbind in E. destruct (m s) as [s1 [a|e]]; cbn [fst] in M; subst s1; [eauto |].
  inversion E; subst. apply offers_more_refl.
Qed.

Lemma add_production_offers net nd name c q scn s s' r : add_production net nd name c q s = (s', r) -> offers_more s s' scn.
Proof.
  unfold add_production. revert s s' r. do 5 (apply reads_then; [auto with reads | intros ?]). intros s s' r. apply upd_offers.
  intros n. constructor; cbn [push_prod n_cons n_prods n_stors n_links]; auto with offers. exists (n_prods n). eexists. split; [reflexivity |]. auto with offers.
Qed.
Lemma add_link_offers net src dest c q scn s s' r : add_link net src dest c q s = (s', r) -> offers_more s s' scn.
Proof.
  unfold add_link. revert s s' r. do 8 (apply reads_then; [auto with reads | intros ?]). intros s s' r. apply upd_offers.
  intros n. constructor; cbn [push_link n_cons n_prods n_stors n_links]; auto with offers. exists (n_links n). eexists. split; [reflexivity |]. auto with offers.
Qed.

Lemma onstudy_offers {A} (m : ST study A) scn fs fs' r : (forall s s' r, m s = (s', r) -> offers_more s s' scn) ->
  onstudy m fs = (fs', r) -> offers_more (f_study fs) (f_study fs') scn.
Proof. intros H E. unfold onstudy in E. destruct (m (f_study fs)) as [s' r'] eqn:M. inversion E; subst. cbn. eauto. Qed.

Lemma freads_then {A B} (m : ST fstate A) (k : A -> ST fstate B) scn : reads m ->
  (forall a fs fs' r, k a fs = (fs', r) -> offers_more (f_study fs) (f_study fs') scn) ->
  forall fs fs' r, sbind m k fs = (fs', r) -> offers_more (f_study fs) (f_study fs') scn.
Proof.
  intros RM K s s' r E. pose proof (RM s) as M. unfold sbind in E. destruct (m s) as [s1 [a|e]]; cbn [fst] in M; subst s1; [eauto |].
  inversion E; subst. apply offers_more_refl.
Qed.
Lemma then_ret {A B} (m : ST fstate A) (b : B) scn : (forall fs fs' r, m fs = (fs', r) -> offers_more (f_study fs) (f_study fs') scn) ->
  forall fs fs' r, sbind m (fun _ => sret b) fs = (fs', r) -> offers_more (f_study fs) (f_study fs') scn.
Proof.
  intros H fs fs' r E. unfold sbind in E. destruct (m fs) as [s1 [a|e]] eqn:M; apply H in M; inversion E; subst; auto.
Qed.
Lemma reads_sel_at a : reads (sel_at a). Proof. intros s. reflexivity. Qed.
Lemma reads_key_network a : reads (key_network a).
Proof. apply reads_bind; [apply reads_sel_at |]. intros [[n|] o] s; reflexivity. Qed.
Lemma reads_key_node a : reads (key_node a).
Proof. apply reads_bind; [apply reads_sel_at |]. intros [o [n|]] s; reflexivity. Qed.

(** Calls that add a production or a link. *)
Definition adds_supply (c : call) : Prop :=
  match c with
  | OnStudy_add_link _ _ _ _ _ | OnSel _ (MLink _ _ _ _) | OnSel _ (MProduction _ _ _) => True
  | _ => False
  end.

Lemma push_offers w p scn : (forall fs' r, p = (fs', r) -> offers_more (w_study w) (f_study fs') scn) ->
  offers_more (w_study w) (w_study (fst (push_handle w p))) scn.
Proof. intros H. destruct p as [fs' [h|e]]; cbn; eapply H; reflexivity. Qed.

Theorem C74_supply_offers_more : forall w c scn, adds_supply c -> offers_more (w_study w) (w_study (fst (step w c))) scn.
Proof.
  intros w c scn SC. destruct c as [| net src dest co q | | | i m]; try contradiction; cbn [step].
  - unfold no_handle, w_study. cbn [fst w_fs]. destruct (onstudy (add_link net src dest co q) (w_fs w)) as [fs' r] eqn:E.
    eapply onstudy_offers; [| exact E]. intros s s' r'. apply add_link_offers.
  - destruct (nth_error (w_handles w) i) as [h|]; [| apply offers_more_refl]. apply push_offers. unfold w_study. generalize (w_fs w).
    destruct m as [| | src dest co q | | | name co q | |]; try contradiction; destruct h as [a|a]; cbn [fl_call].
    + apply freads_then; [apply reads_key_network |]. intros net. apply then_ret. intros fs fs' r. apply onstudy_offers. intros s s' r'. apply add_link_offers.
    + apply freads_then; [apply reads_key_network |]. intros net. apply then_ret. intros fs fs' r. apply onstudy_offers. intros s s' r'. apply add_link_offers.
    + intros fs fs' r E. inversion E; subst. apply offers_more_refl.
    + apply freads_then; [apply reads_key_network |]. intros net. apply freads_then; [apply reads_key_node |]. intros nd.
      apply then_ret. intros fs fs' r. apply onstudy_offers. intros s s' r'. apply add_production_offers.
Qed.

(** *** Step after step *)
Lemma Forall2_trans {A} (P : A -> A -> Prop) l m n : (forall a b c, P a b -> P b c -> P a c) -> Forall2 P l m -> Forall2 P m n -> Forall2 P l n.
Proof. intros H F. revert n. induction F; intros n G; inversion G; subst; constructor; eauto. Qed.
Lemma grows_trans {A} (P : A -> A -> Prop) l m n : (forall a b c, P a b -> P b c -> P a c) -> grows P l m -> grows P m n -> grows P l n.
Proof.
  intros H (o1 & m1 & -> & F1) (o2 & m2 & -> & F2). apply Forall2_app_inv_l in F2 as (o3 & o4 & F3 & F4 & ->).
  exists o3, (o4 ++ m2). rewrite app_assoc. split; auto. eapply Forall2_trans; eauto.
Qed.
Lemma le_at_trans h scn a b c : le_at h scn a b -> le_at h scn b c -> le_at h scn a c.
Proof. intros H K t T. eapply Qle_trans; [apply H | apply K]; auto. Qed.
Lemma ole_at_trans h scn a b c : ole_at h scn a b -> ole_at h scn b c -> ole_at h scn a c.
Proof. intros H K t T. eapply Qle_trans; [apply H | apply K]; auto. Qed.
Lemma eq_at_trans h scn a b c : eq_at h scn a b -> eq_at h scn b c -> eq_at h scn a c.
Proof. intros H K t T. rewrite (H t T). apply K, T. Qed.
Lemma node_offers_trans h scn a b c : node_offers h scn a b -> node_offers h scn b c -> node_offers h scn a c.
Proof.
  intros [A1 A2 A3 A4] [B1 B2 B3 B4]. constructor.
  - eapply Forall2_trans; eauto. intros x y z [H1 H2] [K1 K2]. split; [eapply eq_at_trans | eapply le_at_trans]; eauto.
  - eapply grows_trans; eauto. intros x y z [H1 H2] [K1 K2]. split; eapply le_at_trans; eauto.
  - eapply Forall2_trans; eauto. intros x y z (H1 & H2 & H3 & H4 & H5 & H6) (K1 & K2 & K3 & K4 & K5 & K6).
    repeat apply conj; try (eapply le_at_trans; eauto; fail); [rewrite H4; exact K4 | eapply eq_at_trans; eauto].
  - eapply grows_trans; eauto. intros x y z (H1 & H2 & H3) (K1 & K2 & K3). split; [congruence |]. split; eapply le_at_trans; eauto.
Qed.
Lemma offers_more_trans a b c scn : offers_more a b scn -> offers_more b c scn -> offers_more a c scn.
Proof.
  intros [H1 H2 H3] [K1 K2 K3]. rewrite H1 in K2, K3. constructor; [congruence | |].
  - eapply Forall2_trans; [| exact H2 | exact K2]. intros x y z [E1 F1] [E2 F2]. split; [congruence |].
    eapply Forall2_trans; [| exact F1 | exact F2]. intros u v w [G1 N1] [G2 N2]. split; [congruence | eapply node_offers_trans; eauto].
  - eapply grows_trans; [| exact H3 | exact K3]. intros x y z [E1 (S1 & D1 & D2 & M1 & C1)] [E2 (S2 & D3 & D4 & M2 & C2)]. split; [congruence |].
    split; [| split; [congruence | split; [congruence | split; eapply ole_at_trans; eauto]]].
    eapply Forall2_trans; [| exact S1 | exact S2]. intros u v w [G1 N1] [G2 N2]. split; [congruence | eapply eq_at_trans; eauto].
Qed.

Lemma run_offers_more w cs scn : Forall adds_supply cs -> offers_more (w_study w) (w_study (run w cs)) scn.
Proof.
  intros SC. revert w. induction SC as [|c cs H SC IH]; intros w; cbn [run fold_left]; [apply offers_more_refl |].
  eapply offers_more_trans; [apply C74_supply_offers_more, H | apply IH].
Qed.

(** Adding productions and links to a study, in any number, never makes its optimum
    dearer. *)
Theorem C74_adding_supply : forall w cs answer answer' r r' scn,
  let s := w_study w in let s' := w_study (run w cs) in
  api_study s -> api_study s' -> Forall adds_supply cs -> scn < st_nb_scn s -> scn < st_nb_scn s' ->
  solved answer s r -> solved answer' s' r' -> optimal_answer answer s scn -> optimal_answer answer' s' scn ->
  (total_cost s' r' scn <= total_cost s r scn)%Q.
Proof.
  intros w cs answer answer' r r' scn s s' A A' SC S S' SV SV' O O'. apply (C74_more_never_dearer answer answer'); auto.
  now apply run_offers_more.
Qed.

(** Ten units of load of which five can be produced; then a second, dearer
    production and a link to a node with a cheap one. *)
Definition small_calls : list call :=
  [ OnStudy_network "net"; OnSel 0 (MNode "a"); OnSel 1 (MConsumption "load" (jn 1000) (jn 10));
    OnSel 2 (MProduction "one" (jn 10) (jn 5)); OnSel 3 (MNode "b"); OnSel 4 (MProduction "cheap" (jn 1) (jn 2)) ].
Definition more_calls : list call :=
  [ OnStudy_add_link "net" "b" "a" (jn 1) (jn 3); OnSel 0 (MLink "b" "a" (jn 0) (jn 9)); OnSel 4 (MProduction "two" (jn 20) (jn 8)) ].
Definition small_world : world := Eval vm_compute in run (start 1 1 None) small_calls.
Definition small : study := Eval vm_compute in w_study small_world.
Definition large : study := Eval vm_compute in w_study (run small_world more_calls).
Lemma small_api : api_study small.
Proof. exists 1, 1, None, small_calls. split; [lia|]. split; [lia|]. split; [plain_tac | vm_compute; reflexivity]. Qed.
Lemma large_api : api_study large.
Proof. exists 1, 1, None, (small_calls ++ more_calls). split; [lia|]. split; [lia|]. split; [plain_tac | vm_compute; reflexivity]. Qed.
Definition small_answer (_ : nat) (_ : solver) : var -> Q := fun v =>
  match v with VLol _ _ _ _ => 5 | VProd _ "a" _ _ => 5 | _ => 0 end%Q.
Definition large_answer (_ : nat) (_ : solver) : var -> Q := fun v =>
  match v with VProd _ "a" _ _ => 5 | VLol _ _ _ _ => 2 | VProd _ "b" 0 _ => 2 | VProd _ "b" 1 _ => 1 | VLink _ _ _ _ => 3 | _ => 0 end%Q.
Definition small_result : result := Eval vm_compute in
  match solve_lp small_answer [0] no_bench small with Ok r => r | Err _ => Result [] [] no_bench end.
Definition large_result : result := Eval vm_compute in
  match solve_lp large_answer [0] no_bench large with Ok r => r | Err _ => Result [] [] no_bench end.
Definition small0 : solver := Eval vm_compute in program_of small 0.
Definition large0 : solver := Eval vm_compute in program_of large 0.
Lemma small_optimal : optimal_answer small_answer small 0.
Proof.
  unfold optimal_answer, small_answer. change (program_of small 0) with small0. split.
  - apply satb_ok. vm_compute. reflexivity.
  - intros y F. pose proof (satisfies_vars _ _ F) as V. pose proof (satisfies_cons _ _ F) as K.
    unfold small0 in V, K. cbn [sv_vars sv_cons] in V, K. open_forall V. open_forall K. cbn. lra.
Qed.
Lemma large_optimal : optimal_answer large_answer large 0.
Proof.
  unfold optimal_answer, large_answer. change (program_of large 0) with large0. split.
  - apply satb_ok. vm_compute. reflexivity.
  - intros y F. pose proof (satisfies_vars _ _ F) as V. pose proof (satisfies_cons _ _ F) as K.
    unfold large0 in V, K. cbn [sv_vars sv_cons] in V, K. open_forall V. open_forall K. cbn. lra.
Qed.
(** The second call of [more_calls] is refused: the link is already there. *)
Example C74_example : api_study small /\ api_study large /\ Forall adds_supply more_calls /\
  small = w_study small_world /\ large = w_study (run small_world more_calls) /\
  offers_more small large 0 /\ solved small_answer small small_result /\ solved large_answer large large_result /\
  optimal_answer small_answer small 0 /\ optimal_answer large_answer large 0 /\
  (total_cost small small_result 0 == 5050)%Q /\ (total_cost large large_result 0 == 2075)%Q.
Proof.
  split; [apply small_api |]. split; [apply large_api |]. split; [repeat constructor |]. split; [vm_compute; reflexivity |]. split; [vm_compute; reflexivity |].
  split.
  { apply (run_offers_more small_world more_calls 0). repeat constructor. }
  split. { exists [0], no_bench. split; [reflexivity | vm_compute; reflexivity]. }
  split. { exists [0], no_bench. split; [reflexivity | vm_compute; reflexivity]. }
  split; [apply small_optimal |]. split; [apply large_optimal |]. split; vm_compute; reflexivity.
Qed.

(** A storage is no such addition: what it holds at first has to be paid for. *)
Definition tank_calls : list call := small_calls ++ [ OnSel 2 (MStorage "tank" (jn 7) (jn 7) (jn 0) (jn 3) 7%Q (jn 1)) ].
Definition tank : study := Eval vm_compute in w_study (run (start 1 1 None) tank_calls).
Definition tank_answer (_ : nat) (_ : solver) : var -> Q := fun v =>
  match v with VLol _ _ _ _ => 5 | VProd _ "a" _ _ => 5 | VCap _ _ _ _ => 7 | _ => 0 end%Q.
Definition tank_result : result := Eval vm_compute in
  match solve_lp tank_answer [0] no_bench tank with Ok r => r | Err _ => Result [] [] no_bench end.
Definition tank0 : solver := Eval vm_compute in program_of tank 0.
Theorem C74_storage_refuted : exists w c answer answer' r r',
  let s := w_study w in let s' := w_study (fst (step w c)) in
  snd (step w c) = Ok tt /\ (exists i name ca fi fo co ini e, c = OnSel i (MStorage name ca fi fo co ini e)) /\
  api_study s /\ api_study s' /\ solved answer s r /\ solved answer' s' r' /\
  optimal_answer answer s 0 /\ optimal_answer answer' s' 0 /\ (total_cost s r 0 < total_cost s' r' 0)%Q.
Proof.
  exists small_world, (OnSel 2 (MStorage "tank" (jn 7) (jn 7) (jn 0) (jn 3) 7%Q (jn 1))), small_answer, tank_answer, small_result, tank_result.
  change (w_study (fst (step small_world (OnSel 2 (MStorage "tank" (jn 7) (jn 7) (jn 0) (jn 3) 7%Q (jn 1)))))) with tank.
  change (w_study small_world) with small. cbv zeta. split; [vm_compute; reflexivity |]. split; [repeat eexists |]. split; [apply small_api |].
  split. { exists 1, 1, None, tank_calls. split; [lia|]. split; [lia|]. split; [plain_tac | vm_compute; reflexivity]. }
  split. { exists [0], no_bench. split; [reflexivity | vm_compute; reflexivity]. }
  split. { exists [0], no_bench. split; [reflexivity | vm_compute; reflexivity]. }
  split; [apply small_optimal |]. split.
  - unfold optimal_answer, tank_answer. change (program_of tank 0) with tank0. split; [apply satb_ok; vm_compute; reflexivity |].
    intros y F. pose proof (satisfies_vars _ _ F) as V. pose proof (satisfies_cons _ _ F) as K.
    unfold tank0 in V, K. cbn [sv_vars sv_cons] in V, K. open_forall V. open_forall K. cbn. lra.
  - vm_compute. reflexivity.
Qed.

Print Assumptions C74_more_never_dearer.
Print Assumptions C74_supply_offers_more.
Print Assumptions C74_adding_supply.
Print Assumptions C74_storage_refuted.
