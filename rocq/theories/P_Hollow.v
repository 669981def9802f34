(** Property C102: elements of nothing change nothing. *)
From Coq Require Import String List ZArith QArith Bool Arith Lia Lqa Permutation.
From Verif Require Import Base BaseFacts Numeric Study Fluent SpecStudy StudyFacts Output Json SpecJson JsonFacts P_Json
  LP SpecLP LPFacts LPBuild LPSat LPResult LPSolve LPReady LPOpt LPWeak LPMore P_LP P_Opt P_Accept P_More P_Solvable P_Law P_Mean SpecRename P_Rename SpecHollow.
Import ListNotations.
Open Scope nat_scope.
Open Scope string_scope.
Open Scope list_scope.

Lemma adds_grows {A} (P : A -> Prop) l l' : adds P l l' -> grows eq l l'.
Proof. intros (more & -> & _). exists l, more. split; auto. induction l; constructor; auto. Qed.
Lemma adds_old {A} (P : A -> Prop) l l' i a : adds P l l' -> nth_error l i = Some a -> nth_error l' i = Some a.
Proof. intros (more & -> & _) I. rewrite nth_error_app1; auto. apply nth_error_Some. congruence. Qed.
Lemma adds_new {A} (P : A -> Prop) l l' i b : adds P l l' -> nth_error l i = None -> nth_error l' i = Some b -> P b.
Proof.
  intros (more & -> & F) I J. apply nth_error_None in I. rewrite nth_error_app2 in J by lia. rewrite Forall_forall in F. apply F. eapply nth_error_In, J.
Qed.
Lemma adds_sum {A} (P : A -> Prop) (f g : nat -> A -> Q) l l' : adds P l l' ->
  (forall j a, nth_error l j = Some a -> nth_error l' j = Some a -> (g j a == f j a)%Q) ->
  (forall j b, nth_error l j = None -> nth_error l' j = Some b -> P b -> (g j b == 0)%Q) -> (sumi g l' == sumi f l)%Q.
Proof.
  intros D H Z. apply (sumi_grows_eq _ _ _ _ _ (adds_grows _ _ _ D)).
  - intros j a b I J <-. auto.
  - intros j b I J. apply Z; auto. eapply adds_new; eauto.
Qed.

Section Hollow.
Variables (s s' : study) (scn : nat).
Hypothesis AN : adds_nothing s s' scn.
Hypothesis W : study_wf s.
Hypothesis W' : study_wf s'.
Local Notation h := (st_horizon s).

Lemma hol_node net nd : match node_at s net nd, node_at s' net nd with
  | Some n, Some n' => node_adds h scn n n' | None, None => True | _, _ => False end.
Proof.
  destruct AN as [_ N _]. pose (R := fun (_ : string) (ns ns' : network) => Forall2 (fun c d : string * node => fst d = fst c /\ node_adds h scn (snd c) (snd d)) ns ns').
  pose proof (Forall2_dget R (st_networks s) (st_networks s') net N) as D. unfold R in D.
  unfold node_at. destruct (dget net (st_networks s)) as [ns|], (dget net (st_networks s')) as [ns'|]; try contradiction; [| exact Logic.I].
  pose proof (Forall2_dget (fun _ => node_adds h scn) ns ns' nd D) as E. exact E.
Qed.
Lemma hol_up net nd n' : node_at s' net nd = Some n' -> exists n, node_at s net nd = Some n /\ node_adds h scn n n'.
Proof. intros E. pose proof (hol_node net nd) as D. rewrite E in D. destruct (node_at s net nd) as [n|]; [eauto | contradiction]. Qed.
Lemma hol_down net nd n : node_at s net nd = Some n -> exists n', node_at s' net nd = Some n' /\ node_adds h scn n n'.
Proof. intros E. pose proof (hol_node net nd) as D. rewrite E in D. destruct (node_at s' net nd) as [n'|]; [eauto | contradiction]. Qed.
Lemma hol_conv name v : conv_at s name = Some v -> conv_at s' name = Some v.
Proof.
  unfold conv_at. destruct AN as [_ _ (more & -> & _)]. induction (st_converters s) as [|[k u] d IH]; cbn [dget app]; [discriminate |]. destruct (eqb name k); auto.
Qed.
Lemma hol_conv_new name v : conv_at s name = None -> conv_at s' name = Some v -> hollow_conv h scn v.
Proof.
  unfold conv_at. destruct AN as [_ _ (more & -> & F)]. induction (st_converters s) as [|[k u] d IH]; cbn [dget app].
  - intros _ E. apply dget_In in E. rewrite Forall_forall in F. exact (F _ E).
  - destruct (eqb name k); [discriminate | auto].
Qed.
Lemma hol_entry j a : nth_error (st_converters s) j = Some a -> conv_at s (fst a) = Some (snd a).
Proof. intros I. apply nth_error_In in I. destruct a. apply In_dget; auto. apply wf_convs, W. Qed.
Lemma hol_entry' j a : nth_error (st_converters s') j = Some a -> conv_at s' (fst a) = Some (snd a).
Proof. intros I. apply nth_error_In in I. destruct a. apply In_dget; auto. apply wf_convs, W'. Qed.
Lemma hol_fresh j b : nth_error (st_converters s) j = None -> nth_error (st_converters s') j = Some b -> conv_at s (fst b) = None.
Proof.
  intros I J. apply (grows_new (fun _ _ => True) _ (st_converters s') j b); auto. { apply wf_convs, W'. }
  destruct AN as [_ _ (more & -> & _)]. exists (st_converters s), more. split; auto. clear. induction (st_converters s); constructor; auto.
Qed.

(** Equal on what both have, nothing on what is new. *)
Record agrees (x y : var -> Q) : Prop := {
  ag_cons : forall t net nd n n' i, t < h -> node_at s net nd = Some n -> node_at s' net nd = Some n' ->
    (forall c, nth_error (n_cons n) i = Some c -> (y (VLol net nd i t) == x (VLol net nd i t))%Q) /\
    (forall c, nth_error (n_cons n) i = None -> nth_error (n_cons n') i = Some c -> (y (VLol net nd i t) == 0)%Q);
  ag_prods : forall t net nd n n' i, t < h -> node_at s net nd = Some n -> node_at s' net nd = Some n' ->
    (forall c, nth_error (n_prods n) i = Some c -> (y (VProd net nd i t) == x (VProd net nd i t))%Q) /\
    (forall c, nth_error (n_prods n) i = None -> nth_error (n_prods n') i = Some c -> (y (VProd net nd i t) == 0)%Q);
  ag_stors : forall t net nd n n' i, t < h -> node_at s net nd = Some n -> node_at s' net nd = Some n' ->
    (forall c, nth_error (n_stors n) i = Some c -> (y (VCap net nd i t) == x (VCap net nd i t))%Q /\ (y (VIn net nd i t) == x (VIn net nd i t))%Q /\ (y (VOut net nd i t) == x (VOut net nd i t))%Q) /\
    (forall c, nth_error (n_stors n) i = None -> nth_error (n_stors n') i = Some c -> (y (VCap net nd i t) == 0)%Q /\ (y (VIn net nd i t) == 0)%Q /\ (y (VOut net nd i t) == 0)%Q);
  ag_links : forall t net nd n n' i, t < h -> node_at s net nd = Some n -> node_at s' net nd = Some n' ->
    (forall c, nth_error (n_links n) i = Some c -> (y (VLink net nd i t) == x (VLink net nd i t))%Q) /\
    (forall c, nth_error (n_links n) i = None -> nth_error (n_links n') i = Some c -> (y (VLink net nd i t) == 0)%Q);
  ag_convs : forall t name, t < h ->
    (forall v, conv_at s name = Some v -> (y (VDest name t) == x (VDest name t))%Q /\ forall k, (y (vsrc name t k) == x (vsrc name t k))%Q) /\
    (forall v, conv_at s name = None -> conv_at s' name = Some v -> (y (VDest name t) == 0)%Q /\ forall k q, In (k, q) (v_src v) -> (y (vsrc name t k) == 0)%Q)
}.

Section Agree.
Variables (x y : var -> Q).
Hypothesis AG : agrees x y.
Variables (t : nat).
Hypothesis T : t < h.

Lemma hol_into net nd1 nd n n' : node_at s net nd1 = Some n -> node_at s' net nd1 = Some n' -> node_adds h scn n n' ->
  (sumi (fun i l => if String.eqb (l_dest l) nd then y (VLink net nd1 i t) else 0%Q) (n_links n') ==
   sumi (fun i l => if String.eqb (l_dest l) nd then x (VLink net nd1 i t) else 0%Q) (n_links n))%Q.
Proof.
  intros N N' [_ _ _ L]. apply (adds_sum _ _ _ _ _ L).
  - intros j a I _. destruct (String.eqb _ _); [| reflexivity]. exact (proj1 (ag_links _ _ AG t net nd1 n n' j T N N') a I).
  - intros j b I J _. destruct (String.eqb _ _); [| reflexivity]. exact (proj2 (ag_links _ _ AG t net nd1 n n' j T N N') b I J).
Qed.
Lemma hol_xnode net nd n n' : node_at s net nd = Some n -> node_at s' net nd = Some n' -> node_adds h scn n n' -> (xnode y t net nd n' == xnode x t net nd n)%Q.
Proof.
  intros N N' [C P S L]. unfold xnode.
  rewrite (adds_sum _ (fun i _ => x (VLol net nd i t)) _ _ _ C).
  2: { intros j a I _. exact (proj1 (ag_cons _ _ AG t net nd n n' j T N N') a I). } 2: { intros j b I J _. exact (proj2 (ag_cons _ _ AG t net nd n n' j T N N') b I J). }
  rewrite (adds_sum _ (fun i _ => x (VProd net nd i t)) _ _ _ P).
  2: { intros j a I _. exact (proj1 (ag_prods _ _ AG t net nd n n' j T N N') a I). } 2: { intros j b I J _. exact (proj2 (ag_prods _ _ AG t net nd n n' j T N N') b I J). }
  rewrite (adds_sum _ (fun i _ => - x (VIn net nd i t) + x (VOut net nd i t))%Q _ _ _ S).
  2: { intros j a I _. destruct (proj1 (ag_stors _ _ AG t net nd n n' j T N N') a I) as (_ & E1 & E2). rewrite E1, E2. reflexivity. }
  2: { intros j b I J _. destruct (proj2 (ag_stors _ _ AG t net nd n n' j T N N') b I J) as (_ & E1 & E2). rewrite E1, E2. reflexivity. }
  rewrite (adds_sum _ (fun i _ => x (VLink net nd i t)) _ _ _ L).
  2: { intros j a I _. exact (proj1 (ag_links _ _ AG t net nd n n' j T N N') a I). } 2: { intros j b I J _. exact (proj2 (ag_links _ _ AG t net nd n n' j T N N') b I J). }
  reflexivity.
Qed.
Lemma hol_convs net nd :
  (qsum (map (fun kv => xconv y t net nd (fst kv) (snd kv)) (st_converters s')) == qsum (map (fun kv => xconv x t net nd (fst kv) (snd kv)) (st_converters s)))%Q.
Proof.
  rewrite <- !(sumi_map (fun kv => xconv _ t net nd (fst kv) (snd kv))). apply (adds_sum _ _ _ _ _ (an_convs _ _ _ AN)).
  - intros j a I J. destruct (proj1 (ag_convs _ _ AG t (fst a) T) _ (hol_entry _ _ I)) as (E1 & E2). unfold xconv. apply Qplus_comp.
    + destruct (_ && _); [exact E1 | reflexivity].
    + apply Qopp_comp. apply qsum_map_ext. intros kr _. destruct (pair_eqb _ _); [apply E2 | reflexivity].
  - intros j b I J _. destruct (proj2 (ag_convs _ _ AG t (fst b) T) _ (hol_fresh _ _ I J) (hol_entry' _ _ J)) as (E1 & E2). unfold xconv.
    rewrite (qsum_map_zero _ (v_src (snd b))) by (intros [k q] K; cbn [fst]; destruct (pair_eqb k (net, nd)); [exact (E2 k q K) | reflexivity]).
    destruct (_ && _); lra.
Qed.
Lemma hol_nodes_in net : Forall2 (fun c d => fst d = fst c /\ node_at s net (fst c) = Some (snd c) /\ node_at s' net (fst c) = Some (snd d) /\ node_adds h scn (snd c) (snd d))
  (nodes_in s net) (nodes_in s' net).
Proof.
  pose (R := fun (_ : string) (ns ns' : network) => Forall2 (fun c d : string * node => fst d = fst c /\ node_adds h scn (snd c) (snd d)) ns ns').
  pose proof (Forall2_dget R (st_networks s) (st_networks s') net (an_networks _ _ _ AN)) as D. unfold R in D. unfold nodes_in.
  destruct (dget net (st_networks s)) as [ns|] eqn:N, (dget net (st_networks s')) as [ns'|] eqn:N'; try contradiction; [| constructor].
  apply Forall2_nth in D. destruct D as [L D]. apply Forall2_nth. split; auto. intros i c d I J. destruct (D i c d I J) as [EK NO].
  split; auto. apply nth_error_In in I. apply nth_error_In in J. destruct c as [nd n], d as [nd' n']. cbn [fst snd] in *. subst nd'. split; [| split; auto].
  - unfold node_at. rewrite N. apply In_dget; auto. exact (wf_nodes _ W _ _ N).
  - unfold node_at. rewrite N'. apply In_dget; auto. exact (wf_nodes _ W' _ _ N').
Qed.
Lemma hol_import net nd : (ximport s' y t net nd == ximport s x t net nd)%Q.
Proof.
  unfold ximport. pose proof (hol_nodes_in net) as F. induction F as [|c d m m' (EK & N & N' & NO) F IH]; [reflexivity |]. cbn [map qsum fold_right].
  apply Qplus_comp; [| exact IH]. rewrite EK. now apply hol_into.
Qed.
Lemma hol_needs n n' : node_adds h scn n n' -> (qsum (map (fun c => value (c_qty c) scn t) (n_cons n')) == qsum (map (fun c => value (c_qty c) scn t) (n_cons n)))%Q.
Proof.
  intros [C _ _ _]. rewrite <- !(sumi_map (fun c => value (c_qty c) scn t)). apply (adds_sum _ _ _ _ _ C); [reflexivity |]. intros j b _ _ Z. exact (Z t T).
Qed.
Lemma hol_balance net nd n n' : node_at s net nd = Some n -> node_at s' net nd = Some n' -> node_adds h scn n n' ->
  xbalance s' scn y t net nd n' <-> xbalance s scn x t net nd n.
Proof. intros N N' NO. unfold xbalance, xself. rewrite (hol_xnode _ _ _ _ N N' NO), hol_convs, hol_import, (hol_into _ _ _ _ _ N N' NO), (hol_needs _ _ NO). reflexivity. Qed.
Lemma hol_ncost net nd n n' : node_at s net nd = Some n -> node_at s' net nd = Some n' -> node_adds h scn n n' -> (ncost scn y t net nd n' == ncost scn x t net nd n)%Q.
Proof.
  intros N N' [C P S L]. unfold ncost. repeat apply Qplus_comp.
  - apply (adds_sum _ _ _ _ _ C).
    + intros j a I _. rewrite (proj1 (ag_cons _ _ AG t net nd n n' j T N N') a I). reflexivity.
    + intros j b I J _. rewrite (proj2 (ag_cons _ _ AG t net nd n n' j T N N') b I J). lra.
  - apply (adds_sum _ _ _ _ _ P).
    + intros j a I _. rewrite (proj1 (ag_prods _ _ AG t net nd n n' j T N N') a I). reflexivity.
    + intros j b I J _. rewrite (proj2 (ag_prods _ _ AG t net nd n n' j T N N') b I J). lra.
  - apply (adds_sum _ _ _ _ _ S).
    + intros j a I _. rewrite (proj1 (proj1 (ag_stors _ _ AG t net nd n n' j T N N') a I)). reflexivity.
    + intros j b I J _. rewrite (proj1 (proj2 (ag_stors _ _ AG t net nd n n' j T N N') b I J)). lra.
  - apply (adds_sum _ _ _ _ _ L).
    + intros j a I _. rewrite (proj1 (ag_links _ _ AG t net nd n n' j T N N') a I). reflexivity.
    + intros j b I J _. rewrite (proj2 (ag_links _ _ AG t net nd n n' j T N N') b I J). lra.
Qed.
End Agree.

Lemma hol_cost x y : agrees x y -> (xcost s' scn y == xcost s scn x)%Q.
Proof.
  intros AG. unfold xcost. rewrite (an_horizon _ _ _ AN). apply qsum_map_ext. intros t T. apply in_seq in T. assert (L : t < h) by lia. apply Qplus_comp.
  - pose proof (an_networks _ _ _ AN) as F. assert (K : forall net ns, In (net, ns) (st_networks s) -> dget net (st_networks s) = Some ns) by (intros; apply In_dget; auto; apply wf_networks, W).
    assert (K' : forall net ns, In (net, ns) (st_networks s') -> dget net (st_networks s') = Some ns) by (intros; apply In_dget; auto; apply wf_networks, W').
    assert (G : forall net ns ns', dget net (st_networks s) = Some ns -> dget net (st_networks s') = Some ns' -> Forall2 (fun c d : string * node => fst d = fst c /\ node_adds h scn (snd c) (snd d)) ns ns' ->
      (qsum (map (fun kd => ncost scn y t net (fst kd) (snd kd)) ns') == qsum (map (fun kd => ncost scn x t net (fst kd) (snd kd)) ns))%Q).
    { intros net ns ns' D D' FN. pose proof (wf_nodes _ W _ _ D) as ND. pose proof (wf_nodes _ W' _ _ D') as ND'.
      assert (H : forall nd n, In (nd, n) ns -> node_at s net nd = Some n) by (intros; unfold node_at; rewrite D; now apply In_dget).
      assert (H' : forall nd n, In (nd, n) ns' -> node_at s' net nd = Some n) by (intros; unfold node_at; rewrite D'; now apply In_dget).
      clear D D' ND ND'. induction FN as [|[nd n] [nd' n'] l l' [E NA] FN IH]; [reflexivity |]. cbn [fst snd] in *. subst nd'. cbn [map qsum fold_right fst snd]. apply Qplus_comp.
      - apply hol_ncost; auto; [apply H; now left | apply H'; now left].
      - apply IH; intros; [apply H; now right | apply H'; now right]. }
    assert (G2 : forall net ns ns', In (net, ns) (st_networks s) -> In (net, ns') (st_networks s') -> Forall2 (fun c d : string * node => fst d = fst c /\ node_adds h scn (snd c) (snd d)) ns ns' ->
      (qsum (map (fun kd => ncost scn y t net (fst kd) (snd kd)) ns') == qsum (map (fun kd => ncost scn x t net (fst kd) (snd kd)) ns))%Q) by (intros; apply G; auto).
    clear G K K'. revert G2 F. generalize (st_networks s) (st_networks s'). intros m m' G2 F.
    induction F as [|[net ns] [net' ns'] l l' [E FN] F IH]; [reflexivity |]. cbn [fst snd] in *. subst net'. cbn [map qsum fold_right fst snd]. apply Qplus_comp.
    + apply G2; auto; now left.
    + apply IH. intros; apply G2; auto; now right.
  - rewrite <- !(sumi_map (fun kv => (ovalue (v_cost (snd kv)) scn t * _ (VDest (fst kv) t))%Q)). apply (adds_sum _ _ _ _ _ (an_convs _ _ _ AN)).
    + intros j a I _. rewrite (proj1 (proj1 (ag_convs _ _ AG t (fst a) L) _ (hol_entry _ _ I))). reflexivity.
    + intros j b I J _. rewrite (proj1 (proj2 (ag_convs _ _ AG t (fst b) L) _ (hol_fresh _ _ I J) (hol_entry' _ _ J))). lra.
Qed.

(** ** Leaving the new elements out *)
Lemma out_agrees y : xok s' scn y -> agrees y y.
Proof.
  intros [[YC YP YS YL YR YD] _ _ _]. rewrite (an_horizon _ _ _ AN) in *. unfold within in *. constructor.
  - intros t net nd n n' i T N N'. split; [reflexivity |]. intros c I J. destruct (hol_up _ _ _ N') as (m & M & NA). assert (m = n) by congruence. subst m.
    pose proof (adds_new _ _ _ _ _ (na_cons _ _ _ _ NA) I J t T) as Z. specialize (YC t net nd n' i c T N' J). lra.
  - intros t net nd n n' i T N N'. split; [reflexivity |]. intros c I J. destruct (hol_up _ _ _ N') as (m & M & NA). assert (m = n) by congruence. subst m.
    pose proof (adds_new _ _ _ _ _ (na_prods _ _ _ _ NA) I J t T) as Z. specialize (YP t net nd n' i c T N' J). lra.
  - intros t net nd n n' i T N N'. split; [repeat split; reflexivity |]. intros c I J. destruct (hol_up _ _ _ N') as (m & M & NA). assert (m = n) by congruence. subst m.
    destruct (adds_new _ _ _ _ _ (na_stors _ _ _ _ NA) I J) as (Z1 & Z2 & Z3 & _). specialize (Z1 t T). specialize (Z2 t T). specialize (Z3 t T). specialize (YS t net nd n' i c T N' J). lra.
  - intros t net nd n n' i T N N'. split; [reflexivity |]. intros c I J. destruct (hol_up _ _ _ N') as (m & M & NA). assert (m = n) by congruence. subst m.
    pose proof (adds_new _ _ _ _ _ (na_links _ _ _ _ NA) I J t T) as Z. specialize (YL t net nd n' i c T N' J). lra.
  - intros t name T. split; [split; reflexivity |]. intros v V V'. pose proof (hol_conv_new _ _ V V' t T) as Z. split; [specialize (YD t name v T V'); lra |].
    intros k q I. specialize (YR t name v k q T V' I). unfold Qdiv in YR. rewrite Z in YR. lra.
Qed.
Lemma out_ok y : xok s' scn y -> xok s scn y.
Proof.
  intros Y. pose proof (out_agrees y Y) as AG. destruct Y as [[YC YP YS YL YR YD] YB YT YM]. rewrite (an_horizon _ _ _ AN) in *. constructor.
  - constructor.
    + intros t net nd n i c T N I. destruct (hol_down _ _ _ N) as (n' & N' & NA). exact (YC t net nd n' i c T N' (adds_old _ _ _ _ _ (na_cons _ _ _ _ NA) I)).
    + intros t net nd n i c T N I. destruct (hol_down _ _ _ N) as (n' & N' & NA). exact (YP t net nd n' i c T N' (adds_old _ _ _ _ _ (na_prods _ _ _ _ NA) I)).
    + intros t net nd n i c T N I. destruct (hol_down _ _ _ N) as (n' & N' & NA). exact (YS t net nd n' i c T N' (adds_old _ _ _ _ _ (na_stors _ _ _ _ NA) I)).
    + intros t net nd n i c T N I. destruct (hol_down _ _ _ N) as (n' & N' & NA). exact (YL t net nd n' i c T N' (adds_old _ _ _ _ _ (na_links _ _ _ _ NA) I)).
    + intros t name v k q T V I. exact (YR t name v k q T (hol_conv _ _ V) I).
    + intros t name v T V. exact (YD t name v T (hol_conv _ _ V)).
  - intros t net nd n T N. destruct (hol_down _ _ _ N) as (n' & N' & NA). exact (proj1 (hol_balance y y AG t T _ _ _ _ N N' NA) (YB t net nd n' T N')).
  - intros t net nd n T N. destruct (hol_down _ _ _ N) as (n' & N' & NA). specialize (YT t net nd n' T N'). unfold xstorage in *. destruct (na_stors _ _ _ _ NA) as (more & E & _).
    destruct (n_stors n) as [|a l]; auto. rewrite E in YT. exact YT.
  - intros t name v T V. exact (YM t name v T (hol_conv _ _ V)).
Qed.

(** ** Nothing on the new elements *)
Definition fill (x : var -> Q) (v : var) : Q :=
  let at_node net nd {A} (f : node -> list A) i := match node_at s net nd with Some n => match nth_error (f n) i with Some _ => x v | None => 0%Q end | None => 0%Q end in
  match v with
  | VLol net nd i _ => at_node net nd n_cons i
  | VProd net nd i _ => at_node net nd n_prods i
  | VCap net nd i _ | VIn net nd i _ | VOut net nd i _ => at_node net nd n_stors i
  | VLink net nd i _ => at_node net nd n_links i
  | VSrc name _ _ _ | VDest name _ => match conv_at s name with Some _ => x v | None => 0%Q end
  end.
Lemma fill_agrees x : agrees x (fill x).
Proof.
  constructor.
  - intros t net nd n n' i T N N'. cbn [fill]. rewrite N. split; [intros c I | intros c I _]; rewrite I; reflexivity.
  - intros t net nd n n' i T N N'. cbn [fill]. rewrite N. split; [intros c I | intros c I _]; rewrite I; reflexivity.
  - intros t net nd n n' i T N N'. cbn [fill]. rewrite N. split; [intros c I | intros c I _]; rewrite I; repeat split; reflexivity.
  - intros t net nd n n' i T N N'. cbn [fill]. rewrite N. split; [intros c I | intros c I _]; rewrite I; reflexivity.
  - intros t name T. unfold vsrc. cbn [fill]. split; [intros v V | intros v V _]; rewrite V; split; reflexivity.
Qed.
Lemma fill_ok x : xok s scn x -> xok s' scn (fill x).
Proof.
  intros X. pose proof (fill_agrees x) as AG. destruct X as [[XC XP XS XL XR XD] XB XT XM]. constructor; rewrite ?(an_horizon _ _ _ AN).
  - constructor; rewrite ?(an_horizon _ _ _ AN); unfold within in *.
    + intros t net nd n' i c T N' J. destruct (hol_up _ _ _ N') as (n & N & NA). destruct (ag_cons _ _ AG t net nd n n' i T N N') as (Old & New).
      destruct (nth_error (n_cons n) i) as [a|] eqn:I.
      * pose proof (adds_old _ _ _ _ _ (na_cons _ _ _ _ NA) I) as J2. assert (a = c) by congruence. subst a. rewrite (Old c eq_refl). auto. exact (XC t net nd n i c T N I).
      * rewrite (New c eq_refl J). pose proof (adds_new _ _ _ _ _ (na_cons _ _ _ _ NA) I J t T) as Z. lra.
    + intros t net nd n' i c T N' J. destruct (hol_up _ _ _ N') as (n & N & NA). destruct (ag_prods _ _ AG t net nd n n' i T N N') as (Old & New).
      destruct (nth_error (n_prods n) i) as [a|] eqn:I.
      * pose proof (adds_old _ _ _ _ _ (na_prods _ _ _ _ NA) I) as J2. assert (a = c) by congruence. subst a. rewrite (Old c eq_refl). exact (XP t net nd n i c T N I).
      * rewrite (New c eq_refl J). pose proof (adds_new _ _ _ _ _ (na_prods _ _ _ _ NA) I J t T) as Z. lra.
    + intros t net nd n' i c T N' J. destruct (hol_up _ _ _ N') as (n & N & NA). destruct (ag_stors _ _ AG t net nd n n' i T N N') as (Old & New).
      destruct (nth_error (n_stors n) i) as [a|] eqn:I.
      * pose proof (adds_old _ _ _ _ _ (na_stors _ _ _ _ NA) I) as J2. assert (a = c) by congruence. subst a. destruct (Old c eq_refl) as (E1 & E2 & E3). rewrite E1, E2, E3. exact (XS t net nd n i c T N I).
      * destruct (New c eq_refl J) as (E1 & E2 & E3). rewrite E1, E2, E3. destruct (adds_new _ _ _ _ _ (na_stors _ _ _ _ NA) I J) as (Z1 & Z2 & Z3 & _).
        specialize (Z1 t T). specialize (Z2 t T). specialize (Z3 t T). lra.
    + intros t net nd n' i c T N' J. destruct (hol_up _ _ _ N') as (n & N & NA). destruct (ag_links _ _ AG t net nd n n' i T N N') as (Old & New).
      destruct (nth_error (n_links n) i) as [a|] eqn:I.
      * pose proof (adds_old _ _ _ _ _ (na_links _ _ _ _ NA) I) as J2. assert (a = c) by congruence. subst a. rewrite (Old c eq_refl). exact (XL t net nd n i c T N I).
      * rewrite (New c eq_refl J). pose proof (adds_new _ _ _ _ _ (na_links _ _ _ _ NA) I J t T) as Z. lra.
    + intros t name v k q T V' I. destruct (ag_convs _ _ AG t name T) as (Old & New). destruct (conv_at s name) as [u|] eqn:V.
      * pose proof (hol_conv _ _ V) as V2. assert (u = v) by congruence. subst u. rewrite (proj2 (Old v eq_refl) k). exact (XR t name v k q T V I).
      * rewrite (proj2 (New v eq_refl V') k q I). pose proof (hol_conv_new _ _ V V' t T) as Z. unfold Qdiv. rewrite Z. lra.
    + intros t name v T V'. destruct (ag_convs _ _ AG t name T) as (Old & New). destruct (conv_at s name) as [u|] eqn:V.
      * pose proof (hol_conv _ _ V) as V2. assert (u = v) by congruence. subst u. rewrite (proj1 (Old v eq_refl)). exact (XD t name v T V).
      * rewrite (proj1 (New v eq_refl V')). pose proof (hol_conv_new _ _ V V' t T) as Z. lra.
  - intros t net nd n' T N'. destruct (hol_up _ _ _ N') as (n & N & NA). exact (proj2 (hol_balance x _ AG t T _ _ _ _ N N' NA) (XB t net nd n T N)).
  - intros t net nd n' T N'. destruct (hol_up _ _ _ N') as (n & N & NA). specialize (XT t net nd n T N). unfold xstorage in *.
    destruct (n_stors n') as [|b l'] eqn:EL; auto. pose proof (ag_stors _ _ AG t net nd n n' 0 T N N') as (Old & New). rewrite EL in New.
    assert (Prev : forall t', t = Datatypes.S t' -> t' < h) by (intros; lia). destruct (na_stors _ _ _ _ NA) as (more & E & F). rewrite EL in E.
    destruct (n_stors n) as [|a l] eqn:EN.
    + cbn [app] in E. subst more. inversion F as [|? ? Hb _]. subst. destruct (New b eq_refl eq_refl) as (E1 & E2 & E3). rewrite E1, E2, E3. destruct Hb as (_ & _ & _ & Z).
      destruct t as [|t]; [lra |]. pose proof (ag_stors _ _ AG t net nd n n' 0 (Prev t eq_refl) N N') as (_ & New2). rewrite EN, EL in New2. rewrite (proj1 (New2 b eq_refl eq_refl)). lra.
    + cbn [app] in E. injection E as -> _. destruct (Old a eq_refl) as (E1 & E2 & E3). rewrite E1, E2, E3.
      destruct t as [|t]; [exact XT |]. pose proof (ag_stors _ _ AG t net nd n n' 0 (Prev t eq_refl) N N') as (Old2 & _). rewrite EN in Old2. rewrite (proj1 (Old2 a eq_refl)). exact XT.
  - intros t name v T V' k q I. destruct (ag_convs _ _ AG t name T) as (Old & New). destruct (conv_at s name) as [u|] eqn:V.
    + pose proof (hol_conv _ _ V) as V2. assert (u = v) by congruence. subst u. destruct (Old v eq_refl) as (E1 & E2). rewrite E1, E2. exact (XM t name v T V k q I).
    + destruct (New v eq_refl V') as (E1 & E2). rewrite E1, (E2 k q I). lra.
Qed.
End Hollow.

(** ** C102 *)
(** The dispatches of the larger study are those of the smaller one, with the same costs. *)
Theorem C102_same_dispatches : forall s s' scn, api_study s -> api_study s' -> usable_converters s -> usable_converters s' ->
  scn < st_nb_scn s -> scn < st_nb_scn s' -> adds_nothing s s' scn -> forall cost,
  (exists r, mirrors s r /\ law_ok s r scn /\ (total_cost s r scn == cost)%Q) <->
  (exists r', mirrors s' r' /\ law_ok s' r' scn /\ (total_cost s' r' scn == cost)%Q).
Proof.
  intros s s' scn A A' U U' S S' AN cost. pose proof (api_ready s A U) as R. pose proof (api_ready s' A' U') as R'. destruct (api_facts s A) as (W & _). destruct (api_facts s' A') as (W' & _).
  destruct (build_ok s scn S R) as (p & B & _). destruct (build_ok s' scn S' R') as (p' & B' & _).
  destruct (C15_program_exact s scn A U S) as (_ & DX & XD & D). destruct (C15_program_exact s' scn A' U' S') as (_ & DX' & XD' & D').
  unfold program_of in D, D'. rewrite B in D. rewrite B' in D'. split.
  - intros (r & M & L & C). destruct (DX r M) as (x & CA). destruct (D r x M CA) as [DF DO]. apply DF, (sat_iff s scn S R _ _ _ B) in L.
    pose proof (fill_ok _ _ _ AN W W' _ L) as X. pose proof (hol_cost _ _ _ AN W W' _ _ (fill_agrees s s' x)) as E. destruct (XD' (fill s x)) as (r' & M' & CA'). destruct (D' r' _ M' CA') as [DF' DO'].
    exists r'. split; auto. split; [now apply DF', (sat_iff s' scn S' R' _ _ _ B') |]. rewrite <- DO', <- C, <- DO.
    rewrite (objective_value s scn S R _ _ _ B), (objective_value s' scn S' R' _ _ _ B'). exact E.
  - intros (r' & M' & L' & C'). destruct (DX' r' M') as (x & CA'). destruct (D' r' x M' CA') as [DF' DO']. apply DF', (sat_iff s' scn S' R' _ _ _ B') in L'.
    pose proof (out_ok _ _ _ AN W W' _ L') as X. pose proof (hol_cost _ _ _ AN W W' _ _ (out_agrees _ _ _ AN _ L')) as E. destruct (XD x) as (r & M & CA). destruct (D r x M CA) as [DF DO].
    exists r. split; auto. split; [now apply DF, (sat_iff s scn S R _ _ _ B) |]. rewrite <- DO, <- C', <- DO'.
    rewrite (objective_value s scn S R _ _ _ B), (objective_value s' scn S' R' _ _ _ B'). symmetry. exact E.
Qed.

(** Solved by an optimal solver, both cost the same. *)
Theorem C102_same_optimum : forall answer answer' s s' r r' scn, api_study s -> api_study s' ->
  adds_nothing s s' scn -> scn < st_nb_scn s -> scn < st_nb_scn s' ->
  solved answer s r -> solved answer' s' r' -> optimal_answer answer s scn -> optimal_answer answer' s' scn ->
  (total_cost s r scn == total_cost s' r' scn)%Q.
Proof.
  intros answer answer' s s' r r' scn A A' AN S S' SV SV' [F Best] [F' Best']. destruct (api_facts s A) as (W & _). destruct (api_facts s' A') as (W' & _).
  destruct (solved_weak _ _ _ A SV) as (R & M & C). destruct (C scn S) as ((vs & B) & CA & _).
  destruct (solved_weak _ _ _ A' SV') as (R' & M' & C'). destruct (C' scn S') as ((vs' & B') & CA' & _).
  rewrite (cost_eq s r R M scn _ CA), (cost_eq s' r' R' M' scn _ CA').
  apply (sat_iff s scn S R _ vs _ B) in F. apply (sat_iff s' scn S' R' _ vs' _ B') in F'. apply Qle_antisym.
  - rewrite (hol_cost _ _ _ AN W W' _ _ (out_agrees _ _ _ AN _ F')). pose proof (out_ok _ _ _ AN W W' _ F') as X.
    apply (sat_iff s scn S R _ vs _ B) in X. specialize (Best _ X). rewrite !(objective_value s scn S R _ vs _ B) in Best. exact Best.
  - pose proof (fill_ok _ _ _ AN W W' _ F) as X. rewrite <- (hol_cost _ _ _ AN W W' _ _ (fill_agrees s s' _)).
    apply (sat_iff s' scn S' R' _ vs' _ B') in X. specialize (Best' _ X). rewrite !(objective_value s' scn S' R' _ vs' _ B') in Best'. exact Best'.
Qed.

(** ** A town with wind, then with elements of nothing of each kind *)
Definition lean_calls : list call :=
  [ OnStudy_network "net"; OnSel 0 (MNode "a"); OnSel 1 (MConsumption "town" (jn 100) (jn 10)); OnSel 2 (MProduction "plant" (jn 10) (jn 2));
    OnSel 3 (MNode "b"); OnSel 4 (MProduction "wind" (jn 1) (jn 7)); OnSel 5 (MLink "b" "a" (jn 2) (jn 8)) ].
Definition padded_calls : list call := lean_calls ++
  [ OnSel 6 (MLink "a" "b" (jn 3) (jn 0)); OnSel 7 (MNode "b"); OnSel 8 (MConsumption "ruin" (jn 9) (jn 0)); OnSel 9 (MProduction "mill" (jn 5) (jn 0));
    OnSel 10 (MStorage "hole" (jn 0) (jn 0) (jn 0) (jn 4) 0 (jn 1)); OnSel 11 (MToConverter "cv" (jn 2)); OnSel 12 (MConverter "cv" "net" "a" (jn 0) (jn 6)) ].
Definition lean : study := Eval vm_compute in w_study (run (start 1 1 None) lean_calls).
Definition padded : study := Eval vm_compute in w_study (run (start 1 1 None) padded_calls).
Lemma lean_api : api_study lean.
Proof. exists 1, 1, None, lean_calls. split; [lia|]. split; [lia|]. split; [plain_tac | vm_compute; reflexivity]. Qed.
Lemma padded_api : api_study padded.
Proof. exists 1, 1, None, padded_calls. split; [lia|]. split; [lia|]. split; [plain_tac | vm_compute; reflexivity]. Qed.
Ltac adds_tac := eexists; split; [reflexivity |];
  repeat (constructor; [repeat split; try (let t := fresh "t" in let T := fresh "T" in intros t T; replace t with 0 by (cbn in T; lia)); vm_compute; reflexivity |]); constructor.
Lemma lean_padded : adds_nothing lean padded 0.
Proof.
  constructor; [reflexivity | |].
  - unfold lean, padded, st_networks, st_horizon. constructor; [| constructor]. split; [reflexivity |].
    constructor; [| constructor; [| constructor]]; (split; [reflexivity |]); constructor; cbn [snd n_cons n_prods n_stors n_links].
    + exists []. split; [reflexivity | constructor].
    + exists []. split; [reflexivity | constructor].
    + exists []. split; [reflexivity | constructor].
    + adds_tac.
    + adds_tac.
    + adds_tac.
    + adds_tac.
    + exists []. split; [reflexivity | constructor].
  - unfold lean, padded, st_converters, st_horizon. adds_tac.
Qed.
Definition lean_x (v : var) : Q := match v with VLol _ "a" 0 _ => 1 | VProd _ "a" 0 _ => 2 | VProd _ "b" 0 _ => 7 | VLink _ "b" 0 _ => 7 | _ => 0 end%Q.
Definition lean_answer (_ : nat) (_ : solver) : var -> Q := lean_x.
Lemma lean_optimal : optimal_answer lean_answer lean 0. Proof. best_tac (program_of lean 0). Qed.
Lemma padded_optimal : optimal_answer lean_answer padded 0. Proof. best_tac (program_of padded 0). Qed.
Definition lean_result : result := Eval vm_compute in
  match solve_lp lean_answer [0] no_bench lean with Ok r => r | Err _ => Result [] [] no_bench end.
Definition padded_result : result := Eval vm_compute in
  match solve_lp lean_answer [0] no_bench padded with Ok r => r | Err _ => Result [] [] no_bench end.
Example C102_example : api_study lean /\ api_study padded /\ usable_converters lean /\ usable_converters padded /\ adds_nothing lean padded 0 /\
  solved lean_answer lean lean_result /\ solved lean_answer padded padded_result /\ optimal_answer lean_answer lean 0 /\ optimal_answer lean_answer padded 0 /\
  (total_cost lean lean_result 0 == 141)%Q /\ (total_cost padded padded_result 0 == 141)%Q.
Proof.
  split; [apply lean_api |]. split; [apply padded_api |]. split; [apply usableb_ok; vm_compute; reflexivity |]. split; [apply usableb_ok; vm_compute; reflexivity |].
  split; [apply lean_padded |]. split. { exists [0], no_bench. split; [reflexivity | vm_compute; reflexivity]. }
  split. { exists [0], no_bench. split; [reflexivity | vm_compute; reflexivity]. }
  split; [apply lean_optimal |]. split; [apply padded_optimal |]. split; vm_compute; reflexivity.
Qed.

(** A storage that can hold nothing, holds nothing and takes nothing, but might give, is not
    nothing: declared after another in its node, it gives energy out of nowhere. *)
Definition cell_calls : list call :=
  [ OnStudy_network "net"; OnSel 0 (MNode "a"); OnSel 1 (MConsumption "town" (jn 100) (jn 10)); OnSel 2 (MStorage "tank" (jn 5) (jn 1) (jn 1) (jn 0) 0 (jn 1)) ].
Definition spring_calls : list call := cell_calls ++ [ OnSel 3 (MStorage "spring" (jn 0) (jn 0) (jn 10) (jn 0) 0 (jn 1)) ].
Definition lone : study := Eval vm_compute in w_study (run (start 1 1 None) cell_calls).
Definition spring : study := Eval vm_compute in w_study (run (start 1 1 None) spring_calls).
Lemma lone_api : api_study lone.
Proof. exists 1, 1, None, cell_calls. split; [lia|]. split; [lia|]. split; [plain_tac | vm_compute; reflexivity]. Qed.
Lemma spring_api : api_study spring.
Proof. exists 1, 1, None, spring_calls. split; [lia|]. split; [lia|]. split; [plain_tac | vm_compute; reflexivity]. Qed.
Definition lone_answer (_ : nat) (_ : solver) (v : var) : Q := match v with VLol _ _ _ _ => 10 | _ => 0 end%Q.
Definition spring_answer (_ : nat) (_ : solver) (v : var) : Q := match v with VOut _ _ 1 _ => 10 | _ => 0 end%Q.
Lemma lone_optimal : optimal_answer lone_answer lone 0. Proof. best_tac (program_of lone 0). Qed.
Lemma spring_optimal : optimal_answer spring_answer spring 0. Proof. best_tac (program_of spring 0). Qed.
Definition lone_result : result := Eval vm_compute in
  match solve_lp lone_answer [0] no_bench lone with Ok r => r | Err _ => Result [] [] no_bench end.
Definition spring_result : result := Eval vm_compute in
  match solve_lp spring_answer [0] no_bench spring with Ok r => r | Err _ => Result [] [] no_bench end.
Theorem C102_spring_refuted : exists s s' n n' y answer answer' r r', api_study s /\ api_study s' /\
  node_at s "net" "a" = Some n /\ node_at s' "net" "a" = Some n' /\ n_cons n' = n_cons n /\ n_prods n' = n_prods n /\ n_links n' = n_links n /\ n_stors n' = n_stors n ++ [y] /\
  (forall t, t < st_horizon s' -> (value (s_capacity y) 0%nat t == 0)%Q /\ (value (s_flow_in y) 0%nat t == 0)%Q) /\ (s_init y == 0)%Q /\
  solved answer s r /\ solved answer' s' r' /\ optimal_answer answer s 0 /\ optimal_answer answer' s' 0 /\
  (total_cost s r 0 == 1000)%Q /\ (total_cost s' r' 0 == 0)%Q.
Proof.
  exists lone, spring. do 3 eexists. exists lone_answer, spring_answer, lone_result, spring_result. split; [apply lone_api |]. split; [apply spring_api |].
  split; [vm_compute; reflexivity |]. split; [vm_compute; reflexivity |]. split; [reflexivity |]. split; [reflexivity |]. split; [reflexivity |]. split; [cbn [n_stors app]; reflexivity |].
  split. { intros t T. replace t with 0 by (cbn in T; lia). split; vm_compute; reflexivity. } split; [reflexivity |].
  split. { exists [0], no_bench. split; [reflexivity | vm_compute; reflexivity]. }
  split. { exists [0], no_bench. split; [reflexivity | vm_compute; reflexivity]. }
  split; [apply lone_optimal |]. split; [apply spring_optimal |]. split; vm_compute; reflexivity.
Qed.

Print Assumptions C102_same_dispatches.
Print Assumptions C102_same_optimum.
Print Assumptions C102_spring_refuted.
