(** What satisfying the program of [LP.v] means, element by element. *)
From Coq Require Import String List ZArith QArith Bool Arith Lia Lqa.
From Verif Require Import Base BaseFacts Numeric Study Fluent SpecStudy StudyFacts Output LP SpecLP LPFacts LPBuild.
Import ListNotations.
Open Scope nat_scope.

Definition sumi {A} (f : nat -> A -> Q) (l : list A) : Q := qsum (mapi f 0 l).

(** ** Lists without repetition *)
Lemma NoDup_app_disj {A} (a b : list A) :
  NoDup a -> NoDup b -> (forall x, In x a -> ~ In x b) -> NoDup (a ++ b).
Proof.
  induction a as [|x a IH]; simpl; intros NA NB D; auto. inversion NA; subst. constructor.
  - rewrite in_app_iff. intros [I|I]; auto. eapply D; eauto.
  - apply IH; auto.
Qed.

Lemma NoDup_flat_map_by {A C K} (f : A -> list C) (own : C -> K) (key : A -> K) l :
  NoDup (map key l) -> (forall x, In x l -> NoDup (f x)) ->
  (forall x y, In x l -> In y (f x) -> own y = key x) -> NoDup (flat_map f l).
Proof.
  induction l as [|a l IH]; simpl; intros NK NF O; [constructor|].
  inversion NK as [|? ? NI NK']; subst. apply NoDup_app_disj; auto.
  intros y I J. apply in_flat_map in J as (x & J & L). apply NI.
  rewrite <- (O a y), (O x y); auto. apply in_map; auto.
Qed.

Lemma NoDup_mapi {A C} (f : nat -> A -> C) l : forall i,
  (forall j k x y, f j x = f k y -> j = k) -> NoDup (mapi f i l).
Proof.
  induction l as [|a l IH]; simpl; intros i J; constructor; auto.
  intros I. apply In_mapi in I as (j & x & _ & E). apply J in E. lia.
Qed.

Lemma flat_map_mapi {A C D} (g : C -> list D) (f : nat -> A -> C) l : forall i,
  flat_map g (mapi f i l) = concat (mapi (fun i x => g (f i x)) i l).
Proof. induction l; simpl; intros i; auto. f_equal. auto. Qed.

Lemma sumi_map {A} (f : A -> Q) l : sumi (fun _ x => f x) l = qsum (map f l).
Proof. unfold sumi. now rewrite mapi_map. Qed.

Lemma qsum_mapi_ext {A} (f g : nat -> A -> Q) l : forall i,
  (forall j x, nth_error l j = Some x -> (f (i + j)%nat x == g (i + j)%nat x)%Q) ->
  (qsum (mapi f i l) == qsum (mapi g i l))%Q.
Proof.
  induction l as [|a l IH]; simpl; intros i E; [lra|].
  rewrite (IH (S i)).
  - specialize (E 0 a eq_refl). rewrite Nat.add_0_r in E. rewrite E. lra.
  - intros j x F. specialize (E (S j) x F). now rewrite Nat.add_succ_r in E.
Qed.

Lemma sumi_ext {A} (f g : nat -> A -> Q) l :
  (forall j x, nth_error l j = Some x -> (f j x == g j x)%Q) -> (sumi f l == sumi g l)%Q.
Proof. apply (qsum_mapi_ext f g l 0). Qed.

Lemma sumi_zero {A} (f : nat -> A -> Q) l : (forall i x, nth_error l i = Some x -> (f i x == 0)%Q) -> (sumi f l == 0)%Q.
Proof.
  intros H. rewrite (sumi_ext f (fun _ _ => 0%Q)) by auto. rewrite sumi_map. apply qsum_map_zero. reflexivity.
Qed.

Lemma qsum_mapi_add {A} (f g : nat -> A -> Q) l : forall i,
  (qsum (mapi (fun i x => f i x + g i x) i l) == qsum (mapi f i l) + qsum (mapi g i l))%Q.
Proof. induction l; simpl; intros; [lra|]. rewrite IHl. lra. Qed.
Lemma sumi_add {A} (f g : nat -> A -> Q) l : (sumi (fun i x => f i x + g i x) l == sumi f l + sumi g l)%Q.
Proof. apply qsum_mapi_add. Qed.

Lemma qsum_mapi_opp {A} (f : nat -> A -> Q) l : forall i,
  (qsum (mapi (fun i x => - f i x) i l) == - qsum (mapi f i l))%Q.
Proof. induction l; simpl; intros; [lra|]. rewrite IHl. lra. Qed.
Lemma sumi_opp {A} (f : nat -> A -> Q) l : (sumi (fun i x => - f i x) l == - sumi f l)%Q.
Proof. apply qsum_mapi_opp. Qed.

(** ** Sums over the operations recorded for a constraint *)
Definition opval (k : akey) (x : var -> Q) (o : akey * (var * Q)) : Q :=
  if eqb (fst o) k then (snd (snd o) * x (fst (snd o)))%Q else 0%Q.

Lemma lin_sel k x ops : NoDup (map (fun o => (fst o, fst (snd o))) ops) ->
  (lin (dict_of (sel k ops)) x == qsum (map (opval k x) ops))%Q.
Proof.
  intros ND. rewrite dict_of_NoDup.
  - clear ND. unfold sel, lin. induction ops as [|[k' [v c]] ops IH]; simpl; [lra|].
    unfold opval at 1. simpl. change (pair_eqb k' k) with (eqb k' k).
    destruct (eqb k' k); simpl; rewrite IH; lra.
  - unfold sel. rewrite map_map. induction ops as [|[k' [v c]] ops IH]; simpl in *; [constructor|].
    inversion ND; subst. change (pair_eqb k' k) with (eqb k' k). destruct (eqb k' k) eqn:E; auto.
    simpl. constructor; auto. intros I. apply in_map_iff in I as ([k2 [v2 c2]] & EV & I). simpl in EV. subst.
    apply filter_In in I as [I J]. simpl in J. change (pair_eqb k2 k) with (eqb k2 k) in J.
    apply eqb_eq in J, E. subst. apply H1. apply in_map_iff. exists (k, (v, c2)). auto.
Qed.

(** Setting coefficients again: the last value counts. *)
Definition getq (v : var) (d : dict var Q) : Q := match dget v d with Some q => q | None => 0%Q end.

Lemma lin_dset d v c x : (lin (dset v c d) x == lin d x + (c - getq v d) * x v)%Q.
Proof.
  unfold lin, getq. induction d as [|[v' c'] d IH]; cbn [dset dget map qsum fold_right fst snd].
  - lra.
  - destruct (eqb v v') eqn:E; cbn [map qsum fold_right fst snd].
    + apply eqb_eq in E. subst. lra.
    + unfold qsum in IH. rewrite IH. lra.
Qed.

Lemma lin_over b x : forall d, NoDup (map fst b) ->
  (lin (fold_left (fun d kv => dset (fst kv) (snd kv) d) b d) x ==
   lin d x + qsum (map (fun vc => (snd vc - getq (fst vc) d) * x (fst vc)) b))%Q.
Proof.
  induction b as [|[v c] b IH]; intros d ND; [simpl; lra|]. inversion ND as [|? ? NI ND']; subst.
  cbn [fold_left fst snd map]. rewrite IH by auto. rewrite lin_dset. cbn [map qsum fold_right fst snd].
  fold (qsum (map (fun vc => (snd vc - getq (fst vc) d) * x (fst vc)) b)%Q).
  rewrite (qsum_map_ext _ (fun vc => (snd vc - getq (fst vc) d) * x (fst vc))%Q b); [lra|].
  intros [v2 c2] I. cbn [fst snd]. unfold getq. rewrite dget_dset_neq; [reflexivity|].
  intros E. apply NI. subst. apply (in_map fst) in I. auto.
Qed.

Lemma sel_keys k ops : NoDup (map (fun o : akey * (var * Q) => (fst o, fst (snd o))) ops) -> NoDup (map fst (sel k ops)).
Proof.
  intros ND. unfold sel. rewrite map_map. induction ops as [|[k' [v c]] ops IH]; simpl in *; [constructor|].
  inversion ND; subst. change (pair_eqb k' k) with (eqb k' k). destruct (eqb k' k) eqn:E; auto.
  simpl. constructor; auto. intros I. apply in_map_iff in I as ([k2 [v2 c2]] & EV & I). simpl in EV. subst.
  apply filter_In in I as [I J]. simpl in J. change (pair_eqb k2 k) with (eqb k2 k) in J.
  apply eqb_eq in J, E. subst. apply H1. apply in_map_iff. exists (k, (v, c2)). auto.
Qed.

Lemma lin_sel_over k x a b : NoDup (map (fun o => (fst o, fst (snd o))) a) -> NoDup (map (fun o => (fst o, fst (snd o))) b) ->
  (lin (dict_of (sel k (a ++ b))) x == qsum (map (opval k x) a) +
   qsum (map (fun o => if eqb (fst o) k then (snd (snd o) - getq (fst (snd o)) (sel k a)) * x (fst (snd o)) else 0) b))%Q.
Proof.
  intros NA NB. rewrite sel_app. unfold dict_of. rewrite fold_left_app.
  change (fold_left (fun d kv => dset (fst kv) (snd kv) d) (sel k a) []) with (dict_of (sel k a)).
  rewrite lin_over by now apply sel_keys. rewrite (lin_sel k x a NA). apply Qplus_comp; [reflexivity|].
  rewrite dict_of_NoDup by now apply sel_keys. clear NB. unfold sel at 2.
  induction b as [|[k' [v c]] b IH]; [simpl; lra|]. cbn [filter fst]. cbn [map qsum fold_right fst snd].
  destruct (eqb k' k); cbn [map qsum fold_right fst snd]; unfold qsum in IH; rewrite IH; lra.
Qed.

Section Sat.
Variables (s : study) (scn : nat).
Hypothesis Hscn : scn < st_nb_scn s.
Hypothesis Hs : laid s.

(** Concatenation over times, nodes and converters. *)
Definition over {A} (fn : nat -> string -> string -> node -> list A) (fc : nat -> string -> converter -> list A) : list A :=
  flat_map (fun t => flat_map (fun kn => flat_map (fun kd => fn t (fst kn) (fst kd) (snd kd)) (snd kn)) (st_networks s) ++
                     flat_map (fun kv => fc t (fst kv) (snd kv)) (st_converters s)) (seq 0 (st_horizon s)).

Lemma flat_map_map {A C D} (g : C -> list D) (f : A -> C) l : flat_map g (map f l) = flat_map (fun x => g (f x)) l.
Proof. induction l; simpl; congruence. Qed.

Lemma over_proj {A} (P : ghost -> list A) :
  (forall a b, P (gapp a b) = P a ++ P b) -> P gnil = [] ->
  P (steps_inc s scn (st_horizon s)) = over (fun t net nd n => P (node_inc scn t net nd n)) (fun t name v => P (conv_inc scn t name v)).
Proof.
  intros PA PN. assert (PS : forall l, P (gsum l) = flat_map P l).
  { induction l; simpl; auto. rewrite PA. congruence. }
  unfold steps_inc, over. rewrite PS, flat_map_map. apply flat_map_ext. intros t.
  unfold step_inc, nodes_inc, convs_inc. rewrite PA, !PS, !flat_map_map. f_equal.
  apply flat_map_ext. intros kn. unfold net_inc. now rewrite PS, flat_map_map.
Qed.

Lemma over_In {A} fn fc (y : A) : In y (over fn fc) <->
  exists t, t < st_horizon s /\
    ((exists net nd n, node_at s net nd = Some n /\ In y (fn t net nd n)) \/
     (exists name v, conv_at s name = Some v /\ In y (fc t name v))).
Proof.
  unfold over. rewrite in_flat_map. split.
  - intros (t & T & I). apply in_seq in T. exists t. split; [lia|].
    apply in_app_iff in I as [I|I]; [left|right].
    + apply in_flat_map in I as ([net ns] & I & J). apply in_flat_map in J as ([nd n] & J & K).
      exists net, nd, n. split; auto. eapply node_at_In; eauto.
    + apply in_flat_map in I as ([name v] & I & J). exists name, v. split; auto.
      apply In_dget; auto. apply ld_convs; auto.
  - intros (t & T & H). exists t. split; [apply in_seq; lia|]. apply in_app_iff.
    destruct H as [(net & nd & n & N & I) | (name & v & N & I)]; [left|right].
    + apply node_at_inv in N as (ns & J & K). apply in_flat_map. exists (net, ns). split; auto.
      apply in_flat_map. exists (nd, n). auto.
    + apply in_flat_map. exists (name, v). split; auto. apply dget_In; auto.
Qed.

Lemma over_map {A C} (g : A -> C) fn fc :
  map g (over fn fc) = over (fun t net nd n => map g (fn t net nd n)) (fun t name v => map g (fc t name v)).
Proof.
  assert (X : forall {Y} (f : Y -> list A) l, map g (flat_map f l) = flat_map (fun y => map g (f y)) l).
  { intros Y f l. induction l; simpl; auto. rewrite map_app. congruence. }
  unfold over. rewrite X. apply flat_map_ext. intros t. rewrite map_app, !X. f_equal.
  apply flat_map_ext. intros kn. apply X.
Qed.

Definition sumt (l : list nat) (f : nat -> Q) : Q := qsum (map f l).

Lemma over_sum {A} (f : A -> Q) fn fc :
  (qsum (map f (over fn fc)) ==
   qsum (map (fun t => qsum (map (fun kn => qsum (map (fun kd => qsum (map f (fn t (fst kn) (fst kd) (snd kd)))) (snd kn))) (st_networks s))
                     + qsum (map (fun kv => qsum (map f (fc t (fst kv) (snd kv)))) (st_converters s)))
             (seq 0 (st_horizon s))))%Q.
Proof.
  assert (X : forall {Y} (h : Y -> list A) l, (qsum (map f (flat_map h l)) == qsum (map (fun y => qsum (map f (h y))) l))%Q).
  { intros Y h l. induction l; simpl; [lra|]. rewrite map_app, qsum_app, IHl. lra. }
  unfold over. rewrite X. apply qsum_map_ext. intros t _. rewrite map_app, qsum_app, !X.
  apply Qplus_comp; [|lra]. apply qsum_map_ext. intros kn _. apply X.
Qed.

Lemma over_NoDup {A} (own : A -> nat * (string * string + string)) fn fc :
  (forall t net nd n, node_at s net nd = Some n -> NoDup (fn t net nd n)) ->
  (forall t name v, conv_at s name = Some v -> NoDup (fc t name v)) ->
  (forall t net nd n y, node_at s net nd = Some n -> In y (fn t net nd n) -> own y = (t, inl (net, nd))) ->
  (forall t name v y, conv_at s name = Some v -> In y (fc t name v) -> own y = (t, inr name)) ->
  NoDup (over fn fc).
Proof.
  intros N1 N2 O1 O2. pose proof Hs as W.
  assert (CA : forall name v, In (name, v) (st_converters s) -> conv_at s name = Some v).
  { intros. apply In_dget; auto. apply ld_convs; auto. }
  unfold over. apply (NoDup_flat_map_by _ (fun y => fst (own y)) (fun t => t)).
  - rewrite map_id. apply seq_NoDup.
  - intros t _. apply NoDup_app_disj.
    + apply (NoDup_flat_map_by _ (fun y => match snd (own y) with inl (net, _) => net | _ => EmptyString end) fst).
      * apply ld_networks; auto.
      * intros [net ns] I. simpl.
        apply (NoDup_flat_map_by _ (fun y => match snd (own y) with inl (_, nd) => nd | _ => EmptyString end) fst).
        -- eapply ld_nodes; eauto. apply In_dget; eauto. apply ld_networks; auto.
        -- intros [nd n] J. simpl. apply N1. eapply node_at_In; eauto.
        -- intros [nd n] y J K. simpl in K. erewrite O1; [| |exact K]; [reflexivity|]. eapply node_at_In; eauto.
      * intros [net ns] y I J. simpl in J. apply in_flat_map in J as ([nd n] & J & K). simpl in K.
        erewrite O1; [| |exact K]; [reflexivity|]. eapply node_at_In; eauto.
    + apply (NoDup_flat_map_by _ (fun y => match snd (own y) with inr name => name | _ => EmptyString end) fst).
      * apply ld_convs; auto.
      * intros [name v] I. apply N2. auto.
      * intros [name v] y I J. simpl in J. erewrite O2; [| |exact J]; [reflexivity|]. auto.
    + intros y I J. apply in_flat_map in I as ([net ns] & I & I'). apply in_flat_map in I' as ([nd n] & I' & I'').
      apply in_flat_map in J as ([name v] & J & J'). simpl in *.
      apply O1 in I''; [|eapply node_at_In; eauto]. apply O2 in J'; auto. congruence.
  - intros t y T I. apply in_app_iff in I as [I|I].
    + apply in_flat_map in I as ([net ns] & I & I'). apply in_flat_map in I' as ([nd n] & I' & I''). simpl in *.
      apply O1 in I''; [|eapply node_at_In; eauto]. now rewrite I''.
    + apply in_flat_map in I as ([name v] & I & I'). simpl in *. apply O2 in I'; auto. now rewrite I'.
Qed.

(** Time and owner of a variable. *)
Definition owner (v : var) : nat * (string * string + string) :=
  match v with
  | VLol net nd _ t | VProd net nd _ t | VCap net nd _ t | VIn net nd _ t | VOut net nd _ t | VLink net nd _ t =>
      (t, inl (net, nd))
  | VSrc name _ _ t | VDest name t => (t, inr name)
  end.

(** ** Variables are created once *)
Lemma NoDup_concat_mapi {A C} (f : nat -> A -> list C) (own : C -> nat) l : forall i,
  (forall j x, NoDup (f j x)) -> (forall j x y, In y (f j x) -> own y = j) -> NoDup (concat (mapi f i l)).
Proof.
  induction l as [|a l IH]; simpl; intros i N O; [constructor|].
  apply NoDup_app_disj; auto. intros y I J.
  apply in_concat in J as (m & J & K). apply In_mapi in J as (j & x & _ & ->).
  apply O in I, K. lia.
Qed.

Definition vindex (v : var) : nat :=
  match v with
  | VLol _ _ i _ | VProd _ _ i _ | VCap _ _ i _ | VIn _ _ i _ | VOut _ _ i _ | VLink _ _ i _ => i
  | _ => 0
  end.
Definition vkind (v : var) : nat :=
  match v with
  | VLol _ _ _ _ => 0 | VProd _ _ _ _ => 1 | VCap _ _ _ _ => 2 | VIn _ _ _ _ => 2 | VOut _ _ _ _ => 2
  | VLink _ _ _ _ => 3 | VSrc _ _ _ _ => 4 | VDest _ _ => 5
  end.

Lemma map_concat {A C} (f : A -> C) l : map f (concat l) = concat (map (map f) l).
Proof. induction l; simpl; auto. rewrite map_app. congruence. Qed.

Lemma node_vars_names net nd t n : map fst (node_vars net nd t scn n) =
  mapi (fun i _ => VLol net nd i t) 0 (n_cons n) ++ mapi (fun i _ => VProd net nd i t) 0 (n_prods n) ++
  concat (mapi (fun i _ => [VCap net nd i t; VIn net nd i t; VOut net nd i t]) 0 (n_stors n)) ++
  mapi (fun i _ => VLink net nd i t) 0 (n_links n).
Proof.
  unfold node_vars. rewrite !map_app, !map_mapi, map_concat, map_mapi. reflexivity.
Qed.

Lemma disj_kind (a b : list var) ka :
  (forall v, In v a -> vkind v = ka) -> (forall v, In v b -> vkind v > ka) -> forall v, In v a -> ~ In v b.
Proof. intros A C v I J. apply A in I. apply C in J. lia. Qed.

Lemma kind_mapi {A} (f : nat -> A -> var) k l : (forall i x, vkind (f i x) = k) ->
  forall v, In v (mapi f 0 l) -> vkind v = k.
Proof. intros H v I. apply In_mapi in I as (j & x & _ & ->). apply H. Qed.
Lemma kind_concat {A} (f : nat -> A -> list var) k l : (forall i x v, In v (f i x) -> vkind v = k) ->
  forall v, In v (concat (mapi f 0 l)) -> vkind v = k.
Proof.
  intros H v I. apply in_concat in I as (m & J & K). apply In_mapi in J as (j & x & _ & ->). eauto.
Qed.

Lemma node_vars_NoDup net nd t n : NoDup (map fst (node_vars net nd t scn n)).
Proof.
  rewrite node_vars_names.
  assert (K0 := kind_mapi (fun i (_ : consumption) => VLol net nd i t) 0 (n_cons n) (fun _ _ => eq_refl)).
  assert (K1 := kind_mapi (fun i (_ : production) => VProd net nd i t) 1 (n_prods n) (fun _ _ => eq_refl)).
  assert (K2 : forall v, In v (concat (mapi (fun i (_ : storage) => [VCap net nd i t; VIn net nd i t; VOut net nd i t]) 0 (n_stors n))) -> vkind v = 2).
  { apply kind_concat. intros i x v [<-|[<-|[<-|[]]]]; auto. }
  assert (K3 := kind_mapi (fun i (_ : link) => VLink net nd i t) 3 (n_links n) (fun _ _ => eq_refl)).
  apply NoDup_app_disj; [apply NoDup_mapi; intros; congruence | |].
  apply NoDup_app_disj; [apply NoDup_mapi; intros; congruence | |].
  apply NoDup_app_disj; [ | apply NoDup_mapi; intros; congruence |].
  - apply (NoDup_concat_mapi _ vindex).
    + intros. repeat (constructor; simpl; try (intuition congruence)).
    + intros j x y [<-|[<-|[<-|[]]]]; auto.
  - eapply disj_kind; eauto. intros v I. apply K3 in I. lia.
  - eapply disj_kind; eauto. intros v I. apply in_app_iff in I as [I|I]; [apply K2 in I | apply K3 in I]; lia.
  - eapply disj_kind; eauto. intros v I. apply in_app_iff in I as [I|I]; [apply K1 in I; lia|].
    apply in_app_iff in I as [I|I]; [apply K2 in I | apply K3 in I]; lia.
Qed.

Lemma node_vars_owner net nd t n v : In v (map fst (node_vars net nd t scn n)) -> owner v = (t, inl (net, nd)).
Proof.
  rewrite node_vars_names, !in_app_iff. intros [I|[I|[I|I]]].
  - apply In_mapi in I as (j & y & _ & ->); auto.
  - apply In_mapi in I as (j & y & _ & ->); auto.
  - apply in_concat in I as (m & I & J). apply In_mapi in I as (j & y & _ & ->).
    destruct J as [<-|[<-|[<-|[]]]]; auto.
  - apply In_mapi in I as (j & y & _ & ->); auto.
Qed.

Lemma conv_vars_NoDup name t v : conv_at s name = Some v -> NoDup (map fst (conv_vars name t scn v)).
Proof.
  intros E. unfold conv_vars. rewrite map_app, map_map. simpl. apply NoDup_app_disj.
  - assert (ND : NoDup (dkeys (v_src v))) by (eapply ld_once; eauto).
    unfold dkeys in ND. rewrite <- (map_map fst (vsrc name t)).
    apply FinFun.Injective_map_NoDup; auto. intros [a b] [c d]. unfold vsrc; simpl. congruence.
  - repeat constructor. auto.
  - intros x I [<-|[]]. apply in_map_iff in I as (kr & E' & _). discriminate.
Qed.
Lemma conv_vars_owner name t v y : In y (map fst (conv_vars name t scn v)) -> owner y = (t, inr name).
Proof.
  unfold conv_vars. rewrite map_app, map_map, in_app_iff. simpl. intros [I|[<-|[]]]; auto.
  apply in_map_iff in I as (kr & <- & _). reflexivity.
Qed.

Theorem vars_NoDup : NoDup (map fst (g_vars (program s scn))).
Proof.
  unfold program. simpl. rewrite app_nil_r, (over_proj g_vars), over_map by auto.
  apply (over_NoDup owner).
  - intros; apply node_vars_NoDup.
  - intros; apply conv_vars_NoDup; auto.
  - intros t net nd n y _ I. exact (node_vars_owner _ _ _ _ _ I).
  - intros t name v y _ I. exact (conv_vars_owner _ _ _ _ I).
Qed.

(** ** Objective *)
Lemma node_obj_names net nd t n : map fst (node_obj (pnode net nd t scn n)) =
  mapi (fun i _ => VLol net nd i t) 0 (n_cons n) ++ mapi (fun i _ => VProd net nd i t) 0 (n_prods n) ++
  mapi (fun i _ => VCap net nd i t) 0 (n_stors n) ++ mapi (fun i _ => VLink net nd i t) 0 (n_links n).
Proof. unfold node_obj. simpl. rewrite !map_app, !map_map, !map_mapi. reflexivity. Qed.

Lemma node_obj_NoDup net nd t n : NoDup (map fst (node_obj (pnode net nd t scn n))).
Proof.
  rewrite node_obj_names.
  assert (K0 := kind_mapi (fun i (_ : consumption) => VLol net nd i t) 0 (n_cons n) (fun _ _ => eq_refl)).
  assert (K1 := kind_mapi (fun i (_ : production) => VProd net nd i t) 1 (n_prods n) (fun _ _ => eq_refl)).
  assert (K2 := kind_mapi (fun i (_ : storage) => VCap net nd i t) 2 (n_stors n) (fun _ _ => eq_refl)).
  assert (K3 := kind_mapi (fun i (_ : link) => VLink net nd i t) 3 (n_links n) (fun _ _ => eq_refl)).
  apply NoDup_app_disj; [apply NoDup_mapi; intros; congruence | |].
  apply NoDup_app_disj; [apply NoDup_mapi; intros; congruence | |].
  apply NoDup_app_disj; [apply NoDup_mapi; intros; congruence | apply NoDup_mapi; intros; congruence |].
  - eapply disj_kind; eauto. intros v I. apply K3 in I. lia.
  - eapply disj_kind; eauto. intros v I. apply in_app_iff in I as [I|I]; [apply K2 in I | apply K3 in I]; lia.
  - eapply disj_kind; eauto. intros v I. apply in_app_iff in I as [I|I]; [apply K1 in I; lia|].
    apply in_app_iff in I as [I|I]; [apply K2 in I | apply K3 in I]; lia.
Qed.
Lemma node_obj_owner net nd t n v : In v (map fst (node_obj (pnode net nd t scn n))) -> owner v = (t, inl (net, nd)).
Proof.
  rewrite node_obj_names, !in_app_iff.
  intros [I|[I|[I|I]]]; apply In_mapi in I as (j & y & _ & ->); auto.
Qed.

(** Cost of an assignment. *)
Definition ncost (x : var -> Q) (t : nat) (net nd : string) (n : node) : Q :=
  (sumi (fun i c => value (c_cost c) scn t * x (VLol net nd i t)) (n_cons n)
   + sumi (fun i p => value (p_cost p) scn t * x (VProd net nd i t)) (n_prods n)
   + sumi (fun i y => value (s_cost y) scn t * x (VCap net nd i t)) (n_stors n)
   + sumi (fun i l => value (l_cost l) scn t * x (VLink net nd i t)) (n_links n))%Q.
Definition xcost (x : var -> Q) : Q :=
  qsum (map (fun t =>
    qsum (map (fun kn => qsum (map (fun kd => ncost x t (fst kn) (fst kd) (snd kd)) (snd kn))) (st_networks s))
    + qsum (map (fun kv => ovalue (v_cost (snd kv)) scn t * x (VDest (fst kv) t)) (st_converters s)))
   (seq 0 (st_horizon s)))%Q.

Lemma obj_NoDup : NoDup (map fst (g_obj (program s scn))).
Proof.
  unfold program. simpl. rewrite app_nil_r, (over_proj g_obj) by auto. rewrite over_map. apply (over_NoDup owner).
  - intros; apply node_obj_NoDup.
  - intros. simpl. repeat constructor. auto.
  - intros t net nd n y _ I. exact (node_obj_owner _ _ _ _ _ I).
  - intros t name v y _ [<-|[]]. reflexivity.
Qed.

Theorem obj_value x : (lin (dict_of (g_obj (program s scn))) x == xcost x)%Q.
Proof.
  rewrite (dict_of_NoDup _ obj_NoDup). unfold program. simpl. rewrite app_nil_r, (over_proj g_obj) by auto.
  unfold lin. rewrite over_sum. unfold xcost. apply qsum_map_ext. intros t _. apply Qplus_comp.
  - apply qsum_map_ext. intros [net ns] _. apply qsum_map_ext. intros [nd n] _. simpl.
    unfold node_obj, ncost, sumi. simpl.
    rewrite !map_app, !map_map, !map_mapi, !qsum_app. simpl. lra.
  - apply qsum_map_ext. intros [name v] _. simpl. lra.
Qed.

(** ** Imports: one per link and time *)
Lemma imps_keys : NoDup (map fst (g_imp (steps_inc s scn (st_horizon s)))).
Proof.
  rewrite (over_proj g_imp), over_map by auto.
  apply (over_NoDup (fun k : ikey => match k with (t, net, nd, _) => (t, inl (net, nd)) end)).
  - intros t net nd n N. simpl. unfold node_imp. simpl. rewrite map_mapi, map_mapi. simpl.
    assert (ND : NoDup (map l_dest (n_links n))) by (eapply ld_links; eauto).
    rewrite mapi_map. rewrite <- (map_map l_dest (fun d => (t, net, nd, d))).
    apply FinFun.Injective_map_NoDup; auto. intros a b E. congruence.
  - intros. constructor.
  - intros t net nd n y _ I. simpl in I. unfold node_imp in I. simpl in I. rewrite !map_mapi in I.
    apply In_mapi in I as (j & l & _ & ->). reflexivity.
  - intros ? ? ? ? _ [].
Qed.

Lemma imports_over : imports (steps_inc s scn (st_horizon s)) =
  over (fun t net nd n => mapi (fun i l => ((t, net, l_dest l), (VLink net nd i t, 1%Q))) 0 (n_links n)) (fun _ _ _ => []).
Proof.
  unfold imports. rewrite dict_of_NoDup by apply imps_keys.
  rewrite (over_proj g_imp), over_map by auto. simpl.
  unfold over. apply flat_map_ext. intros t. f_equal. apply flat_map_ext. intros [net ns].
  apply flat_map_ext. intros [nd n]. simpl. unfold node_imp. simpl. rewrite !map_mapi. reflexivity.
Qed.

(** ** Coefficients set twice: the exports of links from a node to itself *)

Definition opid (o : akey * (var * Q)) : akey * var := (fst o, fst (snd o)).

Lemma node_ops_eq net nd t n : node_ops net nd t (pnode net nd t scn n) =
  mapi (fun i _ => ((t, net, nd), (VLol net nd i t, 1%Q))) 0 (n_cons n) ++
  mapi (fun i _ => ((t, net, nd), (VProd net nd i t, 1%Q))) 0 (n_prods n) ++
  concat (mapi (fun i _ => [((t, net, nd), (VIn net nd i t, (-1)%Q)); ((t, net, nd), (VOut net nd i t, 1%Q))]) 0 (n_stors n)) ++
  mapi (fun i _ => ((t, net, nd), (VLink net nd i t, (-1)%Q))) 0 (n_links n).
Proof. unfold node_ops. simpl. rewrite !map_mapi, flat_map_mapi. reflexivity. Qed.

Lemma node_ops_vars net nd t n : map (fun o => fst (snd o)) (node_ops net nd t (pnode net nd t scn n)) =
  mapi (fun i _ => VLol net nd i t) 0 (n_cons n) ++ mapi (fun i _ => VProd net nd i t) 0 (n_prods n) ++
  concat (mapi (fun i _ => [VIn net nd i t; VOut net nd i t]) 0 (n_stors n)) ++
  mapi (fun i _ => VLink net nd i t) 0 (n_links n).
Proof. rewrite node_ops_eq, !map_app, !map_mapi, map_concat, map_mapi. reflexivity. Qed.

Lemma NoDup_map_snd {A C D} (f : A -> C) (g : A -> D) l : NoDup (map g l) -> NoDup (map (fun x => (f x, g x)) l).
Proof.
  intros N. rewrite <- (map_map (fun x => (f x, g x)) snd) in N. now apply NoDup_map_inv in N.
Qed.

Lemma node_ops_NoDup net nd t n : NoDup (map opid (node_ops net nd t (pnode net nd t scn n))).
Proof.
  apply NoDup_map_snd. rewrite node_ops_vars.
  assert (K0 := kind_mapi (fun i (_ : consumption) => VLol net nd i t) 0 (n_cons n) (fun _ _ => eq_refl)).
  assert (K1 := kind_mapi (fun i (_ : production) => VProd net nd i t) 1 (n_prods n) (fun _ _ => eq_refl)).
  assert (K2 : forall v, In v (concat (mapi (fun i (_ : storage) => [VIn net nd i t; VOut net nd i t]) 0 (n_stors n))) -> vkind v = 2).
  { apply kind_concat. intros i x v [<-|[<-|[]]]; auto. }
  assert (K3 := kind_mapi (fun i (_ : link) => VLink net nd i t) 3 (n_links n) (fun _ _ => eq_refl)).
  apply NoDup_app_disj; [apply NoDup_mapi; intros; congruence | |].
  apply NoDup_app_disj; [apply NoDup_mapi; intros; congruence | |].
  apply NoDup_app_disj; [ | apply NoDup_mapi; intros; congruence |].
  - apply (NoDup_concat_mapi _ vindex).
    + intros. repeat (constructor; simpl; try (intuition congruence)).
    + intros j x y [<-|[<-|[]]]; auto.
  - eapply disj_kind; eauto. intros v I. apply K3 in I. lia.
  - eapply disj_kind; eauto. intros v I. apply in_app_iff in I as [I|I]; [apply K2 in I | apply K3 in I]; lia.
  - eapply disj_kind; eauto. intros v I. apply in_app_iff in I as [I|I]; [apply K1 in I; lia|].
    apply in_app_iff in I as [I|I]; [apply K2 in I | apply K3 in I]; lia.
Qed.

Lemma node_ops_in net nd t n o : In o (node_ops net nd t (pnode net nd t scn n)) ->
  fst o = (t, net, nd) /\ owner (fst (snd o)) = (t, inl (net, nd)).
Proof.
  rewrite node_ops_eq, !in_app_iff. intros [I|[I|[I|I]]].
  - apply In_mapi in I as (j & y & _ & ->); auto.
  - apply In_mapi in I as (j & y & _ & ->); auto.
  - apply in_concat in I as (m & I & J). apply In_mapi in I as (j & y & _ & ->).
    destruct J as [<-|[<-|[]]]; auto.
  - apply In_mapi in I as (j & y & _ & ->); auto.
Qed.

Lemma steps_ops_NoDup : NoDup (map opid (g_ops (steps_inc s scn (st_horizon s)))).
Proof.
  rewrite (over_proj g_ops), !over_map by auto. cbv beta.
  apply (over_NoDup (fun o => owner (snd o))).
  - intros; apply node_ops_NoDup.
  - intros t name v N. refine (NoDup_map_snd fst (fun o => fst (snd o)) (conv_ops t (pconv name t scn v)) _).
    unfold conv_ops. simpl. rewrite !map_map. simpl.
    constructor.
    + intros I. apply in_map_iff in I as (kr & E & _). discriminate.
    + assert (ND : NoDup (dkeys (v_src v))) by (eapply ld_once; eauto).
      rewrite <- (map_map fst (vsrc name t)).
      apply FinFun.Injective_map_NoDup; auto. intros [a b] [c d]. unfold vsrc; simpl. congruence.
  - intros t net nd n y _ I. apply in_map_iff in I as (o & <- & I). apply node_ops_in in I as [_ I]. auto.
  - intros t name v y _ I. apply in_map_iff in I as (o & <- & I). unfold conv_ops in I. simpl in I.
    destruct I as [<-|I]; auto. rewrite map_map in I. apply in_map_iff in I as (kr & <- & _). reflexivity.
Qed.

Lemma imports_NoDup : NoDup (map opid (imports (steps_inc s scn (st_horizon s)))).
Proof.
  rewrite imports_over, over_map by auto. cbv beta. apply (over_NoDup (fun o => owner (snd o))).
  - intros t net nd n _. refine (NoDup_map_snd fst (fun o => fst (snd o)) _ _). rewrite map_mapi. apply NoDup_mapi. simpl. intros; congruence.
  - intros. constructor.
  - intros t net nd n y _ I. rewrite map_mapi in I. apply In_mapi in I as (j & l & _ & ->). reflexivity.
  - intros ? ? ? ? _ [].
Qed.

(** What was set for a link of [nd'] in the balance of [nd] before the imports. *)
Lemma link_coef t net nd n nd' n' i l : t < st_horizon s -> node_at s net nd = Some n -> node_at s net nd' = Some n' ->
  nth_error (n_links n') i = Some l ->
  getq (VLink net nd' i t) (sel (t, net, nd) (g_ops (steps_inc s scn (st_horizon s)))) = (if String.eqb nd' nd then -1 else 0)%Q.
Proof.
  intros T N N' L. set (S := sel _ _). assert (ND : NoDup (map fst S)) by (apply sel_keys; apply steps_ops_NoDup).
  assert (IN : forall c, In (VLink net nd' i t, c) S <-> In ((t, net, nd), (VLink net nd' i t, c)) (g_ops (steps_inc s scn (st_horizon s)))).
  { intros c. unfold S, sel. rewrite in_map_iff. split.
    - intros ([k vc] & <- & I). apply filter_In in I as [I E]. cbn [fst] in E. apply eqb_eq in E. subst. exact I.
    - intros I. exists ((t, net, nd), (VLink net nd' i t, c)). split; auto. apply filter_In. split; auto. cbn [fst]. apply eqb_refl. }
  rewrite (over_proj g_ops) in IN by auto.
  unfold getq. destruct (String.eqb nd' nd) eqn:E.
  - apply String.eqb_eq in E. subst nd'. rewrite (In_dget (VLink net nd i t) (-1)%Q S); auto.
    apply IN. apply over_In. exists t. split; auto. left. exists net, nd, n'. split; auto.
    cbn [g_ops node_inc]. rewrite node_ops_eq, !in_app_iff. right. right. right.
    apply In_mapi. exists i, l. split; auto.
  - destruct (dget (VLink net nd' i t) S) as [c|] eqn:D; auto. exfalso. apply dget_In in D. apply IN in D.
    apply over_In in D as (t2 & _ & [(net2 & nd2 & n2 & N2 & I) | (name & v & N2 & I)]); auto.
    + cbn [g_ops node_inc] in I. apply node_ops_in in I as [O1 O2]. cbn [fst snd owner] in *. inversion O1; inversion O2; subst.
      apply String.eqb_neq in E. congruence.
    + cbn [g_ops conv_inc] in I. unfold conv_ops in I. simpl in I. destruct I as [I|I]; [discriminate|].
      rewrite map_map in I. apply in_map_iff in I as (kr & X & _). discriminate.
Qed.

(** ** Constraints, one by one *)
Lemma within_eq l y : within l y l <-> (y == l)%Q.
Proof. unfold within. split; [intros [A C] | intros E]; lra. Qed.

Lemma qsum_single_key {A K} `{EqB K} (key : A -> K) (f : A -> Q) l a :
  NoDup (map key l) -> In a l -> (forall x, In x l -> key x <> key a -> (f x == 0)%Q) -> (qsum (map f l) == f a)%Q.
Proof.
  induction l as [|x r IH]; simpl; intros ND I Z; [tauto|]. inversion ND as [|? ? NI ND']; subst.
  destruct I as [->|I].
  - rewrite qsum_map_zero; [lra|]. intros y Iy. apply Z; auto. intros E. apply NI. rewrite <- E. apply in_map; auto.
  - rewrite Z; auto; [rewrite IH; auto; lra|]. intros E. apply NI. rewrite E. apply in_map; auto.
Qed.

Lemma key_eqb (t : nat) (a b c d : string) : eqb (t, a, b) (t, c, d) = String.eqb a c && String.eqb b d.
Proof. simpl. unfold pair_eqb. simpl. unfold pair_eqb. simpl. now rewrite Nat.eqb_refl. Qed.
Lemma key_eqb_neq (t t' : nat) (a b c d : string) : t <> t' -> eqb (t, a, b) (t', c, d) = false.
Proof. intros N. apply eqb_neq. congruence. Qed.

Definition nodes_in (net : string) : network :=
  match dget net (st_networks s) with Some ns => ns | None => [] end.

(** Net energy brought to a node by its own elements, by converters and by links. *)
Definition xnode (x : var -> Q) (t : nat) (net nd : string) (n : node) : Q :=
  (sumi (fun i _ => x (VLol net nd i t)) (n_cons n) + sumi (fun i _ => x (VProd net nd i t)) (n_prods n)
   + sumi (fun i _ => - x (VIn net nd i t) + x (VOut net nd i t)) (n_stors n)
   - sumi (fun i _ => x (VLink net nd i t)) (n_links n))%Q.
Definition xconv (x : var -> Q) (t : nat) (net nd : string) (name : string) (v : converter) : Q :=
  ((if String.eqb (v_dnet v) net && String.eqb (v_dnode v) nd then x (VDest name t) else 0)
   - qsum (map (fun kr => if pair_eqb (fst kr) (net, nd) then x (vsrc name t (fst kr)) else 0) (v_src v)))%Q.
Definition ximport (x : var -> Q) (t : nat) (net nd : string) : Q :=
  qsum (map (fun kd => sumi (fun i l => if String.eqb (l_dest l) nd then x (VLink net (fst kd) i t) else 0%Q)
                            (n_links (snd kd))) (nodes_in net)).
(** Links from a node to itself: their coefficient -1 is replaced by 1. *)
Definition xself (x : var -> Q) (t : nat) (net nd : string) (n : node) : Q :=
  sumi (fun i l => if String.eqb (l_dest l) nd then x (VLink net nd i t) else 0%Q) (n_links n).
Definition xbalance (x : var -> Q) (t : nat) (net nd : string) (n : node) : Prop :=
  (xnode x t net nd n + qsum (map (fun kv => xconv x t net nd (fst kv) (snd kv)) (st_converters s))
   + ximport x t net nd + xself x t net nd n == qsum (map (fun c => value (c_qty c) scn t) (n_cons n)))%Q.

Lemma qsum_concat_mapi {A C} (f : C -> Q) (g : nat -> A -> list C) l : forall i,
  (qsum (map f (concat (mapi g i l))) == qsum (mapi (fun i x => qsum (map f (g i x))) i l))%Q.
Proof. induction l; simpl; intros i; [lra|]. rewrite map_app, qsum_app, IHl. lra. Qed.

Lemma opval_hit k x v c : opval k x (k, (v, c)) = (c * x v)%Q.
Proof. unfold opval. cbn [fst snd]. now rewrite eqb_refl. Qed.

Lemma node_opsum x t net nd n :
  (qsum (map (opval (t, net, nd) x) (node_ops net nd t (pnode net nd t scn n))) == xnode x t net nd n)%Q.
Proof.
  rewrite node_ops_eq. rewrite !map_app, !qsum_app, !map_mapi, qsum_concat_mapi. unfold xnode, sumi.
  rewrite (qsum_mapi_ext _ (fun i _ => x (VLol net nd i t)) (n_cons n) 0) by (intros; rewrite opval_hit; lra).
  rewrite (qsum_mapi_ext _ (fun i _ => x (VProd net nd i t)) (n_prods n) 0) by (intros; rewrite opval_hit; lra).
  rewrite (qsum_mapi_ext _ (fun i _ => - x (VIn net nd i t) + x (VOut net nd i t))%Q (n_stors n) 0)
    by (intros; cbn [map qsum fold_right]; rewrite !opval_hit; lra).
  rewrite (qsum_mapi_ext _ (fun i _ => - x (VLink net nd i t))%Q (n_links n) 0) by (intros; rewrite opval_hit; lra).
  rewrite qsum_mapi_opp. lra.
Qed.

Lemma conv_opsum x t net nd name v :
  (qsum (map (opval (t, net, nd) x) (conv_ops t (pconv name t scn v))) == xconv x t net nd name v)%Q.
Proof.
  unfold conv_ops. cbn [map qsum fold_right]. unfold opval at 1. cbn [fst snd lv_dnet lv_dnode pconv lv_dest].
  rewrite key_eqb. fold (qsum (map (opval (t, net, nd) x)
    (map (fun kx => (t, fst (fst kx), snd (fst kx), (snd kx, (-1)%Q))) (lv_src (pconv name t scn v))))).
  cbn [lv_src pconv]. rewrite !map_map. unfold xconv.
  rewrite (qsum_map_ext _ (fun kr => - (if pair_eqb (fst kr) (net, nd) then x (vsrc name t (fst kr)) else 0))%Q (v_src v)).
  - rewrite qsum_map_opp. destruct (String.eqb (v_dnet v) net && String.eqb (v_dnode v) nd); lra.
  - intros [[a b] q] _. unfold opval. cbn [fst snd]. rewrite key_eqb. unfold pair_eqb. simpl.
    destruct (String.eqb a net && String.eqb b nd); lra.
Qed.

Lemma opval_zero k x (l : list (akey * (var * Q))) :
  (forall o, In o l -> fst o <> k) -> (qsum (map (opval k x) l) == 0)%Q.
Proof.
  intros H. apply qsum_map_zero. intros o I. unfold opval.
  rewrite (proj2 (eqb_neq _ _) (H o I)). lra.
Qed.

Lemma conv_ops_time t name v o : In o (conv_ops t (pconv name t scn v)) -> fst (fst (fst o)) = t.
Proof.
  unfold conv_ops. intros [<-|I]; auto. apply in_map_iff in I as (kx & <- & _). reflexivity.
Qed.

Lemma steps_opsum x t net nd n : t < st_horizon s -> node_at s net nd = Some n ->
  (qsum (map (opval (t, net, nd) x) (g_ops (steps_inc s scn (st_horizon s)))) ==
   xnode x t net nd n + qsum (map (fun kv => xconv x t net nd (fst kv) (snd kv)) (st_converters s)))%Q.
Proof.
  intros T N. rewrite (over_proj g_ops), over_sum by auto. pose proof Hs as W.
  rewrite (qsum_single _ (seq 0 (st_horizon s)) t).
  - apply Qplus_comp.
    + apply node_at_inv in N as N'. destruct N' as (ns & I & J).
      rewrite (qsum_single_key fst _ (st_networks s) (net, ns)).
      * cbn [fst snd]. rewrite (qsum_single_key fst _ ns (nd, n)).
        -- cbn [fst snd]. apply node_opsum.
        -- eapply ld_nodes; eauto. apply In_dget; eauto. apply ld_networks; auto.
        -- auto.
        -- intros [nd' n'] I' NE. apply opval_zero. intros o O. apply node_ops_in in O as [-> _]. simpl in *. congruence.
      * apply ld_networks; auto.
      * auto.
      * intros [net' ns'] I' NE. apply qsum_map_zero. intros [nd' n'] I''. apply opval_zero.
        intros o O. apply node_ops_in in O as [-> _]. simpl in *. congruence.
    + apply qsum_map_ext. intros [name v] _. apply conv_opsum.
  - apply seq_NoDup.
  - apply in_seq. lia.
  - intros t' _ NE. rewrite !qsum_map_zero; [lra| |].
    + intros [name v] _. apply opval_zero. intros o O. apply conv_ops_time in O. intros E. rewrite E in O. simpl in *. congruence.
    + intros [net' ns'] _. apply qsum_map_zero. intros [nd' n'] I''. apply opval_zero.
      intros o O. apply node_ops_in in O as [-> _]. simpl in *. congruence.
Qed.

Lemma imports_opsum x t net nd n : t < st_horizon s -> node_at s net nd = Some n ->
  (qsum (map (fun o => if eqb (fst o) (t, net, nd) then (snd (snd o) - getq (fst (snd o)) (sel (t, net, nd) (g_ops (steps_inc s scn (st_horizon s))))) * x (fst (snd o)) else 0)
     (imports (steps_inc s scn (st_horizon s)))) == ximport x t net nd + xself x t net nd n)%Q.
Proof.
  intros T N. rewrite imports_over, over_sum. pose proof Hs as W.
  rewrite (qsum_single _ (seq 0 (st_horizon s)) t).
  - rewrite (qsum_map_zero _ (st_converters s)) by (intros; simpl; lra).
    pose proof N as N0. apply node_at_inv in N0 as (ns & I & J).
    assert (D : dget net (st_networks s) = Some ns) by (apply In_dget; auto; apply ld_networks; auto).
    unfold ximport, nodes_in. rewrite D.
    rewrite (qsum_single_key fst _ (st_networks s) (net, ns)).
    + cbn [fst snd]. rewrite Qplus_0_r.
      assert (X : (xself x t net nd n == qsum (map (fun kd => if String.eqb (fst kd) nd then xself x t net nd (snd kd) else 0) ns))%Q).
      { rewrite (qsum_single_key fst _ ns (nd, n)).
        - cbn [fst snd]. now rewrite String.eqb_refl.
        - eapply ld_nodes; eauto.
        - auto.
        - intros [nd' n'] _ NE. cbn [fst snd] in *. rewrite (proj2 (String.eqb_neq _ _) NE). reflexivity. }
      rewrite X. clear X. rewrite <- qsum_map_add. apply qsum_map_ext. intros [nd' n'] I'. cbn [fst snd].
      rewrite map_mapi.
      assert (X : ((if String.eqb nd' nd then xself x t net nd n' else 0) ==
         sumi (fun i l => if String.eqb nd' nd then if String.eqb (l_dest l) nd then x (VLink net nd' i t) else 0 else 0) (n_links n'))%Q).
      { destruct (String.eqb nd' nd) eqn:E; [apply String.eqb_eq in E; now subst|].
        symmetry. apply sumi_zero. reflexivity. }
      rewrite X. clear X. unfold sumi. rewrite <- (qsum_mapi_add _ _ (n_links n') 0). apply qsum_mapi_ext. intros j l L. cbn [fst snd].
      rewrite key_eqb, String.eqb_refl. cbn [andb]. destruct (String.eqb (l_dest l) nd) eqn:E.
      * change (0 + j) with j. rewrite (link_coef t net nd n nd' n' j l); auto; [destruct (String.eqb nd' nd); lra|].
        eapply node_at_In; eauto.
      * destruct (String.eqb nd' nd); lra.
    + apply ld_networks; auto.
    + auto.
    + intros [net' ns'] I' NE. apply qsum_map_zero. intros [nd' n'] I''. apply qsum_map_zero.
      intros o O. apply In_mapi in O as (j & l & _ & ->). cbn [fst snd] in *. rewrite key_eqb.
      rewrite (proj2 (String.eqb_neq _ _) NE). reflexivity.
  - apply seq_NoDup.
  - apply in_seq. lia.
  - intros t' _ NE. rewrite !qsum_map_zero; [lra| |].
    + intros [name v] _. simpl. lra.
    + intros [net' ns'] _. apply qsum_map_zero. intros [nd' n'] I''. apply qsum_map_zero.
      intros o O. apply In_mapi in O as (j & l & _ & ->). cbn [fst]. rewrite key_eqb_neq; auto. reflexivity.
Qed.

Lemma balance_lin x t net nd n l : t < st_horizon s -> node_at s net nd = Some n ->
  (lin (k_coefs (interp (g_ops (program s scn)) (TAdq (t, net, nd) l))) x ==
   xnode x t net nd n + qsum (map (fun kv => xconv x t net nd (fst kv) (snd kv)) (st_converters s))
   + ximport x t net nd + xself x t net nd n)%Q.
Proof.
  intros T N. simpl k_coefs. unfold program. simpl g_ops.
  rewrite lin_sel_over by (apply steps_ops_NoDup || apply imports_NoDup).
  rewrite (steps_opsum x t net nd n) by auto. rewrite (imports_opsum x t net nd n) by auto. lra.
Qed.

(** Storage law, first storage of a node only. *)
Definition xstorage (x : var -> Q) (t : nat) (net nd : string) (n : node) : Prop :=
  match n_stors n with
  | [] => True
  | y :: _ => (x (VCap net nd 0 t) ==
       (match t with O => s_init y | S t' => x (VCap net nd 0 t') end)
       + value (s_eff y) scn t * x (VIn net nd 0 t) - x (VOut net nd 0 t))%Q
  end.

Definition xmix (x : var -> Q) (t : nat) (name : string) (v : converter) : Prop :=
  forall k q, In (k, q) (v_src v) -> (value q scn t * x (vsrc name t k) == x (VDest name t))%Q.

Ltac newkey := rewrite dset_fresh; [cbn [app] | cbn; intuition congruence].

Lemma stor_lin x t net nd y i : i = 0 ->
  let Y := LPStor (s_name y) (value (s_capacity y) scn t) (VCap net nd i t) (value (s_flow_in y) scn t) (VIn net nd i t)
                  (value (s_flow_out y) scn t) (VOut net nd i t) (value (s_cost y) scn t) (s_init y) (value (s_eff y) scn t) in
  let k := stor_constr net nd t Y in
  within (k_lb k) (lin (k_coefs k) x) (k_ub k) <->
  (x (VCap net nd 0 t) ==
       (match t with O => s_init y | S t' => x (VCap net nd 0 t') end)
       + value (s_eff y) scn t * x (VIn net nd 0 t) - x (VOut net nd 0 t))%Q.
Proof.
  intros -> Y k. unfold k, stor_constr. destruct t as [|t']; cbn [k_lb k_ub k_coefs]; rewrite within_eq;
    subst Y; cbn [ls_vcap ls_vin ls_vout ls_init ls_eff].
  - repeat newkey. unfold lin. simpl. split; intros; lra.
  - assert (t' <> S t') by lia. repeat newkey. unfold lin. simpl. split; intros; lra.
Qed.

Lemma mix_lin x t name k q :
  let c := Constr 0 0 (dset (VDest name t) (-1)%Q (dset (vsrc name t k) q [])) in
  within (k_lb c) (lin (k_coefs c) x) (k_ub c) <-> (q * x (vsrc name t k) == x (VDest name t))%Q.
Proof.
  intros c. unfold c. cbn [k_lb k_ub k_coefs]. rewrite within_eq.
  unfold vsrc. repeat newkey. unfold lin. simpl. split; intros; lra.
Qed.

(** Bounds. *)
Record xbounds (x : var -> Q) : Prop := {
  xb_cons : forall t net nd n i c, t < st_horizon s -> node_at s net nd = Some n -> nth_error (n_cons n) i = Some c ->
    within 0 (x (VLol net nd i t)) (value (c_qty c) scn t);
  xb_prods : forall t net nd n i p, t < st_horizon s -> node_at s net nd = Some n -> nth_error (n_prods n) i = Some p ->
    within 0 (x (VProd net nd i t)) (value (p_qty p) scn t);
  xb_stors : forall t net nd n i y, t < st_horizon s -> node_at s net nd = Some n -> nth_error (n_stors n) i = Some y ->
    within 0 (x (VCap net nd i t)) (value (s_capacity y) scn t) /\
    within 0 (x (VIn net nd i t)) (value (s_flow_in y) scn t) /\
    within 0 (x (VOut net nd i t)) (value (s_flow_out y) scn t);
  xb_links : forall t net nd n i l, t < st_horizon s -> node_at s net nd = Some n -> nth_error (n_links n) i = Some l ->
    within 0 (x (VLink net nd i t)) (value (l_qty l) scn t);
  xb_src : forall t name v k q, t < st_horizon s -> conv_at s name = Some v -> In (k, q) (v_src v) ->
    within 0 (x (vsrc name t k)) (ovalue (v_max v) scn t / value q scn t);
  xb_dest : forall t name v, t < st_horizon s -> conv_at s name = Some v ->
    within 0 (x (VDest name t)) (ovalue (v_max v) scn t)
}.

Lemma bounds_iff x :
  (forall v lo up, In (v, (lo, up)) (g_vars (program s scn)) -> within lo (x v) up) <-> xbounds x.
Proof.
  unfold program. simpl. rewrite app_nil_r, (over_proj g_vars) by auto. split.
  - intros H.
    assert (HN : forall t net nd n v lo up, t < st_horizon s -> node_at s net nd = Some n ->
              In (v, (lo, up)) (node_vars net nd t scn n) -> within lo (x v) up).
    { intros t net nd n v lo up T N I. apply H. apply over_In. exists t. split; auto. left. exists net, nd, n. auto. }
    assert (HC : forall t name u v lo up, t < st_horizon s -> conv_at s name = Some u ->
              In (v, (lo, up)) (conv_vars name t scn u) -> within lo (x v) up).
    { intros t name u v lo up T N I. apply H. apply over_In. exists t. split; auto. right. exists name, u. auto. }
    constructor.
    + intros t net nd n i c T N E. eapply HN; eauto. unfold node_vars. apply in_app_iff. left. apply In_mapi. exists i, c. auto.
    + intros t net nd n i c T N E. eapply HN; eauto. unfold node_vars. rewrite !in_app_iff. right; left. apply In_mapi. exists i, c. auto.
    + intros t net nd n i c T N E.
      assert (X : forall y, In y [(VCap net nd i t, (0, value (s_capacity c) scn t)%Q);
                            (VIn net nd i t, (0, value (s_flow_in c) scn t)%Q);
                            (VOut net nd i t, (0, value (s_flow_out c) scn t)%Q)] -> In y (node_vars net nd t scn n)).
      { intros y I. unfold node_vars. rewrite !in_app_iff. right; right; left. apply in_concat. eexists. split; [|exact I].
        apply In_mapi. exists i, c. auto. }
      repeat split; eapply HN; eauto; apply X; simpl; auto.
    + intros t net nd n i c T N E. eapply HN; eauto. unfold node_vars. rewrite !in_app_iff. right; right; right. apply In_mapi. exists i, c. auto.
    + intros t name v k q T N I. eapply HC; eauto. unfold conv_vars. apply in_app_iff. left. apply in_map_iff. exists (k, q). auto.
    + intros t name v T N. eapply HC; eauto. unfold conv_vars. apply in_app_iff. right. simpl. auto.
  - intros H v lo up I. apply over_In in I as (t & T & [(net & nd & n & N & I) | (name & u & N & I)]); auto.
    + simpl in I. unfold node_vars in I. rewrite !in_app_iff in I. destruct I as [I|[I|[I|I]]].
      * apply In_mapi in I as (j & c & E & EQ). inversion EQ; subst. eapply xb_cons; eauto.
      * apply In_mapi in I as (j & c & E & EQ). inversion EQ; subst. eapply xb_prods; eauto.
      * apply in_concat in I as (m & I & J). apply In_mapi in I as (j & c & E & ->).
        destruct (xb_stors x H t net nd n j c T N E) as (A & C & D).
        destruct J as [EQ|[EQ|[EQ|[]]]]; inversion EQ; subst; auto.
      * apply In_mapi in I as (j & c & E & EQ). inversion EQ; subst. eapply xb_links; eauto.
    + simpl in I. unfold conv_vars in I. rewrite in_app_iff in I. destruct I as [I|[I|[]]].
      * apply in_map_iff in I as ([k q] & EQ & I). inversion EQ; subst. eapply xb_src; eauto.
      * inversion I; subst. eapply xb_dest; eauto.
Qed.

Record xok (x : var -> Q) : Prop := {
  xo_bounds : xbounds x;
  xo_balance : forall t net nd n, t < st_horizon s -> node_at s net nd = Some n -> xbalance x t net nd n;
  xo_storage : forall t net nd n, t < st_horizon s -> node_at s net nd = Some n -> xstorage x t net nd n;
  xo_mix : forall t name v, t < st_horizon s -> conv_at s name = Some v -> xmix x t name v
}.

Lemma node_tags_load net nd t n : qsum (map lc_qty (ln_cons (pnode net nd t scn n))) = qsum (map (fun c => value (c_qty c) scn t) (n_cons n)).
Proof. simpl. rewrite map_mapi. simpl. now rewrite mapi_map. Qed.

Theorem sat_iff p vs x : build s scn = Ok (p, vs) -> (satisfies p x <-> xok x).
Proof.
  intros B. destruct (build_ok s scn Hscn Hs) as (p' & B' & V & K & O). rewrite B in B'. inversion B'; subst p' vs.
  assert (TG : forall P : tag -> Prop, (forall k, In k (sv_cons p) -> within (k_lb k) (lin (k_coefs k) x) (k_ub k)) <->
     (forall g, In g (g_tags (program s scn)) -> let k := interp (g_ops (program s scn)) g in within (k_lb k) (lin (k_coefs k) x) (k_ub k))).
  { intros _. rewrite K. split.
    - intros H g I. apply H. apply in_map; auto.
    - intros H k I. apply in_map_iff in I as (g & <- & I). apply H; auto. }
  assert (GT : g_tags (program s scn) = over (fun t net nd n => node_tags net nd t (pnode net nd t scn n))
                                             (fun t name v => conv_tags name t (pconv name t scn v))).
  { unfold program. simpl. rewrite app_nil_r. apply (over_proj g_tags); auto. }
  specialize (TG (fun _ => True)). split.
  - intros [SV SC]. rewrite V in SV. pose proof (proj1 TG SC) as ST. rewrite GT in ST.
    constructor.
    + apply bounds_iff. auto.
    + intros t net nd n T N.
      specialize (ST (TAdq (t, net, nd) (qsum (map lc_qty (ln_cons (pnode net nd t scn n)))))).
      assert (I : In (TAdq (t, net, nd) (qsum (map lc_qty (ln_cons (pnode net nd t scn n)))))
               (over (fun t net nd n => node_tags net nd t (pnode net nd t scn n)) (fun t name v => conv_tags name t (pconv name t scn v)))).
      { apply over_In. exists t. split; auto. left. exists net, nd, n. split; auto. left. reflexivity. }
      specialize (ST I). cbv zeta in ST. cbn [interp k_lb k_ub] in ST.
      rewrite within_eq, (balance_lin x t net nd n) in ST by auto.
      unfold xbalance. rewrite node_tags_load in ST. auto.
    + intros t net nd n T N. unfold xstorage. destruct (n_stors n) as [|y r] eqn:E; auto.
      apply (stor_lin x t net nd y 0 eq_refl).
      apply (ST (TFix (stor_constr net nd t (LPStor (s_name y) (value (s_capacity y) scn t) (VCap net nd 0 t) (value (s_flow_in y) scn t) (VIn net nd 0 t)
                  (value (s_flow_out y) scn t) (VOut net nd 0 t) (value (s_cost y) scn t) (s_init y) (value (s_eff y) scn t))))).
      apply over_In. exists t. split; auto. left. exists net, nd, n. split; auto. right. unfold node_fix. simpl. rewrite E. simpl. auto.
    + intros t name v T N k q I. apply (mix_lin x t name k).
      apply (ST (TFix (Constr 0 0 (dset (VDest name t) (-1)%Q (dset (vsrc name t k) (value q scn t) []))))).
      apply over_In. exists t. split; auto. right. exists name, v. split; auto.
      unfold conv_tags. simpl. unfold dmap. rewrite map_map. apply in_map_iff. exists (k, q). auto.
  - intros [XB XA XS XM]. constructor.
    + rewrite V. apply bounds_iff. auto.
    + apply TG. rewrite GT. intros g I. apply over_In in I as (t & T & [(net & nd & n & N & I) | (name & v & N & I)]); auto.
      * destruct I as [<-|I].
        -- cbv zeta. cbn [interp k_lb k_ub]. rewrite within_eq, (balance_lin x t net nd n) by auto.
           rewrite node_tags_load. apply XA; auto.
        -- unfold node_fix in I. simpl in I. specialize (XS t net nd n T N). unfold xstorage in XS.
           destruct (n_stors n) as [|y r]; simpl in I; [tauto|]. destruct I as [<-|[]]. cbn [interp].
           apply stor_lin; auto.
      * unfold conv_tags in I. simpl in I. unfold dmap in I. rewrite map_map in I. apply in_map_iff in I as ([k q] & <- & I).
        cbn [interp fst snd]. apply mix_lin. apply (XM t name v); auto.
Qed.

Theorem objective_value p vs x : build s scn = Ok (p, vs) -> (objective p x == xcost x)%Q.
Proof.
  intros B. destruct (build_ok s scn Hscn Hs) as (p' & B' & V & K & O). rewrite B in B'. inversion B'; subst p' vs.
  unfold objective. rewrite O. apply obj_value.
Qed.
End Sat.
