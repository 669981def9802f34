(** Facts about [LP.v]: the program handed to the solver in closed form. *)
From Coq Require Import String List ZArith QArith Bool Arith Lia Lqa.
From Verif Require Import Base BaseFacts Numeric Study Fluent SpecStudy StudyFacts Output LP SpecLP.
Import ListNotations.
Open Scope nat_scope.

(** ** Indexed map *)
Fixpoint mapi {A C} (f : nat -> A -> C) (i : nat) (l : list A) : list C :=
  match l with
  | [] => []
  | x :: r => f i x :: mapi f (S i) r
  end.

Lemma map_mapi {A C D} (g : C -> D) (f : nat -> A -> C) l : forall i,
  map g (mapi f i l) = mapi (fun i x => g (f i x)) i l.
Proof. induction l; simpl; intros i; f_equal; auto. Qed.

Lemma mapi_map {A C} (f : A -> C) l : forall i, mapi (fun _ x => f x) i l = map f l.
Proof. induction l; simpl; intros i; f_equal; auto. Qed.

Lemma length_mapi {A C} (f : nat -> A -> C) l : forall i, length (mapi f i l) = length l.
Proof. induction l; simpl; auto. Qed.

Lemma nth_error_mapi {A C} (f : nat -> A -> C) l : forall i j,
  nth_error (mapi f i l) j = option_map (f (i + j)) (nth_error l j).
Proof.
  induction l; simpl; intros i [|j]; simpl; auto.
  - now rewrite Nat.add_0_r.
  - rewrite IHl. now rewrite Nat.add_succ_r.
Qed.

Lemma In_mapi {A C} (f : nat -> A -> C) l y : forall i,
  In y (mapi f i l) <-> exists j x, nth_error l j = Some x /\ y = f (i + j) x.
Proof.
  intros i. split.
  - intros I. apply In_nth_error in I as [j E]. rewrite nth_error_mapi in E.
    destruct (nth_error l j) as [x|] eqn:F; inversion E. eauto.
  - intros (j & x & E & ->). apply (nth_error_In _ j). rewrite nth_error_mapi, E. auto.
Qed.

Lemma mapi_ext {A C} (f g : nat -> A -> C) l : forall i,
  (forall j x, nth_error l j = Some x -> f (i + j) x = g (i + j) x) -> mapi f i l = mapi g i l.
Proof.
  induction l as [|a l IH]; simpl; intros i E; auto. f_equal.
  - specialize (E 0 a eq_refl). now rewrite Nat.add_0_r in E.
  - apply IH. intros j x F. specialize (E (S j) x F). now rewrite Nat.add_succ_r in E.
Qed.

(** ** Ghost log of the building phase *)
Inductive tag := TAdq (k : akey) (load : Q) | TFix (c : constr).

Record ghost := G {
  g_vars : list (var * (Q * Q)); g_tags : list tag; g_ops : list (akey * (var * Q));
  g_obj : list (var * Q); g_imp : list (ikey * var); g_cap : list (ikey * var) }.

Definition gnil : ghost := G [] [] [] [] [] [].
Definition gapp (a b : ghost) : ghost :=
  G (g_vars a ++ g_vars b) (g_tags a ++ g_tags b) (g_ops a ++ g_ops b)
    (g_obj a ++ g_obj b) (g_imp a ++ g_imp b) (g_cap a ++ g_cap b).
Definition gsum (l : list ghost) : ghost := fold_right gapp gnil l.

Lemma gapp_assoc a b c : gapp (gapp a b) c = gapp a (gapp b c).
Proof. unfold gapp; simpl. now rewrite !app_assoc. Qed.
Lemma gapp_nil_r a : gapp a gnil = a.
Proof. destruct a; unfold gapp; simpl. now rewrite !app_nil_r. Qed.
Lemma gapp_nil_l a : gapp gnil a = a.
Proof. destruct a; auto. Qed.
Lemma gsum_app a b : gsum (a ++ b) = gapp (gsum a) (gsum b).
Proof. induction a; simpl; [now rewrite gapp_nil_l | now rewrite IHa, gapp_assoc]. Qed.

Lemma gsum_split l : gsum l = G (flat_map g_vars l) (flat_map g_tags l) (flat_map g_ops l)
                                (flat_map g_obj l) (flat_map g_imp l) (flat_map g_cap l).
Proof. induction l; simpl; auto. rewrite IHl. reflexivity. Qed.

Definition sel (k : akey) (ops : list (akey * (var * Q))) : list (var * Q) :=
  map snd (filter (fun o => eqb (fst o) k) ops).

Definition interp (ops : list (akey * (var * Q))) (t : tag) : constr :=
  match t with
  | TAdq k l => Constr l l (dict_of (sel k ops))
  | TFix c => c
  end.

Definition has_tag (g : ghost) (k : akey) : Prop := exists l, In (TAdq k l) (g_tags g).

Record sim (b : bstate) (g : ghost) : Prop := {
  sim_vars : sv_vars (b_solver b) = g_vars g;
  sim_cons : sv_cons (b_solver b) = map (interp (g_ops g)) (g_tags g);
  sim_obj : sv_obj (b_solver b) = dict_of (g_obj g);
  sim_imp : b_imp b = dict_of (g_imp g);
  sim_cap : b_cap b = dict_of (g_cap g);
  sim_adq : forall h k l, nth_error (g_tags g) h = Some (TAdq k l) -> dget k (b_adq b) = Some h;
  sim_ops : forall o, In o (g_ops g) -> has_tag g (fst o)
}.

Lemma dict_of_snoc {K V} `{EqB K} (l : list (K * V)) k v : dict_of (l ++ [(k, v)]) = dset k v (dict_of l).
Proof. unfold dict_of. now rewrite fold_left_app. Qed.

Lemma sel_app k a b : sel k (a ++ b) = sel k a ++ sel k b.
Proof. unfold sel. now rewrite filter_app, map_app. Qed.

Lemma sim_init : sim b_init gnil.
Proof. constructor; auto; simpl; try tauto. intros [|h] k l E; discriminate. Qed.

(** Running [m] from a state with log [g] returns [r] with log [g']. *)
Definition moves {A} (g : ghost) (m : B A) (r : A) (g' : ghost) : Prop :=
  forall b, sim b g -> exists b', m b = (b', Ok r) /\ sim b' g'.

Lemma moves_bind {A C} g (m : B A) (k : A -> B C) a g1 r g2 :
  moves g m a g1 -> moves g1 (k a) r g2 -> moves g (sbind m k) r g2.
Proof.
  intros M1 M2 b S. destruct (M1 b S) as (b1 & E1 & S1). destruct (M2 b1 S1) as (b2 & E2 & S2).
  exists b2. split; auto. erewrite sbind_eq_ok by eauto. auto.
Qed.

Lemma moves_ret {A} g (a : A) : moves g (sret a) a g.
Proof. intros b S. exists b; auto. Qed.

Lemma moves_lift {A} g (r : res A) a : r = Ok a -> moves g (slift r) a g.
Proof. intros -> b S. exists b; auto. Qed.

Lemma moves_eq {A} g (m : B A) r g1 g2 : moves g m r g1 -> g1 = g2 -> moves g m r g2.
Proof. now intros M ->. Qed.

Definition gv l := G l [] [] [] [] [].
Definition gt l := G [] l [] [] [] [].
Definition gop l := G [] [] l [] [] [].
Definition gob l := G [] [] [] l [] [].
Definition gim l := G [] [] [] [] l [].
Definition gca l := G [] [] [] [] [] l.

Lemma has_tag_app_l g i k : has_tag g k -> has_tag (gapp g i) k.
Proof. intros [l I]. exists l. simpl. rewrite in_app_iff; auto. Qed.

Lemma moves_var g v lb ub : moves g (num_var v lb ub) v (gapp g (gv [(v, (lb, ub))])).
Proof.
  intros b S. destruct S. eexists; split; [reflexivity|].
  constructor; simpl; rewrite ?app_nil_r; auto.
  - now rewrite sim_vars0.
  - intros o I. apply has_tag_app_l; auto.
Qed.

Lemma moves_obj g v c : moves g (obj_coef v c) tt (gapp g (gob [(v, c)])).
Proof.
  intros b S. destruct S. eexists; split; [reflexivity|].
  constructor; simpl; rewrite ?app_nil_r; auto.
  - now rewrite dict_of_snoc, sim_obj0.
  - intros o I. apply has_tag_app_l; auto.
Qed.

Lemma moves_imp g k v : moves g (set_imp k v) tt (gapp g (gim [(k, v)])).
Proof.
  intros b S. destruct S. eexists; split; [reflexivity|].
  constructor; simpl; rewrite ?app_nil_r; auto.
  - now rewrite dict_of_snoc, sim_imp0.
  - intros o I. apply has_tag_app_l; auto.
Qed.

Lemma moves_cap g k v : moves g (set_cap k v) tt (gapp g (gca [(k, v)])).
Proof.
  intros b S. destruct S. eexists; split; [reflexivity|].
  constructor; simpl; rewrite ?app_nil_r; auto.
  - now rewrite dict_of_snoc, sim_cap0.
  - intros o I. apply has_tag_app_l; auto.
Qed.

Lemma map_upd_nth_ext {A C} (f f' : A -> C) (u : C -> C) (l : list A) h :
  (forall i x, nth_error l i = Some x -> f' x = if h =? i then u (f x) else f x) ->
  upd_nth h u (map f l) = map f' l.
Proof.
  intros E. apply nth_error_ext. intros i. rewrite nth_error_upd_nth, !nth_error_map.
  specialize (E i). destruct (nth_error l i); simpl; [|destruct (h =? i); auto].
  rewrite (E a eq_refl). destruct (h =? i); auto.
Qed.

Lemma moves_adq g k v c : has_tag g k -> moves g (adq_coef k v c) tt (gapp g (gop [(k, (v, c))])).
Proof.
  intros [l I] b S. destruct S. apply In_nth_error in I as [h E].
  pose proof (sim_adq0 _ _ _ E) as D.
  eexists; split.
  - unfold adq_coef. erewrite sbind_eq_ok by reflexivity. erewrite sbind_eq_ok.
    2:{ unfold slift, dlook. rewrite D. reflexivity. }
    reflexivity.
  - constructor; simpl; rewrite ?app_nil_r; auto.
    + rewrite sim_cons0. apply map_upd_nth_ext. intros i x F. destruct x as [k' l'|c']; simpl.
      * rewrite sel_app. unfold sel at 2. simpl. destruct (h =? i) eqn:Hi.
        -- apply Nat.eqb_eq in Hi; subst i. rewrite E in F. inversion F; subst.
           change (pair_eqb k' k') with (eqb k' k'). rewrite eqb_refl. simpl. now rewrite dict_of_snoc.
        -- change (pair_eqb k k') with (eqb k k'). destruct (eqb k k') eqn:EK; simpl.
           ++ apply eqb_eq in EK; subst. apply sim_adq0 in F. rewrite D in F. inversion F; subst.
              rewrite Nat.eqb_refl in Hi. discriminate.
           ++ now rewrite app_nil_r.
      * destruct (h =? i) eqn:Hi; auto. apply Nat.eqb_eq in Hi; subst. rewrite E in F. discriminate.
    + intros o. rewrite in_app_iff. intros [J | [<- | []]]; apply has_tag_app_l; auto.
      simpl. exists l. eapply nth_error_In; eauto.
Qed.

Lemma sel_nil g b k : sim b g -> ~ has_tag g k -> sel k (g_ops g) = [].
Proof.
  intros S N. unfold sel. destruct (filter _ _) as [|o r] eqn:E; auto. exfalso. apply N.
  assert (I : In o (filter (fun o => eqb (fst o) k) (g_ops g))) by (rewrite E; simpl; auto).
  apply filter_In in I as [I J]. apply eqb_eq in J. subst. eapply sim_ops; eauto.
Qed.

Lemma moves_new_adq {A} g k l (m : B A) r g' : ~ has_tag g k ->
  moves (gapp g (gt [TAdq k l])) m r g' ->
  moves g (do h <- new_constraint l l; (set_adq k h;; m)) r g'.
Proof.
  intros N M b S. pose proof (sel_nil _ _ _ S N) as SN. destruct S.
  destruct (M (BState (Solver (sv_vars (b_solver b)) (sv_cons (b_solver b) ++ [Constr l l []]) (sv_obj (b_solver b)))
                      (dset k (length (sv_cons (b_solver b))) (b_adq b)) (b_imp b) (b_cap b)))
    as (b' & E & S'); [|exists b'; split; auto].
  - constructor; simpl; rewrite ?app_nil_r; auto.
    + rewrite map_app, sim_cons0. simpl. rewrite SN. reflexivity.
    + intros h k' l' E. rewrite sim_cons0, map_length. destruct (Nat.eq_dec h (length (g_tags g))) as [->|NE].
      * rewrite nth_error_app2, Nat.sub_diag in E by lia. simpl in E. inversion E; subst. apply dget_dset_eq.
      * destruct (Nat.lt_ge_cases h (length (g_tags g))) as [L|L].
        -- rewrite nth_error_app1 in E by auto. rewrite dget_dset_neq; eauto.
           intros ->. apply N. exists l'. eapply nth_error_In; eauto.
        -- rewrite nth_error_app2 in E by lia. destruct (h - length (g_tags g)) as [|x] eqn:X; [lia|].
           simpl in E. destruct x; discriminate.
    + intros o I. apply has_tag_app_l; auto.
Qed.

(** A constraint of the other builders, filled in place. *)
Lemma moves_new_fix {A} g l u (k : nat -> B A) r g' :
  moves (gapp g (gt [TFix (Constr l u [])])) (k (length (g_tags g))) r g' ->
  moves g (do h <- new_constraint l u; k h) r g'.
Proof.
  intros M b S. destruct S.
  destruct (M (BState (Solver (sv_vars (b_solver b)) (sv_cons (b_solver b) ++ [Constr l u []]) (sv_obj (b_solver b)))
                      (b_adq b) (b_imp b) (b_cap b)))
    as (b' & E & S').
  - constructor; simpl; rewrite ?app_nil_r; auto.
    + rewrite map_app, sim_cons0. reflexivity.
    + intros h k' l' E. destruct (Nat.lt_ge_cases h (length (g_tags g))) as [L|L].
      * rewrite nth_error_app1 in E by auto. eauto.
      * rewrite nth_error_app2 in E by lia. destruct (h - length (g_tags g)) as [|[|x]]; discriminate.
    + intros o I. apply has_tag_app_l; auto.
  - exists b'. split; auto. erewrite sbind_eq_ok by reflexivity.
    rewrite sim_cons0 in *. rewrite map_length. exact E.
Qed.

Lemma moves_set_coef g l u d v c :
  moves (gapp g (gt [TFix (Constr l u d)])) (set_coef (length (g_tags g)) v c) tt
        (gapp g (gt [TFix (Constr l u (dset v c d))])).
Proof.
  intros b S. destruct S. simpl in *. rewrite !app_nil_r in *. eexists; split; [reflexivity|].
  constructor; simpl; rewrite ?app_nil_r; auto.
  - rewrite sim_cons0. rewrite !map_app. simpl.
    apply nth_error_ext. intros i. rewrite nth_error_upd_nth.
    destruct (Nat.lt_ge_cases i (length (g_tags g))) as [L|L].
    + rewrite !nth_error_app1 by (rewrite map_length; auto).
      rewrite (proj2 (Nat.eqb_neq _ _)) by lia. auto.
    + rewrite !nth_error_app2 by (rewrite map_length; auto). rewrite map_length.
      destruct (Nat.eq_dec i (length (g_tags g))) as [->|NE].
      * rewrite Nat.eqb_refl, Nat.sub_diag. reflexivity.
      * rewrite (proj2 (Nat.eqb_neq _ _)) by lia.
        destruct (i - length (g_tags g)) as [|[|x]] eqn:X; try lia; auto.
  - intros h k' l' E. apply (sim_adq0 h k' l'). destruct (Nat.lt_ge_cases h (length (g_tags g))) as [L|L].
    + rewrite nth_error_app1 in * by auto. auto.
    + rewrite nth_error_app2 in E by lia. destruct (h - length (g_tags g)) as [|[|x]]; discriminate.
  - intros o I. destruct (sim_ops0 o I) as [l' J]. exists l'. simpl in *.
    rewrite in_app_iff in *. simpl in *. destruct J as [J | [J | []]]; [auto | discriminate].
Qed.

(** ** Loops *)
Lemma sfor_moves {A} (f : A -> B unit) (inc : A -> ghost) l : forall g,
  (forall pre x post, l = pre ++ x :: post ->
     moves (gapp g (gsum (map inc pre))) (f x) tt (gapp (gapp g (gsum (map inc pre))) (inc x))) ->
  moves g (sfor f l) tt (gapp g (gsum (map inc l))).
Proof.
  induction l as [|x r IH]; intros g F; simpl.
  - rewrite gapp_nil_r. apply moves_ret.
  - eapply moves_bind with (a := tt) (g1 := gapp g (inc x)).
    + specialize (F [] x r eq_refl). simpl in F. now rewrite gapp_nil_r in F.
    + rewrite <- gapp_assoc. apply IH. intros pre y post ->.
      specialize (F (x :: pre) y post eq_refl). simpl in F. now rewrite <- gapp_assoc in F.
Qed.

Lemma smapi_moves {A C} (f : nat -> A -> B C) (r : nat -> A -> C) (inc : nat -> A -> ghost) l : forall i g,
  (forall pre x post, l = pre ++ x :: post ->
     moves (gapp g (gsum (mapi inc i pre))) (f (i + length pre) x) (r (i + length pre) x)
           (gapp (gapp g (gsum (mapi inc i pre))) (inc (i + length pre) x))) ->
  moves g (smapi f i l) (mapi r i l) (gapp g (gsum (mapi inc i l))).
Proof.
  induction l as [|x t IH]; intros i g F; simpl.
  - rewrite gapp_nil_r. apply moves_ret.
  - eapply moves_bind with (a := r i x) (g1 := gapp g (inc i x)).
    + specialize (F [] x t eq_refl). simpl in F. rewrite gapp_nil_r, Nat.add_0_r in F. exact F.
    + eapply moves_bind; [|apply moves_ret].
      rewrite <- gapp_assoc. apply IH. intros pre y post ->.
      specialize (F (x :: pre) y post eq_refl). simpl in F.
      rewrite <- gapp_assoc, Nat.add_succ_r in F. exact F.
Qed.

(** When every iteration does the same whatever came before. *)
Lemma sfor_moves_all {A} (f : A -> B unit) (inc : A -> ghost) l g :
  (forall x i, In x l -> moves (gapp g i) (f x) tt (gapp (gapp g i) (inc x))) ->
  moves g (sfor f l) tt (gapp g (gsum (map inc l))).
Proof.
  intros F. apply sfor_moves. intros pre x post ->. apply F. rewrite in_app_iff; simpl; auto.
Qed.

Lemma smapi_moves_all {A C} (f : nat -> A -> B C) r inc l i g :
  (forall j x g, In x l -> moves g (f j x) (r j x) (gapp g (inc j x))) ->
  moves g (smapi f i l) (mapi r i l) (gapp g (gsum (mapi inc i l))).
Proof.
  intros F. apply smapi_moves. intros pre x post ->. apply F. rewrite in_app_iff; simpl; auto.
Qed.
