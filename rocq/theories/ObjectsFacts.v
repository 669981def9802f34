(** Lemmas on comparison and hashing of objects. *)
From Coq Require Import String Ascii List ZArith QArith Bool Arith Lia Permutation Sorted.
From Verif Require Import Base BaseFacts Numeric Study Output Objects SpecObjects.
Import ListNotations.
Open Scope nat_scope.
Open Scope string_scope.
Open Scope list_scope.

(** ** Induction over objects *)
Section Induction.
  Variable P : pobj -> Prop.
  Hypotheses (HNone : P ONone) (HNum : forall q, P (ONum q)) (HStr : forall s, P (OStr s))
    (HArr : forall i a, P (OArr i a)) (HList : forall l, Forall P l -> P (OList l))
    (HDict : forall d, Forall (fun kv => P (snd kv)) d -> P (ODict d))
    (HObj : forall c f, Forall (fun kv => P (snd kv)) f -> P (OObj c f)).
  Fixpoint pobj_induction (x : pobj) : P x.
  Proof.
    destruct x.
    - exact HNone.
    - apply HNum.
    - apply HStr.
    - apply HArr.
    - apply HList. induction l; constructor; auto.
    - apply HDict. induction d as [|[k v] d IH]; constructor; simpl; auto.
    - apply HObj. induction fields as [|[k v] d IH]; constructor; simpl; auto.
  Defined.
End Induction.

(** ** Depth *)
Lemma depth_list l x : In x l -> depth x < depth (OList l).
Proof.
  simpl. induction l as [|y l IH]; simpl; [tauto|]. intros [->|I]; [lia|]. specialize (IH I). lia.
Qed.
Lemma depth_vals {K} (d : list (K * pobj)) k x : In (k, x) d ->
  depth x <= fold_right (fun kv m => Nat.max (depth (snd kv)) m) 0 d.
Proof.
  induction d as [|y d IH]; simpl; [tauto|]. intros [->|I]; [simpl; lia|]. specialize (IH I). lia.
Qed.
Lemma depth_dict d k x : In (k, x) d -> depth x < depth (ODict d).
Proof. intros I. simpl. pose proof (depth_vals d k x I). lia. Qed.
Lemma depth_obj c f k x : In (k, x) f -> depth x < depth (OObj c f).
Proof. intros I. simpl. pose proof (depth_vals f k x I). lia. Qed.

(** ** Objects with distinct keys and arrays that are not empty *)
Fixpoint sound (x : pobj) : Prop :=
  match x with
  | OArr _ a => size_of (shape a) <> 0
  | OList l => (fix all l := match l with [] => True | y :: r => sound y /\ all r end) l
  | ODict d => NoDup (map fst d) /\ (fix all d := match d with [] => True | (_, y) :: r => sound y /\ all r end) d
  | OObj _ f => NoDup (map fst f) /\ (fix all f := match f with [] => True | (_, y) :: r => sound y /\ all r end) f
  | _ => True
  end.
Lemma sound_list l : sound (OList l) <-> Forall sound l.
Proof. simpl. induction l; [split; auto|]. rewrite Forall_cons_iff, IHl. tauto. Qed.
Lemma sound_vals {K} (d : list (K * pobj)) :
  (fix all d := match d with [] => True | (_, y) :: r => sound y /\ all r end) d <-> Forall (fun kv => sound (snd kv)) d.
Proof. induction d as [|[k v] d IH]; [split; auto|]. rewrite Forall_cons_iff, IH. simpl. tauto. Qed.
Lemma sound_dict d : sound (ODict d) <-> NoDup (map fst d) /\ Forall (fun kv => sound (snd kv)) d.
Proof. simpl. now rewrite sound_vals. Qed.
Lemma sound_obj c f : sound (OObj c f) <-> NoDup (map fst f) /\ Forall (fun kv => sound (snd kv)) f.
Proof. simpl. now rewrite sound_vals. Qed.

(** An array of two entries or more that belongs to nobody else. *)
Fixpoint heavy (x : pobj) : bool :=
  match x with
  | OArr i a => match i with None => Nat.leb 2 (size_of (shape a)) | Some _ => false end
  | OList l => existsb heavy l
  | ODict d => existsb (fun kv => heavy (snd kv)) d
  | OObj _ f => existsb (fun kv => heavy (snd kv)) f
  | _ => false
  end.

Lemma broadcast_self s : broadcast_rev s s = Some s.
Proof. induction s as [|n s IH]; simpl; auto. rewrite IH, Nat.eqb_refl. auto. Qed.
Lemma size_of_app s t : size_of (s ++ t) = size_of s * size_of t.
Proof. induction s; simpl; [lia|]. unfold size_of in *. simpl. rewrite IHs. lia. Qed.
Lemma size_of_rev s : size_of (rev s) = size_of s.
Proof. induction s; simpl; auto. rewrite size_of_app, IHs. simpl. lia. Qed.

Lemma dget_own {K V} `{EqB K} (d : dict K V) k v : NoDup (map fst d) -> In (k, v) d -> dget k d = Some v.
Proof. intros. apply In_dget; auto. Qed.

Section Self.
  Variables old swap : bool.
  Definition own (x : pobj) : res bool := if heavy x then Err ValueError else Ok true.

  Lemma all_own {A} (f : A -> res bool) (h : A -> bool) l :
    (forall x, In x l -> f x = if h x then Err ValueError else Ok true) ->
    all_equal f l = if existsb h l then Err ValueError else Ok true.
  Proof.
    induction l as [|x l IH]; simpl; intros F; auto.
    rewrite F by auto. destruct (h x); simpl; auto.
  Qed.

  Lemma dict_own {K} `{EqB K} (eq : pobj -> pobj -> res bool) (d : dict K pobj) : NoDup (map fst d) ->
    (forall k x, In (k, x) d -> eq x x = own x) ->
    dict_eq swap eq d d = if existsb (fun kv => heavy (snd kv)) d then Err ValueError else Ok true.
  Proof.
    intros N F. unfold dict_eq. rewrite Nat.eqb_refl. apply all_own. intros [k x] I. simpl.
    rewrite (dget_own d k x N I). destruct swap; apply (F k x I).
  Qed.

  (** Comparing an object with itself, or with a copy when its arrays are unshared. *)
  Lemma eq_self x : forall n, sound x -> depth x < n -> eq_upto old swap n x x = own x.
  Proof.
    induction x using pobj_induction; intros [|n] S D; try lia; unfold own; cbn [eq_upto heavy].
    - auto.
    - now rewrite (proj2 (Qeq_bool_iff q q) (Qeq_refl q)).
    - now rewrite String.eqb_refl.
    - destruct i as [i|]; simpl.
      + now rewrite Nat.eqb_refl.
      + simpl in S. unfold arr_eq. rewrite broadcast_self, size_of_rev.
        destruct (size_of (shape a)) as [|[|k]]; [lia| |reflexivity].
        simpl. now rewrite (proj2 (Qeq_bool_iff _ _) (Qeq_refl _)).
    - apply sound_list in S. rewrite Nat.eqb_refl.
      assert (L : forall y, In y l -> eq_upto old swap n y y = own y).
      { intros y I. rewrite Forall_forall in H, S. apply H; auto. pose proof (depth_list l y I). lia. }
      clear -L. induction l as [|y l IH]; simpl; auto. rewrite L by (simpl; auto). unfold own.
      destruct (heavy y); simpl; auto. apply IH. intros; apply L; simpl; auto.
    - apply sound_dict in S. destruct S as [N S]. apply dict_own; auto. intros k y I.
      rewrite Forall_forall in H, S. apply (H (k, y) I); [apply (S (k, y) I)|]. pose proof (depth_dict d k y I). simpl. lia.
    - apply sound_obj in S. destruct S as [N S]. rewrite String.eqb_refl. apply dict_own; auto. intros k y I.
      rewrite Forall_forall in H, S. apply (H (k, y) I); [apply (S (k, y) I)|]. pose proof (depth_obj c f k y I). simpl. lia.
  Qed.
End Self.

(** ** Deciding *)
Definition decides (r : res bool) (P : Prop) : Prop := exists b, r = Ok b /\ (b = true <-> P).

Lemma decides_ext r P Q : decides r P -> (P <-> Q) -> decides r Q.
Proof. intros (b & E & D) PQ. exists b. split; auto. now rewrite D. Qed.
Lemma decides_true r : r = Ok true -> decides r True.
Proof. intros ->. exists true. split; auto. tauto. Qed.
Lemma decides_false r P : r = Ok false -> ~ P -> decides r P.
Proof. intros -> N. exists false. split; auto. split; [discriminate|tauto]. Qed.
Lemma decides_str s t : decides (Ok (String.eqb s t)) (s = t).
Proof. exists (String.eqb s t). split; auto. apply String.eqb_eq. Qed.
Lemma decides_num p q : decides (Ok (Qeq_bool p q)) (p == q)%Q.
Proof. exists (Qeq_bool p q). split; auto. apply Qeq_bool_iff. Qed.

Lemma all_decides {A} (f : A -> res bool) (P : A -> Prop) l :
  (forall x, In x l -> decides (f x) (P x)) -> decides (all_equal f l) (Forall P l).
Proof.
  induction l as [|x l IH]; simpl; intros D.
  - exists true. split; auto. split; auto.
  - destruct (D x (or_introl eq_refl)) as (b & -> & B). simpl. destruct b.
    + destruct IH as (c & -> & C); [auto|]. exists c. split; auto. rewrite C, Forall_cons_iff.
      destruct B as [B _]. specialize (B eq_refl). tauto.
    + exists false. split; auto. split; [discriminate|]. rewrite Forall_cons_iff. intros [Px _]. apply B in Px. discriminate.
Qed.

Lemma list_decides {A} (f : A -> pobj) (eq : pobj -> pobj -> res bool) (R : A -> A -> Prop) l m :
  (forall x y, In x l -> In y m -> decides (eq (f x) (f y)) (R x y)) ->
  decides (if Nat.eqb (List.length (map f l)) (List.length (map f m))
           then all_equal (fun xy => eq (fst xy) (snd xy)) (combine (map f l) (map f m)) else Ok false) (Forall2 R l m).
Proof.
  rewrite !map_length. intros D. destruct (Nat.eqb_spec (List.length l) (List.length m)) as [L|L].
  - revert m L D. induction l as [|x l IH]; intros [|y m] L D; try discriminate; simpl.
    + exists true. split; auto. split; auto.
    + destruct (D x y (or_introl eq_refl) (or_introl eq_refl)) as (b & -> & B). simpl. destruct b.
      * destruct (IH m) as (c & -> & C); [simpl in L; lia | intros; apply D; simpl; auto |].
        exists c. split; auto. rewrite C. destruct B as [B _]. specialize (B eq_refl). split; [constructor; auto|].
        intros F; inversion F; auto.
      * exists false. split; auto. split; [discriminate|]. intros F; inversion F; subst. apply B. auto.
  - apply decides_false; auto. intros F. apply L. clear -F. induction F; simpl; auto.
Qed.

Lemma same_map_ext {K V} `{EqB K} (R : V -> V -> Prop) (d e : dict K V) : NoDup (map fst d) -> NoDup (map fst e) ->
  (List.length d = List.length e /\ Forall (fun kv => exists w, dget (fst kv) e = Some w /\ R (snd kv) w) d <-> same_map R d e).
Proof.
  intros Nd Ne. split.
  - intros [L F] k. rewrite Forall_forall in F. destruct (dget k d) as [x|] eqn:Ex.
    + destruct (F (k, x) (dget_In _ _ _ Ex)) as (w & Ew & Rw). simpl in *. now rewrite Ew.
    + destruct (dget k e) as [y|] eqn:Ey; auto. apply dget_None in Ex. apply Ex.
      assert (I : incl (map fst e) (map fst d)).
      { apply NoDup_length_incl; auto; [now rewrite !map_length, L|]. intros k' I. apply in_map_iff in I.
        destruct I as ([k2 x] & <- & I). destruct (F _ I) as (w & Ew & _). simpl in Ew. apply dget_In_keys in Ew. auto. }
      apply I. eapply dget_In_keys; eauto.
  - intros S. assert (I : forall k, In k (map fst d) <-> In k (map fst e)).
    { intros k. specialize (S k). destruct (dget k d) as [x|] eqn:Ex, (dget k e) as [y|] eqn:Ey; try tauto.
      - split; intros; eapply dget_In_keys; eauto.
      - apply dget_None in Ex, Ey. unfold dkeys in *. tauto. }
    split.
    + rewrite <- (map_length fst d), <- (map_length fst e). apply Nat.le_antisymm; apply NoDup_incl_length; auto; intros k; apply I.
    + rewrite Forall_forall. intros [k x] In1. specialize (S k). rewrite (dget_own d k x Nd In1) in S. simpl.
      destruct (dget k e) as [y|]; [eauto|tauto].
Qed.

(** A dictionary of objects made from a dictionary of values by a one-to-one map of keys. *)
Lemma dget_keyed {K V W} `{EqB K} (g : K -> pkey) (f : V -> W) (d : dict K V) k :
  (forall a b, g a = g b -> a = b) ->
  dget (g k) (map (fun kv => (g (fst kv), f (snd kv))) d) = option_map f (dget k d).
Proof.
  intros G. induction d as [|[k' v] d IH]; simpl; auto.
  destruct (eqb k k') eqn:E.
  - apply eqb_eq in E. subst. now rewrite (proj2 (pkey_eqb_eq _ _) eq_refl).
  - destruct (pkey_eqb (g k) (g k')) eqn:E'; auto. apply pkey_eqb_eq in E'. apply G in E'. subst.
    rewrite (proj2 (eqb_eq k' k') eq_refl) in E. discriminate.
Qed.

Lemma dict_decides {K V} `{EqB K} (g : K -> pkey) (f : V -> pobj) (swap : bool) (eq : pobj -> pobj -> res bool) (R : V -> V -> Prop) (d e : dict K V) :
  (forall a b, g a = g b -> a = b) -> NoDup (map fst d) -> NoDup (map fst e) -> (forall x y, R x y -> R y x) ->
  (forall k x y, In (k, x) d -> In (k, y) e -> decides (eq (f x) (f y)) (R x y) /\ decides (eq (f y) (f x)) (R y x)) ->
  decides (dict_eq swap eq (map (fun kv => (g (fst kv), f (snd kv))) d) (map (fun kv => (g (fst kv), f (snd kv))) e)) (same_map R d e).
Proof.
  intros G Nd Ne Sy D. unfold dict_eq. rewrite !map_length.
  apply decides_ext with (List.length d = List.length e /\ Forall (fun kv => exists w, dget (fst kv) e = Some w /\ R (snd kv) w) d);
    [|apply same_map_ext; auto].
  destruct (Nat.eqb_spec (List.length d) (List.length e)) as [L|L]; [|apply decides_false; tauto].
  apply decides_ext with (Forall (fun kv => exists w, dget (fst kv) e = Some w /\ R (snd kv) w) d); [|tauto].
  assert (X : forall l, incl l d -> decides (all_equal (fun kv => match dget (fst kv) (map (fun kv => (g (fst kv), f (snd kv))) e) with
                                   | None => Ok false | Some w => if swap then eq w (snd kv) else eq (snd kv) w end)
                                  (map (fun kv => (g (fst kv), f (snd kv))) l))
                     (Forall (fun kv => exists w, dget (fst kv) e = Some w /\ R (snd kv) w) l)).
  { intros l I. induction l as [|[k x] l IH]; simpl.
    - exists true. split; auto. split; auto.
    - rewrite (dget_keyed g f e k G). assert (J : In (k, x) d) by (apply I; simpl; auto).
      destruct IH as (c & Ec & C); [intros y Iy; apply I; simpl; auto|].
      destruct (dget k e) as [y|] eqn:Ey; simpl.
      + destruct (D k x y J (dget_In _ _ _ Ey)) as [D1 D2].
        assert (DD : decides (if swap then eq (f y) (f x) else eq (f x) (f y)) (R x y)).
        { destruct swap; auto. apply decides_ext with (R y x); auto. split; apply Sy. }
        destruct DD as (b & -> & B). simpl. destruct b.
        * exists c. split; auto. rewrite C, Forall_cons_iff. simpl. rewrite Ey. destruct B as [B _]. specialize (B eq_refl).
          split; [intros F; split; eauto|tauto].
        * exists false. split; auto. split; [discriminate|]. rewrite Forall_cons_iff. simpl. rewrite Ey.
          intros [(w & Ew & Rw) _]. inversion Ew; subst. apply B. auto.
      + exists false. split; auto. split; [discriminate|]. rewrite Forall_cons_iff. simpl. rewrite Ey.
        intros [(w & Ew & _) _]. discriminate. }
  apply X. intros y; auto.
Qed.

(** Attributes with the same names in the same order. *)
Lemma fields_decide (swap : bool) (eq : pobj -> pobj -> res bool) (f f' : list (string * pobj)) (P : string -> Prop) :
  map fst f = map fst f' -> NoDup (map fst f) ->
  (forall k x y, In (k, x) f -> dget k f' = Some y -> decides (eq x y) (P k) /\ decides (eq y x) (P k)) ->
  decides (dict_eq swap eq f f') (Forall P (map fst f)).
Proof.
  intros M N D. unfold dict_eq. rewrite <- (map_length fst f), M, map_length, Nat.eqb_refl.
  rewrite <- M. apply decides_ext with (Forall (fun kv => P (fst kv)) f); [|symmetry; apply Forall_map]. apply all_decides. intros [k x] I. simpl.
  assert (J : In k (map fst f')) by (rewrite <- M; apply (in_map fst _ _ I)).
  destruct (dget k f') as [y|] eqn:Ey; [|apply dget_None in Ey; unfold dkeys in Ey; tauto].
  destruct (D k x y I Ey). destruct swap; auto.
Qed.

(** ** Sharing does not matter for objects without arrays of several entries *)
Fixpoint tame (x : pobj) : Prop :=
  match x with
  | OArr _ a => size_of (shape a) = 1
  | OList l => (fix all l := match l with [] => True | y :: r => tame y /\ all r end) l
  | ODict d => (fix all d := match d with [] => True | (_, y) :: r => tame y /\ all r end) d
  | OObj _ f => (fix all f := match f with [] => True | (_, y) :: r => tame y /\ all r end) f
  | _ => True
  end.
Lemma tame_list l : tame (OList l) <-> Forall tame l.
Proof. simpl. induction l; [split; auto|]. rewrite Forall_cons_iff, IHl. tauto. Qed.
Lemma tame_vals {K} (d : list (K * pobj)) :
  (fix all d := match d with [] => True | (_, y) :: r => tame y /\ all r end) d <-> Forall (fun kv => tame (snd kv)) d.
Proof. induction d as [|[k v] d IH]; [split; auto|]. rewrite Forall_cons_iff, IH. simpl. tauto. Qed.

(** The arrays of an object, with their identities. *)
Fixpoint arrays (x : pobj) : list (option nat * ndarray) :=
  match x with
  | OArr i a => [(i, a)]
  | OList l => flat_map arrays l
  | ODict d => flat_map (fun kv => arrays (snd kv)) d
  | OObj _ f => flat_map (fun kv => arrays (snd kv)) f
  | _ => []
  end.

Lemma dget_map {K V W} `{EqB K} (f : V -> W) (d : dict K V) k :
  dget k (map (fun kv => (fst kv, f (snd kv))) d) = option_map f (dget k d).
Proof. induction d as [|[k' v] d IH]; simpl; auto. destruct (eqb k k'); auto. Qed.

(** One identity is one array. *)
Definition coherent (x y : pobj) : Prop :=
  forall i a b, In (Some i, a) (arrays x) -> In (Some i, b) (arrays y) -> a = b.

Lemma all_equal_ext {A} (f g : A -> res bool) l : (forall x, In x l -> f x = g x) -> all_equal f l = all_equal g l.
Proof. induction l; simpl; intros E; auto. rewrite E by auto. destruct (g a) as [[]|]; simpl; auto. Qed.
Lemma all_equal_map {A B} (f : B -> res bool) (g : A -> B) l : all_equal f (map g l) = all_equal (fun x => f (g x)) l.
Proof. induction l; simpl; auto. now rewrite IHl. Qed.
Lemma combine_map2 {A B C D} (f : A -> C) (g : B -> D) l m :
  combine (map f l) (map g m) = map (fun xy => (f (fst xy), g (snd xy))) (combine l m).
Proof. revert m; induction l; intros [|y m]; simpl; auto. now rewrite IHl. Qed.

Lemma coherent_sym x y : coherent x y -> coherent y x.
Proof. intros C i a b I J. symmetry. eapply C; eauto. Qed.

Lemma dict_eq_unshare {K} `{EqB K} swap (eq eq' : pobj -> pobj -> res bool) (d e : dict K pobj) :
  (forall k l x y, In (k, x) d -> In (l, y) e -> eq x y = eq' (unshare x) (unshare y) /\ eq y x = eq' (unshare y) (unshare x)) ->
  dict_eq swap eq d e = dict_eq swap eq' (map (fun kv => (fst kv, unshare (snd kv))) d) (map (fun kv => (fst kv, unshare (snd kv))) e).
Proof.
  intros E. unfold dict_eq. rewrite !map_length. destruct (Nat.eqb _ _); auto. rewrite all_equal_map. simpl.
  apply all_equal_ext. intros [k x] I. simpl. rewrite dget_map. destruct (dget k e) as [y|] eqn:Ey; simpl; auto.
  destruct (E k k x y I (dget_In _ _ _ Ey)). destruct swap; auto.
Qed.

Lemma eq_unshare old swap : forall n x y, tame x -> tame y -> coherent x y ->
  eq_upto old swap n x y = eq_upto old swap n (unshare x) (unshare y).
Proof.
  induction n as [|n IH]; intros x y Tx Ty C; auto.
  destruct x, y; auto.
  - cbn [eq_upto unshare same_object]. destruct (same_object id id0) eqn:S; auto.
    destruct id as [i|], id0 as [j|]; try discriminate. simpl in S. apply Nat.eqb_eq in S. subst j.
    assert (a = a0) by (apply (C i a a0); simpl; auto). subst a0. simpl in Tx.
    unfold arr_eq. rewrite broadcast_self, size_of_rev, Tx. now rewrite (proj2 (Qeq_bool_iff _ _) (Qeq_refl _)).
  - cbn [eq_upto unshare]. rewrite !map_length. destruct (Nat.eqb _ _); auto.
    rewrite combine_map2, all_equal_map. simpl. apply all_equal_ext. intros [x y] I. simpl.
    apply tame_list in Tx, Ty. rewrite Forall_forall in Tx, Ty.
    pose proof (in_combine_l _ _ _ _ I) as I1. pose proof (in_combine_r _ _ _ _ I) as I2. apply IH; auto.
    intros i a b J1 J2. apply (C i a b); simpl; apply in_flat_map; eauto.
  - cbn [eq_upto unshare]. simpl in Tx, Ty. rewrite tame_vals in Tx, Ty. rewrite Forall_forall in Tx, Ty.
    apply dict_eq_unshare. intros k l x y I J. assert (CC : coherent x y).
    { intros i a b J1 J2. apply (C i a b); simpl; apply in_flat_map; eauto. }
    split; apply IH; auto using coherent_sym; try apply (Tx _ I); apply (Ty _ J).
  - cbn [eq_upto unshare]. destruct (String.eqb _ _); auto.
    simpl in Tx, Ty. rewrite tame_vals in Tx, Ty. rewrite Forall_forall in Tx, Ty.
    apply dict_eq_unshare. intros k l x y I J. assert (CC : coherent x y).
    { intros i a b J1 J2. apply (C i a b); simpl; apply in_flat_map; eauto. }
    split; apply IH; auto using coherent_sym; try apply (Tx _ I); apply (Ty _ J).
Qed.

Lemma fold_max_map {K} (g : pobj -> pobj) (d : list (K * pobj)) : (forall k x, In (k, x) d -> depth (g x) = depth x) ->
  fold_right (fun kv m => Nat.max (depth (snd kv)) m) 0 (map (fun kv => (fst kv, g (snd kv))) d) =
  fold_right (fun kv m => Nat.max (depth (snd kv)) m) 0 d.
Proof.
  induction d as [|[k x] d IH]; simpl; intros E; auto. rewrite (E k x) by auto. rewrite IH; auto. intros; eapply E; eauto.
Qed.
Lemma depth_unshare x : depth (unshare x) = depth x.
Proof.
  induction x using pobj_induction; simpl; auto.
  - f_equal. rewrite Forall_forall in H. induction l as [|y l IH]; simpl; auto. rewrite H by (simpl; auto).
    rewrite IH; auto. intros; apply H; simpl; auto.
  - f_equal. apply fold_max_map. intros k x I. rewrite Forall_forall in H. apply (H _ I).
  - f_equal. apply fold_max_map. intros k x I. rewrite Forall_forall in H. apply (H _ I).
Qed.

Lemma tame_unshare x : tame (unshare x) <-> tame x.
Proof.
  induction x using pobj_induction; try reflexivity.
  - cbn [unshare]. rewrite !tame_list, Forall_map, !Forall_forall in *. split; intros T y I; specialize (T y I); apply (H y I); auto.
  - simpl. rewrite !tame_vals, Forall_map, !Forall_forall in *. simpl. split; intros T y I; specialize (T y I); apply (H y I); auto.
  - simpl. rewrite !tame_vals, Forall_map, !Forall_forall in *. simpl. split; intros T y I; specialize (T y I); apply (H y I); auto.
Qed.

Lemma sound_unshare x : sound (unshare x) <-> sound x.
Proof.
  induction x using pobj_induction; try reflexivity.
  - cbn [unshare]. rewrite !sound_list, Forall_map, !Forall_forall in *. split; intros T y I; specialize (T y I); apply (H y I); auto.
  - cbn [unshare]. rewrite !sound_dict, map_map. simpl. rewrite Forall_map, !Forall_forall in *. simpl.
    split; intros [N T]; (split; [auto|]); intros y I; specialize (T y I); apply (H y I); auto.
  - cbn [unshare]. rewrite !sound_obj, map_map. simpl. rewrite Forall_map, !Forall_forall in *. simpl.
    split; intros [N T]; (split; [auto|]); intros y I; specialize (T y I); apply (H y I); auto.
Qed.

Lemma py_eq_unshare old swap x y : tame x -> tame y -> coherent x y -> py_eq old swap x y = py_eq old swap (unshare x) (unshare y).
Proof. intros. unfold py_eq. rewrite !depth_unshare. now apply eq_unshare. Qed.

(** Any sufficient bound on the depth gives the same answer. *)
Lemma eq_enough old swap : forall n m x y, depth x + depth y < n -> depth x + depth y < m ->
  eq_upto old swap n x y = eq_upto old swap m x y.
Proof.
  induction n as [|n IH]; intros [|m] x y Dn Dm; try lia. cbn [eq_upto].
  assert (X : forall {K} `{EqB K} (d e : dict K pobj),
    (forall k z, In (k, z) d -> depth z < depth x) -> (forall k z, In (k, z) e -> depth z < depth y) ->
    dict_eq swap (eq_upto old swap n) d e = dict_eq swap (eq_upto old swap m) d e).
  { intros K EK d e Hd He. unfold dict_eq. destruct (Nat.eqb _ _); auto. apply all_equal_ext. intros [k z] I. simpl.
    destruct (dget k e) as [w|] eqn:Ew; auto. specialize (Hd k z I). specialize (He k w (dget_In _ _ _ Ew)).
    destruct swap; apply IH; lia. }
  destruct x, y; auto.
  - destruct (Nat.eqb _ _); auto. apply all_equal_ext. intros [z w] I. simpl.
    pose proof (depth_list l z (in_combine_l _ _ _ _ I)). pose proof (depth_list l0 w (in_combine_r _ _ _ _ I)). apply IH; lia.
  - apply X; apply depth_dict.
  - destruct (String.eqb _ _); auto. apply X; apply depth_obj.
Qed.

Lemma py_eq_upto old swap k x y : py_eq old swap x y = eq_upto old swap (k + S (depth x + depth y)) x y.
Proof. unfold py_eq. apply eq_enough; lia. Qed.

(** Attributes written out. *)
Lemma decides_and r P k R : decides r P -> decides k R -> decides (let* b := r in if b then k else Ok false) (P /\ R).
Proof.
  intros (b & -> & B) (c & -> & C). simpl. destruct b.
  - exists c. split; auto. rewrite C. destruct B as [B _]. specialize (B eq_refl). tauto.
  - exists false. split; auto. split; [discriminate|]. intros [p _]. apply B in p. discriminate.
Qed.
Lemma decides_swap (swap : bool) r r' P : decides r P -> decides r' P -> decides (if swap then r else r') P.
Proof. destruct swap; auto. Qed.
