(** Hashing of the objects of a study agrees with their equality: C69. *)
From Coq Require Import String Ascii List ZArith QArith Bool Arith Lia Permutation Sorted.
From Verif Require Import Base BaseFacts Numeric Study Output Objects SpecObjects ObjectsFacts P_Objects.
Import ListNotations.
Open Scope nat_scope.
Open Scope string_scope.
Open Scope list_scope.

(** ** Order of attribute names *)
Lemma str_leb_total a b : str_leb a b = true \/ str_leb b a = true.
Proof.
  revert b. induction a as [|x a IH]; intros [|y b]; simpl; auto.
  destruct (Nat.lt_trichotomy (nat_of_ascii x) (nat_of_ascii y)) as [L|[E|L]].
  - left. apply Nat.ltb_lt in L. now rewrite L.
  - rewrite E, Nat.eqb_refl, Nat.ltb_irrefl. simpl. apply IH.
  - right. apply Nat.ltb_lt in L. now rewrite L.
Qed.
Lemma str_leb_anti a b : str_leb a b = true -> str_leb b a = true -> a = b.
Proof.
  revert b. induction a as [|x a IH]; intros [|y b]; simpl; auto; try discriminate.
  rewrite !orb_true_iff, !andb_true_iff, !Nat.ltb_lt, !Nat.eqb_eq. intros [L|[E S]] [L'|[E' S']]; try lia.
  f_equal; [|auto]. rewrite <- (ascii_nat_embedding x), <- (ascii_nat_embedding y). congruence.
Qed.
Lemma str_leb_trans a b c : str_leb a b = true -> str_leb b c = true -> str_leb a c = true.
Proof.
  revert b c. induction a as [|x a IH]; intros [|y b] [|z c]; simpl; auto; try discriminate.
  rewrite !orb_true_iff, !andb_true_iff, !Nat.ltb_lt, !Nat.eqb_eq. intros [L|[E S]] [L'|[E' S']]; try (left; lia).
  right. split; [lia|]. eauto.
Qed.

Definition item_le {V} (x y : string * V) : Prop := str_leb (fst x) (fst y) = true.
Lemma insert_perm {V} (x : string * V) l : Permutation (insert_item x l) (x :: l).
Proof. induction l as [|y l IH]; simpl; auto. destruct (str_leb _ _); auto. rewrite IH. apply perm_swap. Qed.
Lemma sort_perm {V} (l : list (string * V)) : Permutation (sort_items l) l.
Proof. induction l; simpl; auto. rewrite insert_perm. auto. Qed.
Lemma insert_sorted {V} (x : string * V) l : StronglySorted item_le l -> StronglySorted item_le (insert_item x l).
Proof.
  induction 1 as [|y l S IH F]; simpl; [repeat constructor|].
  destruct (str_leb (fst x) (fst y)) eqn:L.
  - constructor; [constructor; auto|]. constructor; auto. rewrite Forall_forall in *. intros z I. unfold item_le in *. eapply str_leb_trans; eauto.
  - constructor; auto. assert (L' : item_le y x) by (destruct (str_leb_total (fst x) (fst y)); [congruence | auto]).
    rewrite Forall_forall in *. intros z I. apply (Permutation_in _ (insert_perm x l)) in I. destruct I as [<-|I]; auto.
Qed.
Lemma sort_sorted {V} (l : list (string * V)) : StronglySorted item_le (sort_items l).
Proof. induction l; simpl; [constructor|]. now apply insert_sorted. Qed.

Lemma sorted_unique {V} (l m : list (string * V)) : StronglySorted item_le l -> StronglySorted item_le m ->
  NoDup (map fst l) -> Permutation l m -> l = m.
Proof.
  intros Sl. revert m. induction Sl as [|x l Sl IH Fx]; intros m Sm N P.
  - apply Permutation_nil in P. auto.
  - destruct Sm as [|y m Sm Fy]; [apply Permutation_sym, Permutation_nil in P; discriminate|].
    assert (x = y).
    { assert (I : In x (y :: m)) by (eapply Permutation_in; [exact P | simpl; auto]).
      assert (J : In y (x :: l)) by (eapply Permutation_in; [apply Permutation_sym, P | simpl; auto]).
      destruct I as [->|I]; auto. destruct J as [->|J]; auto.
      rewrite Forall_forall in Fx, Fy. pose proof (str_leb_anti _ _ (Fx y J) (Fy x I)) as E.
      simpl in N. inversion N as [|? ? Nx _]; subst. destruct Nx. rewrite E. apply in_map. auto. }
    subst y. f_equal. apply IH; auto.
    + now inversion N.
    + now apply Permutation_cons_inv in P.
Qed.

Section Hash.
  Variables (hnone : Z) (hnum : Q -> Z) (hstr : string -> Z) (htuple : list Z -> Z).
  Hypothesis HQ : forall p q, (p == q)%Q -> hnum p = hnum q.
  Local Notation hash := (py_hash hnone hnum hstr htuple).

  Fixpoint hashes (f : list (string * pobj)) : res (list (string * Z)) :=
    match f with
    | [] => Ok []
    | (k, v) :: r => let* h := hash v in let* hs := hashes r in Ok ((k, h) :: hs)
    end.
  Lemma hash_obj c f : hash (OObj c f) =
    if String.eqb c "NumericalValueFactory" then Err TypeError
    else let* l := hashes f in Ok (htuple (map (fun kh : string * Z => htuple [hstr (fst kh); snd kh]) (sort_items l))).
  Proof.
    simpl. destruct (String.eqb c "NumericalValueFactory"); auto.
  Qed.
  Lemma hashes_ok f l : hashes f = Ok l <-> Forall2 (fun kv kh => fst kh = fst kv /\ hash (snd kv) = Ok (snd kh)) f l.
  Proof.
    revert l. induction f as [|[k v] f IH]; intros l; cbn [hashes].
    - split; [intros E; inversion E; constructor | intros F; inversion F; auto].
    - destruct (hash v) as [h|] eqn:Hv; simpl.
      + destruct (hashes f) as [hs|] eqn:Hf; simpl.
        * split.
          -- intros E. inversion E; subst. constructor; simpl; auto. apply IH. auto.
          -- intros F. inversion F as [|? [k' h'] ? ? [E1 E2] F']; subst. simpl in *. apply IH in F'. rewrite Hv in E2. congruence.
        * split; [discriminate|]. intros F. inversion F; subst. apply IH in H3. discriminate.
      + split; [discriminate|]. intros F. inversion F as [|? [k' h'] ? ? [E1 E2] F']; subst. simpl in *. congruence.
  Qed.
  Lemma hashes_err f : hashes f = Err TypeError \/ exists l, hashes f = Ok l.
  Proof.
    assert (X : forall x, hash x = Err TypeError \/ exists h, hash x = Ok h).
    { intros x. induction x using pobj_induction; try (simpl; eauto; fail).
      rewrite hash_obj. destruct (String.eqb c "NumericalValueFactory"); auto.
      assert (Y : hashes f0 = Err TypeError \/ exists l, hashes f0 = Ok l).
      { induction f0 as [|[k v] f0 IH]; cbn [hashes]; eauto. inversion H; subst. simpl in *.
        destruct H2 as [->|[h ->]]; simpl; auto. destruct (IH H3) as [->|[l ->]]; simpl; eauto. }
      destruct Y as [->|[l ->]]; simpl; eauto. }
    induction f as [|[k v] f IH]; cbn [hashes]; eauto. destruct (X v) as [->|[h ->]]; simpl; auto. destruct IH as [->|[l ->]]; simpl; eauto.
  Qed.

  Variables old swap : bool.

  Lemma dict_eq_true (eq : pobj -> pobj -> res bool) (f g : list (string * pobj)) : NoDup (map fst f) -> NoDup (map fst g) ->
    dict_eq swap eq f g = Ok true ->
    List.length f = List.length g /\ forall k x, In (k, x) f -> exists y, In (k, y) g /\ (if swap then eq y x else eq x y) = Ok true.
  Proof.
    intros Nf Ng E. unfold dict_eq in E. destruct (Nat.eqb_spec (List.length f) (List.length g)); [|discriminate]. split; auto.
    intros k x I. pose proof (all_equal_true _ _ E _ I) as G. simpl in G. destruct (dget k g) as [y|] eqn:Y; [|discriminate].
    exists y. split; auto. now apply dget_In in Y.
  Qed.

  (** Attributes of equal objects have the same names, and hashes one by one. *)
  Lemma hashes_match (f g : list (string * pobj)) l : NoDup (map fst f) -> NoDup (map fst g) -> List.length f = List.length g ->
    (forall k x, In (k, x) f -> exists y, In (k, y) g /\ forall h, hash x = Ok h -> hash y = Ok h) ->
    hashes f = Ok l -> exists m, hashes g = Ok m /\ Permutation l m.
  Proof.
    revert g l. induction f as [|[k x] f IH]; intros g l Nf Ng L M E.
    - destruct g; [|discriminate]. simpl in E. inversion E; subst. exists []. auto.
    - cbn [hashes] in E. destruct (hash x) as [h|] eqn:Hx; [|discriminate]. simpl in E. destruct (hashes f) as [hs|] eqn:Hf; [|discriminate].
      simpl in E. inversion E; subst. destruct (M k x) as (y & I & Hy); [simpl; auto|]. specialize (Hy h Hx).
      apply in_split in I. destruct I as (g1 & g2 & ->).
      assert (Ng' : NoDup (map fst (g1 ++ g2))) by (rewrite map_app in *; simpl in Ng; now apply NoDup_remove_1 in Ng).
      simpl in Nf. inversion Nf as [|? ? Nk Nf']; subst.
      destruct (IH (g1 ++ g2) hs) as (m & Em & P); auto.
      + rewrite app_length in *. simpl in L. lia.
      + intros k' x' I'. destruct (M k' x') as (y' & J & Hy'); [simpl; auto|]. exists y'. split; auto.
        apply in_app_iff in J. apply in_app_iff. simpl in J. destruct J as [J|[J|J]]; auto.
        inversion J; subst. destruct Nk. apply (in_map fst _ _ I').
      + apply hashes_ok in Em. apply Forall2_app_inv_l in Em. destruct Em as (m1 & m2 & F1 & F2 & ->).
        exists (m1 ++ (k, h) :: m2). split.
        * apply hashes_ok. apply Forall2_app; auto.
        * rewrite P. apply Permutation_middle.
  Qed.

  Lemma eq_hash x : forall n y, distinct x -> distinct y ->
    eq_upto old swap n x y = Ok true \/ eq_upto old swap n y x = Ok true -> forall h, hash x = Ok h -> hash y = Ok h.
  Proof.
    induction x using pobj_induction; intros n y Dx Dy E h Hx; try (simpl in Hx; discriminate).
    - destruct n, y; simpl in E; try (destruct E; discriminate). exact Hx.
    - destruct n, y; simpl in E; try (destruct E; discriminate). simpl in *. rewrite <- Hx. f_equal. apply HQ.
      destruct E as [E|E]; inversion E as [E']; apply Qeq_bool_iff in E'; auto. now symmetry.
    - destruct n, y; simpl in E; try (destruct E; discriminate). simpl in *. rewrite <- Hx. do 2 f_equal.
      destruct E as [E|E]; inversion E as [E']; apply String.eqb_eq in E'; auto.
    - destruct n as [|n]; [destruct E; discriminate|]. destruct y; try (destruct E; discriminate).
      cbn [distinct] in Dx, Dy. destruct Dx as [Nf Df], Dy as [Ng Dg]. rewrite distinct_vals, Forall_forall in Df, Dg.
      rewrite hash_obj in Hx |- *.
      assert (EC : c = cls /\ List.length f = List.length fields /\
        forall k u, In (k, u) f -> exists w, In (k, w) fields /\ (eq_upto old swap n u w = Ok true \/ eq_upto old swap n w u = Ok true)).
      { cbn [eq_upto] in E. destruct E as [E|E].
        - destruct (String.eqb_spec c cls); [|discriminate]. split; auto. apply dict_eq_true in E; auto. destruct E as [L M]. split; auto.
          intros k u I. destruct (M k u I) as (w & J & Ew). exists w. split; auto. destruct swap; auto.
        - destruct (String.eqb_spec cls c); [|discriminate]. split; auto. apply dict_eq_true in E; auto. destruct E as [L M]. split; auto.
          intros k u I.
          assert (IK : incl (map fst fields) (map fst f)).
          { intros k' I'. apply in_map_iff in I'. destruct I' as ([k2 w] & <- & I'). destruct (M k2 w I') as (u2 & J2 & _). apply (in_map fst _ _ J2). }
          assert (IK' : incl (map fst f) (map fst fields)) by (apply NoDup_length_incl; auto; rewrite !map_length; lia).
          assert (J : In k (map fst fields)) by (apply IK'; apply (in_map fst _ _ I)).
          apply in_map_iff in J. destruct J as ([k2 w] & E2 & J). simpl in E2. subst k2. exists w. split; auto.
          destruct (M k w J) as (u2 & J2 & Eu). assert (u2 = u).
          { apply (In_dget k u2 f) in J2; auto. apply (In_dget k u f) in I; auto. congruence. }
          subst u2. destruct swap; auto. }
      destruct EC as (<- & L & M). destruct (String.eqb c "NumericalValueFactory"); [discriminate|].
      destruct (hashes f) as [l|] eqn:Hf; [|discriminate]. simpl in Hx.
      destruct (hashes_match f fields l) as (m & Em & P); auto.
      + intros k u I. destruct (M k u I) as (w & J & Ew). exists w. split; auto.
        rewrite Forall_forall in H. apply (H (k, u) I n w); auto; first [apply (Df (k, u) I) | apply (Dg (k, w) J)].
      + rewrite Em. simpl. rewrite <- Hx. do 3 f_equal. symmetry. apply sorted_unique.
        * apply sort_sorted.
        * apply sort_sorted.
        * assert (K : map fst l = map fst f).
          { apply hashes_ok in Hf. clear -Hf. induction Hf as [|a b f l [E _] F IH]; simpl; auto. congruence. }
          eapply Permutation_NoDup; [apply Permutation_sym, Permutation_map, sort_perm|]. now rewrite K.
        * rewrite !sort_perm. exact P.
  Qed.
End Hash.

(** ** C69 *)
(** Objects found equal have the same hash, or none of them has one. Attribute names and
    dictionary keys occur once, as in every Python dictionary; equal numbers have the same
    hash; nothing else is asked of the hash functions. *)
Theorem C69_equal_objects_same_hash : forall hnone hnum hstr htuple, (forall p q, (p == q)%Q -> hnum p = hnum q) ->
  forall old swap x y, distinct x -> distinct y -> py_eq old swap x y = Ok true ->
  py_hash hnone hnum hstr htuple x = py_hash hnone hnum hstr htuple y.
Proof.
  intros hnone hnum hstr htuple HQ old swap x y Dx Dy E.
  assert (T : forall z, py_hash hnone hnum hstr htuple z = Err TypeError \/ exists h, py_hash hnone hnum hstr htuple z = Ok h).
  { intros z. pose proof (hashes_err hnone hnum hstr htuple [("", z)]) as X. cbn [hashes] in X.
    destruct (py_hash hnone hnum hstr htuple z) as [h|e]; eauto. simpl in X. destruct X as [X|[l X]]; [left; congruence | discriminate]. }
  pose proof (eq_hash hnone hnum hstr htuple HQ old swap x _ y Dx Dy (or_introl E)) as A.
  pose proof (eq_hash hnone hnum hstr htuple HQ old swap y _ x Dy Dx (or_intror E)) as B.
  destruct (T x) as [X|[h X]], (T y) as [Y|[h' Y]].
  - congruence.
  - rewrite (B h' Y) in X. discriminate.
  - rewrite (A h X) in Y. discriminate.
  - rewrite (A h X). exact X.
Qed.
Print Assumptions C69_equal_objects_same_hash.
(** The attributes of [b] were assigned in another order. *)
Example C69_equal_example :
  let a := cons_obj (Cons "load" (Scalar 10 2 1) (Scalar (2 # 4) 2 1)) in
  let b := OObj "Consumption" [("name", OStr "load"); ("quantity", val_obj (Scalar (1 # 2) 2 1)); ("cost", val_obj (Scalar 10 2 1))] in
  distinct a /\ distinct b /\ (forall old swap, py_eq old swap a b = Ok true) /\
  (exists h, py_hash 0 (fun q => Qnum (Qred q)) (fun s => Z.of_nat (String.length s)) (fold_right (fun x y => 31 * x + y)%Z 7%Z) a = Ok h) /\ a <> b.
Proof.
  cbv zeta. split; [|split; [|split; [|split; [|discriminate]]]].
  - split; [simpl; names|]. repeat (split; [first [apply distinct_val | exact Logic.I]|]). exact Logic.I.
  - split; [simpl; names|]. repeat (split; [first [apply distinct_val | exact Logic.I]|]). exact Logic.I.
  - intros [] []; vm_compute; reflexivity.
  - eexists. vm_compute. reflexivity.
Qed.

(** Which objects can be hashed: an element when all its values are numbers; nothing that
    contains an array, a list or a dictionary. *)
Definition is_number (v : numval) : Prop := match v with Scalar _ _ _ => True | _ => False end.
Ltac hv V v := let h := fresh "h" in let E := fresh "E" in let N := fresh "N" in destruct (V v) as [(h & E & N)|[E N]]; rewrite E; cbn [rbind].
Theorem C69_what_can_be_hashed : forall hnone hnum hstr htuple,
  let can x := exists h, py_hash hnone hnum hstr htuple x = Ok h in
  let cannot x := py_hash hnone hnum hstr htuple x = Err TypeError in
  (forall v, (can (val_obj v) <-> is_number v) /\ (cannot (val_obj v) <-> ~ is_number v)) /\
  (forall c, can (cons_obj c) <-> is_number (c_cost c) /\ is_number (c_qty c)) /\
  (forall p, can (prod_obj p) <-> is_number (p_cost p) /\ is_number (p_qty p)) /\
  (forall l, can (link_obj l) <-> is_number (l_cost l) /\ is_number (l_qty l)) /\
  (forall s, can (stor_obj s) <-> is_number (s_capacity s) /\ is_number (s_flow_in s) /\ is_number (s_flow_out s) /\ is_number (s_cost s) /\ is_number (s_eff s)) /\
  (forall v, cannot (conv_obj v)) /\ (forall n, cannot (node_obj n)) /\ (forall n, cannot (network_obj n)) /\
  (forall s, cannot (study_obj s)) /\ (forall n, cannot (onode_obj n)) /\ (forall r, cannot (result_obj r)).
Proof.
  intros hnone hnum hstr htuple can cannot.
  assert (V : forall v, (exists h, py_hash hnone hnum hstr htuple (val_obj v) = Ok h /\ is_number v) \/
                        (py_hash hnone hnum hstr htuple (val_obj v) = Err TypeError /\ ~ is_number v)).
  { intros v. destruct v; [left; eexists; split; [reflexivity | exact Logic.I] | right; split; [reflexivity | tauto] ..]. }
  split; [|split; [|split; [|split; [|split; [|split; [|split; [|split; [|split; [|split]]]]]]]]].
  - intros v. unfold can, cannot. destruct (V v) as [(h & E & N)|[E N]]; rewrite E; split; split; try tauto; try discriminate; eauto.
    intros [h X]. discriminate.
  - intros c. unfold can, cons_obj. rewrite hash_obj. cbn [String.eqb Ascii.eqb Bool.eqb hashes]. simpl py_hash at 3.
    hv V (c_cost c); [hv V (c_qty c)|]; (split; [intros [z X]; try discriminate; tauto | intros X; (exfalso; tauto) || (eexists; reflexivity)]).
  - intros c. unfold can, prod_obj. rewrite hash_obj. cbn [String.eqb Ascii.eqb Bool.eqb hashes]. simpl py_hash at 1. cbn [rbind].
    hv V (p_cost c); [hv V (p_qty c)|]; (split; [intros [z X]; try discriminate; tauto | intros X; (exfalso; tauto) || (eexists; reflexivity)]).
  - intros c. unfold can, link_obj. rewrite hash_obj. cbn [String.eqb Ascii.eqb Bool.eqb hashes]. simpl py_hash at 1. cbn [rbind].
    hv V (l_qty c); [hv V (l_cost c)|]; (split; [intros [z X]; try discriminate; tauto | intros X; (exfalso; tauto) || (eexists; reflexivity)]).
  - intros c. unfold can, stor_obj. rewrite hash_obj. cbn [String.eqb Ascii.eqb Bool.eqb hashes]. simpl py_hash at 1. cbn [rbind].
    hv V (s_capacity c); [hv V (s_flow_in c); [hv V (s_flow_out c); [hv V (s_cost c); [simpl py_hash at 1; cbn [rbind]; hv V (s_eff c)|]|]|]|];
      (split; [intros [z X]; try discriminate; tauto | intros X; (exfalso; tauto) || (eexists; reflexivity)]).
  - intros v. reflexivity.
  - intros n. reflexivity.
  - intros n. reflexivity.
  - intros n. reflexivity.
  - intros n. reflexivity.
  - intros n. reflexivity.
Qed.
Print Assumptions C69_what_can_be_hashed.
Example C69_what_example :
  let can x := exists h, py_hash 0 (fun q => Qnum (Qred q)) (fun s => Z.of_nat (String.length s)) (fold_right (fun x y => 31 * x + y)%Z 7%Z) x = Ok h in
  can (cons_obj (Cons "load" (Scalar 10 2 1) (Scalar (2 # 4) 2 1))) /\ ~ can (cons_obj (Cons "load" (Scalar 10 2 1) (Row (ND [2] [1%Q; 2%Q]) 2 1))) /\
  ~ can (study_obj small).
Proof. cbv zeta. split; [|split]; [eexists; vm_compute; reflexivity | intros [h E]; vm_compute in E; discriminate ..]. Qed.
