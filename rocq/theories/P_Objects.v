(** Equality and hashing of studies and results: C68, C69. *)
From Coq Require Import String Ascii List ZArith QArith Bool Arith Lia Permutation Sorted.
From Verif Require Import Base BaseFacts Numeric Study Fluent Output Json LP SpecStudy StudyFacts FluentFacts SpecJson JsonFacts P_Study P_Json SpecLP LPReady Objects SpecObjects ObjectsFacts.
Import ListNotations.
Open Scope nat_scope.
Open Scope string_scope.
Open Scope list_scope.

(** ** Values *)
Definition value_array (v : numval) : option ndarray :=
  match v with Scalar _ _ _ => None | Matrix a _ _ | Row a _ _ | Column a _ _ => Some a end.

Lemma decides_nat h h' : decides (Ok (Qeq_bool (qnat h) (qnat h'))) (h = h').
Proof.
  apply decides_ext with (qnat h == qnat h')%Q; [apply decides_num|].
  unfold qnat. split; [|now intros ->]. unfold Qeq. simpl. lia.
Qed.

Lemma decides_end (P : Prop) : P -> decides (Ok true) P.
Proof. intros p. exists true. split; auto. tauto. Qed.

Lemma same_array_sym a b : same_array a b -> same_array b a.
Proof.
  intros [S D]. split; auto. clear S. induction D; constructor; auto. now symmetry.
Qed.
Lemma same_value_sym v w : same_value v w -> same_value w v.
Proof.
  destruct v, w; simpl; auto; intros (H & -> & ->); repeat split; auto using same_array_sym; try (now symmetry); apply same_array_sym in H; apply H.
Qed.

Lemma one_array a b p q : a = ND [1] [p] /\ b = ND [1] [q] \/ a = ND [1; 1] [p] /\ b = ND [1; 1] [q] ->
  forall old, decides (arr_eq old a b) (same_array a b).
Proof.
  intros [[-> ->]|[-> ->]] old; unfold arr_eq; cbn [shape data rev app broadcast_rev Nat.eqb size_of fold_right Nat.mul Nat.add nth];
    (apply decides_ext with (p == q)%Q; [apply decides_num|]); unfold same_array; simpl;
    (split; [intros; split; auto; repeat constructor; auto | intros [_ F]; inversion F; auto]).
Qed.

Section Decide.
  Variables old swap : bool.
  Local Notation eqn := (eq_upto old swap).

  Lemma eq_obj n c f d g : eqn (S n) (OObj c f) (OObj d g) = if String.eqb c d then dict_eq swap (eqn n) f g else Ok false.
  Proof. reflexivity. Qed.
  Ltac attrs := rewrite eq_obj; unfold dict_eq; cbn [List.length Nat.eqb all_equal dget fst snd eqb EqB_string String.eqb Ascii.eqb Bool.eqb].

  Lemma num_eq n p q : decides (eqn (S n) (ONum p) (ONum q)) (p == q)%Q.
  Proof. apply decides_num. Qed.
  Lemma nat_eq n p q : decides (eqn (S n) (ONum (qnat p)) (ONum (qnat q))) (p = q).
  Proof. apply decides_nat. Qed.
  Lemma str_eq n p q : decides (eqn (S n) (OStr p) (OStr q)) (p = q).
  Proof. apply decides_str. Qed.

  Lemma attr (x y : pobj) n P Q : decides (eqn n x y) P -> decides (eqn n y x) Q -> (P <-> Q) ->
    decides (if swap then eqn n y x else eqn n x y) P.
  Proof. intros A B E. apply decides_swap; auto. apply decides_ext with Q; auto. tauto. Qed.
  Lemma attr_nat n p q : decides (if swap then eqn (S n) (ONum (qnat q)) (ONum (qnat p)) else eqn (S n) (ONum (qnat p)) (ONum (qnat q))) (p = q).
  Proof. eapply attr; [apply nat_eq | apply nat_eq | split; congruence]. Qed.
  Lemma attr_num n p q : decides (if swap then eqn (S n) (ONum q) (ONum p) else eqn (S n) (ONum p) (ONum q)) (p == q)%Q.
  Proof. eapply attr; [apply num_eq | apply num_eq | split; intros; now symmetry]. Qed.
  Lemma attr_str n p q : decides (if swap then eqn (S n) (OStr q) (OStr p) else eqn (S n) (OStr p) (OStr q)) (p = q).
  Proof. eapply attr; [apply str_eq | apply str_eq | split; congruence]. Qed.

  Lemma val_eq n v w : one_entry v -> one_entry w -> decides (eqn (S (S n)) (val_obj v) (val_obj w)) (same_value v w).
  Proof.
    intros Ov Ow.
    assert (AR : forall a b p q, (a = ND [1] [p] /\ b = ND [1] [q] \/ a = ND [1; 1] [p] /\ b = ND [1; 1] [q]) ->
      decides (if swap then eqn (S n) (fresh b) (fresh a) else eqn (S n) (fresh a) (fresh b)) (same_array a b)).
    { intros a b p q O. eapply attr; [exact (one_array a b p q O old) | refine (one_array b a q p _ old) | split; apply same_array_sym].
      destruct O as [[-> ->]|[-> ->]]; auto. }
    destruct v, w; try (apply decides_false; [reflexivity | simpl; tauto]); unfold val_obj; attrs; simpl in Ov, Ow.
    - eapply decides_ext; [apply decides_and; [apply attr_num|apply decides_and; [apply attr_nat|apply decides_and; [apply attr_nat|apply decides_end; exact Logic.I]]]|]. simpl. tauto.
    - destruct Ov as [p Ep], Ow as [q Eq]. eapply decides_ext; [apply decides_and; [apply (AR _ _ p q); auto|apply decides_and; [apply attr_nat|apply decides_and; [apply attr_nat|apply decides_end; exact Logic.I]]]|]. simpl. tauto.
    - destruct Ov as [p Ep], Ow as [q Eq]. eapply decides_ext; [apply decides_and; [apply (AR _ _ p q); auto|apply decides_and; [apply attr_nat|apply decides_and; [apply attr_nat|apply decides_end; exact Logic.I]]]|]. simpl. tauto.
    - destruct Ov as [p Ep], Ow as [q Eq]. eapply decides_ext; [apply decides_and; [apply (AR _ _ p q); auto|apply decides_and; [apply attr_nat|apply decides_and; [apply attr_nat|apply decides_end; exact Logic.I]]]|]. simpl. tauto.
  Qed.
  Lemma attr_val n v w : one_entry v -> one_entry w ->
    decides (if swap then eqn (S (S n)) (val_obj w) (val_obj v) else eqn (S (S n)) (val_obj v) (val_obj w)) (same_value v w).
  Proof. intros. eapply attr; [apply val_eq; auto | apply val_eq; auto | split; apply same_value_sym]. Qed.

  Ltac step := first [ apply decides_end; exact Logic.I | apply decides_and; [first [apply attr_str | apply attr_nat | apply attr_num | apply attr_val; simpl; tauto] | ] ].

  Definition light_cons (c : consumption) := one_entry (c_cost c) /\ one_entry (c_qty c).
  Definition light_prod (c : production) := one_entry (p_cost c) /\ one_entry (p_qty c).
  Definition light_link (c : link) := one_entry (l_cost c) /\ one_entry (l_qty c).
  Definition light_stor (c : storage) := one_entry (s_capacity c) /\ one_entry (s_flow_in c) /\ one_entry (s_flow_out c) /\ one_entry (s_cost c) /\ one_entry (s_eff c).
  Definition light_opt (v : option numval) := match v with Some v => one_entry v | None => True end.
  Definition light_conv (v : converter) :=
    NoDup (map fst (v_src v)) /\ (forall k q, In (k, q) (v_src v) -> one_entry q) /\ light_opt (v_cost v) /\ light_opt (v_max v).
  Definition light_node (n : node) :=
    (forall c, In c (n_cons n) -> light_cons c) /\ (forall c, In c (n_prods n) -> light_prod c) /\
    (forall c, In c (n_stors n) -> light_stor c) /\ (forall c, In c (n_links n) -> light_link c).

  Lemma cons_eq n c d : light_cons c -> light_cons d -> decides (eqn (S (S (S n))) (cons_obj c) (cons_obj d)) (same_cons c d).
  Proof. intros L M. unfold light_cons in *. unfold cons_obj. attrs. eapply decides_ext; [repeat step|]. unfold same_cons. tauto. Qed.
  Lemma prod_eq n c d : light_prod c -> light_prod d -> decides (eqn (S (S (S n))) (prod_obj c) (prod_obj d)) (same_prod c d).
  Proof. intros L M. unfold light_prod in *. unfold prod_obj. attrs. eapply decides_ext; [repeat step|]. unfold same_prod. tauto. Qed.
  Lemma link_eq n c d : light_link c -> light_link d -> decides (eqn (S (S (S n))) (link_obj c) (link_obj d)) (same_link c d).
  Proof. intros L M. unfold light_link in *. unfold link_obj. attrs. eapply decides_ext; [repeat step|]. unfold same_link. tauto. Qed.
  Lemma stor_eq n c d : light_stor c -> light_stor d -> decides (eqn (S (S (S n))) (stor_obj c) (stor_obj d)) (same_stor c d).
  Proof. intros L M. unfold light_stor in *. unfold stor_obj. attrs. eapply decides_ext; [repeat step|]. unfold same_stor. tauto. Qed.

  Lemma opt_eq n v w : light_opt v -> light_opt w -> decides (eqn (S (S n)) (opt_val_obj v) (opt_val_obj w)) (same_option v w).
  Proof.
    destruct v as [v|], w as [w|]; simpl light_opt; intros L M.
    - now apply val_eq.
    - apply decides_false; [destruct v; reflexivity | simpl; tauto].
    - apply decides_false; [destruct w; reflexivity | simpl; tauto].
    - apply decides_end. exact Logic.I.
  Qed.
  Lemma same_option_sym v w : same_option v w -> same_option w v.
  Proof. destruct v, w; simpl; auto. apply same_value_sym. Qed.
  Lemma attr_opt n v w : light_opt v -> light_opt w ->
    decides (if swap then eqn (S (S n)) (opt_val_obj w) (opt_val_obj v) else eqn (S (S n)) (opt_val_obj v) (opt_val_obj w)) (same_option v w).
  Proof. intros. eapply attr; [apply opt_eq; auto | apply opt_eq; auto | split; apply same_option_sym]. Qed.

  Lemma same_map_sym {K V} `{EqB K} (R : V -> V -> Prop) (d e : dict K V) : (forall x y, R x y -> R y x) -> same_map R d e -> same_map R e d.
  Proof. intros Sy S k. specialize (S k). destruct (dget k d), (dget k e); auto. Qed.
  Lemma Forall2_sym {V} (R : V -> V -> Prop) l m : (forall x y, R x y -> R y x) -> Forall2 R l m -> Forall2 R m l.
  Proof. induction 2; constructor; auto. Qed.

  Lemma conv_eq n v w : light_conv v -> light_conv w -> decides (eqn (S (S (S (S n)))) (conv_obj v) (conv_obj w)) (same_conv v w).
  Proof.
    intros (N1 & L1 & L2 & L3) (M1 & K1 & K2 & K3). unfold conv_obj. attrs.
    assert (D : forall a b, NoDup (map fst a) -> NoDup (map fst b) -> (forall k q, In (k, q) a -> one_entry q) -> (forall k q, In (k, q) b -> one_entry q) ->
      decides (eqn (S (S (S n))) (ODict (keyed val_obj a)) (ODict (keyed val_obj b))) (same_map same_value a b)).
    { intros a b Na Nb Oa Ob. cbn [eq_upto]. apply (dict_decides (fun k : string * string => KPair (fst k) (snd k))); auto using same_value_sym.
      - intros [? ?] [? ?] E. inversion E. auto.
      - intros k x y I J. split; apply val_eq; eauto. }
    eapply decides_ext.
    - step. apply decides_and; [eapply attr; [apply (D (v_src v) (v_src w)); auto | apply (D (v_src w) (v_src v)); auto | split; apply same_map_sym; apply same_value_sym]|].
      step. step. apply decides_and; [apply attr_opt; auto|]. apply decides_and; [apply attr_opt; auto|]. step.
    - unfold same_conv. tauto.
  Qed.
  Lemma same_conv_sym v w : same_conv v w -> same_conv w v.
  Proof. intros (A & B & C & D & E & F). repeat split; auto using same_option_sym. apply same_map_sym; auto using same_value_sym. Qed.

  Lemma same_cons_sym v w : same_cons v w -> same_cons w v.
  Proof. unfold same_cons. intuition auto using same_value_sym. Qed.
  Lemma same_prod_sym v w : same_prod v w -> same_prod w v.
  Proof. unfold same_prod. intuition auto using same_value_sym. Qed.
  Lemma same_link_sym v w : same_link v w -> same_link w v.
  Proof. unfold same_link. intuition auto using same_value_sym. Qed.
  Lemma same_stor_sym v w : same_stor v w -> same_stor w v.
  Proof. unfold same_stor. intuition (auto using same_value_sym; now symmetry). Qed.

  Lemma attr_list {A} n (f : A -> pobj) (L : A -> Prop) (R : A -> A -> Prop) l m : (forall x y, R x y -> R y x) ->
    (forall x y, L x -> L y -> decides (eqn n (f x) (f y)) (R x y)) ->
    (forall x, In x l -> L x) -> (forall x, In x m -> L x) ->
    decides (if swap then eqn (S n) (OList (map f m)) (OList (map f l)) else eqn (S n) (OList (map f l)) (OList (map f m))) (Forall2 R l m).
  Proof.
    intros Sy D Ll Lm. eapply attr; cbn [eq_upto]; [apply list_decides; auto | apply list_decides; auto |].
    split; apply Forall2_sym; auto.
  Qed.

  Lemma node_eq n c d : light_node c -> light_node d -> decides (eqn (S (S (S (S (S n))))) (node_obj c) (node_obj d)) (same_node c d).
  Proof.
    intros (A1 & A2 & A3 & A4) (B1 & B2 & B3 & B4). unfold node_obj. attrs.
    apply decides_ext with (Forall2 same_cons (n_cons c) (n_cons d) /\ Forall2 same_prod (n_prods c) (n_prods d) /\
      Forall2 same_stor (n_stors c) (n_stors d) /\ Forall2 same_link (n_links c) (n_links d) /\ True).
    - apply decides_and; [apply (attr_list _ _ light_cons); auto using same_cons_sym, cons_eq|].
      apply decides_and; [apply (attr_list _ _ light_prod); auto using same_prod_sym, prod_eq|].
      apply decides_and; [apply (attr_list _ _ light_stor); auto using same_stor_sym, stor_eq|].
      apply decides_and; [apply (attr_list _ _ light_link); auto using same_link_sym, link_eq|]. step.
    - unfold same_node. tauto.
  Qed.
  Lemma same_node_sym c d : same_node c d -> same_node d c.
  Proof.
    intros (A & B & C & D). repeat split; apply Forall2_sym; auto using same_cons_sym, same_prod_sym, same_stor_sym, same_link_sym.
  Qed.

  Lemma attr_named {V} n (f : V -> pobj) (L : V -> Prop) (R : V -> V -> Prop) (d e : dict string V) : (forall x y, R x y -> R y x) ->
    (forall x y, L x -> L y -> decides (eqn n (f x) (f y)) (R x y)) ->
    NoDup (map fst d) -> NoDup (map fst e) -> (forall k x, In (k, x) d -> L x) -> (forall k x, In (k, x) e -> L x) ->
    decides (if swap then eqn (S n) (ODict (named f e)) (ODict (named f d)) else eqn (S n) (ODict (named f d)) (ODict (named f e))) (same_map R d e).
  Proof.
    intros Sy D Nd Ne Ld Le. eapply attr; cbn [eq_upto].
    - apply (dict_decides KName f swap _ R); auto; try congruence. intros k x y I J. split; apply D; eauto.
    - apply (dict_decides KName f swap _ R); auto; try congruence. intros k x y I J. split; apply D; eauto.
    - split; apply same_map_sym; auto.
  Qed.

  Definition light_network (ns : network) := NoDup (map fst ns) /\ forall k x, In (k, x) ns -> light_node x.
  Lemma network_eq n c d : light_network c -> light_network d ->
    decides (eqn (S (S (S (S (S (S (S n))))))) (network_obj c) (network_obj d)) (same_map same_node c d).
  Proof.
    intros [Nc Lc] [Ne Le]. unfold network_obj. attrs. apply decides_ext with (same_map same_node c d /\ True); [|tauto].
    apply decides_and; [|step]. apply (attr_named _ node_obj light_node same_node); auto.
    - apply same_node_sym.
    - intros. now apply node_eq.
  Qed.

  Definition light_study (s : study) :=
    NoDup (map fst (st_networks s)) /\ NoDup (map fst (st_converters s)) /\
    (forall k x, In (k, x) (st_networks s) -> light_network x) /\ (forall k x, In (k, x) (st_converters s) -> light_conv x).
  Lemma study_eq n s s' : light_study s -> light_study s' ->
    decides (eqn (S (S (S (S (S (S (S (S (S n))))))))) (study_obj s) (study_obj s')) (same_study s s').
  Proof.
    intros (A1 & A2 & A3 & A4) (B1 & B2 & B3 & B4). unfold study_obj.
    assert (FA : forall m, decides (eqn (S (S m)) (OObj "NumericalValueFactory" [("horizon", ONum (qnat (st_horizon s))); ("nb_scn", ONum (qnat (st_nb_scn s)))])
      (OObj "NumericalValueFactory" [("horizon", ONum (qnat (st_horizon s'))); ("nb_scn", ONum (qnat (st_nb_scn s')))]))
      (st_horizon s = st_horizon s' /\ st_nb_scn s = st_nb_scn s' /\ True)).
    { intros m. attrs. repeat step. }
    assert (FB : forall m, decides (eqn (S (S m)) (OObj "NumericalValueFactory" [("horizon", ONum (qnat (st_horizon s'))); ("nb_scn", ONum (qnat (st_nb_scn s')))])
      (OObj "NumericalValueFactory" [("horizon", ONum (qnat (st_horizon s))); ("nb_scn", ONum (qnat (st_nb_scn s)))]))
      (st_horizon s' = st_horizon s /\ st_nb_scn s' = st_nb_scn s /\ True)).
    { intros m. attrs. repeat step. }
    attrs.
    apply decides_ext with (st_version s = st_version s' /\ same_map (same_map same_node) (st_networks s) (st_networks s') /\
      same_map same_conv (st_converters s) (st_converters s') /\ st_horizon s = st_horizon s' /\ st_nb_scn s = st_nb_scn s' /\
      (st_horizon s = st_horizon s' /\ st_nb_scn s = st_nb_scn s' /\ True) /\ True).
    - apply decides_and; [apply attr_str|].
      apply decides_and.
      { apply (attr_named _ network_obj light_network (same_map same_node)); auto.
        - intros x y. apply same_map_sym, same_node_sym.
        - intros. now apply network_eq. }
      apply decides_and.
      { apply (attr_named _ conv_obj light_conv same_conv); auto.
        - apply same_conv_sym.
        - intros. now apply conv_eq. }
      apply decides_and; [apply attr_nat|]. apply decides_and; [apply attr_nat|].
      apply decides_and; [eapply attr; [apply FA | apply FB | intuition congruence]|]. step.
    - unfold same_study. intuition.
  Qed.
End Decide.

(** ** True only for the same objects *)
Definition arr_alike (a b : ndarray) : Prop :=
  a = b \/ size_of (shape a) = 1 /\ size_of (shape b) = 1 /\ (nth 0 (data a) 0 == nth 0 (data b) 0)%Q.

Lemma broadcast_one a b r : broadcast_rev a b = Some r -> size_of r = 1 -> size_of a = 1 /\ size_of b = 1.
Proof.
  revert b r. induction a as [|m a IH]; intros b r E R.
  - simpl in E. inversion E; subst. auto.
  - destruct b as [|k b]; [inversion E; subst; auto|]. simpl in E.
    destruct (broadcast_rev a b) as [q|] eqn:Q; [|discriminate].
    assert (X : forall m k, size_of (m :: k) = m * size_of k) by reflexivity. rewrite !X.
    destruct (Nat.eqb_spec m k) as [->|_].
    + inversion E; subst. rewrite X in R. apply Nat.eq_mul_1 in R. destruct R as [-> R]. destruct (IH _ _ Q R). lia.
    + destruct (Nat.eqb_spec m 1) as [->|_].
      * inversion E; subst. rewrite X in R. apply Nat.eq_mul_1 in R. destruct R as [-> R]. destruct (IH _ _ Q R). lia.
      * destruct (Nat.eqb_spec k 1) as [->|_]; [|discriminate].
        inversion E; subst. rewrite X in R. apply Nat.eq_mul_1 in R. destruct R as [-> R]. destruct (IH _ _ Q R). lia.
Qed.

Lemma arr_eq_alike old a b : arr_eq old a b = Ok true -> arr_alike a b.
Proof.
  unfold arr_eq. destruct (broadcast_rev _ _) as [r|] eqn:B; [|destruct old; discriminate].
  destruct (size_of r) as [|[|k]] eqn:R; [destruct old; discriminate| |discriminate].
  destruct (broadcast_one _ _ _ B R) as [Ra Rb]. rewrite size_of_rev in Ra, Rb. intros E. right. repeat split; auto.
  inversion E. now apply Qeq_bool_iff.
Qed.

Section Truth.
  Variables old swap : bool.

  Fixpoint alike (n : nat) (x y : pobj) : Prop :=
    match n with
    | O => False
    | S n =>
        let both x y := if swap then alike n y x else alike n x y in
        match x, y with
        | ONone, ONone => True
        | ONum p, ONum q => (p == q)%Q
        | OStr s, OStr t => s = t
        | OArr _ a, OArr _ b => arr_alike a b
        | OList l, OList m => Forall2 (alike n) l m
        | ODict d, ODict e => List.length d = List.length e /\ forall k x, In (k, x) d -> exists y, dget k e = Some y /\ both x y
        | OObj c d, OObj c' e => c = c' /\ List.length d = List.length e /\ forall k x, In (k, x) d -> exists y, dget k e = Some y /\ both x y
        | _, _ => False
        end
    end.
  Definition both n x y := if swap then alike n y x else alike n x y.

  Lemma all_equal_true {A} (f : A -> res bool) l : all_equal f l = Ok true -> forall x, In x l -> f x = Ok true.
  Proof.
    induction l as [|y l IH]; simpl; [tauto|]. destruct (f y) as [[]|] eqn:F; simpl; try discriminate.
    intros E x [<-|I]; auto.
  Qed.

  Lemma dict_alike {K} `{EqB K} n (d e : dict K pobj) :
    (forall k l x y, In (k, x) d -> In (l, y) e ->
       (eq_upto old swap n x y = Ok true -> alike n (unshare x) (unshare y)) /\ (eq_upto old swap n y x = Ok true -> alike n (unshare y) (unshare x))) ->
    dict_eq swap (eq_upto old swap n) d e = Ok true ->
    let f := map (fun kv => (fst kv, unshare (snd kv))) in
    List.length (f d) = List.length (f e) /\
    forall k x, In (k, x) (f d) -> exists y, dget k (f e) = Some y /\ both n x y.
  Proof.
    intros T E. unfold dict_eq in E. destruct (Nat.eqb_spec (List.length d) (List.length e)) as [L|]; [|discriminate]. cbv zeta.
    rewrite !map_length. split; auto. intros k x I. apply in_map_iff in I. destruct I as ([k' x'] & Ex & I). simpl in Ex. inversion Ex; subst.
    pose proof (all_equal_true _ _ E _ I) as G. simpl in G. destruct (dget k e) as [w|] eqn:W; [|discriminate].
    exists (unshare w). split; [rewrite dget_map, W; reflexivity|]. destruct (T k k x' w I (dget_In _ _ _ W)) as [T1 T2].
    unfold both. destruct swap; auto.
  Qed.

  Lemma eq_alike : forall n x y, coherent x y -> eq_upto old swap n x y = Ok true -> alike n (unshare x) (unshare y).
  Proof.
    induction n as [|n IH]; intros x y C E; [discriminate|].
    destruct x, y; cbn [eq_upto] in E; try discriminate; cbn [alike unshare]; auto.
    - apply Qeq_bool_iff. congruence.
    - apply String.eqb_eq. congruence.
    - destruct (same_object id id0) eqn:S; [|now apply arr_eq_alike in E].
      destruct id as [i|], id0 as [j|]; try discriminate. simpl in S. apply Nat.eqb_eq in S. subst j.
      left. apply (C i a a0); simpl; auto.
    - destruct (Nat.eqb_spec (List.length l) (List.length l0)) as [L|]; [|discriminate].
      revert l0 L C E. induction l as [|x l IHl]; intros [|y m] L C E; try discriminate; simpl; constructor.
      + apply IH. { intros i a b I J. apply (C i a b); simpl; apply in_or_app; auto. }
        simpl in E. destruct (eq_upto old swap n x y) as [[]|]; simpl in E; auto; discriminate.
      + apply IHl; auto. { intros i a b I J. apply (C i a b); simpl; apply in_or_app; auto. }
        simpl in E. destruct (eq_upto old swap n x y) as [[]|]; simpl in E; auto; discriminate.
    - apply (dict_alike n d d0); auto. intros k l x y I J.
      assert (CC : coherent x y) by (intros i a b J1 J2; apply (C i a b); simpl; apply in_flat_map; eauto).
      split; apply IH; auto using coherent_sym.
    - destruct (String.eqb_spec cls cls0) as [->|]; [|discriminate]. split; auto. apply (dict_alike n fields fields0); auto. intros k l x y I J.
      assert (CC : coherent x y) by (intros i a b J1 J2; apply (C i a b); simpl; apply in_flat_map; eauto).
      split; apply IH; auto using coherent_sym.
  Qed.

  (** *** Layers *)
  Lemma alike_class n c f d g : alike n (OObj c f) (OObj d g) -> c = d.
  Proof. destruct n; simpl; tauto. Qed.
  Lemma alike_field k n c f d g x y : alike n (OObj c f) (OObj d g) -> dget k f = Some x -> dget k g = Some y -> exists m, both m x y.
  Proof.
    destruct n as [|n]; simpl; [tauto|]. intros (_ & _ & A) X Y. destruct (A k x (dget_In _ _ _ X)) as (z & Z & B).
    assert (z = y) by congruence. subst z. exists n. exact B.
  Qed.

  Ltac fld k A := let H := fresh "H" in pose proof (alike_field k _ _ _ _ _ _ _ A eq_refl eq_refl) as [? H].

  Lemma both_num n p q : both n (ONum p) (ONum q) -> (p == q)%Q.
  Proof. unfold both. destruct swap, n; simpl; try tauto. intros; now symmetry. Qed.
  Lemma both_nat n p q : both n (ONum (qnat p)) (ONum (qnat q)) -> p = q.
  Proof. intros B. apply both_num in B. unfold qnat, Qeq in B. simpl in B. lia. Qed.
  Lemma both_str n p q : both n (OStr p) (OStr q) -> p = q.
  Proof. unfold both. destruct swap, n; simpl; try tauto. auto. Qed.
  Lemma both_arr n a b : both n (fresh a) (fresh b) -> arr_alike a b.
  Proof.
    unfold both. destruct swap, n; simpl; try tauto. unfold arr_alike. intros [->|(A & B & C)]; auto.
    right. repeat split; auto. now symmetry.
  Qed.
  Lemma both_of {A} (f : A -> pobj) (R : A -> A -> Prop) x y : (forall x y, R x y -> R y x) ->
    (forall n, alike n (f x) (f y) -> R x y) -> (forall n, alike n (f y) (f x) -> R y x) -> forall n, both n (f x) (f y) -> R x y.
  Proof. intros Sy D D' n. unfold both. destruct swap; eauto. Qed.

  (** Arrays with the shape of their class. *)
  Definition rank_ok (v : numval) : Prop :=
    match v with
    | Scalar _ _ _ => True
    | Row a _ _ => nd_wf a /\ List.length (shape a) = 1
    | Matrix a _ _ | Column a _ _ => nd_wf a /\ List.length (shape a) = 2
    end.
  Lemma alike_same_array a b : nd_wf a -> nd_wf b -> List.length (shape a) = List.length (shape b) -> arr_alike a b -> same_array a b.
  Proof.
    intros Wa Wb L [->|(A & B & E)].
    - split; auto. induction (data b); constructor; auto. reflexivity.
    - unfold nd_wf in *. rewrite A in Wa. rewrite B in Wb. destruct a as [sa da], b as [sb db]. simpl in *.
      split; simpl.
      + clear Wa Wb E. revert sb L B. induction sa as [|m sa IH]; intros [|k sb] L B; try discriminate; auto.
        change (m * size_of sa = 1) in A. change (k * size_of sb = 1) in B. apply Nat.eq_mul_1 in A, B.
        destruct A as [-> A], B as [-> B]. f_equal. apply IH; auto.
      + destruct da as [|p0 [|p1 p2]], db as [|q0 [|q1 q2]]; try discriminate. repeat constructor. exact E.
  Qed.

  Lemma alike_val n v w : rank_ok v -> rank_ok w -> alike n (val_obj v) (val_obj w) -> same_value v w.
  Proof.
    intros Rv Rw A.
    destruct v as [p h0 n0|a h0 n0|a h0 n0|a h0 n0], w as [q h1 n1|b h1 n1|b h1 n1|b h1 n1];
      try (apply alike_class in A; discriminate); unfold val_obj in A;
      fld "value" A; fld "horizon" A; fld "nb_scn" A; simpl in *;
      (split; [|split; eapply both_nat; eassumption]); [eapply both_num; eassumption | | |];
      match goal with X : both _ (fresh _) (fresh _) |- _ => apply both_arr in X; apply alike_same_array; intuition congruence end.
  Qed.

  Ltac vals := match goal with X : both _ (val_obj _) (val_obj _) |- _ =>
    apply (both_of val_obj same_value _ _ same_value_sym) in X; [| intros; eapply alike_val; eauto | intros; eapply alike_val; eauto] end.
  Ltac strs := match goal with X : both _ (OStr _) (OStr _) |- _ => apply both_str in X end.

  Definition rank_cons (c : consumption) := rank_ok (c_cost c) /\ rank_ok (c_qty c).
  Definition rank_prod (c : production) := rank_ok (p_cost c) /\ rank_ok (p_qty c).
  Definition rank_link (c : link) := rank_ok (l_cost c) /\ rank_ok (l_qty c).
  Definition rank_stor (c : storage) := rank_ok (s_capacity c) /\ rank_ok (s_flow_in c) /\ rank_ok (s_flow_out c) /\ rank_ok (s_cost c) /\ rank_ok (s_eff c).
  Definition rank_opt (v : option numval) := match v with Some v => rank_ok v | None => True end.
  Definition rank_conv (v : converter) :=
    NoDup (map fst (v_src v)) /\ (forall k q, In (k, q) (v_src v) -> rank_ok q) /\ rank_opt (v_cost v) /\ rank_opt (v_max v).
  Definition rank_node (n : node) :=
    (forall c, In c (n_cons n) -> rank_cons c) /\ (forall c, In c (n_prods n) -> rank_prod c) /\
    (forall c, In c (n_stors n) -> rank_stor c) /\ (forall c, In c (n_links n) -> rank_link c).

  Lemma alike_cons n c d : rank_cons c -> rank_cons d -> alike n (cons_obj c) (cons_obj d) -> same_cons c d.
  Proof.
    intros [] [] A. unfold cons_obj in A. fld "name" A; fld "cost" A; fld "quantity" A.
    strs. repeat vals. unfold same_cons. auto.
  Qed.
  Lemma alike_prod n c d : rank_prod c -> rank_prod d -> alike n (prod_obj c) (prod_obj d) -> same_prod c d.
  Proof.
    intros [] [] A. unfold prod_obj in A. fld "name" A; fld "cost" A; fld "quantity" A.
    strs. repeat vals. unfold same_prod. auto.
  Qed.
  Lemma alike_link n c d : rank_link c -> rank_link d -> alike n (link_obj c) (link_obj d) -> same_link c d.
  Proof.
    intros [] [] A. unfold link_obj in A. fld "dest" A; fld "cost" A; fld "quantity" A.
    strs. repeat vals. unfold same_link. auto.
  Qed.
  Lemma alike_stor n c d : rank_stor c -> rank_stor d -> alike n (stor_obj c) (stor_obj d) -> same_stor c d.
  Proof.
    intros (? & ? & ? & ? & ?) (? & ? & ? & ? & ?) A. unfold stor_obj in A.
    fld "name" A; fld "capacity" A; fld "flow_in" A; fld "flow_out" A; fld "cost" A; fld "init_capacity" A; fld "eff" A.
    match goal with X : both _ (ONum _) (ONum _) |- _ => apply both_num in X end. strs. repeat vals. unfold same_stor. auto 10.
  Qed.
  Lemma alike_opt n v w : rank_opt v -> rank_opt w -> alike n (opt_val_obj v) (opt_val_obj w) -> same_option v w.
  Proof.
    destruct v as [v|], w as [w|]; simpl; auto.
    - apply alike_val.
    - destruct n, v; simpl; tauto.
    - destruct n, w; simpl; tauto.
  Qed.

  (** Dictionaries with the same number of distinct keys. *)
  Lemma alike_map {K V} `{EqB K} (g : K -> pkey) (f : V -> pobj) (R : V -> V -> Prop) (d e : dict K V) (L : V -> Prop) n :
    (forall a b, g a = g b -> a = b) -> NoDup (map fst d) -> NoDup (map fst e) -> (forall x y, R x y -> R y x) ->
    (forall k x, In (k, x) d -> L x) -> (forall k x, In (k, x) e -> L x) ->
    (forall m x y, L x -> L y -> alike m (f x) (f y) -> R x y) ->
    alike n (ODict (map (fun kv => (g (fst kv), f (snd kv))) d)) (ODict (map (fun kv => (g (fst kv), f (snd kv))) e)) -> same_map R d e.
  Proof.
    intros G Nd Ne Sy Ld Le D. destruct n as [|n]; cbn [alike]; [tauto|]. rewrite !map_length. intros [Len A].
    assert (X : forall k x, dget k d = Some x -> exists y, dget k e = Some y /\ R x y).
    { intros k x E. pose proof (dget_In _ _ _ E) as I.
      destruct (A (g k) (f x)) as (z & Z & B). { apply in_map_iff. exists (k, x). auto. }
      apply dget_In in Z. apply in_map_iff in Z. destruct Z as ([k' y] & Ez & J). simpl in Ez. inversion Ez; subst z.
      assert (k' = k) by (apply G; auto). subst k'.
      exists y. split; [now apply In_dget|]. apply (both_of f R x y Sy) with n; eauto. }
    intros k. destruct (dget k d) as [x|] eqn:E.
    - destruct (X k x E) as (y & -> & Rxy). auto.
    - destruct (dget k e) as [y|] eqn:F; auto.
      assert (IK : incl (map fst d) (map fst e)).
      { intros k' I. apply in_map_iff in I. destruct I as ([k2 x] & <- & I). simpl.
        destruct (X k2 x) as (y2 & Y2 & _); [now apply In_dget|]. apply dget_In in Y2. apply (in_map fst) in Y2. auto. }
      assert (J : incl (map fst e) (map fst d)) by (apply NoDup_length_incl; auto; rewrite !map_length; lia).
      apply dget_In, (in_map fst), J in F. apply dget_None in E. unfold dkeys in E. tauto.
  Qed.

  Lemma alike_conv n v w : rank_conv v -> rank_conv w -> alike n (conv_obj v) (conv_obj w) -> same_conv v w.
  Proof.
    intros (N1 & L1 & L2 & L3) (M1 & K1 & K2 & K3) A. unfold conv_obj in A.
    fld "name" A; fld "src_ratios" A; fld "dest_network" A; fld "dest_node" A; fld "cost" A; fld "max" A.
    repeat strs.
    repeat match goal with X : both _ (opt_val_obj _) (opt_val_obj _) |- _ =>
      apply (both_of opt_val_obj same_option _ _ same_option_sym) in X; [| intros; eapply alike_opt; eauto | intros; eapply alike_opt; eauto] end.
    match goal with X : both _ (ODict _) (ODict _) |- _ =>
      apply (both_of (fun d => ODict (keyed val_obj d)) (same_map same_value) _ _) in X end.
    - unfold same_conv. auto 10.
    - intros d1 d2. apply same_map_sym, same_value_sym.
    - intros m X. apply (alike_map (fun k : string * string => KPair (fst k) (snd k)) val_obj same_value _ _ rank_ok m); auto using same_value_sym.
      + intros [] [] E. inversion E. auto.
      + intros. eapply alike_val; eauto.
    - intros m X. apply (alike_map (fun k : string * string => KPair (fst k) (snd k)) val_obj same_value _ _ rank_ok m); auto using same_value_sym.
      + intros [] [] E. inversion E. auto.
      + intros. eapply alike_val; eauto.
  Qed.

  Lemma alike_list {A} (f : A -> pobj) (L : A -> Prop) (R : A -> A -> Prop) l m :
    (forall n x y, L x -> L y -> alike n (f x) (f y) -> R x y) -> (forall x, In x l -> L x) -> (forall x, In x m -> L x) ->
    forall n, alike n (OList (map f l)) (OList (map f m)) -> Forall2 R l m.
  Proof.
    intros D Ll Lm [|n]; cbn [alike]; [tauto|]. revert m Lm. induction l as [|x l IH]; intros [|y m] Lm F; inversion F; subst; constructor.
    - eapply D; eauto; [apply Ll | apply Lm]; simpl; auto.
    - apply IH; auto; intros; [apply Ll | apply Lm]; simpl; auto.
  Qed.
  Lemma both_list {A} (f : A -> pobj) (L : A -> Prop) (R : A -> A -> Prop) l m : (forall x y, R x y -> R y x) ->
    (forall n x y, L x -> L y -> alike n (f x) (f y) -> R x y) -> (forall x, In x l -> L x) -> (forall x, In x m -> L x) ->
    forall n, both n (OList (map f l)) (OList (map f m)) -> Forall2 R l m.
  Proof.
    intros Sy D Ll Lm n. apply (both_of (fun l => OList (map f l)) (Forall2 R)).
    - intros x y. apply Forall2_sym; auto.
    - apply (alike_list f L R); auto.
    - apply (alike_list f L R); auto.
  Qed.

  Lemma alike_node n c d : rank_node c -> rank_node d -> alike n (node_obj c) (node_obj d) -> same_node c d.
  Proof.
    intros (A1 & A2 & A3 & A4) (B1 & B2 & B3 & B4) A. unfold node_obj in A.
    pose proof (alike_field "consumptions" _ _ _ _ _ _ _ A eq_refl eq_refl) as [m1 H1].
    pose proof (alike_field "productions" _ _ _ _ _ _ _ A eq_refl eq_refl) as [m2 H2].
    pose proof (alike_field "storages" _ _ _ _ _ _ _ A eq_refl eq_refl) as [m3 H3].
    pose proof (alike_field "links" _ _ _ _ _ _ _ A eq_refl eq_refl) as [m4 H4].
    repeat split.
    - eapply (both_list cons_obj rank_cons same_cons); eauto using same_cons_sym, alike_cons.
    - eapply (both_list prod_obj rank_prod same_prod); eauto using same_prod_sym, alike_prod.
    - eapply (both_list stor_obj rank_stor same_stor); eauto using same_stor_sym, alike_stor.
    - eapply (both_list link_obj rank_link same_link); eauto using same_link_sym, alike_link.
  Qed.

  Lemma both_named {V} (f : V -> pobj) (L : V -> Prop) (R : V -> V -> Prop) (d e : dict string V) : (forall x y, R x y -> R y x) ->
    (forall n x y, L x -> L y -> alike n (f x) (f y) -> R x y) -> NoDup (map fst d) -> NoDup (map fst e) ->
    (forall k x, In (k, x) d -> L x) -> (forall k x, In (k, x) e -> L x) ->
    forall n, both n (ODict (named f d)) (ODict (named f e)) -> same_map R d e.
  Proof.
    intros Sy D Nd Ne Ld Le n. apply (both_of (fun d => ODict (named f d)) (same_map R)).
    - intros x y. apply same_map_sym; auto.
    - intros m. apply (alike_map KName f R d e L m); auto; congruence.
    - intros m. apply (alike_map KName f R e d L m); auto; congruence.
  Qed.

  Definition rank_network (ns : network) := NoDup (map fst ns) /\ forall k x, In (k, x) ns -> rank_node x.
  Lemma alike_network n c d : rank_network c -> rank_network d -> alike n (network_obj c) (network_obj d) -> same_map same_node c d.
  Proof.
    intros [Nc Lc] [Ne Le] A. unfold network_obj in A.
    pose proof (alike_field "nodes" _ _ _ _ _ _ _ A eq_refl eq_refl) as [m1 H1].
    eapply (both_named node_obj rank_node same_node); eauto using same_node_sym, alike_node.
  Qed.
  Definition rank_study (s : study) :=
    NoDup (map fst (st_networks s)) /\ NoDup (map fst (st_converters s)) /\
    (forall k x, In (k, x) (st_networks s) -> rank_network x) /\ (forall k x, In (k, x) (st_converters s) -> rank_conv x).
  Lemma alike_study n s s' : rank_study s -> rank_study s' -> alike n (study_obj s) (study_obj s') -> same_study s s'.
  Proof.
    intros (A1 & A2 & A3 & A4) (B1 & B2 & B3 & B4) A. unfold study_obj in A.
    fld "version" A; fld "horizon" A; fld "nb_scn" A.
    pose proof (alike_field "networks" _ _ _ _ _ _ _ A eq_refl eq_refl) as [m1 H2].
    pose proof (alike_field "converters" _ _ _ _ _ _ _ A eq_refl eq_refl) as [m2 H3].
    repeat split; [eapply both_str; eauto | eapply both_nat; eauto | eapply both_nat; eauto | | ].
    - eapply (both_named network_obj rank_network (same_map same_node)); eauto using alike_network.
      intros. apply same_map_sym; auto using same_node_sym.
    - eapply (both_named conv_obj rank_conv same_conv); eauto using same_conv_sym, alike_conv.
  Qed.
End Truth.

(** ** The arrays of a study *)
Lemma heavy_arrays x : heavy x = true <-> exists a, In (None, a) (arrays x) /\ 2 <= size_of (shape a).
Proof.
  induction x using pobj_induction; simpl.
  - split; [discriminate|]. intros (? & [] & _).
  - split; [discriminate|]. intros (? & [] & _).
  - split; [discriminate|]. intros (? & [] & _).
  - destruct i as [i|].
    + split; [discriminate|]. intros (? & [E|[]] & _). discriminate.
    + change (Nat.leb 2 (size_of (shape a)) = true <-> exists b, ((None, a) = (@None nat, b) \/ False) /\ 2 <= size_of (shape b)).
      rewrite Nat.leb_le. split; [eauto|]. intros (b & [E|[]] & L). congruence.
  - rewrite Forall_forall in H. rewrite existsb_exists. split.
    + intros (y & I & E). apply H in E; auto. destruct E as (a & J & L). exists a. split; auto. apply in_flat_map; eauto.
    + intros (a & J & L). apply in_flat_map in J. destruct J as (y & I & J). exists y. split; auto. apply H; eauto.
  - rewrite Forall_forall in H. rewrite existsb_exists. split.
    + intros (y & I & E). apply H in E; auto. destruct E as (a & J & L). exists a. split; auto. apply in_flat_map; eauto.
    + intros (a & J & L). apply in_flat_map in J. destruct J as (y & I & J). exists y. split; auto. apply H; eauto.
  - rewrite Forall_forall in H. rewrite existsb_exists. split.
    + intros (y & I & E). apply H in E; auto. destruct E as (a & J & L). exists a. split; auto. apply in_flat_map; eauto.
    + intros (a & J & L). apply in_flat_map in J. destruct J as (y & I & J). exists y. split; auto. apply H; eauto.
Qed.
Lemma tame_arrays x : (forall i a, In (i, a) (arrays x) -> size_of (shape a) = 1) -> tame x.
Proof.
  induction x using pobj_induction; simpl; intros T; auto.
  - eapply T; eauto.
  - apply tame_list. rewrite !Forall_forall in *. intros y I. apply H; auto. intros i a J. apply (T i). apply in_flat_map; eauto.
  - apply tame_vals. rewrite !Forall_forall in *. intros y I. apply H; auto. intros i a J. apply (T i). apply in_flat_map; eauto.
  - apply tame_vals. rewrite !Forall_forall in *. intros y I. apply H; auto. intros i a J. apply (T i). apply in_flat_map; eauto.
Qed.
(** Keys used once. *)
Fixpoint distinct (x : pobj) : Prop :=
  match x with
  | OList l => (fix all l := match l with [] => True | y :: r => distinct y /\ all r end) l
  | ODict d => NoDup (map fst d) /\ (fix all d := match d with [] => True | (_, y) :: r => distinct y /\ all r end) d
  | OObj _ f => NoDup (map fst f) /\ (fix all f := match f with [] => True | (_, y) :: r => distinct y /\ all r end) f
  | _ => True
  end.
Lemma distinct_list l : (forall x, In x l -> distinct x) -> distinct (OList l).
Proof. simpl. induction l; auto. intros D. split; [apply D; simpl; auto | apply IHl; intros; apply D; simpl; auto]. Qed.
Lemma distinct_vals {K} (d : list (K * pobj)) :
  (fix all d := match d with [] => True | (_, y) :: r => distinct y /\ all r end) d <-> Forall (fun kv => distinct (snd kv)) d.
Proof. induction d as [|[k v] d IH]; [split; auto|]. rewrite Forall_cons_iff, IH. simpl. tauto. Qed.
Lemma distinct_dict d : NoDup (map fst d) -> (forall k x, In (k, x) d -> distinct x) -> distinct (ODict d).
Proof. intros N D. simpl. rewrite distinct_vals, Forall_forall. split; auto. intros [k x] I. eapply D; eauto. Qed.
Lemma sound_arrays x : distinct x -> (forall i a, In (i, a) (arrays x) -> size_of (shape a) <> 0) -> sound x.
Proof.
  induction x using pobj_induction; intros D T; try exact Logic.I.
  - eapply (T i). simpl. auto.
  - apply sound_list. rewrite !Forall_forall in *. intros y I. apply H; auto.
    + clear -D I. simpl in D. induction l; simpl in *; [tauto|]. destruct I as [<-|I]; tauto.
    + intros i a J. apply (T i). simpl. apply in_flat_map; eauto.
  - apply sound_dict. simpl in D. rewrite distinct_vals in D. destruct D as [N D]. split; auto. rewrite !Forall_forall in *. intros y I. apply H; auto.
    intros i a J. apply (T i). simpl. apply in_flat_map; eauto.
  - apply sound_obj. simpl in D. rewrite distinct_vals in D. destruct D as [N D]. split; auto. rewrite !Forall_forall in *. intros y I. apply H; auto.
    intros i a J. apply (T i). simpl. apply in_flat_map; eauto.
Qed.

Lemma distinct_named {V} (f : V -> pobj) (d : dict string V) : NoDup (map fst d) -> (forall k x, In (k, x) d -> distinct (f x)) -> distinct (ODict (named f d)).
Proof.
  intros N D. apply distinct_dict.
  - unfold named. rewrite map_map. simpl. rewrite <- (map_map fst KName). apply FinFun.Injective_map_NoDup; auto. intros a b E. congruence.
  - intros k x I. apply in_map_iff in I. destruct I as ([k' v] & E & I). inversion E; subst. eapply D; eauto.
Qed.
Lemma distinct_keyed {V} (f : V -> pobj) (d : dict (string * string) V) : NoDup (map fst d) -> (forall k x, In (k, x) d -> distinct (f x)) -> distinct (ODict (keyed f d)).
Proof.
  intros N D. apply distinct_dict.
  - unfold keyed. rewrite map_map. simpl. rewrite <- (map_map fst (fun k : string * string => KPair (fst k) (snd k))). apply FinFun.Injective_map_NoDup; auto. intros [] [] E. simpl in E. congruence.
  - intros k x I. apply in_map_iff in I. destruct I as ([k' v] & E & I). inversion E; subst. eapply D; eauto.
Qed.
Ltac names := repeat constructor; simpl; intuition discriminate.
Ltac attributes := cbn [distinct]; (split; [simpl; names | repeat split; auto]).
Lemma distinct_val v : distinct (val_obj v).
Proof. destruct v; attributes. Qed.
Lemma distinct_opt v : distinct (opt_val_obj v).
Proof. destruct v; [apply distinct_val | exact Logic.I]. Qed.
Local Hint Resolve distinct_val distinct_opt : core.

Lemma distinct_node n : distinct (node_obj n).
Proof.
  assert (X : forall {A} (f : A -> pobj) l, (forall x, distinct (f x)) -> distinct (OList (map f l))).
  { intros A f l F. apply distinct_list. intros x I. apply in_map_iff in I. destruct I as (y & <- & _). auto. }
  unfold node_obj. split; [simpl; names|]. split; [|split; [|split; [|split; [|exact Logic.I]]]]; apply X; intros x.
  - unfold cons_obj. attributes.
  - unfold prod_obj. attributes.
  - unfold stor_obj. attributes.
  - unfold link_obj. attributes.
Qed.
Lemma distinct_study s : study_wf s -> distinct (study_obj s).
Proof.
  intros W. unfold study_obj. split; [simpl; names|].
  split; [exact Logic.I|]. split; [|split; [|split; [exact Logic.I|split; [exact Logic.I|]]]].
  - apply distinct_named; [apply W|]. intros net ns I. split; [simpl; names|]. split; [|exact Logic.I].
    apply distinct_named; [eapply (wf_nodes _ W), In_dget; [apply W | exact I]|]. intros. apply distinct_node.
  - apply distinct_named; [apply W|]. intros name v I. unfold conv_obj. split; [simpl; names|].
    split; [exact Logic.I|]. split; [|repeat split; auto].
    apply distinct_keyed; auto. eapply wf_once, (wf_conv _ W name v). apply In_dget; [apply W | exact I].
  - split; [|exact Logic.I]. split; [simpl; names | repeat split].
Qed.

Lemma arrays_val v i a : In (i, a) (arrays (val_obj v)) <-> i = None /\ value_array v = Some a.
Proof.
  destruct v; simpl; (split; [intros [E|[]]; inversion E; auto | intros [-> E]; inversion E; auto]) || (split; [tauto | intros [_ E]; discriminate]).
Qed.

Lemma arrays_study s i a : In (i, a) (arrays (study_obj s)) <-> i = None /\ exists v, holds_value s v /\ value_array v = Some a.
Proof.
  unfold study_obj. cbn [arrays flat_map fst snd]. rewrite !app_nil_l, !in_app_iff.
  assert (AN : forall n, In (i, a) (arrays (node_obj n)) <-> i = None /\ exists v, value_array v = Some a /\
    In v (flat_map (fun c => [c_cost c; c_qty c]) (n_cons n) ++ flat_map (fun p => [p_cost p; p_qty p]) (n_prods n) ++
          flat_map (fun x => [s_capacity x; s_flow_in x; s_flow_out x; s_cost x; s_eff x]) (n_stors n) ++
          flat_map (fun l => [l_cost l; l_qty l]) (n_links n))).
  { intros n.
    assert (X : forall {A} (f : A -> pobj) (g : A -> list numval) l,
      (forall x, In (i, a) (arrays (f x)) <-> exists v, In v (g x) /\ i = None /\ value_array v = Some a) ->
      (In (i, a) (flat_map arrays (map f l)) <-> exists v, In v (flat_map g l) /\ i = None /\ value_array v = Some a)).
    { intros A f g l F. rewrite flat_map_concat_map, map_map, <- flat_map_concat_map, in_flat_map. split.
      - intros (x & I & J). apply F in J. destruct J as (v & J & E). exists v. split; auto. apply in_flat_map; eauto.
      - intros (v & J & E). apply in_flat_map in J. destruct J as (x & I & J). exists x. split; auto. apply F; eauto. }
    unfold node_obj. cbn [arrays flat_map fst snd]. rewrite !in_app_iff.
    rewrite (X _ cons_obj (fun c => [c_cost c; c_qty c])), (X _ prod_obj (fun p => [p_cost p; p_qty p])),
      (X _ stor_obj (fun x => [s_capacity x; s_flow_in x; s_flow_out x; s_cost x; s_eff x])), (X _ link_obj (fun l => [l_cost l; l_qty l])).
    - split.
      + intros [(v & J & -> & E)|[(v & J & -> & E)|[(v & J & -> & E)|[(v & J & -> & E)|[]]]]]; (split; auto; exists v; split; auto; rewrite !in_app_iff; auto).
      + intros (-> & v & E & J). rewrite !in_app_iff in J. destruct J as [J|[J|[J|J]]]; eauto 10.
    - intros x. unfold link_obj. cbn [arrays flat_map fst snd]. rewrite app_nil_l, !in_app_iff, !arrays_val. simpl. split.
      + intros [[-> E]|[[-> E]|[]]]; eauto 6.
      + intros (v & [<-|[<-|[]]] & -> & E); auto.
    - intros x. unfold stor_obj. cbn [arrays flat_map fst snd]. rewrite app_nil_l, !in_app_iff, !arrays_val. simpl. split.
      + intros [[-> E]|[[-> E]|[[-> E]|[[-> E]|[[]|[[-> E]|[]]]]]]]; eauto 12.
      + intros (v & [<-|[<-|[<-|[<-|[<-|[]]]]]] & -> & E); auto 10.
    - intros x. unfold prod_obj. cbn [arrays flat_map fst snd]. rewrite app_nil_l, !in_app_iff, !arrays_val. simpl. split.
      + intros [[-> E]|[[-> E]|[]]]; eauto 6.
      + intros (v & [<-|[<-|[]]] & -> & E); auto.
    - intros x. unfold cons_obj. cbn [arrays flat_map fst snd]. rewrite !in_app_iff, !arrays_val. simpl. split.
      + intros [[-> E]|[[-> E]|[[]|[]]]]; eauto 6.
      + intros (v & [<-|[<-|[]]] & -> & E); auto. }
  assert (AO : forall v, In (i, a) (arrays (opt_val_obj v)) <-> i = None /\ exists w, v = Some w /\ value_array w = Some a).
  { intros [v|]; simpl; [rewrite arrays_val|]; split; try tauto.
    - intros [-> E]; eauto.
    - intros (-> & w & E & V). inversion E; subst. auto.
    - intros (_ & w & E & _). discriminate. }
  split.
  - intros [N|[N|N]]; [| | exfalso; simpl in N; tauto]; apply in_flat_map in N; destruct N as ([k x] & I & J); apply in_map_iff in I; destruct I as ([k' y] & E & I); inversion E; subst; simpl in J.
    + apply in_app_iff in J. destruct J as [J|[]]. apply in_flat_map in J. destruct J as ([k2 x2] & J & L). apply in_map_iff in J.
      destruct J as ([k3 n] & E3 & J). inversion E3; subst. simpl in L. apply AN in L. destruct L as (-> & v & V & L).
      split; auto. exists v. split; auto. eapply hv_node; eauto.
    + rewrite !in_app_iff in J. destruct J as [J|[J|[J|[]]]].
      * apply in_flat_map in J. destruct J as ([k2 x2] & J & L). apply in_map_iff in J. destruct J as ([k3 q] & E3 & J). inversion E3; subst.
        apply arrays_val in L. destruct L as [-> V]. split; auto. exists q. split; auto. eapply hv_conv; eauto. left. apply (in_map snd _ _ J).
      * apply AO in J. destruct J as (-> & w & Ew & V). split; auto. exists w. split; auto. eapply hv_conv; eauto.
      * apply AO in J. destruct J as (-> & w & Ew & V). split; auto. exists w. split; auto. eapply hv_conv; eauto.
  - intros (-> & v & [net ns nd n I J L|name c I L] & V).
    + left. apply in_flat_map. exists (KName net, network_obj ns). split; [apply in_map_iff; exists (net, ns); auto|]. simpl. apply in_app_iff. left.
      apply in_flat_map. exists (KName nd, node_obj n). split; [apply in_map_iff; exists (nd, n); auto|]. simpl. apply AN. eauto.
    + right. left. apply in_flat_map. exists (KName name, conv_obj c). split; [apply in_map_iff; exists (name, c); auto|]. simpl. rewrite !in_app_iff.
      destruct L as [L|[L|L]].
      * left. apply in_map_iff in L. destruct L as ([k q] & E & L). simpl in E. subst q. apply in_flat_map.
        exists (KPair (fst k) (snd k), val_obj v). split; [apply in_map_iff; exists (k, v); auto|]. apply arrays_val. auto.
      * right. left. apply AO. eauto.
      * right. right. left. apply AO. eauto.
Qed.

(** ** Studies built by calls *)
Lemma list_eqb_true l m : list_eqb Nat.eqb l m = true -> l = m.
Proof.
  revert m. induction l as [|x l IH]; intros [|y m]; simpl; try discriminate; auto.
  rewrite andb_true_iff, Nat.eqb_eq. intros [-> E]. f_equal. auto.
Qed.

Lemma canon_cases h n v : nv_canon h n v ->
  match v with
  | Scalar _ _ _ => True
  | Row a _ _ => nd_wf a /\ shape a = [h]
  | Column a _ _ => nd_wf a /\ shape a = [n; 1]
  | Matrix a _ _ => nd_wf a /\ shape a = [n; h]
  end.
Proof.
  assert (X : forall a, create_arr h n a = Ok v ->
    v = Row a h n /\ shape a = [h] \/ v = Column a h n /\ shape a = [n; 1] \/ v = Matrix a h n /\ shape a = [n; h]).
  { intros a E. unfold create_arr in E.
    destruct (list_eqb Nat.eqb (shape a) [h]) eqn:E1; [inversion E; auto using list_eqb_true|].
    destruct (list_eqb Nat.eqb (shape a) [n; 1]) eqn:E2; [inversion E; auto using list_eqb_true|].
    destruct (list_eqb Nat.eqb (shape a) [n; h]) eqn:E3; [inversion E; auto using list_eqb_true|].
    destruct (shape a); discriminate. }
  destruct v; simpl; auto; intros [E W]; (split; [auto|]); destruct (X a E) as [[F G]|[[F G]|[F G]]]; congruence.
Qed.

Lemma canon_rank h n v : nv_canon h n v -> rank_ok v.
Proof. intros C. apply canon_cases in C. destruct v; simpl; auto; destruct C as [W ->]; auto. Qed.

Lemma canon_entries h n v : 0 < h -> 0 < n -> nv_canon h n v -> one_entry v \/ many_entries v.
Proof.
  intros Hh Hn C. apply canon_cases in C.
  assert (X : forall a, nd_wf a -> size_of (shape a) = 1 -> exists q, data a = [q]).
  { intros a W S. unfold nd_wf in W. rewrite S in W. destruct (data a) as [|q [|? ?]]; try discriminate. eauto. }
  destruct v as [p h0 n0|a h0 n0|a h0 n0|a h0 n0]; simpl; auto; destruct C as [W E]; destruct a as [sh d]; simpl in *; subst sh.
  - destruct (Nat.eq_dec (n * h) 1) as [O|O]; [left | right; simpl; nia].
    apply Nat.eq_mul_1 in O. destruct O as [-> ->]. destruct (X _ W) as [q Q]; auto. simpl in Q. subst d. eauto.
  - destruct (Nat.eq_dec h 1) as [->|O]; [left | right; simpl; lia].
    destruct (X _ W) as [q Q]; auto. simpl in Q. subst d. eauto.
  - destruct (Nat.eq_dec n 1) as [->|O]; [left | right; simpl; lia].
    destruct (X _ W) as [q Q]; auto. simpl in Q. subst d. eauto.
Qed.

Lemma one_not_many v : one_entry v -> many_entries v -> False.
Proof. destruct v; simpl; auto; intros [q ->]; simpl; lia. Qed.

Section Api.
  Variable s : study.
  Hypothesis Api : api_study s.
  Let W : study_wf s := proj1 (api_facts s Api).
  Let C : study_canon s := proj1 (proj2 (api_facts s Api)).

  Lemma api_value v : holds_value s v -> nv_canon (st_horizon s) (st_nb_scn s) v.
  Proof.
    intros [net ns nd n I J L|name c I L].
    - pose proof (sc_node _ C _ _ _ (In_node_at s net ns nd n W I J)) as [N1 N2 N3 N4].
      rewrite !in_app_iff in L.
      destruct L as [L|[L|[L|L]]]; apply in_flat_map in L; destruct L as (x & K & L); simpl in L;
        [destruct (N1 x K) | destruct (N2 x K) | destruct (N3 x K) as (? & ? & ? & ? & ?) | destruct (N4 x K)];
        intuition congruence.
    - assert (E : conv_at s name = Some c) by (apply In_dget; [apply W | exact I]).
      destruct (sc_conv _ C _ _ E) as [V1 V2 V3]. destruct L as [L|[L|L]].
      + apply in_map_iff in L. destruct L as ([k q] & <- & L). eapply V1; eauto.
      + rewrite L in V2. exact V2.
      + rewrite L in V3. exact V3.
  Qed.

  Lemma api_entries v : holds_value s v -> one_entry v \/ many_entries v.
  Proof.
    intros V. pose proof (api_facts s Api) as (_ & _ & Hh & Hn). apply (canon_entries _ _ _ Hh Hn), api_value, V.
  Qed.

  Lemma each_study (P : numval -> Prop) (Pnode : node -> Prop) (Pconv : converter -> Prop) :
    (forall v, holds_value s v -> P v) ->
    (forall n, (forall v, In v (flat_map (fun c => [c_cost c; c_qty c]) (n_cons n) ++ flat_map (fun p => [p_cost p; p_qty p]) (n_prods n) ++
          flat_map (fun x => [s_capacity x; s_flow_in x; s_flow_out x; s_cost x; s_eff x]) (n_stors n) ++
          flat_map (fun l => [l_cost l; l_qty l]) (n_links n)) -> P v) -> Pnode n) ->
    (forall c, NoDup (map fst (v_src c)) -> (forall v, In v (map snd (v_src c)) \/ v_cost c = Some v \/ v_max c = Some v -> P v) -> Pconv c) ->
    NoDup (map fst (st_networks s)) /\ NoDup (map fst (st_converters s)) /\
    (forall k x, In (k, x) (st_networks s) -> NoDup (map fst x) /\ forall d n, In (d, n) x -> Pnode n) /\
    (forall k x, In (k, x) (st_converters s) -> Pconv x).
  Proof.
    intros H PN PC. split; [apply W|]. split; [apply W|]. split.
    - intros k x I. split; [eapply (wf_nodes _ W), In_dget; [apply W | exact I]|].
      intros d n J. apply PN. intros v L. apply H. eapply hv_node; eauto.
    - intros k x I. apply PC.
      + eapply wf_once, (wf_conv _ W k x). apply In_dget; [apply W | exact I].
      + intros v L. apply H. eapply hv_conv; eauto.
  Qed.

  Ltac fill H := rewrite !in_app_iff, !in_flat_map; eauto 10.

  Lemma api_rank : rank_study s.
  Proof.
    apply (each_study rank_ok rank_node rank_conv).
    - intros v V. eapply canon_rank, api_value, V.
    - intros n V. repeat split; apply V; rewrite !in_app_iff, !in_flat_map.
      all: try (left; exists c; simpl; tauto); try (right; left; exists c; simpl; tauto);
           try (right; right; left; exists c; simpl; tauto); right; right; right; exists c; simpl; tauto.
    - intros c N V. split; auto. split.
      + intros k q I. apply V. left. apply (in_map snd _ _ I).
      + split; [destruct (v_cost c) eqn:E | destruct (v_max c) eqn:E]; simpl; auto.
  Qed.

  Lemma api_light : (forall v, holds_value s v -> one_entry v) -> light_study s.
  Proof.
    intros O. apply (each_study one_entry light_node light_conv); auto.
    - intros n V. repeat split; apply V; rewrite !in_app_iff, !in_flat_map.
      all: try (left; exists c; simpl; tauto); try (right; left; exists c; simpl; tauto);
           try (right; right; left; exists c; simpl; tauto); right; right; right; exists c; simpl; tauto.
    - intros c N V. split; auto. split.
      + intros k q I. apply V. left. apply (in_map snd _ _ I).
      + split; [destruct (v_cost c) eqn:E | destruct (v_max c) eqn:E]; simpl; auto.
  Qed.

  Lemma api_sound : sound (study_obj s).
  Proof.
    apply sound_arrays; [now apply distinct_study|]. intros i a I. apply arrays_study in I. destruct I as (_ & v & V & E).
    destruct (api_entries v V) as [O|M]; destruct v; simpl in *; inversion E; subst; try (destruct O as [q ->]; simpl; lia); lia.
  Qed.
  Lemma api_heavy : heavy (study_obj s) = true <-> exists v, holds_value s v /\ many_entries v.
  Proof.
    rewrite heavy_arrays. split.
    - intros (a & I & L). apply arrays_study in I. destruct I as (_ & v & V & E). exists v. split; auto.
      destruct v; simpl in *; inversion E; subst; auto.
    - intros (v & V & M). destruct (value_array v) as [a|] eqn:E; [|destruct v; simpl in *; try discriminate; tauto].
      exists a. split; [apply arrays_study; eauto|]. destruct v; simpl in *; inversion E; subst; auto.
  Qed.
  Lemma api_tame o : unshare o = study_obj s -> (forall v, holds_value s v -> one_entry v) -> tame o.
  Proof.
    intros U O. apply tame_unshare. rewrite U. apply tame_arrays. intros i a I. apply arrays_study in I. destruct I as (_ & v & V & E).
    specialize (O v V). destruct v; simpl in *; inversion E; subst; destruct O as [q ->]; reflexivity.
  Qed.
End Api.

(** ** C68 *)
(** A study compared with itself: every array is the same object on both sides. *)
Theorem C68_same_object : forall old swap s o, api_study s -> unshare o = study_obj s ->
  (forall i a, In (i, a) (arrays o) -> i <> None) -> py_eq old swap o o = Ok true.
Proof.
  intros old swap s o A U I. unfold py_eq. rewrite eq_self; [| |lia].
  - unfold own. destruct (heavy o) eqn:Hv; auto. apply heavy_arrays in Hv. destruct Hv as (a & J & _). destruct (I _ _ J). auto.
  - apply sound_unshare. rewrite U. now apply api_sound.
Qed.
Print Assumptions C68_same_object.

(** A study compared with a copy that shares no array, for instance after to_json and
    from_json: True exactly when no value has several entries, an error in all other cases. *)
Theorem C68_copy : forall old swap s, api_study s ->
  (py_eq old swap (study_obj s) (study_obj s) = Ok true <-> forall v, holds_value s v -> one_entry v) /\
  (py_eq old swap (study_obj s) (study_obj s) = Err ValueError <-> exists v, holds_value s v /\ many_entries v).
Proof.
  intros old swap s A. unfold py_eq. rewrite eq_self; [| now apply api_sound | lia].
  unfold own. pose proof (api_heavy s) as Hv. destruct (heavy (study_obj s)).
  - destruct Hv as [Hv _]. destruct (Hv eq_refl) as (v & V & M). split; split; try discriminate; eauto.
    intros O. destruct (one_not_many v (O v V) M).
  - split; split; try discriminate; auto.
    + intros _ v V. destruct (api_entries s A v V) as [O|M]; auto. destruct Hv as [_ Hv]. discriminate Hv. eauto.
    + intros (v & V & M). destruct Hv as [_ Hv]. discriminate Hv. eauto.
Qed.
Print Assumptions C68_copy.

(** True is only ever given for the same study, whatever arrays the two share. *)
Theorem C68_true_means_same : forall old swap s s' o o', api_study s -> api_study s' ->
  unshare o = study_obj s -> unshare o' = study_obj s' -> coherent o o' ->
  py_eq old swap o o' = Ok true -> same_study s s'.
Proof.
  intros old swap s s' o o' A A' U U' C E. unfold py_eq in E. apply eq_alike in E; auto. rewrite U, U' in E.
  eapply alike_study; eauto using api_rank.
Qed.
Print Assumptions C68_true_means_same.

(** Studies whose values are numbers or arrays of one entry can be compared, and the answer
    is right. Missing: studies with arrays of several entries, where the comparison raises
    an exception ([C68_copy], [C68_same_calls_refuted]). *)
Theorem C68_small_values_partial : forall old swap s s' o o', api_study s -> api_study s' ->
  (forall v, holds_value s v -> one_entry v) -> (forall v, holds_value s' v -> one_entry v) ->
  unshare o = study_obj s -> unshare o' = study_obj s' -> coherent o o' ->
  (same_study s s' -> py_eq old swap o o' = Ok true) /\ (~ same_study s s' -> py_eq old swap o o' = Ok false).
Proof.
  intros old swap s s' o o' A A' O O' U U' C.
  rewrite py_eq_unshare, U, U', (py_eq_upto old swap 9); eauto using api_tame.
  destruct (study_eq old swap (S (depth (study_obj s) + depth (study_obj s'))) s s') as (b & E & B); auto using api_light.
  cbn [Nat.add] in E |- *. rewrite E. split; intros X.
  - f_equal. apply B. auto.
  - f_equal. destruct b; auto. destruct X. apply B. auto.
Qed.
Print Assumptions C68_small_values_partial.

(** ** Examples and the comparison that fails *)
Definition small_calls (q : json) (version : option string) : list call :=
  [ OnStudy_network "elec";
    OnSel 0 (MNode "a");
    OnSel 1 (MConsumption "load" (PJson (jn 1000)) (PJson q));
    OnSel 2 (MProduction "gas" (PJson (JList [jn 30])) (PJson (JList [JList [jn 5]])));
    OnSel 3 (MNode "b");
    OnSel 4 (MStorage "bat" (PJson (jn 10)) (PJson (jn 1)) (PJson (jn 5)) (PJson (jn 0)) 2 (PJson (JNum (9#10))));
    OnSel 5 (MLink "b" "a" (PJson (jn 2)) (PJson (jn 40)));
    OnSel 5 (MToConverter "p2g" (PJson (JNum (1#2))));
    OnStudy_network "gas";
    OnSel 8 (MNode "c");
    OnSel 8 (MConverter "p2g" "gas" "c" (PJson (jn 9)) (PJson (JList [jn 1]))) ].
Definition small_of (q : json) : study := w_study (run (start 1 1 None) (small_calls q None)).
Definition small := Eval vm_compute in small_of (jn 10).
Definition small_twin := Eval vm_compute in small_of (JNum (20 # 2)).
Definition small_other := Eval vm_compute in small_of (JList [jn 10]).
Lemma small_plain q : (exists z, q = JNum z) \/ q = JList [jn 10] -> plain_program (small_calls q None).
Proof.
  intros Q. intros c x I J. assert (A : Forall plain_arg (flat_map call_args (small_calls q None))).
  { destruct Q as [[z ->]| ->]; repeat constructor; simpl; try discriminate; try reflexivity; intros; congruence. }
  rewrite Forall_forall in A. apply A. apply in_flat_map. eauto.
Qed.
Lemma small_api : api_study small.
Proof. exists 1, 1, None, (small_calls (jn 10) None). split; [lia|]. split; [lia|]. split; [apply small_plain; left; eexists; reflexivity | vm_compute; reflexivity]. Qed.
Lemma small_twin_api : api_study small_twin.
Proof. exists 1, 1, None, (small_calls (JNum (20 # 2)) None). split; [lia|]. split; [lia|]. split; [apply small_plain; eauto | vm_compute; reflexivity]. Qed.
Lemma small_other_api : api_study small_other.
Proof. exists 1, 1, None, (small_calls (JList [jn 10]) None). split; [lia|]. split; [lia|]. split; [apply small_plain; auto | vm_compute; reflexivity]. Qed.

Lemma entries_by_size s : api_study s -> st_horizon s = 1 -> st_nb_scn s = 1 -> forall v, holds_value s v -> one_entry v.
Proof.
  intros A H N v V. destruct (api_entries s A v V) as [O|M]; auto. apply (api_value s A) in V. rewrite H, N in V.
  apply canon_cases in V. destruct v; simpl in *; auto; destruct V as [_ E]; rewrite E in M; simpl in M; lia.
Qed.

Example C68_small_example :
  (forall old swap, py_eq old swap (study_obj small) (study_obj small_twin) = Ok true /\ py_eq old swap (study_obj small) (study_obj small_other) = Ok false) /\
  same_study small small_twin /\ ~ same_study small small_other /\ small <> small_twin.
Proof.
  assert (X : forall s o', unshare (study_obj s) = study_obj s -> coherent (study_obj s) o').
  { intros s o' _ i a b I. apply arrays_study in I. destruct I as [E _]. discriminate. }
  assert (Y : forall s s' b, api_study s -> api_study s' -> st_horizon s = 1 -> st_nb_scn s = 1 -> st_horizon s' = 1 -> st_nb_scn s' = 1 ->
    unshare (study_obj s) = study_obj s -> unshare (study_obj s') = study_obj s' ->
    py_eq false false (study_obj s) (study_obj s') = Ok b -> (same_study s s' <-> b = true)).
  { intros s s' b A A' H N H' N' U U' E.
    destruct (study_eq false false (S (depth (study_obj s) + depth (study_obj s'))) s s') as (c & Ec & C); [apply api_light; auto; now apply entries_by_size.. |].
    rewrite (py_eq_upto false false 9) in E. cbn [Nat.add] in E. rewrite Ec in E. inversion E; subst. symmetry. exact C. }
  split; [intros [] []; split; vm_compute; reflexivity|].
  split; [eapply (Y small small_twin true); auto using small_api, small_twin_api; vm_compute; reflexivity|].
  split; [|discriminate].
  intros S. eapply (Y small small_other false) in S; auto using small_api, small_other_api; try (vm_compute; reflexivity). discriminate.
Qed.

Lemma same_array_refl a : same_array a a.
Proof. split; auto. induction (data a); constructor; auto. reflexivity. Qed.
Lemma same_value_refl v : same_value v v.
Proof. destruct v; simpl; repeat split; auto; try reflexivity; apply same_array_refl. Qed.
Lemma same_map_refl {K V} `{EqB K} (R : V -> V -> Prop) (d : dict K V) : (forall x, R x x) -> same_map R d d.
Proof. intros X k. destruct (dget k d); auto. Qed.
Lemma Forall2_refl {V} (R : V -> V -> Prop) l : (forall x, R x x) -> Forall2 R l l.
Proof. intros X. induction l; auto. Qed.
Lemma same_study_refl s : same_study s s.
Proof.
  repeat split; auto; apply same_map_refl.
  - intros ns. apply same_map_refl. intros n. repeat split; apply Forall2_refl; intros x; repeat split; auto using same_value_refl; reflexivity.
  - intros c. repeat split; auto; [apply same_map_refl, same_value_refl | destruct (v_cost c) | destruct (v_max c)]; simpl; auto using same_value_refl.
Qed.

(** The same calls made twice give studies that cannot be compared, as soon as one quantity
    is given for each hour. *)
Definition wide_calls : list call :=
  [ OnStudy_network "elec"; OnSel 0 (MNode "a"); OnSel 1 (MConsumption "load" (PJson (jn 1000)) (PJson (JList [jn 10; jn 20]))) ].
Definition wide := Eval vm_compute in w_study (run (start 2 1 None) wide_calls).
Lemma wide_api : api_study wide.
Proof. exists 2, 1, None, wide_calls. split; [lia|]. split; [lia|]. split; [|vm_compute; reflexivity].
  intros c x I J. assert (A : Forall plain_arg (flat_map call_args wide_calls)).
  { repeat constructor; simpl; try discriminate; try reflexivity; intros; congruence. }
  rewrite Forall_forall in A. apply A. apply in_flat_map. eauto.
Qed.
Theorem C68_same_calls_refuted : exists s, api_study s /\ same_study s s /\
  forall old swap, py_eq old swap (study_obj s) (study_obj s) = Err ValueError.
Proof.
  exists wide. split; [apply wide_api|]. split; [apply same_study_refl|]. intros [] []; vm_compute; reflexivity.
Qed.
Print Assumptions C68_same_calls_refuted.

(** The objects of [wide] when the caller gave the array numbered 7, kept by reference
    (numeric.py:187-206). *)
Fixpoint owned (i : nat) (x : pobj) : pobj :=
  match x with
  | OArr _ a => OArr (Some i) a
  | OList l => OList (map (owned i) l)
  | ODict d => ODict (map (fun kv => (fst kv, owned i (snd kv))) d)
  | OObj c f => OObj c (map (fun kv => (fst kv, owned i (snd kv))) f)
  | x => x
  end.
Example C68_shared_example : forall old swap,
  unshare (owned 7 (study_obj wide)) = study_obj wide /\
  arrays (owned 7 (study_obj wide)) = [(Some 7, ND [2] [10%Q; 20%Q])] /\
  coherent (owned 7 (study_obj wide)) (owned 7 (study_obj wide)) /\
  py_eq old swap (owned 7 (study_obj wide)) (owned 7 (study_obj wide)) = Ok true /\
  py_eq old swap (owned 7 (study_obj wide)) (owned 8 (study_obj wide)) = Err ValueError /\
  holds_value wide (Row (ND [2] [10%Q; 20%Q]) 2 1) /\ many_entries (Row (ND [2] [10%Q; 20%Q]) 2 1).
Proof.
  intros old swap. split; [reflexivity|]. split; [reflexivity|]. split.
  { intros i a b I J. vm_compute in I, J. destruct I as [I|[]], J as [J|[]]. congruence. }
  split; [destruct old, swap; vm_compute; reflexivity|]. split; [destruct old, swap; vm_compute; reflexivity|].
  split; [|simpl; lia]. apply (hv_node wide _ "elec" (snd (List.hd ("", []) (st_networks wide))) "a" (snd (List.hd ("", Node [] [] [] []) (snd (List.hd ("", []) (st_networks wide))))));
    vm_compute; auto.
Qed.

(** After to_json and from_json. *)
Theorem C68_after_json : forall old swap s s', api_study s -> complete_converters s ->
  snd (study_from_json (study_to_json s)) = Ok s' ->
  (py_eq old swap (study_obj s) (study_obj s') = Ok true <-> forall v, holds_value s v -> one_entry v) /\
  (py_eq old swap (study_obj s) (study_obj s') = Err ValueError <-> exists v, holds_value s v /\ many_entries v).
Proof.
  intros old swap s s' A CC E. pose proof A as (h & n & version & cs & Hh & Hn & P & Es).
  pose proof (C11_study_json_round_trip_partial h n version cs Hh Hn P) as X. cbv zeta in X. rewrite <- Es in X.
  rewrite (X CC) in E. inversion E; subst s'. now apply C68_copy.
Qed.
Print Assumptions C68_after_json.
Example C68_after_json_example :
  snd (study_from_json (study_to_json small)) = Ok small /\ snd (study_from_json (study_to_json json_demo_study)) = Ok json_demo_study /\
  forall old swap, py_eq old swap (study_obj small) (study_obj small) = Ok true /\
    py_eq old swap (study_obj json_demo_study) (study_obj json_demo_study) = Err ValueError.
Proof. split; [vm_compute; reflexivity|]. split; [vm_compute; reflexivity|]. intros [] []; split; vm_compute; reflexivity. Qed.

(** ** Results *)
Lemma distinct_onode n : distinct (onode_obj n).
Proof.
  assert (X : forall {A} (f : A -> pobj) l, (forall x, distinct (f x)) -> distinct (OList (map f l))).
  { intros A f l F. apply distinct_list. intros x I. apply in_map_iff in I. destruct I as (y & <- & _). auto. }
  unfold onode_obj. split; [simpl; names|]. split; [|split; [|split; [|split; [|exact Logic.I]]]]; apply X; intros x.
  - unfold ocons_obj. attributes.
  - unfold oprod_obj. attributes.
  - unfold ostor_obj. attributes.
  - unfold olink_obj. attributes.
Qed.

Lemma distinct_result r : NoDup (map fst (r_networks r)) -> (forall net ns, In (net, ns) (r_networks r) -> NoDup (map fst ns)) ->
  NoDup (map fst (r_converters r)) -> (forall name v, In (name, v) (r_converters r) -> NoDup (map fst (ov_src v))) -> distinct (result_obj r).
Proof.
  intros N1 N2 N3 N4. unfold result_obj. split; [simpl; names|]. split; [|split; [|split; [|exact Logic.I]]].
  - apply distinct_named; auto. intros net ns I. split; [simpl; names|]. split; [|exact Logic.I].
    apply distinct_named; eauto. intros. apply distinct_onode.
  - apply distinct_named; auto. intros name v I. split; [simpl; names|]. split; [exact Logic.I|]. split; [|repeat split].
    apply distinct_keyed; eauto. intros. exact Logic.I.
  - split; [simpl; names|].
    assert (X : forall l, distinct (OList (map ONum l))).
    { intros l. apply distinct_list. intros x I. apply in_map_iff in I. destruct I as (y & <- & _). exact Logic.I. }
    split; [apply X|]. split; [apply X|]. repeat split.
Qed.

Lemma arrays_result r i a : In (i, a) (arrays (result_obj r)) <-> i = None /\ In a (result_arrays r).
Proof.
  assert (X : forall {A} (f : A -> pobj) (g : A -> list ndarray) l,
    (forall x, In (i, a) (arrays (f x)) <-> i = None /\ In a (g x)) ->
    (In (i, a) (flat_map arrays (map f l)) <-> i = None /\ In a (flat_map g l))).
  { intros A f g l F. rewrite flat_map_concat_map, map_map, <- flat_map_concat_map, !in_flat_map. split.
    - intros (x & I & J). apply F in J. destruct J. split; eauto.
    - intros (-> & x & I & J). exists x. split; auto. apply F; auto. }
  assert (XM : forall {A} (f : A -> pobj) (g : A -> ndarray) l,
    (forall x, In (i, a) (arrays (f x)) <-> i = None /\ a = g x) ->
    (In (i, a) (flat_map arrays (map f l)) <-> i = None /\ In a (map g l))).
  { intros A f g l F. rewrite flat_map_concat_map, map_map, <- flat_map_concat_map, in_flat_map, in_map_iff. split.
    - intros (x & I & J). apply F in J. destruct J as [-> ->]. eauto.
    - intros (-> & x & <- & I). exists x. split; auto. apply F; auto. }
  assert (ND : forall {V} (f : V -> pobj) (g : V -> list ndarray) (d : dict string V),
    (forall x, In (i, a) (arrays (f x)) <-> i = None /\ In a (g x)) ->
    (In (i, a) (arrays (ODict (named f d))) <-> i = None /\ In a (flat_map (fun kv => g (snd kv)) d))).
  { intros V f g d F. cbn [arrays]. unfold named. rewrite flat_map_concat_map, map_map, <- flat_map_concat_map, !in_flat_map. simpl. split.
    - intros (x & I & J). apply F in J. destruct J. split; eauto.
    - intros (-> & x & I & J). exists x. split; auto. apply F; auto. }
  assert (AN : forall n, In (i, a) (arrays (onode_obj n)) <-> i = None /\ In a (map oc_qty (on_cons n) ++ map op_qty (on_prods n) ++
    flat_map (fun x => [os_capacity x; os_flow_in x; os_flow_out x]) (on_stors n) ++ map ol_qty (on_links n))).
  { intros n. unfold onode_obj. cbn [arrays flat_map fst snd]. rewrite !in_app_iff.
    rewrite (XM _ ocons_obj oc_qty), (XM _ oprod_obj op_qty), (XM _ olink_obj ol_qty), (X _ ostor_obj (fun x => [os_capacity x; os_flow_in x; os_flow_out x])).
    - simpl. tauto.
    - intros x. simpl. split; [intros [E|[E|[E|[]]]]; inversion E; auto 6 | intros (-> & [<-|[<-|[<-|[]]]]); auto].
    - intros x. simpl. split; [intros [E|[]]; inversion E; auto | intros [-> ->]; auto].
    - intros x. simpl. split; [intros [E|[]]; inversion E; auto | intros [-> ->]; auto].
    - intros x. simpl. split; [intros [E|[]]; inversion E; auto | intros [-> ->]; auto]. }
  assert (NO : forall l : list Q, flat_map arrays (map ONum l) = []) by (intros l; induction l; auto).
  unfold result_obj, result_arrays, bench_obj. cbn [flat_map fst snd arrays]. rewrite !NO. simpl app. rewrite in_app_iff, app_nil_r.
  rewrite in_app_iff.
  pose proof (ND _ onetwork_obj (fun ns => flat_map (fun kd : string * onode =>
    map oc_qty (on_cons (snd kd)) ++ map op_qty (on_prods (snd kd)) ++
    flat_map (fun x => [os_capacity x; os_flow_in x; os_flow_out x]) (on_stors (snd kd)) ++
    map ol_qty (on_links (snd kd))) ns) (r_networks r)) as N1. cbn [arrays] in N1. rewrite N1.
  pose proof (ND _ oconv_obj (fun v => ov_dest v :: map snd (ov_src v)) (r_converters r)) as N2. cbn [arrays] in N2. rewrite N2.
  - tauto.
  - intros v. unfold oconv_obj. cbn [arrays flat_map fst snd]. simpl. rewrite in_app_iff. unfold keyed. rewrite flat_map_concat_map, map_map, <- flat_map_concat_map, in_flat_map, in_map_iff. simpl. split.
    + intros [(x & I & [E|[]])|[E|[]]]; inversion E; subst; eauto.
    + intros (-> & [<-|(x & <- & I)]); auto. left. exists x. auto.
  - intros ns. unfold onetwork_obj. cbn [arrays flat_map fst snd]. rewrite app_nil_r. apply (ND _ onode_obj _ ns AN).
Qed.

Lemma Forall2_fst {V W} (P : string * V -> string * W -> Prop) (d : list (string * V)) (e : list (string * W)) :
  Forall2 (fun x y => fst y = fst x /\ P x y) d e -> map fst e = map fst d.
Proof. induction 1 as [|x y d e [E _] F IH]; simpl; auto. congruence. Qed.

Lemma Forall2_right {A B} (P : A -> B -> Prop) l m y : Forall2 P l m -> In y m -> exists x, In x l /\ P x y.
Proof. induction 1; simpl; [tauto|]. intros [->|I]; eauto. destruct (IHForall2 I) as (z & ? & ?). eauto. Qed.

Lemma mirrors_distinct s r : study_wf s -> mirrors s r -> distinct (result_obj r).
Proof.
  intros W [MN MC]. apply distinct_result.
  - erewrite Forall2_fst; [apply (wf_networks _ W) | exact MN].
  - intros net ns I. destruct (Forall2_right _ _ _ _ MN I) as ([net' ns'] & J & E & F). simpl in *.
    erewrite Forall2_fst; [eapply (wf_nodes _ W), In_dget; [apply W | exact J] | exact F].
  - erewrite Forall2_fst; [apply (wf_convs _ W) | exact MC].
  - intros name v I. destruct (Forall2_right _ _ _ _ MC I) as ([name' v'] & J & E & _ & _ & F). simpl in *.
    assert (K : map fst (ov_src v) = map fst (v_src v')).
    { clear -F. induction F as [|x y l m [E _] F IH]; simpl; auto. congruence. }
    rewrite K. eapply wf_once, (wf_conv _ W name' v'). apply In_dget; [apply W | exact J].
Qed.

Lemma mirrors_arrays s r a : mirrors s r -> In a (result_arrays r) -> has_dims s a.
Proof.
  intros [MN MC] I. unfold result_arrays in I. rewrite in_app_iff, !in_flat_map in I.
  destruct I as [([net ns] & I & J)|([name v] & I & J)]; simpl in J.
  - apply in_flat_map in J. destruct J as ([nd n] & J & K). simpl in K.
    destruct (Forall2_right _ _ _ _ MN I) as ([net' ns'] & I' & E & F). simpl in *.
    destruct (Forall2_right _ _ _ _ F J) as ([nd' n'] & J' & E' & [L1 L2 L3 L4]). simpl in *.
    rewrite !in_app_iff in K. destruct K as [K|[K|[K|K]]].
    + apply in_map_iff in K. destruct K as (c & <- & K). destruct (Forall2_right _ _ _ _ L1 K) as (? & _ & _ & D). exact D.
    + apply in_map_iff in K. destruct K as (c & <- & K). destruct (Forall2_right _ _ _ _ L2 K) as (? & _ & _ & D). exact D.
    + apply in_flat_map in K. destruct K as (c & K & M). destruct (Forall2_right _ _ _ _ L3 K) as (? & _ & _ & D1 & D2 & D3).
      simpl in M. destruct M as [<-|[<-|[<-|[]]]]; auto.
    + apply in_map_iff in K. destruct K as (c & <- & K). destruct (Forall2_right _ _ _ _ L4 K) as (? & _ & _ & D). exact D.
  - destruct (Forall2_right _ _ _ _ MC I) as ([name' v'] & I' & E & _ & D & F). simpl in *. destruct J as [<-|J]; auto.
    apply in_map_iff in J. destruct J as ([k q] & <- & J). destruct (Forall2_right _ _ _ _ F J) as (? & _ & _ & Dq). exact Dq.
Qed.

(** A result of a study compared with a copy, for instance after to_json and from_json: True
    exactly for one scenario of one hour, or when there is no array at all. *)
Theorem C68_result_copy : forall old swap s r, api_study s -> mirrors s r ->
  (py_eq old swap (result_obj r) (result_obj r) = Ok true <-> st_nb_scn s * st_horizon s = 1 \/ result_arrays r = []) /\
  (py_eq old swap (result_obj r) (result_obj r) = Err ValueError <-> 1 < st_nb_scn s * st_horizon s /\ result_arrays r <> []).
Proof.
  intros old swap s r A M. pose proof (api_facts s A) as (W & _ & Hh & Hn).
  assert (P : 0 < st_nb_scn s * st_horizon s) by nia.
  assert (SZ : forall a, In a (result_arrays r) -> size_of (shape a) = st_nb_scn s * st_horizon s).
  { intros a I. apply (mirrors_arrays s r a M) in I. destruct I as [-> _]. simpl. lia. }
  unfold py_eq. rewrite eq_self; [| |lia].
  2:{ apply sound_arrays; [eapply mirrors_distinct; eauto|]. intros i a I. apply arrays_result in I. destruct I as [_ I]. rewrite (SZ a I). lia. }
  unfold own. assert (Hv : heavy (result_obj r) = true <-> 1 < st_nb_scn s * st_horizon s /\ result_arrays r <> []).
  { rewrite heavy_arrays. split.
    - intros (a & I & L). apply arrays_result in I. destruct I as [_ I]. rewrite (SZ a I) in L. split; [lia|]. intros E. rewrite E in I. destruct I.
    - intros [L N]. destruct (result_arrays r) as [|a l] eqn:E; [congruence|]. exists a. split.
      + apply arrays_result. rewrite E. simpl; auto.
      + rewrite SZ; simpl; auto. }
  destruct (heavy (result_obj r)).
  - destruct Hv as [Hv _]. destruct (Hv eq_refl) as [L N]. split; split; try discriminate; auto. intros [?|?]; [lia|tauto].
  - split; split; try discriminate; auto.
    + intros _. destruct (Nat.eq_dec (st_nb_scn s * st_horizon s) 1); auto. destruct (result_arrays r) eqn:E; auto.
      exfalso. apply Bool.diff_false_true. apply Hv. split; [lia|discriminate].
    + intros X. apply Hv in X. discriminate.
Qed.
Print Assumptions C68_result_copy.
Definition wide_result : result := Result [("elec", [("a", ONode [OCons (ND [1; 2] [10%Q; 20%Q]) "load"] [] [] [])])] [] (Bench [1%Q] [2%Q] 3 4).
Definition lone_calls : list call := [ OnStudy_network "elec"; OnSel 0 (MNode "a"); OnSel 1 (MConsumption "load" (PJson (jn 1000)) (PJson (jn 10))) ].
Definition lone := Eval vm_compute in w_study (run (start 1 1 None) lone_calls).
Definition lone_result : result := Result [("elec", [("a", ONode [OCons (ND [1; 1] [10%Q]) "load"] [] [] [])])] [] (Bench [1%Q] [2%Q] 3 4).
Example C68_result_example : mirrors wide wide_result /\ mirrors lone lone_result /\
  forall old swap, py_eq old swap (result_obj wide_result) (result_obj wide_result) = Err ValueError /\
    py_eq old swap (result_obj lone_result) (result_obj lone_result) = Ok true.
Proof.
  split; [|split; [|intros [] []; split; vm_compute; reflexivity]];
    (constructor; [|constructor]); repeat (constructor; auto); simpl; repeat (constructor; auto).
Qed.
