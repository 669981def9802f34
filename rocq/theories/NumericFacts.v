(** Facts about [Numeric.v]. *)
From Coq Require Import String List ZArith QArith Bool Arith Lia.
From Verif Require Import Base BaseFacts Numeric SpecNumeric.
Import ListNotations.
Open Scope nat_scope.

(** Induction on JSON trees through lists and objects. *)
Lemma json_ind2 (P : json -> Prop) :
  P JNull -> (forall b, P (JBool b)) -> (forall q, P (JNum q)) -> (forall s, P (JStr s)) ->
  (forall l, Forall P l -> P (JList l)) ->
  (forall d, Forall (fun kv => P (snd kv)) d -> P (JObj d)) -> P JPy ->
  forall j, P j.
Proof.
  intros HN HB HQ HS HL HO HP.
  fix IH 1. intros [ | b | q | s | l | d | ].
  - exact HN.
  - apply HB.
  - apply HQ.
  - apply HS.
  - apply HL. induction l; constructor; auto.
  - apply HO. induction d as [|[k v] r IHr]; constructor; [apply IH | exact IHr].
  - exact HP.
Qed.

Lemma np_array_wf j a : np_array j = Ok a -> nd_wf a.
Proof.
  revert a. induction j as [ | | q | | l IH | d IH | ] using json_ind2; intros a E; try discriminate.
  - inversion E; subst. reflexivity.
  - rewrite np_array_list in E.
    destruct (mapM np_array l) as [sub|] eqn:M; simpl in E; try discriminate.
    assert (W : Forall nd_wf sub).
    { clear E. revert sub M. induction IH as [|x r Hx Hr IHr]; simpl; intros sub M.
      - inversion M; constructor.
      - destruct (np_array x) as [b|] eqn:X; simpl in M; try discriminate.
        destruct (mapM np_array r) as [s|] eqn:R; simpl in M; try discriminate.
        inversion M; subst. constructor; auto. }
    destruct sub as [|b rest].
    + inversion E; subst. reflexivity.
    + destruct (forallb _ rest) eqn:F; try discriminate. inversion E; subst.
      unfold nd_wf; cbn [data shape size_of fold_right].
      inversion W; subst.
      assert (L : forall bs, Forall nd_wf bs ->
                 forallb (fun b0 => list_eqb Nat.eqb (shape b0) (shape b)) bs = true ->
                 length (flat_map data bs) = length bs * size_of (shape b)).
      { induction bs as [|c cs IHc]; simpl; intros Wc Fc; auto.
        apply andb_true_iff in Fc as [F1 F2]. apply list_eqb_nat in F1.
        inversion Wc; subst. rewrite app_length, IHc by auto.
        unfold nd_wf in *. rewrite H3, F1. lia. }
      cbn [flat_map length]. rewrite app_length, L by auto. unfold nd_wf in H1. rewrite H1.
      fold (size_of (shape b)). lia.
Qed.

(** The shape and content of values made by the factory. *)
Definition nv_ok (h n : nat) (v : numval) : Prop :=
  match v with
  | Scalar _ h' n' => h' = h /\ n' = n
  | Matrix a h' n' => h' = h /\ n' = n /\ shape a = [n; h] /\ length (data a) = n * h
  | Row a h' n' => h' = h /\ n' = n /\ shape a = [h] /\ length (data a) = h
  | Column a h' n' => h' = h /\ n' = n /\ shape a = [n; 1] /\ length (data a) = n
  end.

Lemma create_arr_ok h n a v : create_arr h n a = Ok v -> nd_wf a -> nv_ok h n v.
Proof.
  unfold create_arr, nd_wf. intros E W.
  destruct (list_eqb Nat.eqb (shape a) [h]) eqn:E1.
  { apply list_eqb_nat in E1. inversion E; subst. simpl. rewrite E1 in W. simpl in W. intuition lia. }
  destruct (list_eqb Nat.eqb (shape a) [n; 1]) eqn:E2.
  { apply list_eqb_nat in E2. inversion E; subst. simpl. rewrite E2 in W. simpl in W. intuition lia. }
  destruct (list_eqb Nat.eqb (shape a) [n; h]) eqn:E3.
  { apply list_eqb_nat in E3. inversion E; subst. simpl. rewrite E3 in W. simpl in W. intuition lia. }
  destruct (shape a); discriminate.
Qed.

Lemma create_json_ok h n j v : create_json h n j = Ok v -> nv_ok h n v.
Proof.
  destruct j; simpl; intros E; try discriminate.
  - inversion E; subst. simpl; auto.
  - match type of E with rbind ?m _ = _ => destruct m as [a|] eqn:A end; simpl in E; try discriminate.
    eapply create_arr_ok; eauto. eapply (np_array_wf (JList l)). exact A.
Qed.

Lemma create_ok h n x v : create h n x = Ok v -> raw_arg x -> sound_arg x -> nv_ok h n v.
Proof.
  intros E R S. destruct x as [j | a | a | w | ]; simpl in E.
  - destruct j; try (eapply create_json_ok; eauto; fail).
    destruct (dget "value"%string d); [eapply create_json_ok; eauto | discriminate].
  - eapply create_arr_ok; eauto.
  - eapply create_arr_ok; eauto.
  - exfalso; eapply R; eauto.
  - discriminate.
Qed.

Lemma getn_nth h n v i j : nv_ok h n v -> i < n -> j < h ->
  exists q, getn v i j = Ok q /\ nth_error (flatten v) (i * h + j) = Some q.
Proof.
  intros W Hi Hj. unfold getn. destruct v as [q h' n' | a h' n' | a h' n' | a h' n']; simpl in *.
  - destruct W as [-> ->]. exists q. split.
    + replace (Z.of_nat n <=? Z.of_nat i)%Z with false by (symmetry; apply Z.leb_gt; lia).
      replace (Z.of_nat h <=? Z.of_nat j)%Z with false by (symmetry; apply Z.leb_gt; lia). auto.
    + apply nth_error_repeat. nia.
  - destruct W as (-> & -> & S & L). unfold nd_get2. rewrite S.
    rewrite !pyindex_nat by auto. unfold lnth.
    destruct (nth_error (data a) (i * h + j)) eqn:E; eauto.
    apply nth_error_None in E. nia.
  - destruct W as (-> & -> & S & L).
    replace (Z.of_nat n <=? Z.of_nat i)%Z with false by (symmetry; apply Z.leb_gt; lia).
    unfold nd_get1. rewrite S, pyindex_nat by auto. unfold lnth.
    pose proof (nth_error_tile (data a) n i j Hi) as T. rewrite L in T. rewrite T by auto.
    destruct (nth_error (data a) j) eqn:E; eauto.
    apply nth_error_None in E. lia.
  - destruct W as (-> & -> & S & L).
    replace (Z.of_nat h <=? Z.of_nat j)%Z with false by (symmetry; apply Z.leb_gt; lia).
    unfold nd_get2. rewrite S, pyindex_nat by auto.
    change (pyindex 1 0) with (Some 0). cbn iota.
    replace (i * 1 + 0) with i by lia.
    rewrite nth_error_nprepeat by auto. unfold lnth.
    destruct (nth_error (data a) i) eqn:E; eauto.
    apply nth_error_None in E. lia.
Qed.

Lemma flatten_length h n v : nv_ok h n v -> length (flatten v) = n * h.
Proof.
  destruct v; simpl; intros W.
  - destruct W as [-> ->]. rewrite repeat_length. lia.
  - tauto.
  - destruct W as (-> & -> & _ & L). rewrite length_tile, L. auto.
  - destruct W as (-> & -> & _ & L). rewrite length_nprepeat, L. auto.
Qed.

Lemma getitem_scn_range h n v (i j : Z) : nv_ok h n v -> (Z.of_nat n <= i)%Z -> getitem v i j = Err IndexError.
Proof.
  intros W Hi. destruct v; simpl in *.
  - destruct W as [-> ->]. now replace (Z.of_nat n <=? i)%Z with true by (symmetry; apply Z.leb_le; lia).
  - destruct W as (-> & -> & S & L). unfold nd_get2. rewrite S, pyindex_ge by auto. auto.
  - destruct W as (-> & -> & S & L). now replace (Z.of_nat n <=? i)%Z with true by (symmetry; apply Z.leb_le; lia).
  - destruct W as (-> & -> & S & L). destruct (_ <=? j)%Z; auto. unfold nd_get2. now rewrite S, pyindex_ge by auto.
Qed.

Lemma getitem_time_range h n v (i j : Z) : nv_ok h n v -> (Z.of_nat h <= j)%Z -> getitem v i j = Err IndexError.
Proof.
  intros W Hj. destruct v; simpl in *.
  - destruct W as [-> ->]. destruct (_ <=? i)%Z; auto.
    now replace (Z.of_nat h <=? j)%Z with true by (symmetry; apply Z.leb_le; lia).
  - destruct W as (-> & -> & S & L). unfold nd_get2. rewrite S, (pyindex_ge h) by auto. now destruct (pyindex n i).
  - destruct W as (-> & -> & S & L). destruct (_ <=? i)%Z; auto. unfold nd_get1. now rewrite S, pyindex_ge by auto.
  - destruct W as (-> & -> & S & L). now replace (Z.of_nat h <=? j)%Z with true by (symmetry; apply Z.leb_le; lia).
Qed.

(** ** Reading what was given *)
Lemma mapM_JNum l : mapM np_array (map JNum l) = Ok (map (fun q => ND [] [q]) l).
Proof. rewrite mapM_map. apply mapM_pure. intros; reflexivity. Qed.

Lemma flat_map_single {A} (l : list A) : flat_map (fun x => [x]) l = l.
Proof. induction l; simpl; congruence. Qed.

Lemma np_array_series l : np_array (JList (map JNum l)) = Ok (ND [length l] l).
Proof.
  rewrite np_array_list, mapM_JNum. destruct l as [|q r]; auto.
  cbn. replace (forallb _ _) with true.
  - rewrite map_length. f_equal. f_equal. f_equal.
    rewrite flat_map_concat_map, map_map. rewrite <- flat_map_concat_map. apply flat_map_single.
  - symmetry. apply forallb_forall. intros b Hb. apply in_map_iff in Hb as [x [<- _]]. auto.
Qed.

Lemma np_array_table c rows : rows <> [] -> Forall (fun r => length r = c) rows ->
  np_array (JList (map (fun r => JList (map JNum r)) rows)) = Ok (ND [length rows; c] (concat rows)).
Proof.
  intros NE F. rewrite np_array_list, mapM_map.
  rewrite (mapM_pure _ (fun r => ND [length r] r)).
  2: { intros r _. apply np_array_series. }
  destruct rows as [|r0 rs]; [congruence|]. inversion F; subst.
  cbn [map rbind]. replace (forallb _ _) with true.
  - cbn. rewrite map_length. f_equal. f_equal. f_equal.
    rewrite flat_map_concat_map, map_map. cbn. now rewrite map_id.
  - symmetry. apply forallb_forall. intros b Hb. apply in_map_iff in Hb as [x [<- Hx]].
    apply list_eqb_nat. cbn. f_equal. rewrite Forall_forall in H2. auto.
Qed.

Lemma create_carries h n x j : carries x j -> create h n x = create_json h n j.
Proof.
  intros C. destruct C as [j N | d j G]; simpl.
  - destruct j; auto. exfalso; eapply N; eauto.
  - now rewrite G.
Qed.

Lemma create_series h n l x : given_series l x -> create h n x = create_arr h n (ND [length l] l).
Proof.
  intros [C | [-> | ->]]; auto.
  rewrite (create_carries _ _ _ _ C). unfold create_json. rewrite np_array_series. auto.
Qed.

Lemma create_table h n c rows x : rows <> [] -> given_table c rows x ->
  create h n x = create_arr h n (ND [length rows; c] (concat rows)).
Proof.
  intros NE [F [C | [-> | ->]]]; auto.
  rewrite (create_carries _ _ _ _ C). unfold create_json.
  now rewrite (np_array_table c).
Qed.

Lemma nth_concat (c : nat) (rows : list (list Q)) i j :
  Forall (fun r => length r = c) rows -> i < length rows -> j < c ->
  nth (i * c + j) (concat rows) 0%Q = nth j (nth i rows []) 0%Q.
Proof.
  intros F. revert i. induction F as [|r rs L F IH]; simpl; intros i Hi Hj; [lia|].
  destruct i; simpl.
  - apply app_nth1. lia.
  - rewrite app_nth2 by lia. rewrite <- IH by lia. f_equal. lia.
Qed.

Lemma length_concat (c : nat) (rows : list (list Q)) :
  Forall (fun r => length r = c) rows -> length (concat rows) = length rows * c.
Proof. induction 1; simpl; auto. rewrite app_length. lia. Qed.

Lemma nth_error_nth_some {A} (l : list A) i d : i < length l -> nth_error l i = Some (nth i l d).
Proof. revert i; induction l; intros [|i] L; simpl in *; try lia; auto. apply IHl; lia. Qed.
