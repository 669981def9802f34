(** [solve_lp] on studies that can be solved: it returns, and the result holds the
    solver's answers. *)
From Coq Require Import String List ZArith QArith Bool Arith Lia Lqa Permutation.
From Verif Require Import Base BaseFacts Numeric Study Fluent SpecStudy StudyFacts Output Json SpecJson JsonFacts
  LP SpecLP LPFacts LPBuild LPResult.
Import ListNotations.
Open Scope nat_scope.

(** ** Loops *)
Lemma foldM_ind {A St} (f : St -> A -> res St) (P : list A -> St -> Prop) l s0 :
  P [] s0 ->
  (forall pre a post st, l = pre ++ a :: post -> P pre st -> exists st', f st a = Ok st' /\ P (pre ++ [a]) st') ->
  exists st', foldM f l s0 = Ok st' /\ P l st'.
Proof.
  intros P0 H.
  assert (X : forall post pre st, l = pre ++ post -> P pre st -> exists st', foldM f post st = Ok st' /\ P l st').
  { induction post as [|a post IH]; intros pre st E Pst; simpl.
    - rewrite app_nil_r in E. subst. eauto.
    - destruct (H pre a post st E Pst) as (st1 & E1 & P1). rewrite E1. simpl. apply (IH (pre ++ [a])); auto.
      now rewrite <- app_assoc. }
  apply (X l [] s0); auto.
Qed.

(** Position by position. *)
Lemma set_all_ok {A V} (set : A -> V -> res A) vals : forall i l,
  length l = i + length vals ->
  (forall j a v, nth_error l (i + j) = Some a -> nth_error vals j = Some v -> exists a', set a v = Ok a') ->
  exists l', set_all set i vals l = Ok l' /\ length l' = length l /\
    (forall j, j < i -> nth_error l' j = nth_error l j) /\
    (forall j a v, nth_error l (i + j) = Some a -> nth_error vals j = Some v ->
       exists a', set a v = Ok a' /\ nth_error l' (i + j) = Some a').
Proof.
  induction vals as [|v vals IH]; intros i l L H; simpl.
  - exists l. repeat split; auto. intros [|j] a v _ E; discriminate.
  - unfold lnth. destruct (nth_error l i) as [a|] eqn:E.
    2:{ apply nth_error_None in E. simpl in L. lia. }
    destruct (H 0 a v) as (a' & SE); [now rewrite Nat.add_0_r | auto |]. simpl. rewrite SE. simpl.
    set (l1 := upd_nth i (fun _ => a') l).
    assert (L1 : length l1 = S i + length vals) by (unfold l1; rewrite length_upd_nth, L; simpl; lia).
    assert (T : forall j, j <> i -> nth_error l1 j = nth_error l j).
    { intros j J. unfold l1. rewrite nth_error_upd_nth. rewrite (proj2 (Nat.eqb_neq _ _)) by lia. auto. }
    destruct (IH (S i) l1 L1) as (l' & E' & L' & A1 & A2).
    { intros j b w F G. apply (H (S j) b w); auto. rewrite T in F by lia. now rewrite Nat.add_succ_r. }
    exists l'. split; [exact E'|]. split; [unfold l1 in L'; now rewrite length_upd_nth in L'|]. split.
    + intros j J. rewrite A1 by lia. apply T. lia.
    + intros [|j] b w F G.
      * rewrite Nat.add_0_r in *. rewrite E in F. inversion F; inversion G; subst. exists a'. split; auto.
        rewrite A1 by lia. unfold l1. rewrite nth_error_upd_nth, Nat.eqb_refl, E. reflexivity.
      * rewrite Nat.add_succ_r in *. apply (A2 j b w); auto. rewrite T by lia. auto.
Qed.

Lemma Forall2_dset {K V W} `{EqB K} (R : K -> V -> W -> Prop) (d : dict K V) (d' : dict K W) k v w :
  Forall2 (fun kv kw => fst kw = fst kv /\ R (fst kv) (snd kv) (snd kw)) d d' ->
  dget k d = Some v -> R k v w ->
  Forall2 (fun kv kw => fst kw = fst kv /\ R (fst kv) (snd kv) (snd kw)) d (dset k w d').
Proof.
  induction 1 as [|[k1 v1] [k2 w2] d d' [E P] F IH]; simpl in *; [discriminate|]. subst k2.
  destruct (eqb k k1) eqn:E.
  - apply eqb_eq in E. subst. intros D RW. inversion D; subst. constructor; simpl; auto.
  - intros D RW. constructor; simpl; auto.
Qed.

(** ** Arrays *)
Section Solve.
Variable s : study.

Lemma entry_set a i j q : has_dims s a -> i < st_nb_scn s -> j < st_horizon s ->
  exists a', nd_set2 a i j q = Ok a' /\ has_dims s a' /\ entry a' i j = q /\
    forall i' j', i' < st_nb_scn s -> j' < st_horizon s -> (i', j') <> (i, j) -> entry a' i' j' = entry a i' j'.
Proof.
  intros [SH W] I J. unfold nd_set2. rewrite SH.
  rewrite (proj2 (Nat.ltb_lt _ _) I), (proj2 (Nat.ltb_lt _ _) J). simpl.
  eexists; split; [reflexivity|]. unfold nd_wf in W. rewrite SH in W. simpl in W.
  split; [split; auto; unfold nd_wf; simpl; now rewrite length_upd_nth|]. split.
  - unfold entry, nd_get2. simpl. rewrite !pyindex_nat by auto. unfold lnth.
    rewrite nth_error_upd_nth, Nat.eqb_refl.
    destruct (nth_error (data a) (i * st_horizon s + j)) eqn:E; simpl; auto.
    apply nth_error_None in E. nia.
  - intros i' j' I' J' N. unfold entry, nd_get2. rewrite SH. simpl. rewrite !pyindex_nat by auto. unfold lnth.
    rewrite nth_error_upd_nth. rewrite (proj2 (Nat.eqb_neq _ _)); auto.
    intros E. apply N. assert (i = i') by nia. subst. f_equal. lia.
Qed.

(** ** Cells of a result *)
Definition same_but (scn t : nat) (a b : ndarray) : Prop := forall i j,
  i < st_nb_scn s -> j < st_horizon s -> (i, j) <> (scn, t) -> entry b i j = entry a i j.

Record node_cell (net nd : string) (n : node) (rn : onode) (scn t : nat) (x : var -> Q) : Prop := {
  cl_cons : forall i c o, nth_error (n_cons n) i = Some c -> nth_error (on_cons rn) i = Some o ->
    (entry (oc_qty o) scn t == value (c_qty c) scn t - x (VLol net nd i t))%Q;
  cl_prods : forall i p o, nth_error (n_prods n) i = Some p -> nth_error (on_prods rn) i = Some o ->
    (entry (op_qty o) scn t == x (VProd net nd i t))%Q;
  cl_stors : forall i y o, nth_error (n_stors n) i = Some y -> nth_error (on_stors rn) i = Some o ->
    (entry (os_capacity o) scn t == x (VCap net nd i t))%Q /\
    (entry (os_flow_in o) scn t == x (VIn net nd i t))%Q /\
    (entry (os_flow_out o) scn t == x (VOut net nd i t))%Q;
  cl_links : forall i l o, nth_error (n_links n) i = Some l -> nth_error (on_links rn) i = Some o ->
    (entry (ol_qty o) scn t == x (VLink net nd i t))%Q
}.
Record conv_cell (name : string) (rv : oconverter) (scn t : nat) (x : var -> Q) : Prop := {
  cv_src : forall k a, In (k, a) (ov_src rv) -> (entry a scn t == x (vsrc name t k))%Q;
  cv_dest : (entry (ov_dest rv) scn t == x (VDest name t))%Q
}.

Lemma write_list {A V C} (P : C -> A -> Prop) (Q1 : nat -> C -> A -> Prop) (Q2 : A -> A -> Prop)
      (set : A -> V -> res A) (ref : list C) (l : list A) (vals : list V) :
  length vals = length ref -> Forall2 P ref l ->
  (forall i c a v, nth_error ref i = Some c -> nth_error l i = Some a -> nth_error vals i = Some v -> P c a ->
     exists a', set a v = Ok a' /\ P c a' /\ Q1 i c a' /\ Q2 a a') ->
  exists l', set_all set 0 vals l = Ok l' /\ Forall2 P ref l' /\ Forall2 Q2 l l' /\
    (forall i c a', nth_error ref i = Some c -> nth_error l' i = Some a' -> Q1 i c a').
Proof.
  intros LV F H. pose proof (Forall2_len _ _ _ F) as LR.
  destruct (set_all_ok set vals 0 l) as (l' & E & L & _ & HA).
  - simpl. congruence.
  - simpl. intros j a v Ea Ev. destruct (nth_error ref j) as [c|] eqn:Ec.
    + destruct (Forall2_get _ _ _ _ _ F Ec) as (a2 & Ea2 & Pc). rewrite Ea in Ea2. inversion Ea2; subst.
      destruct (H j c a2 v Ec Ea Ev Pc) as (a' & S & _). eauto.
    + apply nth_error_None in Ec. assert (nth_error vals j = None) by (apply nth_error_None; lia). congruence.
  - simpl in HA. exists l'. split; auto.
    assert (X : forall j c, nth_error ref j = Some c -> exists a a', nth_error l j = Some a /\ nth_error l' j = Some a' /\
       P c a' /\ Q1 j c a' /\ Q2 a a').
    { intros j c Ec. destruct (Forall2_get _ _ _ _ _ F Ec) as (a & Ea & Pc).
      destruct (nth_error vals j) as [v|] eqn:Ev.
      2:{ apply nth_error_None in Ev. assert (nth_error ref j = None) by (apply nth_error_None; lia). congruence. }
      destruct (HA j a v Ea Ev) as (a1 & S1 & N1). destruct (H j c a v Ec Ea Ev Pc) as (a2 & S2 & ?).
      rewrite S1 in S2. inversion S2; subst. exists a, a2. intuition. }
    split; [|split].
    + apply Forall2_nth. split; [lia|]. intros i c a' Ec Ea. destruct (X i c Ec) as (a & a2 & _ & E2 & ? & _). congruence.
    + apply Forall2_nth. split; [lia|]. intros i a a' Ea Ea'.
      destruct (Forall2_get_r _ _ _ _ _ F Ea) as (c & Ec & _). destruct (X i c Ec) as (a1 & a2 & E1 & E2 & _ & _ & ?). congruence.
    + intros i c a' Ec Ea. destruct (X i c Ec) as (a & a2 & _ & E2 & _ & ? & _). congruence.
Qed.

Definition node_same (scn t : nat) (rn rn' : onode) : Prop :=
  Forall2 (fun a b => same_but scn t (oc_qty a) (oc_qty b)) (on_cons rn) (on_cons rn') /\
  Forall2 (fun a b => same_but scn t (op_qty a) (op_qty b)) (on_prods rn) (on_prods rn') /\
  Forall2 (fun a b => same_but scn t (os_capacity a) (os_capacity b) /\ same_but scn t (os_flow_in a) (os_flow_in b)
                      /\ same_but scn t (os_flow_out a) (os_flow_out b)) (on_stors rn) (on_stors rn') /\
  Forall2 (fun a b => same_but scn t (ol_qty a) (ol_qty b)) (on_links rn) (on_links rn').

Lemma cell_kept net nd n rn rn' scn t scn' t' x :
  node_same scn t rn rn' -> scn' < st_nb_scn s -> t' < st_horizon s -> (scn', t') <> (scn, t) ->
  node_cell net nd n rn scn' t' x -> node_cell net nd n rn' scn' t' x.
Proof.
  intros (F1 & F2 & F3 & F4) S T N [C1 C2 C3 C4]. constructor.
  - intros i c o E1 E2. destruct (Forall2_get_r _ _ _ _ _ F1 E2) as (o' & E3 & SB). rewrite (SB scn' t') by auto. eauto.
  - intros i c o E1 E2. destruct (Forall2_get_r _ _ _ _ _ F2 E2) as (o' & E3 & SB). rewrite (SB scn' t') by auto. eauto.
  - intros i c o E1 E2. destruct (Forall2_get_r _ _ _ _ _ F3 E2) as (o' & E3 & SB1 & SB2 & SB3).
    rewrite (SB1 scn' t'), (SB2 scn' t'), (SB3 scn' t') by auto. eauto.
  - intros i c o E1 E2. destruct (Forall2_get_r _ _ _ _ _ F4 E2) as (o' & E3 & SB). rewrite (SB scn' t') by auto. eauto.
Qed.

Lemma set_node_ok net nd n rn scn t x o ns :
  scn < st_nb_scn s -> t < st_horizon s -> node_like s n rn ->
  dget net (os_nets o) = Some ns -> dget nd ns = Some rn ->
  exists rn', set_node_var o net nd t scn (node_answer x (pnode net nd t scn n)) =
     Ok (OState (dset net (dset nd rn' ns) (os_nets o)) (os_convs o)) /\
     node_like s n rn' /\ node_cell net nd n rn' scn t x /\ node_same scn t rn rn'.
Proof.
  intros S T L D1 D2. unfold set_node_var, dlook. rewrite D1. simpl. rewrite D2. cbn [rbind].
  destruct L as [L1 L2 L3 L4].
  unfold node_answer. cbn [an_cons an_prods an_stors an_links pnode ln_cons ln_prods ln_stors ln_links].
  destruct (write_list (fun c o => oc_name o = c_name c /\ has_dims s (oc_qty o))
     (fun i c o => (entry (oc_qty o) scn t == value (c_qty c) scn t - x (VLol net nd i t))%Q)
     (fun a b => same_but scn t (oc_qty a) (oc_qty b))
     (fun c qv => let* a := nd_set2 (oc_qty c) scn t (fst qv - snd qv) in Ok (OCons a (oc_name c)))
     (n_cons n) (on_cons rn)
     (map (fun c => (lc_qty c, x (lc_var c)))
        (mapi (fun i c => LPCons (c_name c) (value (c_cost c) scn t) (value (c_qty c) scn t) (VLol net nd i t)) 0 (n_cons n))))
    as (l1 & E1 & P1 & Q1 & R1); auto.
  { now rewrite map_length, length_mapi. }
  { intros i c a v Ec Ea Ev [Pn Pd]. rewrite map_mapi, nth_error_mapi, Ec in Ev. simpl in Ev. inversion Ev; subst v. simpl.
    destruct (entry_set (oc_qty a) scn t (value (c_qty c) scn t - x (VLol net nd i t)) Pd S T) as (a' & -> & D' & V & O).
    simpl. eexists; split; [reflexivity|]. simpl. rewrite V. split; [now split|]. split; [reflexivity | exact O]. }
  rewrite E1. cbn [rbind].
  destruct (write_list (fun c o => op_name o = p_name c /\ has_dims s (op_qty o))
     (fun i c o => (entry (op_qty o) scn t == x (VProd net nd i t))%Q)
     (fun a b => same_but scn t (op_qty a) (op_qty b))
     (fun p v => let* a := nd_set2 (op_qty p) scn t v in Ok (OProd (op_name p) a))
     (n_prods n) (on_prods rn)
     (map (fun p => x (lp_var p))
        (mapi (fun i p => LPProd (p_name p) (value (p_cost p) scn t) (value (p_qty p) scn t) (VProd net nd i t)) 0 (n_prods n))))
    as (l2 & E2 & P2 & Q2 & R2); auto.
  { now rewrite map_length, length_mapi. }
  { intros i c a v Ec Ea Ev [Pn Pd]. rewrite map_mapi, nth_error_mapi, Ec in Ev. simpl in Ev. inversion Ev; subst v. simpl.
    destruct (entry_set (op_qty a) scn t (x (VProd net nd i t)) Pd S T) as (a' & -> & D' & V & O).
    simpl. eexists; split; [reflexivity|]. simpl. rewrite V. split; [now split|]. split; [reflexivity | exact O]. }
  rewrite E2. cbn [rbind].
  destruct (write_list (fun c o => os_name o = s_name c /\ has_dims s (os_capacity o) /\ has_dims s (os_flow_in o) /\ has_dims s (os_flow_out o))
     (fun i c o => (entry (os_capacity o) scn t == x (VCap net nd i t))%Q /\ (entry (os_flow_in o) scn t == x (VIn net nd i t))%Q /\ (entry (os_flow_out o) scn t == x (VOut net nd i t))%Q)
     (fun a b => same_but scn t (os_capacity a) (os_capacity b) /\ same_but scn t (os_flow_in a) (os_flow_in b)
                      /\ same_but scn t (os_flow_out a) (os_flow_out b))
     (fun x v => let* a := nd_set2 (os_capacity x) scn t (fst (fst v)) in
                                 let* b := nd_set2 (os_flow_in x) scn t (snd (fst v)) in
                                 let* c := nd_set2 (os_flow_out x) scn t (snd v) in
                                 Ok (OStor (os_name x) a b c))
     (n_stors n) (on_stors rn)
     (map (fun s => (x (ls_vcap s), x (ls_vin s), x (ls_vout s)))
        (ln_stors (pnode net nd t scn n))))
    as (l3 & E3 & P3 & Q3 & R3); auto.
  { cbn [pnode ln_stors]. now rewrite map_length, length_mapi. }
  { intros i c a v Ec Ea Ev (Pn & Pd1 & Pd2 & Pd3). cbn [pnode ln_stors] in Ev.
    rewrite map_mapi, nth_error_mapi, Ec in Ev. simpl in Ev. inversion Ev; subst v. simpl.
    destruct (entry_set (os_capacity a) scn t (x (VCap net nd i t)) Pd1 S T) as (a1 & -> & D1' & V1 & O1).
    destruct (entry_set (os_flow_in a) scn t (x (VIn net nd i t)) Pd2 S T) as (a2 & -> & D2' & V2 & O2).
    destruct (entry_set (os_flow_out a) scn t (x (VOut net nd i t)) Pd3 S T) as (a3 & -> & D3' & V3 & O3).
    simpl. eexists; split; [reflexivity|]. simpl. rewrite V1, V2, V3.
    split; [now repeat (split; [assumption|])|]. split; [now repeat split|]. split; [exact O1 | split; [exact O2 | exact O3]]. }
  cbn [pnode ln_stors] in E3. rewrite E3. cbn [rbind].
  destruct (write_list (fun c o => ol_dest o = l_dest c /\ has_dims s (ol_qty o))
     (fun i c o => (entry (ol_qty o) scn t == x (VLink net nd i t))%Q)
     (fun a b => same_but scn t (ol_qty a) (ol_qty b))
     (fun l v => let* a := nd_set2 (ol_qty l) scn t v in Ok (OLnk (ol_dest l) a))
     (n_links n) (on_links rn)
     (map (fun l => x (ll_var l)) (ln_links (pnode net nd t scn n))))
    as (l4 & E4 & P4 & Q4 & R4); auto.
  { cbn [pnode ln_links]. now rewrite map_length, length_mapi. }
  { intros i c a v Ec Ea Ev [Pn Pd]. cbn [pnode ln_links] in Ev. rewrite map_mapi, nth_error_mapi, Ec in Ev. simpl in Ev. inversion Ev; subst v. simpl.
    destruct (entry_set (ol_qty a) scn t (x (VLink net nd i t)) Pd S T) as (a' & -> & D' & V & O).
    simpl. eexists; split; [reflexivity|]. simpl. rewrite V. split; [now split|]. split; [reflexivity | exact O]. }
  cbn [pnode ln_links] in E4. rewrite E4. cbn [rbind].
  exists (ONode l1 l2 l3 l4). split; [reflexivity|]. split; [constructor; auto|]. split; [|repeat split; auto].
  constructor; cbn [on_cons on_prods on_stors on_links]; auto.
Qed.

(** ** Converters *)
Lemma conv_answer_eq name t scn v x : NoDup (dkeys (v_src v)) -> (forall k, In k (dkeys (v_src v)) -> plain_key k) ->
  conv_answer x (pconv name t scn v) =
  AConv (map (fun kq => ([fst (fst kq); snd (fst kq)], x (vsrc name t (fst kq)))) (v_src v)) (x (VDest name t)).
Proof.
  intros ND PK. unfold conv_answer, pconv. cbn [lv_src lv_dest]. f_equal. rewrite map_map. cbn [fst snd].
  match goal with |- dict_of (map _ (dict_of ?d)) = _ => assert (ED : dict_of d = d) end.
  2:{ rewrite ED, map_map. cbn [fst snd]. rewrite dict_of_NoDup.
    + apply map_ext_in. intros [k q] I. cbn [fst snd]. f_equal. apply key_of_join. apply PK. apply in_map_iff. now exists (k, q).
    + rewrite map_map. cbn [fst]. clear ED. revert ND PK. unfold dkeys. induction (v_src v) as [|[k q] d IH]; simpl; intros ND PK; constructor.
      * inversion ND as [|? ? N1 N2]; subst. intros I. apply N1. apply in_map_iff in I as ([k2 q2] & E & I). cbn [fst] in E.
        rewrite (proj2 (key_of_join k)) in E by (apply PK; auto).
        rewrite (proj2 (key_of_join k2)) in E by (apply PK; right; apply in_map_iff; now exists (k2, q2)).
        inversion E. apply in_map_iff. exists (k2, q2). split; auto. destruct k, k2; simpl in *; congruence.
      * inversion ND; subst. apply IH; auto. }
  apply dict_of_NoDup. pose proof (join_keys_NoDup (fun q : numval => q) (v_src v) ND PK) as J. rewrite map_map in *. cbn [fst] in *. exact J.
Qed.

Definition conv_same (scn t : nat) (rv rv' : oconverter) : Prop :=
  same_but scn t (ov_dest rv) (ov_dest rv') /\
  forall k a', In (k, a') (ov_src rv') -> exists a, In (k, a) (ov_src rv) /\ same_but scn t a a'.

Lemma conv_kept name rv rv' scn t scn' t' x :
  conv_same scn t rv rv' -> scn' < st_nb_scn s -> t' < st_horizon s -> (scn', t') <> (scn, t) ->
  conv_cell name rv scn' t' x -> conv_cell name rv' scn' t' x.
Proof.
  intros [D F] S T N [C1 C2]. constructor.
  - intros k a' I. destruct (F k a' I) as (a & Ia & SB). rewrite (SB scn' t') by auto. eauto.
  - rewrite (D scn' t') by auto. auto.
Qed.

Definition src_like (v : dict (string * string) numval) (d : dict (string * string) ndarray) : Prop :=
  Forall2 (fun (k : string * string * numval) (o : string * string * ndarray) =>
             fst o = fst k /\ has_dims s (snd o)) v d.

Lemma src_keys v d : src_like v d -> dkeys d = dkeys v.
Proof. intros F. exact (Forall2_keys (fun _ _ a => has_dims s a) v d F). Qed.

Lemma src_loop name t scn x v d :
  scn < st_nb_scn s -> t < st_horizon s -> NoDup (dkeys v) -> src_like v d ->
  exists d', foldM (set_src t scn) (map (fun kq : string * string * numval => ([fst (fst kq); snd (fst kq)], x (vsrc name t (fst kq)))) v) d = Ok d' /\
    src_like v d' /\ (forall k a, In (k, a) d' -> (entry a scn t == x (vsrc name t k))%Q) /\
    (forall k a', In (k, a') d' -> exists a, In (k, a) d /\ same_but scn t a a').
Proof.
  intros S T ND L.
  set (vals := map _ v).
  destruct (foldM_ind (set_src t scn) (fun pre d' =>
     src_like v d' /\ 
     (forall k a', In ([fst k; snd k], x (vsrc name t k)) pre -> dget k d' = Some a' -> entry a' scn t = x (vsrc name t k)) /\
     (forall k a', dget k d' = Some a' -> exists a, dget k d = Some a /\ same_but scn t a a'))
     vals d) as (d' & E & LK & V & SM).
  - split; auto. split; [intros k a' []|]. intros k a' D. exists a'. split; auto. red; auto.
  - intros pre kx post st EV (LK & V & SM).
    assert (I : In kx vals) by (rewrite EV; apply in_or_app; simpl; auto).
    apply in_map_iff in I as ([k q] & <- & Ik). cbn [fst snd].
    assert (Dk : dget k v = Some q) by (now apply In_dget).
    pose proof (Forall2_dget (fun _ _ a => has_dims s a) v st k LK) as FD. rewrite Dk in FD.
    destruct (dget k st) as [a|] eqn:Da; [|contradiction].
    destruct (entry_set a scn t (x (vsrc name t k)) FD S T) as (a' & Ea & D' & Va & O).
    unfold set_src. cbn [fst snd]. rewrite <- surjective_pairing. unfold dlook. rewrite Da. cbn [rbind]. rewrite Ea. cbn [rbind].
    eexists. split; [reflexivity|]. split; [|split].
    + eapply (Forall2_dset (fun _ _ a => has_dims s a)); eauto.
    + intros k2 a2 I2. rewrite dget_dset. destruct (eqb k2 k) eqn:Ek.
      * apply eqb_eq in Ek. subst. intros X. inversion X; subst. exact Va.
      * intros X. apply V; auto. apply in_app_or in I2 as [I2|[I2|[]]]; auto. exfalso.
        apply eqb_neq in Ek. apply Ek. inversion I2. destruct k, k2; simpl in *; congruence.
    + intros k2 a2. rewrite dget_dset. destruct (eqb k2 k) eqn:Ek.
      * apply eqb_eq in Ek. subst. intros X. inversion X; subst. destruct (SM k a Da) as (a0 & Da0 & SB).
        exists a0. split; auto. intros i j I J N. rewrite O by auto. now apply SB.
      * apply SM.
  - exists d'. split; [exact E|]. split; auto.
    assert (ND' : NoDup (dkeys d')) by (now rewrite (src_keys v d' LK)).
    assert (ND0 : NoDup (dkeys d)) by (now rewrite (src_keys v d L)).
    split.
    + intros k a Ik. rewrite (V k a); [reflexivity| |now apply In_dget].
      assert (Kv : In k (dkeys v)) by (rewrite <- (src_keys v d' LK); apply in_map_iff; now exists (k, a)).
      apply in_map_iff in Kv as ([k2 q] & E2 & I2). simpl in E2. subst k2. apply in_map_iff. now exists (k, q).
    + intros k a' Ik. destruct (SM k a') as (a & Da & SB); [now apply In_dget|]. exists a. split; auto.
      now apply dget_In.
Qed.

Lemma set_conv_ok name v rv scn t x o :
  scn < st_nb_scn s -> t < st_horizon s -> NoDup (dkeys (v_src v)) -> (forall k, In k (dkeys (v_src v)) -> plain_key k) ->
  conv_like s name v rv -> dget name (os_convs o) = Some rv ->
  exists rv', set_converter_var o name t scn (conv_answer x (pconv name t scn v)) =
     Ok (OState (os_nets o) (dset name rv' (os_convs o))) /\
     conv_like s name v rv' /\ conv_cell name rv' scn t x /\ conv_same scn t rv rv'.
Proof.
  intros S T ND PK (Ln & Ld & Ls) D. unfold set_converter_var, dlook. rewrite D. cbn [rbind].
  rewrite conv_answer_eq by auto. cbn [av_src av_dest].
  destruct (src_loop name t scn x (v_src v) (ov_src rv) S T ND Ls) as (d' & -> & L' & V & SM). cbn [rbind].
  destruct (entry_set (ov_dest rv) scn t (x (VDest name t)) Ld S T) as (a' & -> & D' & Va & O). cbn [rbind].
  exists (OConv (ov_name rv) d' a'). split; auto. split; [split; auto|]. split.
  - constructor; simpl; auto. now rewrite Va.
  - split; auto.
Qed.

(** ** Whole results *)
Variable bench : benchmark.
(** Each key once, plain names, and jobs that keep aside the variables of the steps. *)
Hypothesis Hnets : NoDup (dkeys (st_networks s)).
Hypothesis Hnodes : forall net ns, dget net (st_networks s) = Some ns -> NoDup (dkeys ns).
Hypothesis Hconvs : NoDup (dkeys (st_converters s)).
Hypothesis Ho : forall name v, conv_at s name = Some v -> NoDup (dkeys (v_src v)).
Hypothesis Hk : plain_sources s.
Hypothesis Hbuilt : forall scn, scn < st_nb_scn s -> exists p, build s scn = Ok (p, map (pstep s scn) (seq 0 (st_horizon s))).

Definition res_of (o : ostate) : result := Result (os_nets o) (os_convs o) bench.

Record inv (X : nat -> var -> Q) (o : ostate) (D : nat -> nat -> string -> string -> Prop) (E : nat -> nat -> string -> Prop) : Prop := {
  iv_mirror : mirrors s (res_of o);
  iv_nodes : forall scn t net nd n rn, D scn t net nd -> scn < st_nb_scn s -> t < st_horizon s ->
    node_at s net nd = Some n -> rnode_at (res_of o) net nd = Some rn -> node_cell net nd n rn scn t (X scn);
  iv_convs : forall scn t name v rv, E scn t name -> scn < st_nb_scn s -> t < st_horizon s ->
    conv_at s name = Some v -> rconv_at (res_of o) name = Some rv -> conv_cell name rv scn t (X scn)
}.

Lemma inv_weaken X o D (D' : nat -> nat -> string -> string -> Prop) E (E' : nat -> nat -> string -> Prop) : inv X o D E ->
  (forall a b c d n, node_at s c d = Some n -> D' a b c d -> D a b c d) ->
  (forall a b c v, conv_at s c = Some v -> E' a b c -> E a b c) -> inv X o D' E'.
Proof. intros [M N C] H1 H2. constructor; eauto. Qed.

Lemma inv_node X o D E scn t net nd n : inv X o D E -> scn < st_nb_scn s -> t < st_horizon s ->
  node_at s net nd = Some n ->
  exists o', set_node_var o net nd t scn (node_answer (X scn) (pnode net nd t scn n)) = Ok o' /\
    inv X o' (fun a b c d => D a b c d \/ (a = scn /\ b = t /\ c = net /\ d = nd)) E.
Proof.
  intros [M N C] S T HN.
  destruct (mirror_node_l s _ M net nd n HN) as (rn & HR & L).
  unfold rnode_at, res_of in HR. simpl in HR. destruct (dget net (os_nets o)) as [ns|] eqn:D1; [|discriminate].
  destruct (set_node_ok net nd n rn scn t (X scn) o ns S T L D1 HR) as (rn' & E1 & L' & CL & SM).
  eexists. split; [exact E1|]. 
  assert (RA : forall net2 nd2, rnode_at (res_of (OState (dset net (dset nd rn' ns) (os_nets o)) (os_convs o))) net2 nd2 =
     if eqb net2 net && eqb nd2 nd then Some rn' else rnode_at (res_of o) net2 nd2).
  { intros net2 nd2. unfold rnode_at, res_of. cbn [r_networks os_nets]. rewrite dget_dset.
    destruct (eqb net2 net) eqn:Q1; cbn [andb]; auto. apply eqb_eq in Q1. subst. rewrite D1. apply dget_dset. }
  constructor.
  - constructor; [|exact (mr_convs _ _ M)]. cbn [res_of r_networks os_nets].
    destruct M as [M1 _]. cbn [res_of r_networks] in M1.
    unfold node_at in HN. destruct (dget net (st_networks s)) as [sns|] eqn:D2; [|discriminate].
    eapply (Forall2_dset (fun _ (sns : network) (ns : onetwork) => Forall2 (fun (kd : string * node) (kr : string * onode) =>
                          fst kr = fst kd /\ node_like s (snd kd) (snd kr)) sns ns)); [exact M1 | exact D2 |].
    pose proof (Forall2_dget (fun _ (sns : network) (ns : onetwork) => Forall2 (fun (kd : string * node) (kr : string * onode) =>
                          fst kr = fst kd /\ node_like s (snd kd) (snd kr)) sns ns) _ _ net M1) as FD.
    rewrite D2, D1 in FD.
    eapply (Forall2_dset (fun _ n rn => node_like s n rn)); [exact FD | exact HN | exact L'].
  - intros scn2 t2 net2 nd2 n2 rn2 HD S2 T2 HN2. rewrite RA.
    destruct (eqb net2 net && eqb nd2 nd) eqn:Q.
    + apply andb_true_iff in Q as [Q1 Q2]. apply eqb_eq in Q1, Q2. subst. rewrite HN in HN2. inversion HN2; subst n2.
      intros X2. inversion X2; subst rn2.
      destruct (Nat.eq_dec scn2 scn) as [->|NS]; [destruct (Nat.eq_dec t2 t) as [->|NT]; auto|].
      * eapply cell_kept; [exact SM | auto | auto | congruence |].
        destruct HD as [HD|HD]; [|lia]. apply (N _ _ _ _ _ _ HD S2 T2 HN). unfold rnode_at, res_of. simpl. now rewrite D1.
      * eapply cell_kept; [exact SM | auto | auto | congruence |].
        destruct HD as [HD|HD]; [|lia]. apply (N _ _ _ _ _ _ HD S2 T2 HN). unfold rnode_at, res_of. simpl. now rewrite D1.
    + intros HR2. destruct HD as [HD|(-> & -> & -> & ->)]; [eauto|]. rewrite !eqb_refl in Q. discriminate.
  - intros scn2 t2 name v rv HE S2 T2 HV HRV. eapply C; eauto.
Qed.

Lemma inv_conv X o D E scn t name v : inv X o D E -> scn < st_nb_scn s -> t < st_horizon s ->
  conv_at s name = Some v ->
  exists o', set_converter_var o name t scn (conv_answer (X scn) (pconv name t scn v)) = Ok o' /\
    inv X o' D (fun a b c => E a b c \/ (a = scn /\ b = t /\ c = name)).
Proof.
  intros [M N C] S T HV.
  destruct (mirror_conv_l s _ M name v HV) as (rv & HR & L).
  assert (ND : NoDup (dkeys (v_src v))) by exact (Ho _ _ HV).
  destruct (set_conv_ok name v rv scn t (X scn) o S T ND) as (rv' & E1 & L' & CL & SM); auto.
  { intros k. exact (Hk name v k HV). }
  eexists. split; [exact E1|].
  assert (RA : forall name2, rconv_at (res_of (OState (os_nets o) (dset name rv' (os_convs o)))) name2 =
     if eqb name2 name then Some rv' else rconv_at (res_of o) name2).
  { intros name2. unfold rconv_at, res_of. cbn [r_converters os_convs]. apply dget_dset. }
  constructor.
  - constructor; [exact (mr_nodes _ _ M)|]. cbn [res_of r_converters os_convs].
    eapply (Forall2_dset (fun k v rv => conv_like s k v rv)); [exact (mr_convs _ _ M) | exact HV | exact L'].
  - intros scn2 t2 net2 nd2 n2 rn2 HD S2 T2 HN2 HRN. eapply N; eauto.
  - intros scn2 t2 name2 v2 rv2 HE S2 T2 HV2. rewrite RA.
    destruct (eqb name2 name) eqn:Q.
    + apply eqb_eq in Q. subst. rewrite HV in HV2. inversion HV2; subst v2. intros X2. inversion X2; subst rv2.
      destruct (Nat.eq_dec scn2 scn) as [->|NS]; [destruct (Nat.eq_dec t2 t) as [->|NT]; auto|].
      * eapply conv_kept; [exact SM | auto | auto | congruence |].
        destruct HE as [HE|HE]; [|lia]. eapply C; eauto.
      * eapply conv_kept; [exact SM | auto | auto | congruence |].
        destruct HE as [HE|HE]; [|lia]. eapply C; eauto.
    + intros HR2. destruct HE as [HE|(-> & -> & ->)]; [eauto|]. rewrite eqb_refl in Q. discriminate.
Qed.

Lemma dget_mapk {V W} (f : string -> V -> W) (d : dict string V) k :
  dget k (map (fun kv => (fst kv, f (fst kv) (snd kv))) d) = option_map (f k) (dget k d).
Proof.
  induction d as [|[k' v'] d IH]; simpl; auto. destruct (String.eqb k k') eqn:E; auto.
  apply String.eqb_eq in E. now subst.
Qed.

Lemma write_step_ok X o D E scn t vs : inv X o D E -> scn < st_nb_scn s -> t < st_horizon s ->
  nth_error vs t = Some (step_answer (X scn) (pstep s scn t)) ->
  exists o', write_step s scn t vs o = Ok o' /\
    inv X o' (fun a b c d => D a b c d \/ (a = scn /\ b = t)) (fun a b c => E a b c \/ (a = scn /\ b = t)).
Proof.
  intros I S T HV. unfold write_step, lnth. rewrite HV. cbn [rbind].
  destruct (foldM_ind (fun o kn => foldM (fun o kd =>
        let* ns := dlook (fst kn) (at_networks (step_answer (X scn) (pstep s scn t))) in
        let* n := dlook (fst kd) ns in
        set_node_var o (fst kn) (fst kd) t scn n) (snd kn) o)
     (fun pre o => inv X o (fun a b c d => D a b c d \/ (a = scn /\ b = t /\ In c (map fst pre))) E) (st_networks s) o)
    as (o1 & E1 & I1).
  { eapply inv_weaken; [exact I | |auto]. simpl. intros a b c d _ _ [H|(_ & _ & [])]; auto. }
  { intros pre [net ns] post o0 EQ I0. cbn [fst snd].
    assert (InN : In (net, ns) (st_networks s)) by (rewrite EQ; apply in_or_app; simpl; auto).
    assert (DN : dget net (st_networks s) = Some ns) by (apply In_dget; auto; exact Hnets).
    destruct (foldM_ind (fun o kd =>
        let* ns := dlook net (at_networks (step_answer (X scn) (pstep s scn t))) in
        let* n := dlook (fst kd) ns in
        set_node_var o net (fst kd) t scn n)
      (fun pre' o => inv X o (fun a b c d => (D a b c d \/ (a = scn /\ b = t /\ In c (map fst pre))) \/
                               (a = scn /\ b = t /\ c = net /\ In d (map fst pre'))) E) ns o0)
      as (o2 & E2 & I2).
    { eapply inv_weaken; [exact I0 | |auto]. simpl. intros a b c d _ _ [H|(_ & _ & _ & [])]; auto. }
    { intros pre' [nd n] post' o2 EQ' I2. cbn [fst snd].
      assert (InD : In (nd, n) ns) by (rewrite EQ'; apply in_or_app; simpl; auto).
      assert (HN : node_at s net nd = Some n) by (unfold node_at; rewrite DN; apply In_dget; auto; exact (Hnodes _ _ DN)).
      unfold dlook. unfold step_answer. cbn [at_networks]. rewrite dget_dmap. unfold pstep. cbn [lt_networks].
      rewrite (dget_mapk (fun k (ns : network) => map (fun kd => (fst kd, pnode k (fst kd) t scn (snd kd))) ns)).
      rewrite DN. cbn [option_map rbind]. rewrite dget_dmap.
      rewrite (dget_mapk (fun k n => pnode net k t scn n)).
      unfold node_at in HN. rewrite DN in HN. rewrite HN. cbn [option_map rbind].
      destruct (inv_node X o2 _ E scn t net nd n I2 S T) as (o3 & E3 & I3).
      { unfold node_at. now rewrite DN. }
      exists o3. split; [exact E3|]. eapply inv_weaken; [exact I3 | |auto]. cbn beta.
      intros a b c d _ _. rewrite map_app, in_app_iff. simpl. intuition; subst; auto. }
    exists o2. split; [exact E2|]. eapply inv_weaken; [exact I2 | |auto]. cbn beta.
    intros a b c d n0 HN0. rewrite map_app, in_app_iff. cbn [map fst In].
    intros [H|(Ha & Hb & [H|[H|[]]])]; auto. subst c. right. repeat split; auto.
    unfold node_at in HN0. rewrite DN in HN0. apply dget_In_keys in HN0. exact HN0. }
  rewrite E1. cbn [rbind].
  destruct (foldM_ind (fun o kv =>
      let* v := dlook (fst kv) (at_converters (step_answer (X scn) (pstep s scn t))) in
      set_converter_var o (fst kv) t scn v)
     (fun pre o => inv X o (fun a b c d => D a b c d \/ (a = scn /\ b = t /\ In c (map fst (st_networks s))))
                    (fun a b c => E a b c \/ (a = scn /\ b = t /\ In c (map fst pre)))) (st_converters s) o1)
    as (o2 & E2 & I2).
  { eapply inv_weaken; [exact I1 | auto |]. simpl. intros a b c _ _ [H|(_ & _ & [])]; auto. }
  { intros pre [name v] post o0 EQ I0. cbn [fst snd].
    assert (InV : In (name, v) (st_converters s)) by (rewrite EQ; apply in_or_app; simpl; auto).
    assert (HVc : conv_at s name = Some v) by (unfold conv_at; apply In_dget; auto).
    unfold dlook, step_answer. cbn [at_converters]. rewrite dget_dmap. unfold pstep. cbn [lt_converters].
    rewrite (dget_mapk (fun k v => pconv k t scn v)). unfold conv_at in HVc. rewrite HVc. cbn [option_map rbind].
    destruct (inv_conv X o0 _ _ scn t name v I0 S T HVc) as (o3 & E3 & I3).
    exists o3. split; [exact E3|]. eapply inv_weaken; [exact I3 | auto |]. cbn beta.
    intros a b c _ _. rewrite map_app, in_app_iff. simpl. intuition; subst; auto. }
  exists o2. split; [exact E2|]. eapply inv_weaken; [exact I2 | |].
  - cbn beta. intros a b c d n HN [H|[H1 H2]]; auto. right. repeat split; auto.
    unfold node_at in HN. destruct (dget c (st_networks s)) eqn:DC; [|discriminate]. now apply dget_In_keys in DC.
  - cbn beta. intros a b c v HC [H|[H1 H2]]; auto. right. repeat split; auto. now apply dget_In_keys in HC.
Qed.

Lemma zeros_dims : has_dims s (nd_zeros2 (st_nb_scn s) (st_horizon s)).
Proof. split; auto. unfold nd_wf, nd_zeros2. simpl. rewrite repeat_length. lia. Qed.

Lemma Forall2_map_r {A C} (P : A -> C -> Prop) f l : (forall a, In a l -> P a (f a)) -> Forall2 P l (map f l).
Proof. induction l; simpl; constructor; auto. Qed.

Lemma inv_init X : inv X (out_init s) (fun _ _ _ _ => False) (fun _ _ _ => False).
Proof.
  pose proof zeros_dims as Z. constructor; try tauto. constructor; cbn [res_of out_init r_networks r_converters os_nets os_convs].
  - unfold dmap. apply Forall2_map_r. intros [net ns] _. simpl. split; auto. apply Forall2_map_r. intros [nd n] _. simpl. split; auto.
    constructor; simpl; apply Forall2_map_r; simpl; auto.
  - apply Forall2_map_r. intros [name v] _. simpl. repeat split; auto; try apply Z.
    simpl. unfold dmap. apply Forall2_map_r. intros [k q] _. simpl. split; auto.
Qed.

(** ** The pool *)
Lemma pool_map_ok {A} (job : nat -> res A) (a : nat -> A) n sched :
  (forall i, i < n -> job i = Ok (a i)) -> Permutation sched (seq 0 n) ->
  exists l, pool_map job n sched = Ok l /\ forall i, i < n -> nth_error l i = Some (Some (a i)).
Proof.
  intros J P. unfold pool_map.
  assert (LT : forall i, In i sched -> i < n).
  { intros i Hi. apply (Permutation_in _ P) in Hi. apply in_seq in Hi. lia. }
  destruct (foldM_ind (fun acc i => let* x := job i in Ok (upd_nth i (fun _ => Some x) acc))
    (fun pre l => length l = n /\ forall i, In i pre -> nth_error l i = Some (Some (a i))) sched (repeat None n))
    as (l & E & L & H).
  - split; [apply repeat_length | intros i []].
  - intros pre i post l EQ [L H]. assert (i < n) by (apply LT; rewrite EQ; apply in_or_app; simpl; auto).
    rewrite J by auto. cbn [rbind]. eexists. split; [reflexivity|]. split; [now rewrite length_upd_nth|].
    intros j Hj. rewrite nth_error_upd_nth. destruct (Nat.eqb i j) eqn:Q.
    + apply Nat.eqb_eq in Q. subst j. destruct (nth_error l i) eqn:N; auto. apply nth_error_None in N. lia.
    + apply H. apply in_app_or in Hj as [Hj|[Hj|[]]]; auto. subst. rewrite Nat.eqb_refl in Q. discriminate.
  - exists l. split; auto. intros i Hi. apply H. apply (Permutation_in _ (Permutation_sym P)). apply in_seq. lia.
Qed.

(** ** solve_lp *)
Theorem collect_ok answer sched : Permutation sched (seq 0 (st_nb_scn s)) ->
  exists r, solve_lp answer sched bench s = Ok r /\ r_benchmark r = bench /\ mirrors s r /\
    forall scn, scn < st_nb_scn s -> carries_answer s r scn (answer scn (program_of s scn)).
Proof.
  intros P. unfold solve_lp.
  set (X := fun scn => answer scn (program_of s scn)).
  destruct (pool_map_ok (fun scn => solve_batch (answer scn) s scn)
     (fun scn => map (step_answer (X scn)) (map (pstep s scn) (seq 0 (st_horizon s)))) (st_nb_scn s) sched) as (l & -> & HL); auto.
  { intros i Hi. unfold solve_batch, X, program_of. destruct (Hbuilt i Hi) as (p & ->). reflexivity. }
  cbn [rbind].
  destruct (foldM_ind (write_scn s l)
    (fun pre o => inv X o (fun a b c d => In a pre) (fun a b c => In a pre)) (seq 0 (st_nb_scn s)) (out_init s)) as (o & -> & I).
  - eapply inv_weaken; [apply inv_init | |]; simpl; auto.
  - intros pre scn post o EQ I0.
    assert (S : scn < st_nb_scn s).
    { assert (H : In scn (seq 0 (st_nb_scn s))) by (rewrite EQ; apply in_or_app; simpl; auto). apply in_seq in H. lia. }
    unfold write_scn, lnth. rewrite HL by auto. cbn [rbind].
    destruct (foldM_ind (fun o t => write_step s scn t (map (step_answer (X scn)) (map (pstep s scn) (seq 0 (st_horizon s)))) o)
      (fun pre' o => inv X o (fun a b c d => In a pre \/ (a = scn /\ In b pre')) (fun a b c => In a pre \/ (a = scn /\ In b pre')))
      (seq 0 (st_horizon s)) o) as (o' & E' & I').
    + eapply inv_weaken; [exact I0 | |]; simpl; intuition.
    + intros pre' t post' o1 EQ' I1.
      assert (T : t < st_horizon s).
      { assert (H : In t (seq 0 (st_horizon s))) by (rewrite EQ'; apply in_or_app; simpl; auto). apply in_seq in H. lia. }
      destruct (write_step_ok X o1 _ _ scn t (map (step_answer (X scn)) (map (pstep s scn) (seq 0 (st_horizon s)))) I1 S T) as (o2 & E2 & I2).
      { rewrite !nth_error_map. rewrite (nth_error_nth' _ 0) by (now rewrite seq_length). rewrite seq_nth by auto. reflexivity. }
      exists o2. split; [exact E2|]. eapply inv_weaken; [exact I2 | |]; cbn beta; intros; rewrite in_app_iff in *; simpl in *; intuition.
    + exists o'. split; [exact E'|]. 
      destruct I' as [M N C]. constructor; auto.
      * intros a b c d n rn HD Sa Tb. apply N; auto. apply in_app_or in HD as [HD|[HD|[]]]; auto. right. split; auto. apply in_seq. lia.
      * intros a b c v rv HD Sa Tb. apply C; auto. apply in_app_or in HD as [HD|[HD|[]]]; auto. right. split; auto. apply in_seq. lia.
  - cbn [rbind]. exists (res_of o). split; [reflexivity|]. split; [reflexivity|]. destruct I as [M N C]. split; auto.
    intros scn S. assert (IS : In scn (seq 0 (st_nb_scn s))) by (apply in_seq; lia).
    fold (X scn). constructor.
    + intros net nd n rn i c0 o0 t T HN HR. apply (cl_cons _ _ _ _ _ _ _ (N scn t net nd n rn IS S T HN HR)).
    + intros net nd n rn i c0 o0 t T HN HR. apply (cl_prods _ _ _ _ _ _ _ (N scn t net nd n rn IS S T HN HR)).
    + intros net nd n rn i c0 o0 t T HN HR. apply (cl_stors _ _ _ _ _ _ _ (N scn t net nd n rn IS S T HN HR)).
    + intros net nd n rn i c0 o0 t T HN HR. apply (cl_links _ _ _ _ _ _ _ (N scn t net nd n rn IS S T HN HR)).
    + intros name v rv net nd a t T HV HR IA. exact (cv_src _ _ _ _ _ (C scn t name v rv IS S T HV HR) (net, nd) a IA).
    + intros name v rv t T HV HR. exact (cv_dest _ _ _ _ _ (C scn t name v rv IS S T HV HR)).
Qed.
End Solve.

Theorem solve_lp_ok s bench : ready s -> plain_sources s -> forall answer sched, Permutation sched (seq 0 (st_nb_scn s)) ->
  exists r, solve_lp answer sched bench s = Ok r /\ r_benchmark r = bench /\ mirrors s r /\
    forall scn, scn < st_nb_scn s -> carries_answer s r scn (answer scn (program_of s scn)).
Proof.
  intros Hs Hk. pose proof (rd_wf _ Hs) as W. apply collect_ok; [exact (wf_networks _ W) | exact (wf_nodes _ W) | exact (wf_convs _ W) | | exact Hk |].
  - intros name v V. exact (wf_once _ _ _ (wf_conv _ (rd_wf _ Hs) _ _ V)).
  - intros scn S. destruct (build_ok s scn S Hs) as (p & E & _). eauto.
Qed.

