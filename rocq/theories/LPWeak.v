(** What a successful solve guarantees whatever the names of networks and nodes:
    everything but the flows taken at the sources of converters. *)
From Coq Require Import String List ZArith QArith Bool Arith Lia Lqa Permutation.
From Verif Require Import Base BaseFacts Numeric Study Fluent SpecStudy StudyFacts Output Json SpecJson JsonFacts
  LP SpecLP LPFacts LPBuild LPSat LPResult LPSolve LPReady.
Import ListNotations.
Open Scope nat_scope.

Lemma foldM_cond {A St} (f : St -> A -> res St) (P : list A -> St -> Prop) l s0 s1 :
  P [] s0 -> foldM f l s0 = Ok s1 ->
  (forall pre a post st st', l = pre ++ a :: post -> P pre st -> f st a = Ok st' -> P (pre ++ [a]) st') -> P l s1.
Proof.
  intros P0 E H.
  assert (X : forall post pre st, l = pre ++ post -> P pre st -> foldM f post st = Ok s1 -> P l s1).
  { induction post as [|a post IH]; intros pre st EQ Pst F; simpl in F.
    - rewrite app_nil_r in EQ. inversion F; subst. auto.
    - destruct (f st a) as [st1|] eqn:E1; [|discriminate]. simpl in F.
      apply (IH (pre ++ [a]) st1); auto; [now rewrite <- app_assoc | eapply H; eauto]. }
  apply (X l [] s0); auto.
Qed.

Section Weak.
Variable s : study.
Variable bench : benchmark.
Hypothesis Hs : ready s.

(** The value written for source [k] of a converter: the answer for the source whose
    joined name splits to [k], or none. *)
Definition src_cell (x : var -> Q) (name : string) (v : converter) (scn t : nat) (k : string * string) : Q :=
  match dget [fst k; snd k] (av_src (conv_answer x (pconv name t scn v))) with Some q => q | None => 0%Q end.

Definition src_good (X : nat -> var -> Q) (name : string) (v : converter) (k : string * string) (a : ndarray) : Prop :=
  forall scn t, scn < st_nb_scn s -> t < st_horizon s ->
    entry a scn t = src_cell (X scn) name v scn t k \/ entry a scn t = 0%Q.

Record winv (X : nat -> var -> Q) (o : ostate) (E : nat -> nat -> string -> Prop) : Prop := {
  wi_src : forall name v rv k a, conv_at s name = Some v -> rconv_at (res_of bench o) name = Some rv ->
    In (k, a) (ov_src rv) -> src_good X name v k a;
  wi_done : forall scn t name v rv k a, E scn t name -> scn < st_nb_scn s -> t < st_horizon s ->
    conv_at s name = Some v -> rconv_at (res_of bench o) name = Some rv -> In (k, a) (ov_src rv) ->
    entry a scn t = src_cell (X scn) name v scn t k;
  wi_dest : forall scn t name v rv, E scn t name -> scn < st_nb_scn s -> t < st_horizon s ->
    conv_at s name = Some v -> rconv_at (res_of bench o) name = Some rv -> (entry (ov_dest rv) scn t == X scn (VDest name t))%Q
}.

Lemma winv_weaken X o E (E' : nat -> nat -> string -> Prop) : winv X o E ->
  (forall a b c v, conv_at s c = Some v -> E' a b c -> E a b c) -> winv X o E'.
Proof. intros [A B C] H. constructor; eauto. Qed.

Lemma conv_answer_vals name t scn v x ls q : In (ls, q) (av_src (conv_answer x (pconv name t scn v))) ->
  exists k, In k (dkeys (v_src v)) /\ q = x (vsrc name t k).
Proof.
  unfold conv_answer, pconv. cbn [av_src lv_src]. intros I. apply In_dict_of in I. apply in_map_iff in I as ([jk q'] & E & I).
  cbn [fst snd] in E. inversion E; subst. apply In_dict_of in I. rewrite map_map in I. apply in_map_iff in I as ([k r] & E2 & I).
  cbn [fst snd] in E2. inversion E2; subst. exists k. split; auto. apply in_map_iff. now exists (k, r).
Qed.

Lemma has_dims_set a i j q a' : has_dims s a -> i < st_nb_scn s -> j < st_horizon s -> nd_set2 a i j q = Ok a' ->
  has_dims s a' /\ entry a' i j = q /\ same_but s i j a a'.
Proof.
  intros D I J E. destruct (entry_set s a i j q D I J) as (a2 & E2 & R). rewrite E in E2. inversion E2; subst. exact R.
Qed.

Lemma NoDup_dict_of {K V} `{EqB K} (l : list (K * V)) : NoDup (dkeys (dict_of l)).
Proof.
  unfold dict_of. assert (X : forall d : dict K V, NoDup (dkeys d) -> NoDup (dkeys (fold_left (fun d kv => dset (fst kv) (snd kv) d) l d))).
  { induction l as [|[k v] l IH]; simpl; intros d N; auto. apply IH. now apply NoDup_dset. }
  apply X. constructor.
Qed.

Lemma src_loop_weak v t scn vals : forall d d',
  scn < st_nb_scn s -> t < st_horizon s -> src_like s (v_src v) d -> NoDup (dkeys (v_src v)) -> NoDup (dkeys vals) ->
  foldM (set_src t scn) vals d = Ok d' ->
  src_like s (v_src v) d' /\
  forall k a', dget k d' = Some a' -> exists a, dget k d = Some a /\ same_but s scn t a a' /\
    entry a' scn t = match dget [fst k; snd k] vals with Some q => q | None => entry a scn t end.
Proof.
  induction vals as [|[ls q] vals IH]; intros d d' S T L ND NV F; simpl in F.
  - inversion F; subst. split; auto. intros k a' D. exists a'. repeat split; auto.
  - destruct (set_src t scn d (ls, q)) as [d1|] eqn:E; [|discriminate]. simpl in F.
    unfold set_src in E. cbn [fst snd] in E. destruct ls as [|a [|b [|? ?]]]; try discriminate.
    unfold dlook in E. destruct (dget (a, b) d) as [arr|] eqn:D; [|discriminate]. cbn [rbind] in E.
    destruct (nd_set2 arr scn t q) as [arr'|] eqn:EA; [|discriminate]. cbn [rbind] in E. inversion E; subst d1. clear E.
    pose proof (Forall2_dget (fun _ _ x => has_dims s x) (v_src v) d (a, b) L) as FD. rewrite D in FD.
    destruct (dget (a, b) (v_src v)) as [r|] eqn:DV; [|contradiction].
    destruct (has_dims_set _ _ _ _ _ FD S T EA) as (D' & V & O).
    assert (L1 : src_like s (v_src v) (dset (a, b) arr' d)) by (eapply (Forall2_dset (fun _ _ x => has_dims s x)); eauto).
    inversion NV as [|? ? NI NV']; subst.
    destruct (IH (dset (a, b) arr' d) d') as [R1 R2]; auto.
    split; auto. intros k a' DK. destruct (R2 k a' DK) as (a1 & D1 & SB & EV). rewrite dget_dset in D1.
    cbn [dget]. destruct (eqb k (a, b)) eqn:EK.
    + apply eqb_eq in EK. subst k. inversion D1; subst a1. exists arr. split; auto. cbn [fst snd]. rewrite eqb_refl. split.
      * intros i j SI TJ N. rewrite SB by auto. auto.
      * rewrite EV. cbn [fst snd]. rewrite (proj2 (dget_None _ _) NI). reflexivity.
    + exists a1. split; auto. split; auto. destruct (eqb [fst k; snd k] [a; b]) eqn:EL; auto.
      apply eqb_eq in EL. inversion EL; subst. destruct k. cbn [fst snd] in *. rewrite eqb_refl in EK. discriminate.
Qed.

Lemma w_conv X o o' D E scn t name v : inv s bench X o D (fun _ _ _ => False) -> winv X o E ->
  scn < st_nb_scn s -> t < st_horizon s -> conv_at s name = Some v ->
  set_converter_var o name t scn (conv_answer (X scn) (pconv name t scn v)) = Ok o' ->
  inv s bench X o' D (fun _ _ _ => False) /\ winv X o' (fun a b c => E a b c \/ (a = scn /\ b = t /\ c = name)).
Proof.
  intros [M N _] [WS WN WD] S T HV EQ.
  destruct (mirror_conv_l s _ M name v HV) as (rv & HR & (Ln & Ld & Ls)).
  assert (ND : NoDup (dkeys (v_src v))) by (apply (wf_once _ _ _ (wf_conv _ (rd_wf _ Hs) _ _ HV))).
  unfold set_converter_var, dlook in EQ. unfold rconv_at, res_of in HR. cbn [r_converters] in HR. rewrite HR in EQ. cbn [rbind] in EQ.
  destruct (foldM (set_src t scn) (av_src (conv_answer (X scn) (pconv name t scn v))) (ov_src rv)) as [d'|] eqn:EF; [|discriminate].
  cbn [rbind] in EQ. destruct (nd_set2 (ov_dest rv) scn t _) as [a'|] eqn:EA; [|discriminate]. cbn [rbind] in EQ. inversion EQ; subst o'. clear EQ.
  destruct (has_dims_set _ _ _ _ _ Ld S T EA) as (D' & V & O). cbn [av_dest conv_answer pconv lv_dest] in V.
  destruct (src_loop_weak v t scn _ _ _ S T Ls ND (NoDup_dict_of _) EF) as [L' G].
  set (rv' := OConv (ov_name rv) d' a').
  assert (RA : forall name2, rconv_at (res_of bench (OState (os_nets o) (dset name rv' (os_convs o)))) name2 =
     if eqb name2 name then Some rv' else rconv_at (res_of bench o) name2).
  { intros name2. unfold rconv_at, res_of. cbn [r_converters os_convs]. apply dget_dset. }
  assert (HR' : rconv_at (res_of bench o) name = Some rv) by exact HR.
  assert (OLD : forall k a2, In (k, a2) d' -> exists a, In (k, a) (ov_src rv) /\ same_but s scn t a a2 /\
     entry a2 scn t = match dget [fst k; snd k] (av_src (conv_answer (X scn) (pconv name t scn v))) with Some q => q | None => entry a scn t end).
  { intros k a2 I. apply In_dget in I; [|now rewrite (src_keys s _ _ L')]. destruct (G k a2 I) as (a & DA & R). exists a. split; auto. now apply dget_In. }
  assert (NEW : forall k a2, In (k, a2) d' -> entry a2 scn t = src_cell (X scn) name v scn t k).
  { intros k a2 I. destruct (OLD k a2 I) as (a & IA & _ & ->). pose proof (WS name v rv k a HV HR' IA scn t S T) as [W|W]; unfold src_cell in *;
      destruct (dget [fst k; snd k] (av_src (conv_answer (X scn) (pconv name t scn v)))); auto. }
  split; [constructor|constructor].
  - constructor; [exact (mr_nodes _ _ M)|]. cbn [res_of r_converters os_convs].
    eapply (Forall2_dset (fun k v rv => conv_like s k v rv)); [exact (mr_convs _ _ M) | exact HV |].
    split; [exact Ln | split; [exact D' | exact L']].
  - intros scn2 t2 net2 nd2 n2 rn2 HD S2 T2 HN2 HRN. eapply N; eauto.
  - tauto.
  - intros name2 v2 rv2 k a HV2. rewrite RA. destruct (eqb name2 name) eqn:Q.
    + apply eqb_eq in Q. subst name2. rewrite HV in HV2. inversion HV2; subst v2. intros X2. inversion X2; subst rv2.
      cbn [ov_src rv']. intros I i j SI TJ. destruct (Nat.eq_dec i scn) as [->|Ni]; [destruct (Nat.eq_dec j t) as [->|Nj]|].
      * left. now apply NEW.
      * destruct (OLD k a I) as (a0 & IA & SB & _). rewrite (SB scn j) by (auto; congruence). apply (WS name v rv k a0 HV HR' IA); auto.
      * destruct (OLD k a I) as (a0 & IA & SB & _). rewrite (SB i j) by (auto; congruence). apply (WS name v rv k a0 HV HR' IA); auto.
    + intros HR2 I. eapply WS; eauto.
  - intros scn2 t2 name2 v2 rv2 k a HE S2 T2 HV2. rewrite RA. destruct (eqb name2 name) eqn:Q.
    + apply eqb_eq in Q. subst name2. rewrite HV in HV2. inversion HV2; subst v2. intros X2. inversion X2; subst rv2.
      cbn [ov_src rv']. intros I. destruct (Nat.eq_dec scn2 scn) as [->|Ni]; [destruct (Nat.eq_dec t2 t) as [->|Nj]|].
      * now apply NEW.
      * destruct HE as [HE|HE]; [|lia]. destruct (OLD k a I) as (a0 & IA & SB & _). rewrite (SB scn t2) by (auto; congruence). eapply WN; eauto.
      * destruct HE as [HE|HE]; [|lia]. destruct (OLD k a I) as (a0 & IA & SB & _). rewrite (SB scn2 t2) by (auto; congruence). eapply WN; eauto.
    + intros HR2 I. destruct HE as [HE|(-> & -> & ->)]; [eauto|]. rewrite eqb_refl in Q. discriminate.
  - intros scn2 t2 name2 v2 rv2 HE S2 T2 HV2. rewrite RA. destruct (eqb name2 name) eqn:Q.
    + apply eqb_eq in Q. subst name2. intros X2. inversion X2; subst rv2. cbn [ov_dest rv'].
      destruct (Nat.eq_dec scn2 scn) as [->|NS]; [destruct (Nat.eq_dec t2 t) as [->|NT]|].
      * rewrite V. reflexivity.
      * rewrite (O scn t2) by (auto; congruence). destruct HE as [HE|HE]; [|lia]. eapply WD; eauto.
      * rewrite (O scn2 t2) by (auto; congruence). destruct HE as [HE|HE]; [|lia]. eapply WD; eauto.
    + intros HR2. destruct HE as [HE|(-> & -> & ->)]; [eauto|]. rewrite eqb_refl in Q. discriminate.
Qed.

Lemma w_node X o o' D E scn t net nd n : inv s bench X o D (fun _ _ _ => False) -> winv X o E ->
  scn < st_nb_scn s -> t < st_horizon s -> node_at s net nd = Some n ->
  set_node_var o net nd t scn (node_answer (X scn) (pnode net nd t scn n)) = Ok o' ->
  inv s bench X o' (fun a b c d => D a b c d \/ (a = scn /\ b = t /\ c = net /\ d = nd)) (fun _ _ _ => False) /\ winv X o' E.
Proof.
  intros I W S T HN EQ. destruct (inv_node s bench X o D _ scn t net nd n I S T HN) as (o2 & E2 & I2). rewrite EQ in E2. inversion E2; subst o2.
  split; auto. destruct W as [WS WN WD].
  assert (C : os_convs o' = os_convs o).
  { unfold set_node_var in EQ. destruct (dlook net (os_nets o)); [|discriminate]. cbn [rbind] in EQ. destruct (dlook nd _); [|discriminate].
    cbn [rbind] in EQ. repeat (match type of EQ with rbind ?m _ = _ => destruct m; [|discriminate]; cbn [rbind] in EQ end).
    inversion EQ. reflexivity. }
  constructor; intros *; unfold rconv_at, res_of; cbn [r_converters]; rewrite C; [apply WS | apply WN | apply WD].
Qed.

Lemma write_step_weak X o o' D E scn t vs : inv s bench X o D (fun _ _ _ => False) -> winv X o E ->
  scn < st_nb_scn s -> t < st_horizon s ->
  nth_error vs t = Some (step_answer (X scn) (pstep s scn t)) -> write_step s scn t vs o = Ok o' ->
  inv s bench X o' (fun a b c d => D a b c d \/ (a = scn /\ b = t)) (fun _ _ _ => False) /\
  winv X o' (fun a b c => E a b c \/ (a = scn /\ b = t)).
Proof.
  intros I W S T HV EQ. unfold write_step, lnth in EQ. rewrite HV in EQ. cbn [rbind] in EQ.
  match type of EQ with rbind ?m _ = _ => destruct m as [o1|] eqn:E1; [|discriminate] end. cbn [rbind] in EQ.
  assert (I1 : inv s bench X o1 (fun a b c d => D a b c d \/ (a = scn /\ b = t)) (fun _ _ _ => False) /\ winv X o1 E).
  { assert (Y : inv s bench X o1 (fun a b c d => D a b c d \/ (a = scn /\ b = t /\ In c (map fst (st_networks s)))) (fun _ _ _ => False) /\ winv X o1 E).
    { refine (foldM_cond _ (fun pre o => inv s bench X o (fun a b c d => D a b c d \/ (a = scn /\ b = t /\ In c (map fst pre))) (fun _ _ _ => False) /\ winv X o E)
        (st_networks s) o o1 _ E1 _).
      { split; auto. eapply inv_weaken; [exact I | |auto]. simpl. intros a b c d _ _ [H|(_ & _ & [])]; auto. }
      intros pre [net ns] post st st' EQn [I0 W0] F. cbn [fst snd] in F.
      assert (InN : In (net, ns) (st_networks s)) by (rewrite EQn; apply in_or_app; simpl; auto).
      assert (DN : dget net (st_networks s) = Some ns) by (apply In_dget; auto; apply wf_networks; apply rd_wf; auto).
      assert (Z : inv s bench X st' (fun a b c d => (D a b c d \/ (a = scn /\ b = t /\ In c (map fst pre))) \/
                               (a = scn /\ b = t /\ c = net /\ In d (map fst ns))) (fun _ _ _ => False) /\ winv X st' E).
      { refine (foldM_cond _ (fun pre' o => inv s bench X o (fun a b c d => (D a b c d \/ (a = scn /\ b = t /\ In c (map fst pre))) \/
                               (a = scn /\ b = t /\ c = net /\ In d (map fst pre'))) (fun _ _ _ => False) /\ winv X o E) ns st st' _ F _).
        { split; auto. eapply inv_weaken; [exact I0 | |auto]. simpl. intros a b c d _ _ [H|(_ & _ & _ & [])]; auto. }
        intros pre' [nd n] post' st1 st2 EQd [I2 W2] G. cbn [fst snd] in G.
        assert (InD : In (nd, n) ns) by (rewrite EQd; apply in_or_app; simpl; auto).
        assert (HN : node_at s net nd = Some n) by (eapply node_at_In; eauto).
        unfold dlook, step_answer in G. cbn [at_networks] in G. rewrite dget_dmap in G. unfold pstep in G. cbn [lt_networks] in G.
        rewrite (dget_mapk (fun k (ns : network) => map (fun kd => (fst kd, pnode k (fst kd) t scn (snd kd))) ns)) in G.
        rewrite DN in G. cbn [option_map rbind] in G. rewrite dget_dmap in G.
        rewrite (dget_mapk (fun k n => pnode net k t scn n)) in G.
        pose proof HN as HN'. unfold node_at in HN'. rewrite DN in HN'. rewrite HN' in G. cbn [option_map rbind] in G.
        destruct (w_node X st1 st2 _ E scn t net nd n I2 W2 S T HN G) as [I3 W3]. split; auto.
        eapply inv_weaken; [exact I3 | |auto]. cbn beta.
        intros a b c d _ _. rewrite map_app, in_app_iff. simpl. intuition; subst; auto. }
      destruct Z as [Z1 Z2]. split; auto. eapply inv_weaken; [exact Z1 | |auto]. cbn beta.
      intros a b c d n0 HN0. rewrite map_app, in_app_iff. cbn [map fst In].
      intros [H|(Ha & Hb & [H|[H|[]]])]; auto. subst c. right. repeat split; auto.
      unfold node_at in HN0. rewrite DN in HN0. apply dget_In_keys in HN0. exact HN0. }
    destruct Y as [Y1 Y2]. split; auto. eapply inv_weaken; [exact Y1 | |auto].
    cbn beta. intros a b c d n HN [H|[H1 H2]]; auto. right. repeat split; auto.
    unfold node_at in HN. destruct (dget c (st_networks s)) eqn:DC; [|discriminate]. now apply dget_In_keys in DC. }
  destruct I1 as [I1 W1].
  assert (Y : inv s bench X o' (fun a b c d => D a b c d \/ (a = scn /\ b = t)) (fun _ _ _ => False) /\
              winv X o' (fun a b c => E a b c \/ (a = scn /\ b = t /\ In c (map fst (st_converters s))))).
  { refine (foldM_cond _ (fun pre o => inv s bench X o (fun a b c d => D a b c d \/ (a = scn /\ b = t)) (fun _ _ _ => False) /\
         winv X o (fun a b c => E a b c \/ (a = scn /\ b = t /\ In c (map fst pre)))) (st_converters s) o1 o' _ EQ _).
    { split; auto. eapply winv_weaken; [exact W1|]. simpl. intros a b c _ _ [H|(_ & _ & [])]; auto. }
    intros pre [name v] post st st' EQv [I0 W0] G. cbn [fst snd] in G.
    assert (InV : In (name, v) (st_converters s)) by (rewrite EQv; apply in_or_app; simpl; auto).
    assert (HVc : conv_at s name = Some v) by (apply conv_at_In; auto).
    unfold dlook, step_answer in G. cbn [at_converters] in G. rewrite dget_dmap in G. unfold pstep in G. cbn [lt_converters] in G.
    rewrite (dget_mapk (fun k v => pconv k t scn v)) in G. pose proof HVc as HV2. unfold conv_at in HV2. rewrite HV2 in G. cbn [option_map rbind] in G.
    destruct (w_conv X st st' _ _ scn t name v I0 W0 S T HVc G) as [I3 W3]. split; auto.
    eapply winv_weaken; [exact W3|]. cbn beta.
    intros a b c _ _. rewrite map_app, in_app_iff. simpl. intuition; subst; auto. }
  destruct Y as [Y1 Y2]. split; auto. eapply winv_weaken; [exact Y2|].
  cbn beta. intros a b c v HC [H|[H1 H2]]; auto. right. repeat split; auto. now apply dget_In_keys in HC.
Qed.

Lemma zeros_entry i j : i < st_nb_scn s -> j < st_horizon s -> entry (nd_zeros2 (st_nb_scn s) (st_horizon s)) i j = 0%Q.
Proof.
  intros I J. unfold entry, nd_get2, nd_zeros2. cbn [shape data]. rewrite !pyindex_nat by auto. cbn [rbind]. unfold lnth.
  rewrite (nth_error_repeat 0%Q) by nia. reflexivity.
Qed.

Lemma winv_init X : winv X (out_init s) (fun _ _ _ => False).
Proof.
  constructor; [|tauto|tauto]. intros name v rv k a V R I. unfold rconv_at, res_of, out_init in R. cbn [r_converters os_convs] in R.
  rewrite (dget_mapk (fun k v => OConv k (dmap (fun _ => nd_zeros2 (st_nb_scn s) (st_horizon s)) (v_src v)) (nd_zeros2 (st_nb_scn s) (st_horizon s)))) in R.
  unfold conv_at in V. rewrite V in R. simpl in R. inversion R; subst. simpl in I. unfold dmap in I. apply in_map_iff in I as (kq & E & _).
  inversion E; subst. intros scn t S T. right. rewrite zeros_entry by auto. reflexivity.
Qed.

Lemma src_cell_cases x name v scn t k : src_cell x name v scn t k = 0%Q \/
  exists k', In k' (dkeys (v_src v)) /\ src_cell x name v scn t k = x (vsrc name t k').
Proof.
  unfold src_cell. destruct (dget _ _) as [q|] eqn:D; auto. right. apply dget_In in D. eapply conv_answer_vals; eauto.
Qed.

(** Answers with the source flows replaced by those of the result. *)
Definition x_read (x : var -> Q) (r : result) (scn : nat) (v : var) : Q :=
  match v with VSrc _ _ _ _ => read_result s r scn v | _ => x v end.

Lemma x_read_other x r scn v : (forall a b c d, v <> VSrc a b c d) -> x v = x_read x r scn v.
Proof. destruct v; simpl; auto. intros H. exfalso. eapply H. reflexivity. Qed.

Theorem solve_lp_weak answer sched r : Permutation sched (seq 0 (st_nb_scn s)) -> solve_lp answer sched bench s = Ok r ->
  mirrors s r /\ forall scn, scn < st_nb_scn s ->
    let x := answer scn (program_of s scn) in
    carries_answer s r scn (x_read x r scn) /\
    (forall name v rv k a, conv_at s name = Some v -> rconv_at r name = Some rv -> In (k, a) (ov_src rv) ->
       forall t, t < st_horizon s -> entry a scn t = src_cell x name v scn t k).
Proof.
  intros P EQ. unfold solve_lp in EQ.
  set (X := fun scn => answer scn (program_of s scn)).
  destruct (pool_map_ok (fun scn => solve_batch (answer scn) s scn)
     (fun scn => map (step_answer (X scn)) (map (pstep s scn) (seq 0 (st_horizon s)))) (st_nb_scn s) sched) as (l & EL & HL); auto.
  { intros i Hi. unfold solve_batch, X, program_of. destruct (build_ok s i Hi Hs) as (p & -> & _). reflexivity. }
  rewrite EL in EQ. cbn [rbind] in EQ.
  destruct (foldM (write_scn s l) (seq 0 (st_nb_scn s)) (out_init s)) as [o|] eqn:EF; [|discriminate]. cbn [rbind] in EQ.
  inversion EQ; subst r. clear EQ. fold (res_of bench o).
  assert (I : inv s bench X o (fun a b c d => In a (seq 0 (st_nb_scn s))) (fun _ _ _ => False) /\ winv X o (fun a b c => In a (seq 0 (st_nb_scn s)))).
  { refine (foldM_cond _ (fun pre o => inv s bench X o (fun a b c d => In a pre) (fun _ _ _ => False) /\ winv X o (fun a b c => In a pre)) _ _ _ _ EF _).
    { split; [eapply inv_weaken; [apply inv_init | |]; simpl; auto | eapply winv_weaken; [apply winv_init|]; simpl; auto]. }
    intros pre scn post st st' EQs [I0 W0] F.
    assert (S : scn < st_nb_scn s).
    { assert (H : In scn (seq 0 (st_nb_scn s))) by (rewrite EQs; apply in_or_app; simpl; auto). apply in_seq in H. lia. }
    unfold write_scn, lnth in F. rewrite HL in F by auto. cbn [rbind] in F.
    assert (Y : inv s bench X st' (fun a b c d => In a pre \/ (a = scn /\ In b (seq 0 (st_horizon s)))) (fun _ _ _ => False) /\
                winv X st' (fun a b c => In a pre \/ (a = scn /\ In b (seq 0 (st_horizon s))))).
    { refine (foldM_cond _ (fun pre' o => inv s bench X o (fun a b c d => In a pre \/ (a = scn /\ In b pre')) (fun _ _ _ => False) /\
                winv X o (fun a b c => In a pre \/ (a = scn /\ In b pre'))) _ _ _ _ F _).
      { split; [eapply inv_weaken; [exact I0 | |]; simpl; intuition | eapply winv_weaken; [exact W0|]; simpl; intuition]. }
      intros pre' t post' st1 st2 EQt [I1 W1] G.
      assert (T : t < st_horizon s).
      { assert (H : In t (seq 0 (st_horizon s))) by (rewrite EQt; apply in_or_app; simpl; auto). apply in_seq in H. lia. }
      assert (NT : nth_error (map (step_answer (X scn)) (map (pstep s scn) (seq 0 (st_horizon s)))) t = Some (step_answer (X scn) (pstep s scn t))).
      { rewrite !nth_error_map. rewrite (nth_error_nth' _ 0) by (now rewrite seq_length). rewrite seq_nth by auto. reflexivity. }
      destruct (write_step_weak X st1 st2 _ _ scn t _ I1 W1 S T NT G) as [I2 W2].
      split; [eapply inv_weaken; [exact I2 | |] | eapply winv_weaken; [exact W2|]]; cbn beta; intros; rewrite ?in_app_iff in *; simpl in *; intuition. }
    destruct Y as [[M N C] [WS WN WD]]. split; [constructor | constructor]; auto; try tauto.
    - intros a b c d n rn HD Sa Tb. apply N; auto. apply in_app_or in HD as [HD|[HD|[]]]; auto. right. split; auto. apply in_seq. lia.
    - intros a b c v rv k ar HD Sa Tb. apply WN; auto. apply in_app_or in HD as [HD|[HD|[]]]; auto. right. split; auto. apply in_seq. lia.
    - intros a b c v rv HD Sa Tb. apply WD; auto. apply in_app_or in HD as [HD|[HD|[]]]; auto. right. split; auto. apply in_seq. lia. }
  destruct I as [[M N _] [WS WN WD]]. split; auto. intros scn S x.
  assert (IS : In scn (seq 0 (st_nb_scn s))) by (apply in_seq; lia).
  pose proof (read_carries s (res_of bench o) scn Hs M) as RC.
  split.
  - constructor; cbn [x_read].
    + intros net nd n rn i c0 o0 t T HN HR. apply (cl_cons _ _ _ _ _ _ _ (N scn t net nd n rn IS S T HN HR)).
    + intros net nd n rn i c0 o0 t T HN HR. apply (cl_prods _ _ _ _ _ _ _ (N scn t net nd n rn IS S T HN HR)).
    + intros net nd n rn i c0 o0 t T HN HR. apply (cl_stors _ _ _ _ _ _ _ (N scn t net nd n rn IS S T HN HR)).
    + intros net nd n rn i c0 o0 t T HN HR. apply (cl_links _ _ _ _ _ _ _ (N scn t net nd n rn IS S T HN HR)).
    + apply (ca_src _ _ _ _ RC).
    + intros name v rv t T HV HR. exact (WD scn t name v rv IS S T HV HR).
  - intros name v rv k a V R I t T. exact (WN scn t name v rv k a IS S T V R I).
Qed.
End Weak.

Theorem solved_weak s answer r : api_study s -> solved answer s r ->
  ready s /\ mirrors s r /\
  forall scn, scn < st_nb_scn s -> (exists vs, build s scn = Ok (program_of s scn, vs)) /\
    let x := answer scn (program_of s scn) in
    carries_answer s r scn (x_read s x r scn) /\
    (forall name v rv k a, conv_at s name = Some v -> rconv_at r name = Some rv -> In (k, a) (ov_src rv) ->
       forall t, t < st_horizon s -> entry a scn t = src_cell x name v scn t k).
Proof.
  intros A SV. destruct (api_facts s A) as (W & C & Hh & Hn).
  assert (R : ready s) by (apply api_ready; auto; eapply solved_usable; eauto).
  destruct SV as (sched & bench & P & E).
  destruct (solve_lp_weak s bench R answer sched r P E) as (M & CA).
  split; auto. split; auto. intros scn S. split; [|apply CA; auto].
  destruct (build_ok s scn S R) as (p & B & _). eexists. unfold program_of. rewrite B. reflexivity.
Qed.
