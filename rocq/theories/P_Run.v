(** C45, C56: accepted pipelines run; what running leaves behind. *)
From Coq Require Import String Ascii List ZArith QArith Bool Arith Lia Lqa Permutation.
From Verif Require Import Base BaseFacts Frame Pipeline SpecWorkflow P_Plugs P_Stages P_Focus.
Import ListNotations.
Open Scope nat_scope.
Open Scope string_scope.
Open Scope list_scope.

(** ** Frames in the heap *)
Lemma fget_app_l fh more b : b < length fh -> fget (fh ++ more) b = fget fh b.
Proof. intros L. unfold fget. apply app_nth1. exact L. Qed.
Lemma fget_last fh x : fget (fh ++ [x]) (length fh) = x.
Proof. unfold fget. rewrite app_nth2 by lia. rewrite Nat.sub_diag. reflexivity. Qed.
Lemma fget_upd fh a g b : a < length fh -> fget (upd_nth a g fh) b = if Nat.eqb b a then g (fget fh a) else fget fh b.
Proof.
  intros L. unfold fget. destruct (Nat.eqb_spec b a) as [-> | N].
  - apply nth_error_nth. rewrite nth_error_upd_nth. rewrite Nat.eqb_refl.
    destruct (nth_error fh a) eqn:E; [| apply nth_error_None in E; lia]. simpl. f_equal. f_equal.
    symmetry. apply nth_error_nth. exact E.
  - destruct (lt_dec b (length fh)) as [Lb | Lb].
    + apply nth_error_nth. rewrite nth_error_upd_nth. destruct (Nat.eqb_spec a b) as [X | _]; [lia |].
      apply nth_error_nth'. exact Lb.
    + rewrite !nth_overflow; auto; try lia. rewrite length_upd_nth. lia.
Qed.

(** A stage call: its own copy is changed, nothing else. *)
Lemma stage_call_spec strict h st d i fh a : a < length fh ->
  let f := standardize (fget fh a) in
  exists more, 
    fst (stage_call strict h st d i fh a) = upd_nth a (fun _ => AMulti f) fh ++ more /\
    match snd (stage_call strict h st d i fh a) with
    | Returned a' => computable h (st_plug st) (get_names f) = true /\
                     length fh <= a' /\ a' < length fh + length more /\
                     handed (process strict h st d f) = Some (standardize (fget (upd_nth a (fun _ => AMulti f) fh ++ more) a'))
    | PipelineRefused => False
    | StageRefused j => j = i /\ computable h (st_plug st) (get_names f) = false
    | Raised j e => j = i /\ computable h (st_plug st) (get_names f) = true /\ snd (process strict h st d f) = Err e
    end.
Proof.
  intros L f. unfold stage_call. fold f. set (fh1 := upd_nth a (fun _ => AMulti f) fh).
  assert (L1 : length fh1 = length fh) by apply length_upd_nth.
  destruct (computable h (st_plug st) (get_names f)) eqn:C; cbn [negb].
  2:{ exists []. rewrite app_nil_r. split; [reflexivity |]. simpl. auto. }
  destruct (process strict h st d f) as [f' [[g |] | e]] eqn:P.
  - exists ([f'] ++ [g]). rewrite app_assoc. split; [reflexivity |]. cbn [snd]. split; [reflexivity |].
    rewrite app_length. cbn [length app]. split; [lia |]. split; [lia |].
    pose proof (fget_last (fh1 ++ [f']) g) as X. rewrite app_length in X. cbn [length] in X. rewrite X. reflexivity.
  - exists [f']. split; [reflexivity |]. cbn [snd]. split; [reflexivity |]. split; [lia |]. split; [simpl; lia |].
    rewrite fget_last. reflexivity.
  - exists [f']. split; [reflexivity |]. cbn [snd]. auto.
Qed.

Lemma stage_loop_old strict h sts d : forall i fh a b, a < length fh -> b < length fh ->
  length fh <= length (fst (stage_loop strict h sts d i fh a)) /\
  fget (fst (stage_loop strict h sts d i fh a)) b = fget fh b.
Proof.
  induction sts as [| st more IH]; intros i fh a b La Lb; [split; [apply le_n | reflexivity] |].
  cbn [stage_loop]. set (fh0 := fh ++ [fget fh a]).
  assert (L0 : length fh < length fh0) by (unfold fh0; rewrite app_length; simpl; lia).
  destruct (stage_call_spec strict h st (d i) i fh0 (length fh) L0) as (mo & E & O).
  destruct (stage_call strict h st (d i) i fh0 (length fh)) as [fh' o]. cbn [fst snd] in E, O.
  assert (Old : length fh0 <= length fh' /\ fget fh' b = fget fh b).
  { rewrite E, app_length, length_upd_nth. split; [lia |]. rewrite fget_app_l by (rewrite length_upd_nth; lia).
    rewrite fget_upd by exact L0. destruct (Nat.eqb_spec b (length fh)) as [X | _]; [lia |].
    unfold fh0. apply fget_app_l. exact Lb. }
  destruct Old as (Lf & Fb).
  assert (Done : length fh <= length fh' /\ fget fh' b = fget fh b) by (split; [lia | exact Fb]).
  destruct o as [a' | | j | j e]; try exact Done.
  destruct O as (_ & _ & La' & _).
  assert (La2 : a' < length fh') by (rewrite E, app_length, length_upd_nth; exact La').
  destruct (IH (S i) fh' a' b La2 ltac:(lia)) as (A & B). split; [lia |]. congruence.
Qed.

Lemma standardize_relabelled f : relabelled f (standardize f).
Proof.
  destruct f as [s | g]; simpl; [| reflexivity]. split; [reflexivity |].
  induction (s_cols s) as [| nc r IH]; simpl; constructor; auto.
Qed.
Lemma relabelled_unique f g g' : relabelled f g -> relabelled f g' -> g = g'.
Proof.
  destruct f as [s | x]; simpl; [| congruence]. destruct g as [i c], g' as [i' c']. simpl.
  intros (-> & A) (-> & B). f_equal. revert c' B. induction A as [| nc kc l l' (A1 & A2) A IH]; intros c' B; inversion B; subst; auto.
  f_equal; [| apply IH; auto]. destruct H1 as (B1 & B2). destruct kc, y. simpl in *. congruence.
Qed.

(** C56: for every pipeline (whatever its stages do to the frame they are given), every frame
    and every end of the run, exceptions included: the frame given is afterwards the frame
    with its labels completed, all other frames are as before; running again, however that
    ends, changes nothing more. *)
Theorem C56_caller_frame strict w p d fh a : a < length fh ->
  let fh' := fst (pipeline_call strict w p d fh a) in
  (exists g, fget fh' a = AMulti g /\ relabelled (fget fh a) g) /\
  (forall b, b < length fh -> b <> a -> fget fh' b = fget fh b) /\
  (forall strict2 w2 p2 d2 b, b < length fh ->
     fget (fst (pipeline_call strict2 w2 p2 d2 fh' a)) b = fget fh' b).
Proof.
  intros L. assert (X : forall strict w p d fh a, a < length fh ->
    let fh' := fst (pipeline_call strict w p d fh a) in
    length fh <= length fh' /\ forall b, b < length fh -> fget fh' b = if Nat.eqb b a then AMulti (standardize (fget fh a)) else fget fh b).
  { clear. intros strict w p d fh a L. unfold pipeline_call, call_plug.
    set (f := standardize (fget fh a)). set (fh1 := upd_nth a (fun _ => AMulti f) fh).
    assert (L1 : length fh1 = length fh) by apply length_upd_nth.
    assert (Bs : forall b, b < length fh -> fget fh1 b = if Nat.eqb b a then AMulti f else fget fh b)
      by (intros b Lb; unfold fh1; rewrite fget_upd by exact L; reflexivity).
    destruct (computable _ _ _); cbn [negb fst]; [| split; [lia | exact Bs]].
    destruct (stage_loop_old strict (lists w) (map (stage_at w) (slist_at w (pl_stages (pipe_at w p)))) d 0 fh1 a a ltac:(lia) ltac:(lia)) as (A & _).
    split; [lia |]. intros b Lb.
    destruct (stage_loop_old strict (lists w) (map (stage_at w) (slist_at w (pl_stages (pipe_at w p)))) d 0 fh1 a b ltac:(lia) ltac:(lia)) as (_ & B).
    rewrite B. apply Bs. exact Lb. }
  intros fh'. destruct (X strict w p d fh a L) as (Lf & F). fold fh' in Lf, F.
  split.
  { exists (standardize (fget fh a)). split; [| apply standardize_relabelled]. rewrite F by exact L. rewrite Nat.eqb_refl. reflexivity. }
  split.
  { intros b Lb N. rewrite F by exact Lb. apply Nat.eqb_neq in N. rewrite N. reflexivity. }
  intros s2 w2 p2 d2 b Lb. destruct (X s2 w2 p2 d2 fh' a ltac:(lia)) as (_ & F2). rewrite F2 by lia.
  destruct (Nat.eqb_spec b a) as [-> | N]; [| reflexivity].
  rewrite (F a L), Nat.eqb_refl. reflexivity.
Qed.

(** ** Plugs of an accepted chain *)
Lemma plug_add_outs h acc q x : x < length h -> (p_free acc = false -> p_free q = false -> x <> p_out q) ->
  lget (fst (plug_add h acc q)) x = lget h x.
Proof.
  intros L N. unfold plug_add. destruct (p_free acc) eqn:A.
  - destruct (p_free q); cbn [negb]; unfold deepcopy; destruct (Nat.eqb _ _); cbn [fst]; apply lget_app; exact L.
  - destruct (p_free q) eqn:Fq; [reflexivity |]. cbn [fst]. unfold lget.
    rewrite nth_upd by exact L. destruct (Nat.eqb_spec x (p_out q)) as [E | _]; [exfalso; apply N; auto | reflexivity].
Qed.

Lemma plus_loop_outs qs : forall h acc hf pf x, plus_loop h acc qs = Ok (hf, pf) -> x < length h -> (forall q, In q qs -> x <> p_out q) ->
  lget hf x = lget h x.
Proof.
  induction qs as [| q qs IH]; intros h acc hf pf x E L N; simpl in E.
  - injection E as <- <-. reflexivity.
  - destruct (linkable_to h acc q); [| discriminate E].
    rewrite (IH _ _ _ _ x E).
    + apply plug_add_outs; auto. intros _ _. apply N. left. reflexivity.
    + eapply Nat.lt_le_trans; [exact L | apply plug_add_length].
    + intros q' I. apply N. right. exact I.
Qed.

Lemma plus_loop_in qs : forall h acc hf pf, plus_loop h acc qs = Ok (hf, pf) -> p_free acc = false ->
  p_free pf = false /\ p_in pf = p_in acc.
Proof.
  induction qs as [| q qs IH]; intros h acc hf pf E F; simpl in E.
  - injection E as <- <-. auto.
  - destruct (linkable_to h acc q); [| discriminate E]. unfold plug_add in E. rewrite F in E.
    destruct (p_free q); cbn [fst snd] in E; apply IH in E; auto.
Qed.

Lemma every_computable h p f : (forall n, In n (lget h (p_in p)) -> every f n) -> computable h p (get_names f) = true.
Proof.
  intros K. unfold computable. apply forallb_forall. intros n I. apply mem_In. apply In_get_names.
  destruct (K n I) as ((s & J) & _). exists s. exact J.
Qed.

(** Columns at hand before the stages [qs], [acc] being the sum of the plugs before. *)
Definition at_hand (h : lheap) (acc : plug) (hf : lheap) (pf : plug) (f : frame) : Prop :=
  if p_free acc then p_free pf = false -> forall n, In n (lget hf (p_in pf)) -> every f n
  else forall n, In n (lget h (p_out acc)) -> every f n.

Lemma stages_run strict d sts : forall h acc hf pf i fh a,
  plus_loop h acc (map st_plug sts) = Ok (hf, pf) ->
  (forall st, In st sts -> plug_ok h (st_plug st) /\ honours strict hf (lget h (p_out (st_plug st))) st /\
                          (p_free (st_plug st) = true -> lget h (p_in (st_plug st)) = [])) ->
  NoDup (map (fun st => p_out (st_plug st)) sts) ->
  (forall x y, In x sts -> In y sts -> p_out (st_plug x) <> p_in (st_plug y)) ->
  a < length fh -> at_hand h acc hf pf (standardize (fget fh a)) ->
  (p_free pf = true -> lget hf (p_out pf) = []) ->
  well_ended (lget hf (p_out pf)) (fst (stage_loop strict hf sts d i fh a)) (snd (stage_loop strict hf sts d i fh a)).
Proof.
  induction sts as [| st more IH]; intros h acc hf pf i fh a P G Nd Sep La Hand Nof.
  { cbn in P. injection P as <- <-. cbn [stage_loop fst snd]. unfold at_hand in Hand. unfold well_ended.
    intros n I. destruct (p_free acc); [rewrite (Nof eq_refl) in I; contradiction | apply Hand; exact I]. }
  cbn [map plus_loop] in P. set (q := st_plug st) in *.
  destruct (linkable_to h acc q) eqn:Lk; [| discriminate P].
  set (h' := fst (plug_add h acc q)) in *. set (acc' := snd (plug_add h acc q)) in *.
  inversion Nd as [| ? ? Nd1 Nd2]; subst.
  assert (Lh : length h <= length h') by apply plug_add_length.
  destruct (G st (or_introl eq_refl)) as ((Q1 & Q2) & Hon & Fr). fold q in Q1, Q2, Fr.
  assert (Hin : lget hf (p_in q) = lget h (p_in q)).
  { transitivity (lget h' (p_in q)).
    - apply (plus_loop_outs _ _ _ _ _ _ P); [lia |]. intros q' I. apply in_map_iff in I. destruct I as (y & <- & I).
      intros E. apply (Sep y st); [right; exact I | left; reflexivity | symmetry; exact E].
    - apply plug_add_outs; [exact Q1 |]. intros _ _ E. apply (Sep st st); auto; left; reflexivity. }
  assert (Hout : lget hf (p_out q) = lget h' (p_out q)).
  { apply (plus_loop_outs _ _ _ _ _ _ P); [lia |]. intros q' I. apply in_map_iff in I. destruct I as (y & <- & I).
    intros E. apply Nd1. apply in_map_iff. exists y. split; [symmetry; exact E | exact I]. }
  cbn [stage_loop]. set (fh0 := fh ++ [fget fh a]).
  assert (L0 : length fh < length fh0) by (unfold fh0; rewrite app_length; simpl; lia).
  destruct (stage_call_spec strict hf st (d i) i fh0 (length fh) L0) as (mo & E & O).
  assert (F0 : fget fh0 (length fh) = fget fh a) by apply fget_last.
  rewrite F0 in E, O. set (f := standardize (fget fh a)) in *.
  (* what the stage asks for is there *)
  assert (Ask : p_free q = false -> forall n, In n (lget hf (p_in q)) -> every f n).
  { intros Fq n I. unfold at_hand in Hand. destruct (p_free acc) eqn:Fa.
    - assert (X : p_free acc' = false /\ lget h' (p_in acc') = lget h (p_in q) /\ length h <= p_in acc' /\ p_in acc' < length h').
      { unfold acc', h', plug_add. rewrite Fa, Fq. cbn [negb]. unfold deepcopy.
        destruct (Nat.eqb_spec (p_in q) (p_out q)) as [Eq | Ne].
        - exfalso. apply (Sep st st); auto; try (left; reflexivity). 
        - cbn [fst snd p_free p_in]. rewrite app_length. cbn [length]. repeat split; auto; try lia.
          unfold lget. rewrite app_nth2 by lia. rewrite Nat.sub_diag. reflexivity. }
      destruct X as (X1 & X2 & X3 & X4). destruct (plus_loop_in _ _ _ _ _ P X1) as (Y1 & Y2).
      apply (Hand Y1). rewrite Y2. rewrite (plus_loop_outs _ _ _ _ _ (p_in acc') P).
      + rewrite X2, <- Hin. exact I.
      + exact X4.
      + intros q' J. apply in_map_iff in J. destruct J as (y & <- & J). destruct (G y (or_intror J)) as ((_ & Y) & _). lia.
    - apply Hand. unfold linkable_to in Lk. rewrite Fa, Fq in Lk. rewrite forallb_forall in Lk. apply mem_In.
      apply Lk. rewrite <- Hin. exact I. }
  assert (Comp : computable hf q (get_names f) = true).
  { destruct (p_free q) eqn:Fq.
    - unfold computable. rewrite Hin, (Fr eq_refl). reflexivity.
    - apply every_computable. apply Ask. reflexivity. }
  destruct (Hon (d i) f Ask) as (NK & Hn). fold q in Hn.
  destruct (stage_call strict hf st (d i) i fh0 (length fh)) as [fh' o]. cbn [fst snd] in E, O.
  destruct o as [a' | | j | j e].
  - destruct O as (_ & O1 & O2 & O3). rewrite <- E in O3.
    assert (La' : a' < length fh') by (rewrite E, app_length, length_upd_nth; exact O2).
    apply (IH h' acc' hf pf (S i) fh' a' P).
    + intros x I. destruct (G x (or_intror I)) as ((X1 & X2) & X3 & X4).
      assert (Ex : lget h' (p_out (st_plug x)) = lget h (p_out (st_plug x))).
      { apply plug_add_outs; [exact X2 |]. intros _ _ Ex. apply Nd1. apply in_map_iff. exists x. auto. }
      split; [split; lia |]. rewrite Ex. split; [exact X3 |]. intros Fx. rewrite <- (X4 Fx). apply plug_add_outs; [exact X1 |].
      intros _ _ Ey. apply (Sep st x); [left; reflexivity | right; exact I | symmetry; exact Ey].
    + exact Nd2.
    + intros x y I J. apply Sep; right; assumption.
    + exact La'.
    + destruct (Hn _ O3) as (H1 & H2 & H3). set (g := standardize (fget fh' a')) in *.
      unfold at_hand in Hand |- *. unfold acc' at 1. rewrite plug_add_free.
      destruct (p_free acc) eqn:Fa; destruct (p_free q) eqn:Fq; cbn [andb].
      * intros Fp n I. apply (H1 eq_refl). apply (Hand Fp n I).
      * (* the first contract *)
        unfold acc', h', plug_add. rewrite Fa, Fq. cbn [negb]. unfold deepcopy.
        destruct (Nat.eqb_spec (p_in q) (p_out q)) as [Eq | Ne]; [exfalso; apply (Sep st st); auto; left; reflexivity |].
        cbn [fst snd p_out]. intros n I. apply (H2 eq_refl). rewrite lget_new2 in I. exact I.
      * unfold acc', h', plug_add. rewrite Fa, Fq. cbn [fst snd]. intros n I. apply (H1 eq_refl). apply Hand. exact I.
      * intros n I.
        assert (Ho : lget h' (p_out acc') = lget h (p_out q) ++ filter (fun e => negb (mem e (lget h (p_in q)))) (lget h (p_out acc))).
        { unfold acc', h', plug_add. rewrite Fa, Fq. cbn [fst snd p_out]. unfold lget at 1. rewrite nth_upd by exact Q2.
          rewrite Nat.eqb_refl. reflexivity. }
        rewrite Ho in I. apply in_app_iff in I. destruct I as [I | I]; [apply (H2 eq_refl n I) |].
        apply filter_In in I. destruct I as (I & M). apply negb_true_iff in M. apply mem_nIn in M.
        apply (H3 eq_refl); [apply Hand; exact I | rewrite Hin; exact M |].
        rewrite Hout. assert (Eo : p_out acc' = p_out q) by (unfold acc', plug_add; rewrite Fa, Fq; reflexivity).
        rewrite <- Eo, Ho. apply in_app_iff. right. apply filter_In. split; [exact I |]. apply negb_true_iff. apply mem_nIn. exact M.
    + exact Nof.
  - contradiction.
  - destruct O as (_ & O). fold q in O. congruence.
  - destruct O as (_ & _ & O). simpl. intros ->. contradiction.
Qed.

Lemma upd_nth_incl n (g : list string -> list string) x h : (forall l, incl l (g l)) -> incl (lget h x) (lget (upd_nth n g h) x).
Proof.
  intros K. destruct (lt_dec x (length h)) as [L | L].
  - unfold lget. rewrite nth_upd by exact L. destruct (Nat.eqb x n); [apply K | apply incl_refl].
  - unfold lget. rewrite (nth_overflow h) by lia. intros y [].
Qed.
Lemma plug_add_incl h acc q x : x < length h -> incl (lget h x) (lget (fst (plug_add h acc q)) x).
Proof.
  intros L. unfold plug_add. destruct (p_free acc).
  - destruct (p_free q); cbn [negb]; unfold deepcopy; destruct (Nat.eqb _ _); cbn [fst]; rewrite lget_app by exact L; apply incl_refl.
  - destruct (p_free q); cbn [fst]; [apply incl_refl |]. apply upd_nth_incl. intros l y I. apply in_app_iff. left. exact I.
Qed.
Lemma plus_loop_incl qs : forall h acc hf pf x, plus_loop h acc qs = Ok (hf, pf) -> x < length h -> incl (lget h x) (lget hf x).
Proof.
  induction qs as [| q qs IH]; intros h acc hf pf x E L; simpl in E.
  - injection E as <- <-. apply incl_refl.
  - destruct (linkable_to h acc q); [| discriminate E]. eapply incl_tran; [apply plug_add_incl; exact L |].
    eapply IH; [exact E |]. eapply Nat.lt_le_trans; [exact L | apply plug_add_length].
Qed.

(** The stages of a chain hold lists of names of their own; free ones ask and promise
    nothing. *)
Definition own_lists (w : world) (l : list nat) : Prop :=
  separate w l /\ (forall x, In x l -> plug_ok (lists w) (plug_of w x)) /\
  (forall x, In x l -> p_free (plug_of w x) = true ->
     lget (lists w) (p_in (plug_of w x)) = [] /\ lget (lists w) (p_out (plug_of w x)) = []).

Lemma plus_loop_free qs : forall h acc hf pf, plus_loop h acc qs = Ok (hf, pf) -> p_out acc < length h -> p_free pf = true ->
  p_free acc = true /\ lget hf (p_out pf) = lget h (p_out acc).
Proof.
  induction qs as [| q qs IH]; intros h acc hf pf E L F; simpl in E.
  - injection E as <- <-. auto.
  - destruct (linkable_to h acc q); [| discriminate E].
    assert (L' : p_free acc = true -> p_free q = true ->
                 p_out (snd (plug_add h acc q)) < length (fst (plug_add h acc q)) /\
                 lget (fst (plug_add h acc q)) (p_out (snd (plug_add h acc q))) = lget h (p_out acc)).
    { intros A B. unfold plug_add. rewrite A, B. cbn [negb]. unfold deepcopy.
      destruct (Nat.eqb_spec (p_in acc) (p_out acc)) as [X | X]; cbn [fst snd p_out]; rewrite app_length; cbn [length]; (split; [lia |]).
      - rewrite lget_new. rewrite X. reflexivity.
      - rewrite lget_new2. reflexivity. }
    destruct (p_free (snd (plug_add h acc q))) eqn:Fa.
    + rewrite plug_add_free in Fa. apply andb_true_iff in Fa. destruct Fa as (A & B).
      destruct (L' A B) as (L1 & L2). destruct (IH _ _ _ _ E L1 F) as (_ & X). split; [exact A | congruence].
    + destruct (plus_loop_in _ _ _ _ _ E Fa) as (X & _). congruence.
Qed.

(** What linking does to these lists: inputs stay, outputs at most grow. *)
Lemma chain_lists w a b rest w' p : own_lists w (a :: b :: rest) -> chain w a b rest = (w', Ok p) ->
  (forall x, In x (a :: b :: rest) ->
     stage_at w' x = stage_at w x /\
     lget (lists w') (p_in (plug_of w x)) = lget (lists w) (p_in (plug_of w x)) /\
     incl (lget (lists w) (p_out (plug_of w x))) (lget (lists w') (p_out (plug_of w x)))).
Proof.
  intros ((Nd & Sep) & Pk & Fr) C x I. pose proof (chain_spec w a b rest) as S.
  destruct (plus_loop (lists w) (plug_of w a) (map (plug_of w) (b :: rest))) as [[h q] | e] eqn:P.
  2:{ rewrite C in S. discriminate S. }
  destruct S as (w2 & p2 & C2 & <- & St & _ & _). rewrite C in C2. injection C2 as <- <-.
  split; [unfold stage_at; rewrite St; reflexivity |].
  destruct (Pk x I) as (X1 & X2). split.
  - apply (plus_loop_outs _ _ _ _ _ _ P X1). intros q' J. apply in_map_iff in J. destruct J as (y & <- & J).
    intros E. apply (Sep y x); [right; exact J | exact I | symmetry; exact E].
  - apply (plus_loop_incl _ _ _ _ _ _ P X2).
Qed.

(** C45, as far as it goes: a chain of stages accepted by [+], each with lists of names of its
    own and honouring its contract, run on a frame with, in every scenario, the columns the
    pipeline asks for: no check finds a column missing, no stage raises KeyError, and the
    result has in every scenario the columns the pipeline promises. Missing:
    stages already linked elsewhere, or linked elsewhere later, and frames whose scenarios
    have different columns, for which it is false (below). *)
Theorem C45_accepted_runs_partial strict w a b rest w' p d fh ad :
  own_lists w (a :: b :: rest) -> chain w a b rest = (w', Ok p) ->
  (forall x, In x (a :: b :: rest) -> honours strict (lists w') (lget (lists w) (p_out (plug_of w x))) (stage_at w x)) ->
  ad < length fh ->
  (forall n, In n (lget (lists w') (p_in (pl_plug (pipe_at w' p)))) -> every (standardize (fget fh ad)) n) ->
  well_ended (lget (lists w') (p_out (pl_plug (pipe_at w' p)))) (fst (pipeline_call strict w' p d fh ad)) (snd (pipeline_call strict w' p d fh ad)).
Proof.
  intros Own C Hon La Hf. pose proof Own as ((Nd & Sep) & Pk & Fr). pose proof (chain_spec w a b rest) as S.
  destruct (plus_loop (lists w) (plug_of w a) (map (plug_of w) (b :: rest))) as [[h q] | e] eqn:P.
  2:{ rewrite C in S. discriminate S. }
  destruct S as (w2 & p2 & C2 & Lw & St & Pq & Sl). rewrite C in C2. injection C2 as <- <-.
  unfold pipeline_call, call_plug. rewrite Lw, Pq, Sl. rewrite Lw, Pq in Hf.
  set (f := standardize (fget fh ad)) in *.
  rewrite (every_computable h q f Hf). cbn [negb].
  assert (Sts : map (stage_at w') (a :: b :: rest) = map (stage_at w) (a :: b :: rest)).
  { apply map_ext. intros x. unfold stage_at. rewrite St. reflexivity. }
  rewrite Sts. set (fh1 := upd_nth ad (fun _ => AMulti f) fh).
  assert (L1 : length fh1 = length fh) by apply length_upd_nth.
  assert (F1 : standardize (fget fh1 ad) = f) by (unfold fh1; rewrite fget_upd by exact La; rewrite Nat.eqb_refl; reflexivity).
  cbn [map stage_loop]. set (fh0 := fh1 ++ [fget fh1 ad]).
  assert (L0 : length fh1 < length fh0) by (unfold fh0; rewrite app_length; simpl; lia).
  destruct (stage_call_spec strict h (stage_at w a) (d 0) 0 fh0 (length fh1) L0) as (mo & E & O).
  assert (F0 : fget fh0 (length fh1) = fget fh1 ad) by apply fget_last.
  rewrite F0, F1 in E, O.
  assert (Hin : lget h (p_in (plug_of w a)) = lget (lists w) (p_in (plug_of w a))).
  { destruct (chain_lists w a b rest w' p Own C a (or_introl eq_refl)) as (_ & X & _). rewrite Lw in X. exact X. }
  assert (Ask : p_free (plug_of w a) = false -> forall n, In n (lget h (p_in (plug_of w a))) -> every f n).
  { intros Fa n I. destruct (plus_loop_in _ _ _ _ _ P Fa) as (_ & Y). apply Hf. rewrite Y. exact I. }
  assert (Comp : computable h (plug_of w a) (get_names f) = true).
  { destruct (p_free (plug_of w a)) eqn:Fa.
    - unfold computable. rewrite Hin, (proj1 (Fr a (or_introl eq_refl) Fa)). reflexivity.
    - apply every_computable. apply Ask. reflexivity. }
  assert (Hon' : forall x, In x (a :: b :: rest) -> honours strict h (lget (lists w) (p_out (plug_of w x))) (stage_at w x))
    by (rewrite Lw in Hon; exact Hon).
  destruct (Hon' a (or_introl eq_refl) (d 0) f Ask) as (NK & Hn).
  destruct (stage_call strict h (stage_at w a) (d 0) 0 fh0 (length fh1)) as [fh' o]. cbn [fst snd] in E, O.
  destruct o as [a' | | j | j e].
  - destruct O as (_ & O1 & O2 & O3). rewrite <- E in O3.
    assert (La' : a' < length fh') by (rewrite E, app_length, length_upd_nth; exact O2).
    change (stage_at w b :: map (stage_at w) rest) with (map (stage_at w) (b :: rest)).
    apply (stages_run strict d (map (stage_at w) (b :: rest)) (lists w) (plug_of w a) h q 1 fh' a').
    + rewrite map_map. exact P.
    + intros st I. apply in_map_iff in I. destruct I as (x & <- & I). split; [apply (Pk x); right; exact I |].
      split; [apply Hon'; right; exact I |]. intros Fx. apply (Fr x (or_intror I) Fx).
    + rewrite map_map. cbn [map] in Nd. inversion Nd; assumption.
    + intros x y I J. apply in_map_iff in I. destruct I as (x' & <- & I). apply in_map_iff in J. destruct J as (y' & <- & J).
      apply Sep; right; assumption.
    + exact La'.
    + destruct (Hn _ O3) as (H1 & H2 & _). unfold at_hand. change (st_plug (stage_at w a)) with (plug_of w a) in H1, H2.
      destruct (p_free (plug_of w a)) eqn:Fa.
      * intros _ n I. apply (H1 eq_refl). apply Hf. exact I.
      * intros n I. apply (H2 eq_refl n I).
    + intros Fq. destruct (Pk a (or_introl eq_refl)) as (_ & X2). destruct (plus_loop_free _ _ _ _ _ P X2 Fq) as (Y1 & Y2).
      rewrite Y2. apply (Fr a (or_introl eq_refl) Y1).
  - contradiction.
  - destruct O as (_ & O). change (st_plug (stage_at w a)) with (plug_of w a) in O. congruence.
  - destruct O as (_ & _ & O). simpl. intros ->. contradiction.
Qed.

(** ** The stages of the library honour their contracts *)
Lemma every_grid g scns outs n : keys g = grid scns outs -> scns <> [] -> In n outs -> every g n.
Proof.
  intros K NE I. destruct scns as [| s0 r]; [congruence |].
  assert (X : forall s m, In (s, m) (keys g) <-> In s (s0 :: r) /\ In m outs).
  { intros s m. rewrite K. unfold grid. rewrite in_flat_map. split.
    - intros (y & J & Y). apply in_map_iff in Y. destruct Y as (z & Z & Y). injection Z as -> ->. auto.
    - intros (J & Y). exists s. split; [exact J |]. apply in_map_iff. exists m. auto. }
  split.
  - exists s0. apply X. split; [left; reflexivity | exact I].
  - intros s m J. apply X in J. apply X. tauto.
Qed.

Lemma every_same_keys f g n : keys g = keys f -> every f n -> every g n.
Proof. intros E. unfold every. rewrite E. auto. Qed.

Lemma mapM_err {A B} (g : A -> res B) l e : mapM g l = Err e -> exists x, In x l /\ g x = Err e.
Proof.
  induction l as [| x l IH]; cbn [mapM]; intros E; [discriminate E |].
  destruct (g x) as [b | e'] eqn:G; cbn [rbind] in E.
  - destruct (mapM g l) as [bs | e']; cbn [rbind] in E; [discriminate E |]. destruct (IH E) as (y & I & Y).
    exists y. split; [right; exact I | exact Y].
  - exists x. split; [left; reflexivity | congruence].
Qed.

Lemma align_cols_err strict outs n v e : align_cols strict outs n v = Err e -> e = ValueError.
Proof.
  assert (R : forall c e, align_rows n v c = Err e -> e = ValueError).
  { intros c e0. unfold align_rows. destruct (list_eqb label_eqb (s_index v) (range n)); [discriminate |].
    destruct (nodupb (s_index v)); [discriminate | congruence]. }
  unfold align_cols. destruct (strict && negb (Nat.eqb (length outs) (length (s_cols v)))); [congruence |].
  destruct (list_eqb String.eqb outs (skeys v)).
  - intros E. apply mapM_err in E. destruct E as (x & _ & X). apply (R _ _ X).
  - destruct (nodupb (skeys v)); [| congruence]. intros E. apply mapM_err in E. destruct E as (x & _ & X).
    destruct (dget x (s_cols v)); [apply (R _ _ X) | discriminate X].
Qed.

Lemma every_scenario f n scn : every f n -> In scn (get_scenarios f) -> In n (skeys (scenario_of f scn)).
Proof.
  intros (_ & E) I. apply In_get_scenarios in I. destruct I as (m & J). specialize (E scn m J).
  unfold keys in E. apply in_map_iff in E. destruct E as ([k c] & X & E). simpl in X. subst.
  unfold skeys. apply in_map_iff. exists (n, c). split; [reflexivity |]. apply In_scenario_of. exact E.
Qed.

(** FocusStage, Fault included. *)
Lemma focus_honours strict outs (p : label -> sframe -> res sframe) f n0 : every f n0 ->
  (forall scn, In scn (get_scenarios f) -> p scn (scenario_of f scn) <> Err KeyError) ->
  focus strict outs p f <> Err KeyError /\
  forall g, focus strict outs p f = Ok g -> forall n, In n outs -> every g n.
Proof.
  intros E0 Hp. assert (NE : get_scenarios f <> []).
  { destruct E0 as ((s & I) & _). assert (J : In s (get_scenarios f)) by (apply In_get_scenarios; exists n0; exact I).
    intros X. rewrite X in J. contradiction. }
  destruct outs as [| o outs0].
  - split; [| intros g _ n []]. unfold focus. destruct (get_scenarios f) as [| s r] eqn:Eg; [congruence |]. cbn [foldM].
    pose proof (Hp s (or_introl eq_refl)) as K. destruct (p s (scenario_of f s)) as [v | e]; cbn [rbind set_block]; congruence.
  - rewrite focus_eq by discriminate. set (outs := o :: outs0).
    destruct (mapM (block strict outs p f) (get_scenarios f)) as [bl | e] eqn:M; cbn [rbind].
    + split; [discriminate |]. intros g [= <-] n I. eapply every_grid; [| exact NE | exact I]. unfold keys. cbn [f_cols].
      apply (blocks_keys _ _ _ _ _ _ M).
    + split; [| discriminate]. intros [= ->]. apply mapM_err in M. destruct M as (scn & I & X). unfold block in X.
      pose proof (Hp scn I) as K. destruct (p scn (scenario_of f scn)) as [v | e]; cbn [rbind] in X; [| congruence].
      destruct (align_cols strict outs (length (f_index f)) v) as [vs | e] eqn:A; cbn [rbind] in X; [discriminate X |].
      apply align_cols_err in A. congruence.
Qed.

(** A stage as the library builds it ([ins]: its inputs), pipeline.py 397-558: a focus stage
    written by the user must ask for some column, and not miss one when it has those it asked
    for; other stages of the user must honour their contract. *)
Definition library_stage (strict : bool) (h : lheap) (ins decl : list string) (st : stage) : Prop :=
  match st_body st with
  | BClip _ _ => p_free (st_plug st) = true
  | BRename m => p_free (st_plug st) = false /\ NoDup (dkeys m) /\ ins = dkeys m /\ decl = dvalues m
  | BDrop => p_free (st_plug st) = false /\ ins <> [] /\ decl = []
  | BRepeat n => p_free (st_plug st) = true /\ 1 <= n
  | BFault _ _ _ _ => p_free (st_plug st) = false /\ ins = ["quantity"] /\ decl = ["quantity"]
  | BFocus p => p_free (st_plug st) = false /\ ins <> [] /\
                (forall scn v, (forall n, In n ins -> In n (skeys v)) -> p scn v <> Err KeyError)
  | BUser _ => honours strict h decl st
  end.

Lemma keys_rename m f : keys (rename_frame m f) = map (fun k => (fst k, rename1 m (snd k))) (keys f).
Proof. unfold keys, rename_frame. cbn [f_cols]. rewrite !map_map. reflexivity. Qed.

Lemma every_rename m f k v : rename1 m k = v -> every f k -> every (rename_frame m f) v.
Proof.
  intros E ((s & I) & K). unfold every. rewrite keys_rename. split.
  - exists s. apply in_map_iff. exists (s, k). simpl. rewrite E. auto.
  - intros s' n J. apply in_map_iff in J. destruct J as ([s0 n0] & X & J). simpl in X. injection X as -> _.
    apply in_map_iff. exists (s', k). simpl. rewrite E. split; [reflexivity |]. apply (K s' n0 J).
Qed.

Lemma filter_length_all {A} (P : A -> bool) l : length (filter P l) = length l -> forall x, In x l -> P x = true.
Proof.
  assert (Le : forall l', length (filter P l') <= length l').
  { induction l' as [| y l' IH]; cbn [filter length]; [lia |]. destruct (P y); cbn [length]; lia. }
  induction l as [| y l IH]; cbn [filter length]; intros E x I; [contradiction |].
  specialize (Le l). destruct (P y) eqn:Q; cbn [length] in E; [| lia].
  destruct I as [<- | I]; [exact Q | apply IH; [lia | exact I]].
Qed.

Theorem C45_library_stages strict h decl st : incl decl (lget h (p_out (st_plug st))) ->
  library_stage strict h (lget h (p_in (st_plug st))) decl st -> honours strict h decl st.
Proof.
  intros Inc Lib. unfold library_stage in Lib. unfold honours.
  destruct (st_body st) as [lo up | m | | n | loss q dmin dmax | pr | pr] eqn:B; cbn zeta; try exact Lib;
    intros d f Ask; unfold process; rewrite B.
  - (* Clip *) rewrite Lib in *. split; [discriminate |]. intros g [= <-]. split; [| split; discriminate].
    intros _ n En. apply (every_same_keys f); [| exact En]. unfold keys, clip_frame. cbn [f_cols]. rewrite map_map. reflexivity.
  - (* Rename *) destruct Lib as (Fr & Nd & Ei & ->). rewrite Fr, Ei in *. split; [discriminate |]. intros g [= <-].
    split; [discriminate |]. split.
    + intros _ v I. unfold dvalues in I. apply in_map_iff in I. destruct I as ([k v'] & X & I). simpl in X. subst v'.
      apply (every_rename m f k v).
      * unfold rename1. rewrite (In_dget k v m Nd I). reflexivity.
      * apply (Ask eq_refl). unfold dkeys. apply (in_map fst) in I. exact I.
    + intros _ n En N _. apply (every_rename m f n n); [| exact En]. unfold rename1.
      destruct (dget n m) as [x |] eqn:G; [| reflexivity]. exfalso. apply N. apply dget_In_keys in G. exact G.
  - (* Drop *) destruct Lib as (Fr & NE & ->). rewrite Fr in *. set (ins := lget h (p_in (st_plug st))) in *.
    unfold returns, drop_names. cbn [snd]. set (kp := filter (fun kc => negb (mem (snd (fst kc)) ins)) (f_cols f)).
    assert (Lt : length kp <> length (f_cols f)).
    { destruct ins as [| n0 r]; [congruence |]. destruct (Ask eq_refl n0 (or_introl eq_refl)) as ((s & I) & _).
      unfold keys in I. apply in_map_iff in I. destruct I as ([k c] & X & I). simpl in X. subst k. intros E. unfold kp in E.
      pose proof (filter_length_all _ _ E _ I) as Y. cbn [fst snd] in Y.
      apply negb_true_iff in Y. apply mem_nIn in Y. apply Y. left. reflexivity. }
    apply Nat.eqb_neq in Lt. rewrite Lt. cbn [rbind]. split; [discriminate |]. intros g [= <-].
    split; [discriminate |]. split; [intros _ n [] |]. intros _ n ((s & I) & K) N _.
    assert (X : forall s m, In (s, m) (map fst kp) <-> In (s, m) (keys f) /\ ~ In m ins).
    { intros s' m. unfold kp, keys. rewrite !in_map_iff. split.
      - intros ([k c] & Y & J). simpl in Y. subst. apply filter_In in J. destruct J as (J & Q). simpl in Q.
        apply negb_true_iff in Q. apply mem_nIn in Q. split; [exists ((s', m), c); auto | exact Q].
      - intros (([k c] & Y & J) & Q). simpl in Y. subst. exists ((s', m), c). split; [reflexivity |]. apply filter_In. split; [exact J |].
        simpl. apply negb_true_iff. apply mem_nIn. exact Q. }
    unfold every, keys. cbn [standardize f_cols]. split.
    + exists s. apply X. auto.
    + intros s' m J. apply X in J. apply X. split; [| exact N]. apply (K s' m). tauto.
  - (* RepeatScenario *) destruct Lib as (Fr & L1). rewrite Fr in *. unfold returns. cbn [snd]. unfold repeat_frame.
    destruct (Nat.eqb_spec (length (tile (map snd (f_cols f)) n))
                (length (build_multi_index (range (length (get_scenarios f) * n)) (get_names f)))) as [Le | _];
      cbn [rbind]; [| split; [discriminate | intros g Hg; discriminate Hg]].
    split; [discriminate |]. intros g [= <-]. split; [| split; discriminate]. intros _ m Em.
    apply (every_grid _ (range (length (get_scenarios f) * n)) (get_names f)).
    + unfold keys. cbn [f_cols]. rewrite keys_combine by (symmetry; exact Le). apply build_multi_index_grid.
    + destruct Em as ((s & I) & _). assert (J : In s (get_scenarios f)) by (apply In_get_scenarios; exists m; exact I).
      destruct (get_scenarios f) as [| s0 r]; [contradiction |]. intros X. apply (f_equal (@length label)) in X.
      rewrite length_range in X. simpl in X. nia.
    + destruct Em as ((s & I) & _). apply In_get_names. exists s. exact I.
  - (* Fault *) destruct Lib as (Fr & Ei & ->). rewrite Fr, Ei in *.
    assert (Eq : every f "quantity") by (apply (Ask eq_refl); left; reflexivity).
    destruct (focus_honours strict (lget h (p_out (st_plug st))) (fun scn v => fault_scenario loss q dmin dmax (d scn) v) f "quantity" Eq) as (A1 & A2).
    { intros scn I. unfold fault_scenario. destruct (negb _); [discriminate |]. destruct (negb _ && _); [discriminate |].
      pose proof (every_scenario f "quantity" scn Eq I) as J.
      destruct (In_keys_dget "quantity" (s_cols (scenario_of f scn)) J) as (c & ->). discriminate. }
    unfold returns. cbn [snd]. destruct (focus _ _ _ f) as [g | e]; cbn [rbind].
    + split; [discriminate |]. intros g' [= <-]. split; [discriminate |]. split; intros _ n.
      * intros I. apply (A2 g eq_refl). apply Inc. exact I.
      * intros _ _ I. apply (A2 g eq_refl n I).
    + split; [congruence |]. intros g' Hg. discriminate Hg.
  - (* FocusStage *) destruct Lib as (Fr & NE & Hp). rewrite Fr in *. set (ins := lget h (p_in (st_plug st))) in *.
    destruct ins as [| n0 r] eqn:Ei; [congruence |]. rewrite <- Ei in *.
    assert (E0 : every f n0) by (apply (Ask eq_refl); rewrite Ei; left; reflexivity).
    destruct (focus_honours strict (lget h (p_out (st_plug st))) pr f n0 E0) as (A1 & A2).
    { intros scn I. apply Hp. intros n J. apply every_scenario; [apply (Ask eq_refl); exact J | exact I]. }
    unfold returns. cbn [snd]. destruct (focus _ _ _ f) as [g | e]; cbn [rbind].
    + split; [discriminate |]. intros g' [= <-]. split; [discriminate |]. split; intros _ n.
      * intros I. apply (A2 g eq_refl). apply Inc. exact I.
      * intros _ _ I. apply (A2 g eq_refl n I).
    + split; [congruence |]. intros g' Hg. discriminate Hg.
Qed.

(** C45 for chains of stages of the library: nothing about the pipeline need be assumed but
    that its stages have lists of their own. *)
Theorem C45_library_pipelines_partial strict w a b rest w' p d fh ad :
  own_lists w (a :: b :: rest) -> chain w a b rest = (w', Ok p) ->
  (forall x, In x (a :: b :: rest) ->
     library_stage strict (lists w') (lget (lists w) (p_in (plug_of w x))) (lget (lists w) (p_out (plug_of w x))) (stage_at w x)) ->
  ad < length fh ->
  (forall n, In n (lget (lists w') (p_in (pl_plug (pipe_at w' p)))) -> every (standardize (fget fh ad)) n) ->
  well_ended (lget (lists w') (p_out (pl_plug (pipe_at w' p)))) (fst (pipeline_call strict w' p d fh ad)) (snd (pipeline_call strict w' p d fh ad)).
Proof.
  intros Own C Lib La Hf. apply (C45_accepted_runs_partial strict w a b rest w' p d fh ad Own C); auto.
  intros x I. destruct (chain_lists w a b rest w' p Own C x I) as (_ & Hi & Ho).
  apply C45_library_stages; [exact Ho |].
  change (st_plug (stage_at w x)) with (plug_of w x). rewrite Hi. apply Lib. exact I.
Qed.

(** Rename, clip, fault and drop on a frame with flat labels. *)
Definition fault_op : op := NewStage false ["quantity"] ["quantity"] (BFault 1 (1 # 10) 1 3).
Definition drop_op (names : list string) : op := NewStage false names [] BDrop.
Definition flat_data : anyframe := AFlat (SFrame (range 2) [("a", [Some 5%Q; Some 6%Q]); ("c", [Some 1%Q; Some 1%Q])]).
Definition no_draws : nat -> label -> draw := fun _ _ => Draw [false; true] [1%Z] [2%Z].

Example C45_example :
  let w := run nothing [rename_op [("a", "quantity"); ("c", "cost")]; clip_op; fault_op; drop_op ["cost"]] in
  exists w' p, chain w 0 1 [2; 3] = (w', Ok p) /\ own_lists w [0; 1; 2; 3] /\
    (forall x, In x [0; 1; 2; 3] ->
       library_stage true (lists w') (lget (lists w) (p_in (plug_of w x))) (lget (lists w) (p_out (plug_of w x))) (stage_at w x)) /\
    (forall n, In n (lget (lists w') (p_in (pl_plug (pipe_at w' p)))) -> every (standardize flat_data) n) /\
    lget (lists w') (p_out (plug_of w 2)) = ["quantity"; "cost"] /\
    exists fh a', pipeline_call true w' p no_draws [flat_data] 0 =
      (fh, Returned a') /\ fget fh a' = AMulti (Frame (range 2) [((LInt 0, "quantity"), [Some (5 - 0)%Q; Some (6 - (0 + 1))%Q])]) /\
      fget fh 0 = AMulti (Frame (range 2) [((LInt 0, "a"), [Some 5%Q; Some 6%Q]); ((LInt 0, "c"), [Some 1%Q; Some 1%Q])]).
Proof.
  eexists. eexists. split; [vm_compute; reflexivity |].
  split.
  { split; [split |].
    - vm_compute. repeat constructor; simpl; intuition discriminate.
    - intros x y I J. simpl in I, J. destruct I as [<- | [<- | [<- | [<- | []]]]]; destruct J as [<- | [<- | [<- | [<- | []]]]]; vm_compute; discriminate.
    - split; intros x I; simpl in I; destruct I as [<- | [<- | [<- | [<- | []]]]]; try (vm_compute; split; lia); try discriminate; split; reflexivity. }
  split.
  { intros x I; simpl in I; destruct I as [<- | [<- | [<- | [<- | []]]]]; vm_compute; repeat split; try discriminate.
    repeat constructor; simpl; intuition discriminate. }
  split.
  { intros n I. vm_compute in I. destruct I as [<- | [<- | []]]; (split; [exists (LInt 0); vm_compute; tauto |]);
      intros s m J; vm_compute in J; destruct J as [[= <- <-] | [[= <- <-] | []]]; vm_compute; tauto. }
  split; [reflexivity |].
  eexists. eexists. split; [vm_compute; reflexivity |]. split; reflexivity.
Qed.

(** Every asked column is in some scenario. *)
Definition somewhere (f : frame) (n : string) : Prop := exists s, In (s, n) (keys f).

(** A stage used before: linking it to another stage has lengthened its outputs; the new chain
    is accepted and fails for a column nobody provides. *)
Theorem C45_reuse_refuted :
  exists w a b rest w' p f, world_ok w /\ (exists ops, ops_ok nothing ops /\ w = run nothing ops) /\
    chain w a b rest = (w', Ok p) /\
    (forall x, In x (a :: b :: rest) -> exists m, st_body (stage_at w x) = BRename m) /\
    (forall n, In n (lget (lists w') (p_in (pl_plug (pipe_at w' p)))) -> every f n) /\
    forall strict d, snd (pipeline_call strict w' p d [AMulti f] 0) = StageRefused 2.
Proof.
  set (ops := [rename_op [("a", "b"); ("c", "x")]; rename_op [("b", "d")]; Add (OStage 0) (OStage 1);
               rename_op [("a", "b")]; rename_op [("x", "y")]]).
  assert (Ok_ : ops_ok nothing ops) by (vm_compute; repeat split; lia).
  exists (run nothing ops), 2, 1, [3]. eexists. eexists. exists (Frame (range 1) [((LInt 0, "a"), [Some 1%Q])]).
  split; [exact (run_world ops nothing nothing_ok Ok_) |].
  split; [exists ops; split; [exact Ok_ | reflexivity] |].
  split; [vm_compute; reflexivity |].
  split; [intros x I; simpl in I; destruct I as [<- | [<- | [<- | []]]]; eexists; reflexivity |].
  split.
  { intros n I. vm_compute in I. destruct I as [<- | []]. split; [exists (LInt 0); left; reflexivity |].
    intros s m J. vm_compute in J. destruct J as [[= <- <-] | []]. left. reflexivity. }
  intros strict d. reflexivity.
Qed.

(** Scenarios with different columns: the tests look at the names of all scenarios together. *)
Theorem C45_uneven_refuted :
  exists w a b w' p f, own_lists w [a; b] /\ chain w a b [] = (w', Ok p) /\
    (forall strict x, In x [a; b] ->
       library_stage strict (lists w') (lget (lists w) (p_in (plug_of w x))) (lget (lists w) (p_out (plug_of w x))) (stage_at w x)) /\
    (forall n, In n (lget (lists w') (p_in (pl_plug (pipe_at w' p)))) -> somewhere f n) /\
    forall strict, snd (pipeline_call strict w' p (fun _ _ => Draw [false] [] []) [AMulti f] 0) = Raised 1 KeyError.
Proof.
  exists (run nothing [clip_op; fault_op]), 0, 1. eexists. eexists.
  exists (Frame (range 1) [((LInt 1, "other"), [Some 1%Q]); ((LInt 0, "quantity"), [Some 1%Q])]).
  split.
  { split; [split |].
    - vm_compute. repeat constructor; simpl; intuition discriminate.
    - intros x y I J. simpl in I, J. destruct I as [<- | [<- | []]]; destruct J as [<- | [<- | []]]; vm_compute; discriminate.
    - split; intros x I; simpl in I; destruct I as [<- | [<- | []]]; try (vm_compute; split; lia); try discriminate; split; reflexivity. }
  split; [vm_compute; reflexivity |].
  split; [intros strict x I; simpl in I; destruct I as [<- | [<- | []]]; vm_compute; repeat split |].
  split; [intros n I; vm_compute in I; destruct I as [<- | []]; exists (LInt 0); vm_compute; tauto |].
  intros [|]; reflexivity.
Qed.

(** A stage which asks for nothing, behind one that drops everything (or repeats zero times):
    no scenario is left to give columns to. *)
Theorem C45_emptied_refuted :
  exists w a b rest w' p f, own_lists w (a :: b :: rest) /\ chain w a b rest = (w', Ok p) /\
    (forall n, In n (lget (lists w') (p_in (pl_plug (pipe_at w' p)))) -> every f n) /\
    (exists q, st_body (stage_at w b) = BFocus q /\ forall scn v, exists c, q scn v = Ok (SFrame (s_index v) [("x", c)]) /\ length c = length (s_index v)) /\
    forall strict d, snd (pipeline_call strict w' p d [AMulti f] 0) = StageRefused 2.
Proof.
  exists (run nothing [drop_op ["a"];
                       NewStage false [] ["x"] (BFocus (fun _ v => Ok (SFrame (s_index v) [("x", repeat (Some 1%Q) (length (s_index v)))])));
                       rename_op [("x", "y")]]), 0, 1, [2]. eexists. eexists.
  exists (Frame (range 1) [((LInt 0, "a"), [Some 1%Q])]).
  split.
  { split; [split |].
    - vm_compute. repeat constructor; simpl; intuition discriminate.
    - intros x y I J. simpl in I, J. destruct I as [<- | [<- | [<- | []]]]; destruct J as [<- | [<- | [<- | []]]]; vm_compute; discriminate.
    - split; intros x I; simpl in I; destruct I as [<- | [<- | [<- | []]]]; try (vm_compute; split; lia); try discriminate; split; reflexivity. }
  split; [vm_compute; reflexivity |].
  split.
  { intros n I. vm_compute in I. destruct I as [<- | []]. split; [exists (LInt 0); left; reflexivity |].
    intros s m J. vm_compute in J. destruct J as [[= <- <-] | []]. left. reflexivity. }
  split.
  { eexists. split; [reflexivity |]. intros scn v. eexists. split; [reflexivity |]. apply repeat_length. }
  intros strict d. reflexivity.
Qed.

Example C56_example :
  let w := run nothing [rename_op [("a", "quantity"); ("c", "cost")]; clip_op; fault_op; drop_op ["cost"]] in
  0 < length [flat_data] /\
  exists w' p fh a', chain w 0 1 [2; 3] = (w', Ok p) /\ pipeline_call true w' p no_draws [flat_data] 0 = (fh, Returned a') /\
    fget fh a' <> fget fh 0 /\ relabelled flat_data (standardize flat_data) /\ flat_data <> AMulti (standardize flat_data).
Proof.
  split; [simpl; lia |]. eexists. eexists. eexists. eexists. split; [vm_compute; reflexivity |]. split; [vm_compute; reflexivity |].
  split; [vm_compute; discriminate |]. split; [apply standardize_relabelled | discriminate].
Qed.

Print Assumptions C45_accepted_runs_partial.
Print Assumptions C45_library_stages.
Print Assumptions C45_library_pipelines_partial.
Print Assumptions C45_reuse_refuted.
Print Assumptions C45_uneven_refuted.
Print Assumptions C45_emptied_refuted.
Print Assumptions C56_caller_frame.
