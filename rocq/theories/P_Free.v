(** C83: a stage that asks for nothing goes on asking for nothing, and refuses no frame. *)
From Coq Require Import String Ascii List ZArith QArith Bool Arith Lia Permutation.
From Verif Require Import Base BaseFacts Frame Pipeline SpecWorkflow P_Plugs P_Run.
Import ListNotations.
Open Scope nat_scope.
Open Scope string_scope.
Open Scope list_scope.

(** The plugs in use. *)
Definition plugs (w : world) : list plug := map st_plug (stages w) ++ map pl_plug (pipes w).

(** No list of a free plug is handed to a RestrictedPlug as its outputs. *)
Definition apart (w : world) (o : op) : Prop :=
  match o with
  | NewStageOn _ aout _ => forall p, In p (plugs w) -> p_free p = true -> aout <> p_in p /\ aout <> p_out p
  | _ => True
  end.
Fixpoint all_apart (w : world) (l : list op) : Prop :=
  match l with
  | [] => True
  | o :: r => apart w o /\ all_apart (fst (step w o)) r
  end.

(** ** Free plugs hold empty lists that nothing extends *)
Definition free_ok (h : lheap) (ps : list plug) : Prop :=
  forall p, In p ps ->
    plug_ok h p /\
    (p_free p = true -> lget h (p_in p) = [] /\ lget h (p_out p) = [] /\
       forall q, In q ps -> p_free q = false -> p_out q <> p_in p /\ p_out q <> p_out p).

Lemma free_ok_sub h ps ps' : incl ps' ps -> free_ok h ps -> free_ok h ps'.
Proof.
  intros I V p K. destruct (V p (I p K)) as (A & B). split; auto. intros F. destruct (B F) as (B1 & B2 & B3).
  split; [| split]; auto.
Qed.

(** A plug on new lists. *)
Lemma free_ok_new h ps more p : free_ok h ps ->
  length h <= p_in p -> length h <= p_out p -> plug_ok (h ++ more) p ->
  (p_free p = true -> lget (h ++ more) (p_in p) = [] /\ lget (h ++ more) (p_out p) = []) ->
  free_ok (h ++ more) (p :: ps).
Proof.
  intros V L1 L2 O Z q [<- | I].
  - split; [exact O |]. intros F. destruct (Z F) as (Z1 & Z2). split; [| split]; auto.
    intros q [<- | I] Fq; [congruence |]. destruct (V q I) as ((O1 & O2) & _). lia.
  - destruct (V q I) as ((O1 & O2) & B). split; [split; rewrite app_length; lia |].
    intros F. destruct (B F) as (B1 & B2 & B3). rewrite !lget_app by assumption. split; [| split]; auto.
    intros q' [<- | I'] F'; [lia | auto].
Qed.

Lemma free_ok_deepcopy h ps p : free_ok h ps -> In p ps -> free_ok (fst (deepcopy h p)) (snd (deepcopy h p) :: ps).
Proof.
  intros V I. destruct (V p I) as (_ & B). unfold deepcopy.
  destruct (Nat.eqb (p_in p) (p_out p)); cbn [fst snd]; apply free_ok_new; auto; cbn [p_in p_out p_free]; try lia;
    try (split; cbn [p_in p_out]; rewrite app_length; cbn [length]; lia);
    intros F; destruct (B F) as (B1 & B2 & _); rewrite ?lget_new, ?lget_new2; auto.
Qed.

Lemma free_ok_add h ps p q : free_ok h ps -> In p ps -> In q ps ->
  free_ok (fst (plug_add h p q)) (snd (plug_add h p q) :: ps).
Proof.
  intros V P Q. unfold plug_add. destruct (p_free p) eqn:FP.
  { destruct (negb (p_free q)); now apply free_ok_deepcopy. }
  destruct (p_free q) eqn:FQ; cbn [fst snd].
  { apply (free_ok_sub _ ps); auto. intros x [<- | I]; auto. }
  destruct (V p P) as ((P1 & P2) & _), (V q Q) as ((Q1 & Q2) & _).
  intros x I. assert (O : plug_ok h x).
  { destruct I as [<- | I]; [split; cbn [p_in p_out]; auto | now destruct (V x I)]. }
  split; [destruct O; split; rewrite length_upd_nth; auto |]. intros F.
  destruct I as [<- | I]; [discriminate F |]. destruct (V x I) as ((X1 & X2) & B). destruct (B F) as (B1 & B2 & B3).
  rewrite !lget_upd by assumption. destruct (B3 q Q FQ) as (N1 & N2).
  destruct (Nat.eqb_spec (p_in x) (p_out q)); [congruence |]. destruct (Nat.eqb_spec (p_out x) (p_out q)); [congruence |].
  split; [| split]; auto. intros y [<- | J] Fy; [cbn [p_out] |]; auto.
Qed.

Lemma plug_In w x : x < length (stages w) -> In (plug_of w x) (plugs w).
Proof.
  intros L. apply in_app_iff. left. unfold plug_of. apply in_map. unfold stage_at. now apply nth_In.
Qed.

Lemma init_loop_free rest : forall w acc curr, free_ok (lists w) (acc :: plugs w) ->
  (forall x, In x rest -> x < length (stages w)) ->
  let '(w', r) := init_loop w acc curr rest in
  stages w' = stages w /\ pipes w' = pipes w /\ free_ok (lists w') (plugs w) /\
  match r with
  | Ok q => free_ok (lists w') (q :: plugs w) /\
            p_free q = p_free acc && forallb (fun x => p_free (plug_of w x)) rest
  | Err _ => True
  end.
Proof.
  induction rest as [| x r IH]; intros w acc curr V K; cbn [init_loop].
  - split; [| split; [| split; [| split]]]; auto; [apply (free_ok_sub _ (acc :: plugs w)); auto; apply incl_tl, incl_refl | now rewrite andb_true_r].
  - destruct (linkable_to (lists w) (plug_of w curr) (plug_of w x)); cbn [negb].
    2: { split; [| split; [| split]]; auto. apply (free_ok_sub _ (acc :: plugs w)); auto; apply incl_tl, incl_refl. }
    assert (Px : In (plug_of w x) (plugs w)) by (apply plug_In, K; now left).
    pose proof (free_ok_add (lists w) (acc :: plugs w) acc (plug_of w x) V (or_introl eq_refl) (or_intror Px)) as V'.
    pose proof (plug_add_free (lists w) acc (plug_of w x)) as Ff.
    destruct (plug_add (lists w) acc (plug_of w x)) as [h acc']. cbn [fst snd] in V', Ff.
    specialize (IH (set_lists w h) acc' x). change (plugs (set_lists w h)) with (plugs w) in IH.
    cbn [lists stages pipes set_lists] in IH.
    assert (Va : free_ok h (acc' :: plugs w)).
    { apply (free_ok_sub _ (acc' :: acc :: plugs w)); auto. intros y [<- | I]; [now left | right; now right]. }
    specialize (IH Va (fun y I => K y (or_intror I))).
    destruct (init_loop (set_lists w h) acc' x r) as [w' [q | e]]; destruct IH as (A & B & C & D); (split; [| split; [| split]]; auto).
    split; [apply D |]. destruct D as (_ & D). change (plug_of (set_lists w h)) with (plug_of w) in D. rewrite D, Ff. cbn [forallb]. rewrite andb_assoc. reflexivity.
Qed.

Lemma plugs_eq w w' : stages w' = stages w -> pipes w' = pipes w -> plugs w' = plugs w.
Proof. intros A B. unfold plugs. now rewrite A, B. Qed.

Lemma new_pipeline_free w l : (forall x, In x (slist_at w l) -> x < length (stages w)) -> free_ok (lists w) (plugs w) ->
  free_ok (lists (fst (new_pipeline w l))) (plugs (fst (new_pipeline w l))) /\
  forall p, snd (new_pipeline w l) = Ok p ->
    p_free (pl_plug (pipe_at (fst (new_pipeline w l)) p)) = forallb (fun x => p_free (plug_of w x)) (slist_at w l).
Proof.
  intros K V. unfold new_pipeline. destruct (slist_at w l) as [| a rest] eqn:E; [split; [exact V | intros p H; discriminate H] |].
  assert (Pa : In (plug_of w a) (plugs w)) by (apply plug_In, K; now left).
  assert (Va : free_ok (lists w) (plug_of w a :: plugs w)).
  { apply (free_ok_sub _ (plugs w)); auto. intros y [<- | I]; auto. }
  pose proof (init_loop_free rest w (plug_of w a) a Va
    (fun x I => K x (or_intror I))) as H.
  destruct (init_loop w (plug_of w a) a rest) as [w' [q | e]]; destruct H as (A & B & C & D); cbn [fst snd].
  - split.
    + apply (free_ok_sub _ (q :: plugs w)); [| apply D]. unfold plugs. cbn [stages pipes]. rewrite A, B, map_app.
      intros y I. apply in_app_iff in I. destruct I as [I | I]; [right; apply in_app_iff; now left |].
      apply in_app_iff in I. destruct I as [I | [<- | []]]; [right; apply in_app_iff; now right | now left].
    + intros p H. injection H as <-. unfold pipe_at. cbn [pipes]. rewrite app_nth2, Nat.sub_diag by lia.
      cbn [nth pl_plug forallb]. apply D.
  - split; [| intros p H; discriminate H]. now rewrite (plugs_eq w w' A B).
Qed.

Lemma step_free w o : world_ok w -> op_ok w o -> apart w o -> free_ok (lists w) (plugs w) ->
  free_ok (lists (fst (step w o))) (plugs (fst (step w o))).
Proof.
  intros W K Ap V. destruct o as [free ins outs b | ain aout b | l | l | x y]; cbn [step op_ok apart] in *.
  - assert (G : forall more p, length (lists w) <= p_in p -> length (lists w) <= p_out p -> plug_ok (lists w ++ more) p ->
      (p_free p = true -> lget (lists w ++ more) (p_in p) = [] /\ lget (lists w ++ more) (p_out p) = []) ->
      free_ok (lists w ++ more) (plugs (add_stage w (lists w ++ more) (Stage p b)))).
    { intros more p L1 L2 O Z. apply (free_ok_sub _ (p :: plugs w)); [| now apply free_ok_new].
      unfold plugs. cbn [add_stage stages pipes]. rewrite map_app. intros y I.
      apply in_app_iff in I. destruct I as [I | I]; [| right; apply in_app_iff; now right].
      apply in_app_iff in I. destruct I as [I | [<- | []]]; [right; apply in_app_iff; now left | now left]. }
    destruct free; cbn [new_free new_restricted fst add_stage lists]; (apply G; cbn [p_in p_out p_free]; try lia;
      try (split; cbn [p_in p_out]; rewrite app_length; cbn [length]; lia)).
    intros _. rewrite lget_new, lget_new2. auto.
  - destruct K as (K1 & K2). cbn [fst add_stage lists]. set (p := Plug false ain aout).
    apply (free_ok_sub _ (p :: plugs w)).
    { unfold plugs. cbn [add_stage stages pipes]. rewrite map_app. intros y I.
      apply in_app_iff in I. destruct I as [I | I]; [| right; apply in_app_iff; now right].
      apply in_app_iff in I. destruct I as [I | [<- | []]]; [right; apply in_app_iff; now left | now left]. }
    intros q [<- | I]; [split; [now split | intros H; discriminate H] |].
    destruct (V q I) as (O & B). split; auto. intros F. destruct (B F) as (B1 & B2 & B3). split; [| split]; auto.
    intros q' [<- | I'] F'; [cbn [p_out p]; auto | auto].
  - exact V.
  - apply new_pipeline_free; auto. destruct W as (_ & W & _). intros x I. apply (W (slist_at w l)); auto.
    unfold slist_at. now apply nth_In.
  - destruct K as (Kx & Ky). destruct x as [a | p], y as [b | p']; try exact V.
    + unfold stage_add. set (w1 := World (lists w) (stages w) (slists w ++ [[a; b]]) (pipes w)).
      apply (new_pipeline_free w1); [| exact V]. intros x I. unfold slist_at, w1 in I. cbn [slists] in I.
      rewrite app_nth2, Nat.sub_diag in I by lia. cbn [nth] in I. destruct I as [<- | [<- | []]]; assumption.
    + unfold pipe_add. destruct (linkable_to (lists w) (pl_plug (pipe_at w p)) (plug_of w b)); cbn [negb]; [| exact V].
      assert (Pb : In (plug_of w b) (plugs w)) by now apply plug_In.
      assert (Pp : In (pl_plug (pipe_at w p)) (plugs w)).
      { apply in_app_iff. right. apply in_map. unfold pipe_at. now apply nth_In. }
      pose proof (free_ok_add _ _ _ _ V Pp Pb) as V'.
      destruct (plug_add (lists w) (pl_plug (pipe_at w p)) (plug_of w b)) as [h q]. cbn [fst snd lists] in *.
      apply (free_ok_sub _ (q :: plugs w)); [| exact V']. unfold plugs. cbn [stages pipes].
      intros z I. apply in_app_iff in I. destruct I as [I | I]; [right; apply in_app_iff; now left |].
      apply in_map_iff in I. destruct I as (c & <- & I). apply In_upd in I.
      destruct I as [I | (y & I & ->)]; [right; apply in_app_iff; right; now apply in_map | now left].
Qed.

Lemma run_free ops : forall w, world_ok w -> ops_ok w ops -> all_apart w ops -> free_ok (lists w) (plugs w) ->
  free_ok (lists (run w ops)) (plugs (run w ops)).
Proof.
  induction ops as [| o r IH]; intros w W K Ap V; simpl in *; [exact V |].
  destruct K as (K1 & K2), Ap as (A1 & A2). apply IH; auto; [now apply step_world | now apply step_free].
Qed.

(** ** What it means for runs *)
Lemma free_computable h p names : lget h (p_in p) = [] -> computable h p names = true.
Proof. intros E. unfold computable. now rewrite E. Qed.

Lemma stage_call_free strict h st d i fh a j : lget h (p_in (st_plug st)) = [] ->
  snd (stage_call strict h st d i fh a) <> StageRefused j.
Proof.
  intros E. unfold stage_call. rewrite free_computable by exact E. cbn [negb].
  destruct (process strict h st d _) as [f' [[g |] | e]]; cbn [snd]; discriminate.
Qed.

Lemma stage_call_which strict h st d i fh a j : snd (stage_call strict h st d i fh a) = StageRefused j -> j = i.
Proof.
  unfold stage_call. destruct (negb _); cbn [snd]; [intros H; injection H; auto |].
  destruct (process strict h st d _) as [f' [[g |] | e]]; cbn [snd]; discriminate.
Qed.

Lemma stage_loop_free strict h d sts : forall i fh a j st, nth_error sts j = Some st ->
  lget h (p_in (st_plug st)) = [] -> snd (stage_loop strict h sts d i fh a) <> StageRefused (i + j).
Proof.
  induction sts as [| s more IH]; intros i fh a j st N E; cbn [stage_loop].
  { destruct j; discriminate N. }
  pose proof (fun k => stage_call_which strict h s (d i) i (fh ++ [fget fh a]) (length fh) k) as Wh.
  pose proof (fun k => stage_call_free strict h s (d i) i (fh ++ [fget fh a]) (length fh) k) as Fr.
  destruct (stage_call strict h s (d i) i (fh ++ [fget fh a]) (length fh)) as [fh' o]. cbn [snd] in Wh, Fr.
  destruct j as [| j]; cbn [nth_error] in N.
  - injection N as ->. specialize (fun k => Fr k E).
    destruct o as [a' | | k | k e]; cbn [snd]; try discriminate.
    + assert (G : forall sts i fh a j, snd (stage_loop strict h sts d i fh a) = StageRefused j -> i <= j).
      { clear. induction sts as [| s r IH]; intros i fh a j; cbn [stage_loop]; [discriminate |].
        pose proof (fun k => stage_call_which strict h s (d i) i (fh ++ [fget fh a]) (length fh) k) as Wh.
        destruct (stage_call strict h s (d i) i (fh ++ [fget fh a]) (length fh)) as [fh' o]. cbn [snd] in Wh.
        destruct o; cbn [snd]; try discriminate.
        - intros H. apply IH in H. lia.
        - intros H. rewrite (Wh j H). lia. }
      intros H. apply G in H. lia.
    + exfalso. exact (Fr k eq_refl).
  - destruct o as [a' | | k | k e]; cbn [snd]; try discriminate.
    + replace (i + Datatypes.S j) with (Datatypes.S i + j) by lia. now apply (IH _ _ _ _ st).
    + rewrite (Wh k eq_refl). intros H. injection H. lia.
Qed.

(** C83 over every history that hands no list of a free plug to a RestrictedPlug as its
    outputs: a stage with a free plug asks for no column and declares none, it never refuses
    a frame, neither called alone nor as the [j]-th stage of a pipeline; and a pipeline whose
    plug is free refuses no frame either. Missing: histories that do hand such a list on,
    where it is false (below). *)
Theorem C83_free_partial ops : ops_ok nothing ops -> all_apart nothing ops ->
  let w := run nothing ops in
  (forall st, In st (stages w) -> p_free (st_plug st) = true ->
     lget (lists w) (p_in (st_plug st)) = [] /\ lget (lists w) (p_out (st_plug st)) = [] /\
     forall strict d i fh a j, snd (stage_call strict (lists w) st d i fh a) <> StageRefused j) /\
  (forall p strict d fh a, p < length (pipes w) ->
     (p_free (pl_plug (pipe_at w p)) = true -> snd (pipeline_call strict w p d fh a) <> PipelineRefused) /\
     (forall j s, nth_error (slist_at w (pl_stages (pipe_at w p))) j = Some s -> p_free (plug_of w s) = true ->
        snd (pipeline_call strict w p d fh a) <> StageRefused j)).
Proof.
  intros K Ap w.
  assert (V : free_ok (lists w) (plugs w)).
  { apply run_free; auto; [apply nothing_ok |]. intros p []. }
  assert (W : world_ok w) by (apply run_world; auto; apply nothing_ok).
  split.
  - intros st I F. assert (Ip : In (st_plug st) (plugs w)) by (apply in_app_iff; left; now apply in_map).
    destruct (V _ Ip) as (_ & B). destruct (B F) as (B1 & B2 & _). split; [| split]; auto.
    intros. now apply stage_call_free.
  - intros p strict d fh a L. unfold pipeline_call, call_plug. split.
    + intros F. assert (Ip : In (pl_plug (pipe_at w p)) (plugs w)).
      { apply in_app_iff. right. apply in_map. unfold pipe_at. now apply nth_In. }
      destruct (V _ Ip) as (_ & B). destruct (B F) as (B1 & _). rewrite free_computable by exact B1. cbn [negb].
      assert (G : forall sts i fh a, snd (stage_loop strict (lists w) sts d i fh a) <> PipelineRefused).
      { clear. induction sts as [| s r IH]; intros i fh a; cbn [stage_loop]; [discriminate |].
        unfold stage_call at 1. destruct (negb _); cbn [snd]; [discriminate |].
        destruct (process strict (lists w) s (d i) _) as [f' [[g |] | e]]; cbn [snd]; try discriminate; apply IH. }
      apply G.
    + intros j s N F. destruct (negb _); cbn [snd]; [discriminate |].
      apply (stage_loop_free strict (lists w) d _ 0 _ _ j (stage_at w s)); [now rewrite nth_error_map, N |].
      assert (Is : s < length (stages w)).
      { destruct W as (_ & W & W3). unfold pipe_at in *. destruct (W3 (nth p (pipes w) (Pipe 0 (Plug true 0 0))) (nth_In _ _ L)) as (Ls & _).
        apply (W (slist_at w (pl_stages (nth p (pipes w) (Pipe 0 (Plug true 0 0)))))); [unfold slist_at; now apply nth_In |].
        now apply nth_error_In in N. }
      destruct (V _ (plug_In w s Is)) as (_ & B). now destruct (B F).
Qed.

(** A pipeline that is built, by the constructor or by [+], asks for nothing exactly if none
    of its stages does. *)
Theorem C83_pipeline ops : ops_ok nothing ops -> all_apart nothing ops ->
  let w := run nothing ops in
  (forall l w' p, l < length (slists w) -> new_pipeline w l = (w', Ok p) ->
     (p_free (pl_plug (pipe_at w' p)) = true <-> forall s, In s (slist_at w l) -> p_free (plug_of w s) = true)) /\
  (forall a b w' p, a < length (stages w) -> b < length (stages w) -> stage_add w a b = (w', Ok p) ->
     (p_free (pl_plug (pipe_at w' p)) = true <-> p_free (plug_of w a) = true /\ p_free (plug_of w b) = true)) /\
  (forall p b w' p', p < length (pipes w) -> b < length (stages w) -> pipe_add w p b = (w', Ok p') ->
     p' = p /\ (p_free (pl_plug (pipe_at w' p)) = true <->
                p_free (pl_plug (pipe_at w p)) = true /\ p_free (plug_of w b) = true)).
Proof.
  intros K Ap w.
  assert (V : free_ok (lists w) (plugs w)).
  { apply run_free; auto; [apply nothing_ok |]. intros p []. }
  assert (W : world_ok w) by (apply run_world; auto; apply nothing_ok).
  split; [| split].
  - intros l w' p L E. destruct (new_pipeline_free w l) as (_ & F); auto.
    { destruct W as (_ & W & _). intros x I. apply (W (slist_at w l)); auto. unfold slist_at. now apply nth_In. }
    rewrite E in F. cbn [fst snd] in F. rewrite (F p eq_refl). apply forallb_forall.
  - intros a b w' p La Lb E. unfold stage_add in E.
    set (w1 := World (lists w) (stages w) (slists w ++ [[a; b]]) (pipes w)) in E.
    assert (S1 : slist_at w1 (length (slists w)) = [a; b]).
    { unfold slist_at, w1. cbn [slists]. now rewrite app_nth2, Nat.sub_diag by lia. }
    destruct (new_pipeline_free w1 (length (slists w))) as (_ & F); auto.
    { rewrite S1. intros x [<- | [<- | []]]; assumption. }
    rewrite E, S1 in F. cbn [fst snd forallb] in F. rewrite (F p eq_refl). change (plug_of w1) with (plug_of w).
    rewrite !andb_true_iff. tauto.
  - intros p b w' p' Lp Lb E. unfold pipe_add in E.
    destruct (linkable_to (lists w) (pl_plug (pipe_at w p)) (plug_of w b)); cbn [negb] in E; [| discriminate E].
    pose proof (plug_add_free (lists w) (pl_plug (pipe_at w p)) (plug_of w b)) as F.
    destruct (plug_add (lists w) (pl_plug (pipe_at w p)) (plug_of w b)) as [h q]. injection E as <- <-. split; auto.
    unfold pipe_at at 1. cbn [pipes]. rewrite pipe_at_upd by exact Lp. cbn [pl_plug snd] in *. rewrite F. apply andb_true_iff.
Qed.

(** A history with free stages, stages on shared lists of names, and pipelines of both kinds. *)
Definition free_ops : list op :=
  [rename_op [("a", "b")]; clip_op; NewStageOn 0 1 BDrop; clip_op; NewList [1; 3]; NewPipeline 0;
   Add (OStage 1) (OStage 0); Add (OPipe 1) (OStage 3)].

Example C83_example :
  ops_ok nothing free_ops /\ all_apart nothing free_ops /\
  let w := run nothing free_ops in
  map (fun s => p_free (st_plug s)) (stages w) = [false; true; false; true] /\
  map (fun p => p_free (pl_plug p)) (pipes w) = [true; false] /\
  lget (lists w) (p_in (plug_of w 2)) = ["a"] /\
  snd (stage_call false (lists w) (stage_at w 2) (fun _ => Draw [] [] []) 0 [AFlat (SFrame (range 1) [("b", [Some 1%Q])])] 0) = StageRefused 0.
Proof.
  split; [| split].
  - vm_compute. repeat split; intros; repeat match goal with H : _ \/ _ |- _ => destruct H end; subst; try contradiction; lia.
  - vm_compute. repeat split; intros; repeat match goal with H : _ \/ _ |- _ => destruct H end; subst; simpl in *; try contradiction; try lia; discriminate.
  - vm_compute. repeat split; reflexivity.
Qed.

(** Once its list of inputs is the outputs of a RestrictedPlug, linking makes a free stage
    ask for columns. *)
Theorem C83_shared_refuted : exists ops st fh, ops_ok nothing ops /\
  In st (stages (run nothing ops)) /\ p_free (st_plug st) = true /\
  snd (stage_call false (lists (run nothing ops)) st (fun _ => Draw [] [] []) 0 fh 0) = StageRefused 0.
Proof.
  exists [clip_op; rename_op [("a", "b")]; NewStageOn 1 0 BDrop; Add (OStage 1) (OStage 2)],
    (Stage (Plug true 0 1) (BClip None (Some 9%Q))), [AFlat (SFrame (range 1) [("a", [Some 1%Q])])].
  split; [vm_compute; repeat split; lia |]. split; [vm_compute; auto | split; reflexivity].
Qed.

Print Assumptions C83_free_partial.
Print Assumptions C83_pipeline.
Print Assumptions C83_shared_refuted.
