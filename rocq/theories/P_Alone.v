(** C47: exactly which operations leave alone what is there. *)
From Coq Require Import String Ascii List ZArith QArith Bool Arith Lia Permutation.
From Verif Require Import Base BaseFacts Frame Pipeline SpecWorkflow P_Plugs.
Import ListNotations.
Open Scope nat_scope.
Open Scope string_scope.
Open Scope list_scope.

(** ** Specification *)

(** Everything that was there is as before: what the stages ask and promise, what the
    pipelines ask, promise and run. *)
Record untouched (w w' : world) : Prop := {
  un_lists : forall a, a < length (lists w) -> lget (lists w') a = lget (lists w) a;
  un_stages : forall a, a < length (stages w) -> stage_at w' a = stage_at w a;
  un_slists : forall l, l < length (slists w) -> slist_at w' l = slist_at w l;
  un_pipes : forall p, p < length (pipes w) -> pipe_at w' p = pipe_at w p
}.

(** The second asks for all that the first promises. *)
Definition consumed (a b : contract) : Prop :=
  match a, b with
  | Needs _ o, Needs i' _ => forall x, In x o -> In x i'
  | _, _ => True
  end.
(** In a list of stages, up to the first link that is refused: each stage that asks for
    something asks for all that the last such stage before it promises. *)
Fixpoint handed_on (last curr : contract) (rest : list contract) : Prop :=
  match rest with
  | [] => True
  | next :: more => doc_links curr next ->
      consumed last next /\ handed_on (match next with Anything => last | Needs _ _ => next end) next more
  end.
Definition contract_of (w : world) (a : nat) : contract := view (lists w) (plug_of w a).
Definition alone (w : world) (o : op) : Prop :=
  match o with
  | Add (OStage a) (OStage b) => doc_links (contract_of w a) (contract_of w b) -> consumed (contract_of w a) (contract_of w b)
  | Add (OPipe p) (OStage b) => ~ doc_links (view (lists w) (pl_plug (pipe_at w p))) (contract_of w b)
  | NewPipeline l => match map (contract_of w) (slist_at w l) with [] => True | c :: rest => handed_on c c rest end
  | _ => True
  end.

(** ** Proofs *)
Lemma links_spec h p q : linkable_to h p q = true <-> doc_links (view h p) (view h q).
Proof.
  unfold linkable_to, doc_links, view. destruct (p_free p), (p_free q); try tauto.
  rewrite forallb_forall. split; intros K x I; apply mem_In; auto.
Qed.

Definition agrees (h0 h : lheap) : Prop := length h0 <= length h /\ forall a, a < length h0 -> lget h a = lget h0 a.
Lemma agrees_view h0 h p : agrees h0 h -> plug_ok h0 p -> view h p = view h0 p.
Proof. intros [_ G] [P1 P2]. unfold view. rewrite !G by assumption. reflexivity. Qed.

Lemma deepcopy_agrees h0 h p : agrees h0 h -> agrees h0 (fst (deepcopy h p)).
Proof.
  intros [L G]. unfold deepcopy. destruct (Nat.eqb (p_in p) (p_out p)); cbn [fst]; (split; [rewrite app_length; lia |]); intros a A; rewrite lget_app by lia; auto.
Qed.
Lemma deepcopy_free h p : p_free (snd (deepcopy h p)) = p_free p.
Proof. unfold deepcopy. now destruct (Nat.eqb (p_in p) (p_out p)). Qed.
Lemma deepcopy_out h p : lget (fst (deepcopy h p)) (p_out (snd (deepcopy h p))) = lget h (p_out p).
Proof.
  unfold deepcopy. destruct (Nat.eqb_spec (p_in p) (p_out p)) as [-> | _]; cbn [fst snd p_out]; [apply lget_new | apply lget_new2].
Qed.

(** The plug added up promises what the last stage that asks for something promises. *)
Definition promises (h : lheap) (acc : plug) (last : contract) : Prop :=
  match last with Anything => p_free acc = true | Needs _ o => p_free acc = false /\ lget h (p_out acc) = o end.

Section Loop.
Variable w : world.
Hypothesis W : world_ok w.

Lemma loop_exact rest : forall h acc curr last, curr < length (stages w) -> (forall x, In x rest -> x < length (stages w)) ->
  agrees (lists w) h -> promises h acc last ->
  (agrees (lists w) (lists (fst (init_loop (set_lists w h) acc curr rest))) <-> handed_on last (contract_of w curr) (map (contract_of w) rest)).
Proof.
  induction rest as [| x r IH]; intros h acc curr last Cu V G Pr; [cbn; tauto |].
  pose proof (V x (or_introl eq_refl)) as Vx. pose proof (plug_of_ok w curr W Cu) as Pc. pose proof (plug_of_ok w x W Vx) as Px.
  assert (Vr : forall y, In y r -> y < length (stages w)) by (intros y Y; apply V; now right).
  cbn [init_loop map handed_on]. change (plug_of (set_lists w h)) with (plug_of w). cbn [lists set_lists].
  assert (LK : linkable_to h (plug_of w curr) (plug_of w x) = true <-> doc_links (contract_of w curr) (contract_of w x)).
  { rewrite links_spec. unfold contract_of. rewrite !(agrees_view (lists w) h) by assumption. reflexivity. }
  destruct (linkable_to h (plug_of w curr) (plug_of w x)); cbn [negb].
  2:{ cbn [fst lists set_lists]. split; [| intros _; exact G]. intros _ D. apply LK in D. discriminate D. }
  assert (D : doc_links (contract_of w curr) (contract_of w x)) by (apply LK; reflexivity). clear LK.
  assert (EV : contract_of w x = view h (plug_of w x)) by (symmetry; now apply agrees_view).
  unfold plug_add. destruct (p_free acc) eqn:FA.
  - destruct last as [| i o]; [| destruct Pr; congruence]. assert (T : consumed Anything (contract_of w x)) by exact Logic.I.
    destruct (p_free (plug_of w x)) eqn:FX; cbn [negb].
    + pose proof (deepcopy_agrees _ h acc G) as G'. pose proof (deepcopy_free h acc) as F'. destruct (deepcopy h acc) as [h' acc']. cbn [fst snd] in *.
      change (set_lists (set_lists w h) h') with (set_lists w h'). specialize (IH h' acc' x Anything Vx Vr G'). rewrite IH; [| unfold promises; congruence].
      replace (contract_of w x) with Anything in * by (unfold contract_of, view; now rewrite FX). tauto.
    + pose proof (deepcopy_agrees _ h (plug_of w x) G) as G'. pose proof (deepcopy_free h (plug_of w x)) as F'. pose proof (deepcopy_out h (plug_of w x)) as O'.
      destruct (deepcopy h (plug_of w x)) as [h' acc']. cbn [fst snd] in *. change (set_lists (set_lists w h) h') with (set_lists w h').
      specialize (IH h' acc' x (contract_of w x) Vx Vr G'). rewrite IH; [| rewrite EV; unfold view; rewrite FX; unfold promises; split; congruence].
      assert (N : match contract_of w x with Anything => Anything | Needs _ _ => contract_of w x end = contract_of w x) by (now destruct (contract_of w x)). rewrite N. tauto.
  - destruct last as [| i o]; [cbn in Pr; congruence |]. destruct Pr as [_ O]. destruct (p_free (plug_of w x)) eqn:FX.
    + change (set_lists (set_lists w h) h) with (set_lists w h). specialize (IH h acc x (Needs i o) Vx Vr G). rewrite IH; [| now split].
      replace (contract_of w x) with Anything in * by (unfold contract_of, view; now rewrite FX). cbn [consumed]. tauto.
    + set (left := filter (fun e => negb (mem e (lget h (p_in (plug_of w x))))) (lget h (p_out acc))).
      set (h' := upd_nth (p_out (plug_of w x)) (fun l => l ++ left) h). change (set_lists (set_lists w h) h') with (set_lists w h').
      assert (EX : contract_of w x = Needs (lget h (p_in (plug_of w x))) (lget h (p_out (plug_of w x)))) by (rewrite EV; unfold view; now rewrite FX).
      destruct Px as [Px1 Px2]. destruct G as [GL GG].
      assert (H' : forall a, a < length h -> lget h' a = if Nat.eqb a (p_out (plug_of w x)) then lget h a ++ left else lget h a) by (intros a A; apply lget_upd, A).
      assert (LN : left = [] <-> consumed (Needs i o) (contract_of w x)).
      { rewrite EX. cbn [consumed]. rewrite <- O. unfold left. split.
        - intros Z y Y. destruct (in_dec string_dec y (lget h (p_in (plug_of w x)))) as [I | I]; [exact I |]. exfalso.
          assert (J : In y []) by (rewrite <- Z; apply filter_In; split; [exact Y | apply negb_true_iff, mem_nIn, I]). exact J.
        - intros Z. destruct (filter _ _) as [| y m] eqn:Fi; [reflexivity |]. exfalso. assert (J : In y (y :: m)) by now left. rewrite <- Fi in J.
          apply filter_In in J as [J1 J2]. apply negb_true_iff, mem_nIn in J2. apply J2, Z, J1. }
      destruct left as [| e m] eqn:EL.
      * assert (G' : agrees (lists w) h').
        { split; [unfold h'; rewrite length_upd_nth; exact GL |]. intros a A. rewrite H' by lia. rewrite app_nil_r. destruct (Nat.eqb a _); auto. }
        specialize (IH h' (Plug false (p_in acc) (p_out (plug_of w x))) x (contract_of w x) Vx Vr G'). rewrite IH.
        -- assert (T : consumed (Needs i o) (contract_of w x)) by (apply LN; reflexivity).
           assert (N : match contract_of w x with Anything => Needs i o | Needs _ _ => contract_of w x end = contract_of w x) by (now rewrite EX). rewrite N. tauto.
        -- rewrite EX. split; [reflexivity |]. cbn [p_out]. rewrite H' by lia. rewrite Nat.eqb_refl, app_nil_r. reflexivity.
      * split; [| intros Z; exfalso; destruct (Z D) as [T _]; apply LN in T; discriminate T]. intros [_ K]. exfalso.
        pose proof (init_loop_grown r (set_lists w h') h' (Plug false (p_in acc) (p_out (plug_of w x))) x Vr (grown_refl (set_lists w h'))) as ((_ & Ex & _) & _).
        change (set_lists (set_lists w h') h') with (set_lists w h') in Ex. cbn [lists set_lists] in Ex.
        assert (A : p_out (plug_of w x) < length h') by (unfold h'; rewrite length_upd_nth; lia).
        destruct (Ex _ A) as (more & E). rewrite K in E by assumption. rewrite H' in E by lia. rewrite Nat.eqb_refl, GG in E by assumption.
        apply (f_equal (@List.length string)) in E. rewrite !app_length in E. cbn [length] in E. lia.
Qed.
End Loop.

Lemma constructor_alone w l : world_ok w -> (forall x, In x (slist_at w l) -> x < length (stages w)) ->
  ((forall a, a < length (lists w) -> lget (lists (fst (new_pipeline w l))) a = lget (lists w) a) <->
   match map (contract_of w) (slist_at w l) with [] => True | c :: rest => handed_on c c rest end).
Proof.
  intros W V. destruct (new_pipeline_preserved w l V) as (((Ln & _) & _) & _ & _ & _).
  unfold new_pipeline in *. destruct (slist_at w l) as [| a rest]; [cbn; tauto |]. cbn [map].
  assert (Va : a < length (stages w)) by (apply V; now left).
  assert (G : agrees (lists w) (lists w)) by (split; auto).
  assert (Pr : promises (lists w) (plug_of w a) (contract_of w a)) by (unfold promises, contract_of, view; destruct (p_free (plug_of w a)); auto).
  pose proof (loop_exact w W rest (lists w) (plug_of w a) a (contract_of w a) Va (fun x X => V x (or_intror X)) G Pr) as L.
  replace (set_lists w (lists w)) with w in L by (now destruct w).
  destruct (init_loop w (plug_of w a) a rest) as [w' [q | e]]; cbn [fst lists] in *; rewrite <- L; unfold agrees; tauto.
Qed.

Theorem C47_exact : forall w o, world_ok w -> op_ok w o -> (untouched w (fst (step w o)) <-> alone w o).
Proof.
  intros w o W K. destruct o as [free ins outs b | ain aout b | l | l | x y].
  - cbn [alone]. split; [auto |]. intros _. cbn [step]. destruct free; cbn [fst new_free new_restricted]; constructor; cbn [add_stage lists stages slists pipes]; auto.
    all: intros a A; first [apply lget_app; exact A | unfold stage_at; cbn [stages add_stage]; now rewrite app_nth1].
  - cbn [alone step fst]. split; [auto |]. intros _. constructor; cbn [add_stage lists stages slists pipes]; auto.
    intros a A. unfold stage_at. cbn [stages add_stage]. now rewrite app_nth1.
  - cbn [alone step fst]. split; [auto |]. intros _. constructor; cbn [lists stages slists pipes]; auto.
    intros a A. unfold slist_at. cbn [slists]. now rewrite app_nth1.
  - cbn [op_ok] in K. cbn [step alone].
    assert (V : forall x, In x (slist_at w l) -> x < length (stages w)).
    { destruct W as (_ & W2 & _). intros x I. apply (W2 (slist_at w l)); auto. unfold slist_at. apply nth_In, K. }
    rewrite <- (constructor_alone w l W V). destruct (new_pipeline_preserved w l V) as (_ & E1 & E2 & E3).
    split; [intros [U _ _ _]; exact U |]. intros U. constructor; auto; intros a A; unfold stage_at, slist_at; congruence.
  - destruct K as [Kx Ky]. destruct x as [a | p], y as [b | p'].
    + cbn [step alone]. unfold stage_add. set (w1 := World (lists w) (stages w) (slists w ++ [[a; b]]) (pipes w)).
      assert (SL : slist_at w1 (length (slists w)) = [a; b]) by (unfold slist_at, w1; cbn [slists]; rewrite app_nth2, Nat.sub_diag by lia; reflexivity).
      assert (V : forall x, In x (slist_at w1 (length (slists w))) -> x < length (stages w1)) by (rewrite SL; intros x [<- | [<- | []]]; assumption).
      assert (W1 : world_ok w1).
      { destruct W as (Wa & Wb & Wc). split; [exact Wa | split]; cbn [w1 slists stages pipes lists].
        - intros l s I J. apply in_app_iff in I as [I | [<- | []]]; [eauto |]. destruct J as [<- | [<- | []]]; assumption.
        - intros p I. destruct (Wc p I). rewrite app_length. split; [lia | auto]. }
      pose proof (constructor_alone w1 _ W1 V) as CA. rewrite SL in CA. cbn [map handed_on] in CA.
      change (contract_of w1) with (contract_of w) in CA. change (lists w1) with (lists w) in CA.
      destruct (new_pipeline_preserved w1 _ V) as (_ & E1 & E2 & E3). change (pipes w1) with (pipes w) in E1. change (stages w1) with (stages w) in E3.
      transitivity (doc_links (contract_of w a) (contract_of w b) -> consumed (contract_of w a) (contract_of w b) /\ True); [| tauto].
      rewrite <- CA. split; [intros [U _ _ _]; exact U |]. intros U. constructor; auto.
      * intros c C. unfold stage_at. now rewrite E3.
      * intros c C. unfold slist_at. rewrite E2. cbn [w1 slists]. now rewrite app_nth1.
    + cbn [step fst alone]. split; [auto |]. intros _. constructor; auto.
    + cbn [step alone]. unfold pipe_add. destruct (linkable_to (lists w) (pl_plug (pipe_at w p)) (plug_of w b)) eqn:L; cbn [negb].
      * assert (D : doc_links (view (lists w) (pl_plug (pipe_at w p))) (contract_of w b)) by (apply links_spec, L).
        split; [| tauto]. intros [_ _ U _]. exfalso. destruct (plug_add (lists w) (pl_plug (pipe_at w p)) (plug_of w b)) as [h q].
        assert (Pp : In (pipe_at w p) (pipes w)) by (unfold pipe_at; apply nth_In; exact Kx). destruct W as (_ & _ & W3). destruct (W3 _ Pp) as (Q1 & _).
        specialize (U _ Q1). unfold slist_at in U. cbn [fst slists] in U. rewrite nth_upd, Nat.eqb_refl in U by exact Q1.
        apply (f_equal (@List.length nat)) in U. rewrite app_length in U. cbn [length] in U. lia.
      * cbn [fst]. split; [| intros _; constructor; auto]. intros _ D. apply links_spec in D. congruence.
    + cbn [step fst alone]. split; [auto |]. intros _. constructor; auto.
Qed.

(** Three renamings that hand on all they make, with a clipping in between. *)
Example C47_exact_example :
  let w := run nothing [rename_op [("a", "b")]; clip_op; rename_op [("b", "d")]; rename_op [("x", "y")]; NewList [0; 1; 2]; Add (OStage 1) (OStage 1)] in
  world_ok w /\ op_ok w (NewPipeline 0) /\ alone w (NewPipeline 0) /\ op_ok w (Add (OPipe 0) (OStage 3)) /\ ~ alone w (Add (OPipe 0) (OStage 3)) /\
  op_ok w (Add (OStage 0) (OStage 3)) /\ alone w (Add (OStage 0) (OStage 3)) /\ is_ok (snd (step w (Add (OStage 0) (OStage 3)))) = false.
Proof.
  split. { apply run_world; [apply nothing_ok |]. vm_compute. repeat split; try lia; intros s [<- | [<- | [<- | []]]]; lia. }
  split; [vm_compute; lia |]. split; [vm_compute; intuition (subst; auto) |]. split; [vm_compute; lia |]. split; [intros H; apply H; exact Logic.I |].
  split; [vm_compute; lia |]. split; [| reflexivity]. intros H. exfalso. specialize (H "x" (or_introl eq_refl)). vm_compute in H. destruct H as [H | []]. discriminate H.
Qed.

Print Assumptions C47_exact.
