(** C44, C53, C54: what stages are made of, what they are given and what the shuffler reads. *)
From Coq Require Import String Ascii List ZArith QArith Bool Arith Lia Lqa Permutation.
From Verif Require Import Base BaseFacts Frame Pipeline Shuffler SpecWorkflow SpecShuffler P_Stages P_Plugs P_Focus P_Shuffler.
Import ListNotations.
Open Scope nat_scope.
Open Scope string_scope.
Open Scope list_scope.

(** A new stage says what it was declared with, and the stages before say what they said. *)
Theorem C44_new_stage w free ins outs b : let (w', r) := step w (NewStage free ins outs b) in
  r = Ok (length (stages w)) /\ length (stages w') = S (length (stages w)) /\
  view (lists w') (st_plug (stage_at w' (length (stages w)))) = (if free then Anything else Needs ins outs) /\
  st_body (stage_at w' (length (stages w))) = b /\
  forall a, a < length (stages w) -> plug_ok (lists w) (st_plug (stage_at w a)) ->
    stage_at w' a = stage_at w a /\ view (lists w') (st_plug (stage_at w' a)) = view (lists w) (st_plug (stage_at w a)).
Proof.
  cbn [step]. destruct free; unfold new_free, new_restricted, add_stage, stage_at; cbn [lists stages];
    (split; [reflexivity |]; split; [rewrite app_length; cbn [length]; lia |];
     split; [| split; [rewrite app_nth2, Nat.sub_diag by lia; reflexivity |]]).
  - rewrite app_nth2, Nat.sub_diag by lia. reflexivity.
  - intros a L (O1 & O2). rewrite (app_nth1 (stages w)) by exact L. split; [reflexivity |].
    unfold view, lget. rewrite !(app_nth1 (lists w)) by assumption. reflexivity.
  - rewrite app_nth2, Nat.sub_diag by lia. unfold view, lget. cbn [nth st_plug p_free p_in p_out]. rewrite !app_nth2 by lia. rewrite Nat.sub_diag.
    replace (S (length (lists w)) - length (lists w)) with 1 by lia. reflexivity.
  - intros a L (O1 & O2). rewrite (app_nth1 (stages w)) by exact L. split; [reflexivity |].
    unfold view, lget. rewrite !(app_nth1 (lists w)) by assumption. reflexivity.
Qed.

(** What a stage is given for a scenario: the columns of that scenario, all of them, in order,
    with the rows of the frame; and this tells it entirely. *)
Theorem C53_input f scn : alone_in f scn (scenario_of f scn) /\ forall v, alone_in f scn v -> v = scenario_of f scn.
Proof.
  assert (U : forall cols, columns_of scn cols (map (fun kc => (snd (fst kc), snd kc)) (filter (fun kc => eqb (fst (fst kc)) scn) cols)) /\
              forall l, columns_of scn cols l -> l = map (fun kc => (snd (fst kc), snd kc)) (filter (fun kc => eqb (fst (fst kc)) scn) cols)).
  { induction cols as [| [[s n] c] r (A & B)].
    - split; [constructor |]. intros l X. now inversion X.
    - cbn [filter fst]. destruct (eqb s scn) eqn:E.
      + apply eqb_eq in E. subst s. cbn [map fst snd]. split; [now constructor |]. intros l X. inversion X; subst; [f_equal; auto | congruence].
      + assert (N : s <> scn) by (intros ->; rewrite (proj2 (eqb_eq scn scn) eq_refl) in E; discriminate).
        split; [now constructor |]. intros l X. inversion X; subst; [congruence | auto]. }
  split.
  - split; [reflexivity | apply U].
  - intros [ix cols] (E & X). cbn in E, X. subst ix. unfold scenario_of. f_equal. now apply U.
Qed.

(** What the shuffler samples from: the data given, or the columns it reads in the frame which
    the pipeline returned. *)
Theorem C54_timeline strict w d fh tl data : compute strict w d fh tl = Got data ->
  match tl with
  | Raw rows => data = rows
  | FromPipe a p => exists fh' x g, pipeline_call strict w p d fh a = (fh', Returned x) /\ fget fh' x = AMulti g /\
      (~ In "" (map snd (keys g)) -> data = read_columns g)
  end.
Proof.
  destruct tl as [rows | a p]; cbn [compute]; [now intros [= <-] |].
  destruct (pipeline_call strict w p d fh a) as [fh' [x | | i | i e]]; try discriminate. intros E.
  destruct (fget fh' x) as [s | g] eqn:G; [discriminate E |]. exists fh', x, g. split; [reflexivity |]. split; [exact G |].
  intros N. rewrite (C54_pipeline_data_partial g N) in E. destruct (mem _ _); [now injection E | discriminate].
Qed.

(** A frame of two scenarios with a column in common; a pipeline that renames. *)
Example C53_input_example :
  let f := Frame (range 1) [((LInt 0, "a"), [Some 3%Q]); ((LInt 1, "a"), [Some 4%Q]); ((LInt 0, "b"), [Some 8%Q])] in
  alone_in f (LInt 0) (SFrame (range 1) [("a", [Some 3%Q]); ("b", [Some 8%Q])]) /\ ~ alone_in f (LInt 0) (SFrame (range 1) [("b", [Some 8%Q]); ("a", [Some 3%Q])]).
Proof.
  cbn zeta. split.
  - split; [reflexivity |]. apply CO_take, CO_skip; [discriminate |]. apply CO_take, CO_nil.
  - intros X. apply (proj2 (C53_input _ _)) in X. vm_compute in X. discriminate.
Qed.
Example C54_timeline_example : compute true sample_world (fun _ _ => Draw [] [] []) sample_frames (FromPipe 0 0) = Got [[Some 3%Q]; [Some 4%Q]].
Proof. reflexivity. Qed.
Example C44_new_stage_example : let w := run nothing [NewStage false ["a"] ["b"; "c"] BDrop] in
  view (lists w) (st_plug (stage_at w 0)) = Needs ["a"] ["b"; "c"].
Proof. reflexivity. Qed.

Print Assumptions C44_new_stage.
Print Assumptions C53_input.
Print Assumptions C54_timeline.
