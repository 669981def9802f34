(** Model of hadar/workflow/pipeline.py: plugs (with the sharing of their lists), stages,
    pipelines, linking, running. *)
From Coq Require Import String Ascii List ZArith QArith Bool Arith Lia.
From Verif Require Import Base Frame.
Import ListNotations.
Open Scope nat_scope.
Open Scope string_scope.
Open Scope list_scope.

(** ** Plugs *)

(** The heap of the Python lists of names held by plugs. *)
Definition lheap := list (list string).
Definition lget (h : lheap) (a : nat) : list string := nth a h [].

(** A plug: FreePlug or RestrictedPlug, and the addresses of its two lists (pipeline.py
    35-43). The fields of a plug object are never rebound to other lists, so the object is
    its pair of addresses; [inputs_no_used] stays empty and is left out. *)
Record plug := Plug { p_free : bool; p_in : nat; p_out : nat }.

(** FreePlug(), pipeline.py 80-84. *)
Definition new_free (h : lheap) : lheap * plug :=
  (h ++ [[]; []], Plug true (length h) (S (length h))).
(** RestrictedPlug(inputs, outputs) on lists of its own, pipeline.py 113-122. *)
Definition new_restricted (h : lheap) (ins outs : list string) : lheap * plug :=
  (h ++ [ins; outs], Plug false (length h) (S (length h))).

(** [deepcopy(plug)]: new lists; one list only if both fields hold the same one. *)
Definition deepcopy (h : lheap) (p : plug) : lheap * plug :=
  if Nat.eqb (p_in p) (p_out p)
  then (h ++ [lget h (p_in p)], Plug (p_free p) (length h) (length h))
  else (h ++ [lget h (p_in p); lget h (p_out p)], Plug (p_free p) (length h) (S (length h))).

(** Plug.computable, pipeline.py 45-52. *)
Definition computable (h : lheap) (p : plug) (names : list string) : bool :=
  forallb (fun i => mem i names) (lget h (p_in p)).

(** FreePlug.linkable_to 86-94 and RestrictedPlug.linkable_to 124-134. *)
Definition linkable_to (h : lheap) (p next : plug) : bool :=
  if p_free p then true
  else if p_free next then true
  else forallb (fun e => mem e (lget h (p_out p))) (lget h (p_in next)).

(** FreePlug.__add__ 96-105 and RestrictedPlug.__add__ 136-153: [next.outputs += ...]
    extends the list in place and the new plug holds this very list. *)
Definition plug_add (h : lheap) (p next : plug) : lheap * plug :=
  if p_free p then
    if negb (p_free next) then deepcopy h next else deepcopy h p
  else if p_free next then (h, p)
  else
    let left := filter (fun e => negb (mem e (lget h (p_in next)))) (lget h (p_out p)) in
    (upd_nth (p_out next) (fun l => l ++ left) h, Plug false (p_in p) (p_out next)).

(** ** Stages *)

(** What Fault draws for one scenario, pipeline.py 519-527: one 0/1 per time, then for each
    1 a begin and a duration. *)
Record draw := Draw { d_flags : list bool; d_begin : list Z; d_duration : list Z }.

(** The stage classes. [BFocus] is any subclass of FocusStage given by its
    [_process_scenarios]; [BUser] any subclass of Stage given by its [_process_timeline]:
    what is left in the frame it received, and the frame it returns ([None]: the one it
    received) or the exception. Both are arbitrary functions of the frame; what they draw
    at random is part of the choice of the function. Drop keeps in [self.names] the list
    it puts into its plug as inputs (477-478), so it needs no field of its own. *)
Inductive body :=
| BClip (lower upper : option Q)
| BRename (m : dict string string)
| BDrop
| BRepeat (n : nat)
| BFault (loss occur_freq : Q) (downtime_min downtime_max : Z)
| BFocus (process : label -> sframe -> res sframe)
| BUser (process : frame -> anyframe * res (option anyframe)).

Record stage := Stage { st_plug : plug; st_body : body }.

(** Fault._process_scenarios, pipeline.py 514-532. [rate] and the downtimes are checked by
    numpy ([choice] wants probabilities, [randint] a non-empty interval unless nothing is
    drawn). *)
Definition count_true (l : list bool) : nat := length (filter (fun b => b) l).
Definition add_loss (loss : Q) (h : nat) (bd : Z * Z) (loss_qt : nat -> Q) : nat -> Q :=
  fun i => if in_slice h (fst bd) (fst bd + snd bd) i then (loss_qt i + loss)%Q else loss_qt i.
Definition fault_loss (loss : Q) (h : nat) (d : draw) : nat -> Q :=
  fold_left (fun acc bd => add_loss loss h bd acc) (combine (d_begin d) (d_duration d)) (fun _ => 0%Q).
Definition sub_at (loss_qt : nat -> Q) (c : column) : column :=
  map (fun ix => option_map (fun q => (q - loss_qt (fst ix))%Q) (snd ix)) (combine (seq 0 (length c)) c).
Definition fault_scenario (loss occur_freq : Q) (dmin dmax : Z) (d : draw) (v : sframe) : res sframe :=
  let horizon := length (s_index v) in
  if negb (qle 0 occur_freq && qle occur_freq 1) then Err ValueError
  else if negb (Nat.eqb (count_true (d_flags d)) 0) && (dmax <=? dmin)%Z then Err ValueError
  else
    match dget "quantity" (s_cols v) with
    | None => Err KeyError
    | Some c => Ok (SFrame (s_index v) (dset "quantity" (sub_at (fault_loss loss horizon d) c) (s_cols v)))
    end.

(** FocusStage._process_timeline, pipeline.py 376-394: a frame of zeros with rows 0..n-1 and
    for each scenario the columns [plug.outputs], then one block per scenario. *)
Definition focus (strict : bool) (outs : list string) (process : label -> sframe -> res sframe) (f : frame)
  : res frame :=
  let scenarios := get_scenarios f in
  let n_time := length (f_index f) in
  let index := build_multi_index scenarios outs in
  let zeros := Frame (range n_time) (map (fun k => (k, repeat (Some 0%Q) n_time)) index) in
  foldM (fun out scn => let* v := process scn (scenario_of f scn) in set_block strict outs out scn v)
        scenarios zeros.

(** Rename._rename 440-447 and _process_timeline 436-438. *)
Definition rename1 (m : dict string string) (n : string) : string :=
  match dget n m with Some x => x | None => n end.
Definition rename_frame (m : dict string string) (f : frame) : frame :=
  Frame (f_index f) (map (fun kc => ((fst (fst kc), rename1 m (snd (fst kc))), snd kc)) (f_cols f)).

(** RepeatScenario._process_timeline, pipeline.py 549-558: [np.tile] repeats the block of
    columns, the new labels are numbered from 0; the constructor of DataFrame refuses
    labels whose number is not that of the columns. The row index is lost. *)
Definition repeat_frame (n : nat) (f : frame) : res frame :=
  let data := tile (map snd (f_cols f)) n in
  let n_scn := length (get_scenarios f) in
  let index := build_multi_index (range (n_scn * n)) (get_names f) in
  if Nat.eqb (length data) (length index)
  then Ok (Frame (range (length (f_index f))) (combine index data))
  else Err ValueError.

(** Clip._process_timeline, pipeline.py 413-414. *)
Definition clip_frame (lower upper : option Q) (f : frame) : frame :=
  Frame (f_index f) (map (fun kc => (fst kc, map (clip_cell lower upper) (snd kc))) (f_cols f)).

Definition returns (f : frame) (r : res frame) : anyframe * res (option anyframe) :=
  (AMulti f, let* g := r in Ok (Some (AMulti g))).

(** [_process_timeline] of a stage on (its own copy of) a frame: what the frame becomes and
    what is returned. [d] gives the draws of Fault for each scenario. *)
Definition process (strict : bool) (h : lheap) (st : stage) (d : label -> draw) (f : frame)
  : anyframe * res (option anyframe) :=
  match st_body st with
  | BClip lower upper => returns f (Ok (clip_frame lower upper f))
  | BRename m => (AMulti (rename_frame m f), Ok None)
  | BDrop => returns f (drop_names f (lget h (p_in (st_plug st))))
  | BRepeat n => returns f (repeat_frame n f)
  | BFault loss q dmin dmax =>
      returns f (focus strict (lget h (p_out (st_plug st)))
                       (fun scn v => fault_scenario loss q dmin dmax (d scn) v) f)
  | BFocus p => returns f (focus strict (lget h (p_out (st_plug st))) p f)
  | BUser p => p f
  end.

(** ** Linking *)

(** The objects: lists of names, stages, Python lists of stages, pipelines (which hold such
    a list and a plug). Stages and pipelines are known by their addresses. *)
Record pipe := Pipe { pl_stages : nat; pl_plug : plug }.
Record world := World { lists : lheap; stages : list stage; slists : list (list nat); pipes : list pipe }.

Definition no_stage : stage := Stage (Plug true 0 0) (BClip None None).
Definition stage_at (w : world) (a : nat) : stage := nth a (stages w) no_stage.
Definition plug_of (w : world) (a : nat) : plug := st_plug (stage_at w a).
Definition slist_at (w : world) (a : nat) : list nat := nth a (slists w) [].
Definition pipe_at (w : world) (a : nat) : pipe := nth a (pipes w) (Pipe 0 (Plug true 0 0)).
Definition set_lists (w : world) (h : lheap) : world := World h (stages w) (slists w) (pipes w).

(** The loop of Pipeline.__init__, pipeline.py 171-180: each stage is tested against the
    next one, the plug of the pipeline is added up. *)
Fixpoint init_loop (w : world) (acc : plug) (curr : nat) (rest : list nat) : world * res plug :=
  match rest with
  | [] => (w, Ok acc)
  | next :: more =>
      if negb (linkable_to (lists w) (plug_of w curr) (plug_of w next)) then (w, Err ValueError)
      else let '(h, acc') := plug_add (lists w) acc (plug_of w next) in
           init_loop (set_lists w h) acc' next more
  end.

(** Pipeline.__init__, pipeline.py 161-180, on the list object at [l] (which it keeps).
    The result is the address of the new pipeline. *)
Definition new_pipeline (w : world) (l : nat) : world * res nat :=
  match slist_at w l with
  | [] => (w, Err IndexError)
  | s0 :: rest =>
      match init_loop w (plug_of w s0) s0 rest with
      | (w', Err e) => (w', Err e)
      | (w', Ok p) =>
          (World (lists w') (stages w') (slists w') (pipes w' ++ [Pipe l p]), Ok (length (pipes w')))
      end
  end.

(** Stage.__add__ with a stage, pipeline.py 254-268: a pipeline on a new list of two. *)
Definition stage_add (w : world) (a b : nat) : world * res nat :=
  let w1 := World (lists w) (stages w) (slists w ++ [[a; b]]) (pipes w) in
  new_pipeline w1 (length (slists w)).

(** Pipeline.__add__ with a stage, pipeline.py 182-200: changes and returns the pipeline
    itself. *)
Definition pipe_add (w : world) (p b : nat) : world * res nat :=
  let pp := pipe_at w p in
  if negb (linkable_to (lists w) (pl_plug pp) (plug_of w b)) then (w, Err ValueError)
  else
    let '(h, q) := plug_add (lists w) (pl_plug pp) (plug_of w b) in
    (World h (stages w)
           (upd_nth (pl_stages pp) (fun l => l ++ [b]) (slists w))
           (upd_nth p (fun x => Pipe (pl_stages x) q) (pipes w)),
     Ok p).

(** [s1 + s2 + ... + sn] *)
Fixpoint add_loop (w : world) (p : nat) (rest : list nat) : world * res nat :=
  match rest with
  | [] => (w, Ok p)
  | b :: more =>
      match pipe_add w p b with
      | (w', Ok p') => add_loop w' p' more
      | (w', Err e) => (w', Err e)
      end
  end.
Definition chain (w : world) (a b : nat) (rest : list nat) : world * res nat :=
  match stage_add w a b with
  | (w', Ok p) => add_loop w' p rest
  | (w', Err e) => (w', Err e)
  end.

(** What user code can do with stages and pipelines: create stages (on lists of names of
    their own, or, with RestrictedPlug, on lists already used elsewhere), create lists of stages, link, build
    pipelines. Adding a pipeline on the right is refused (183-184 and 262-265). *)
Inductive operand := OStage (a : nat) | OPipe (p : nat).
Inductive op :=
| NewStage (free : bool) (ins outs : list string) (b : body)
| NewStageOn (ain aout : nat) (b : body)
| NewList (l : list nat)
| NewPipeline (l : nat)
| Add (x y : operand).

Definition add_stage (w : world) (h : lheap) (s : stage) : world :=
  World h (stages w ++ [s]) (slists w) (pipes w).

Definition step (w : world) (o : op) : world * res nat :=
  match o with
  | NewStage free ins outs b =>
      let '(h, p) := if free then new_free (lists w) else new_restricted (lists w) ins outs in
      (add_stage w h (Stage p b), Ok (length (stages w)))
  | NewStageOn ain aout b =>
      (add_stage w (lists w) (Stage (Plug false ain aout) b), Ok (length (stages w)))
  | NewList l => (World (lists w) (stages w) (slists w ++ [l]) (pipes w), Ok (length (slists w)))
  | NewPipeline l => new_pipeline w l
  | Add (OStage a) (OStage b) => stage_add w a b
  | Add (OPipe p) (OStage b) => pipe_add w p b
  | Add _ (OPipe _) => (w, Err ValueError)
  end.

(** A history; a refused operation leaves its traces and the history goes on. *)
Definition run (w : world) (ops : list op) : world := fold_left (fun w o => fst (step w o)) ops w.

(** ** Running *)

(** The heap of frames; the caller's frame is in it. *)
Definition fheap := list anyframe.
Definition fget (fh : fheap) (a : nat) : anyframe := nth a fh (AMulti (Frame [] [])).

(** How a run ends: a frame; the test of the pipeline or of the [i]-th stage found an input
    missing (ValueError, pipeline.py 226-230 and 293-296); another exception inside
    [_process_timeline] of the [i]-th stage. *)
Inductive outcome :=
| Returned (a : nat)
| PipelineRefused
| StageRefused (i : nat)
| Raised (i : nat) (e : exn).

(** Stage.__call__, pipeline.py 279-298, on the frame at [a]. Reseeding is part of the
    draws. *)
Definition stage_call (strict : bool) (h : lheap) (st : stage) (d : label -> draw) (i : nat)
           (fh : fheap) (a : nat) : fheap * outcome :=
  let f := standardize (fget fh a) in
  let fh1 := upd_nth a (fun _ => AMulti f) fh in
  if negb (computable h (st_plug st) (get_names f)) then (fh1, StageRefused i)
  else
    match process strict h st d f with
    | (f', r) =>
        let fh2 := fh1 ++ [f'] in
        match r with
        | Err e => (fh2, Raised i e)
        | Ok None => (fh2, Returned (length fh1))
        | Ok (Some g) => (fh2 ++ [g], Returned (length fh2))
        end
    end.

Fixpoint stage_loop (strict : bool) (h : lheap) (sts : list stage) (d : nat -> label -> draw) (i : nat)
         (fh : fheap) (a : nat) : fheap * outcome :=
  match sts with
  | [] => (fh, Returned a)
  | st :: more =>
      match stage_call strict h st (d i) i (fh ++ [fget fh a]) (length fh) with
      | (fh', Returned a') => stage_loop strict h more d (S i) fh' a'
      | other => other
      end
  end.

(** Pipeline.__call__, pipeline.py 202-216, with assert_computable 218-230. *)
Definition call_plug (strict : bool) (h : lheap) (p : plug) (sts : list stage) (d : nat -> label -> draw)
           (fh : fheap) (a : nat) : fheap * outcome :=
  let f := standardize (fget fh a) in
  let fh1 := upd_nth a (fun _ => AMulti f) fh in
  if negb (computable h p (get_names f)) then (fh1, PipelineRefused)
  else stage_loop strict h sts d 0 fh1 a.

Definition pipeline_call (strict : bool) (w : world) (p : nat) (d : nat -> label -> draw)
           (fh : fheap) (a : nat) : fheap * outcome :=
  let pp := pipe_at w p in
  call_plug strict (lists w) (pl_plug pp) (map (stage_at w) (slist_at w (pl_stages pp))) d fh a.

(** Pipeline.assert_to_shuffler, pipeline.py 232-237. *)
Definition to_shuffler : string := "to_shuffler".
Definition assert_to_shuffler (h : lheap) (p : plug) : bool := mem to_shuffler (lget h (p_out p)).
