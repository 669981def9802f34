(** Model of hadar/workflow/shuffler.py: sampling, and the distribution of timelines among
    processes. *)
From Coq Require Import String Ascii List ZArith QArith Bool Arith Lia.
From Verif Require Import Base Frame Pipeline.
Import ListNotations.
Open Scope nat_scope.
Open Scope string_scope.
Open Scope list_scope.

(** A matrix of scenarios: one row of cells per scenario. *)
Notation row := (list cell) (only parsing).

(** [data[sampling]]: negative positions count from the end, others raise. *)
Definition pick (data : list row) (z : Z) : res row :=
  let n := Z.of_nat (length data) in
  let k := if (z <? 0)%Z then (z + n)%Z else z in
  if (k <? 0)%Z then Err IndexError
  else match nth_error data (Z.to_nat k) with
       | Some r => Ok r
       | None => Err IndexError
       end.

(** Why a timeline gives nothing: its pipeline did not return, its result has no column for
    the shuffler (KeyError of [Index.drop], shuffler.py 84), or another exception. *)
Inductive failure := FPipeline (o : outcome) | FNoColumn | FExn (e : exn).
Inductive got (A : Type) := Got (x : A) | Failed (f : failure).
Arguments Got {A} x.
Arguments Failed {A} f.

(** A timeline of the shuffler: raw data (Timeline, 18-36), or a frame and a pipeline, both
    kept by reference (TimelinePipeline, 61-75). Simplification: raw arrays are kept by
    value. *)
Inductive timeline := Raw (data : list row) | FromPipe (df pipeline : nat).

(** The end of TimelinePipeline.compute, shuffler.py 84-87: the names other than
    [to_shuffler] are dropped if one of them is not the empty text ([Index.any]). *)
Definition shuffler_rows (res : anyframe) : got (list row) :=
  match res with
  | AFlat _ => Failed (FExn IndexError)
  | AMulti g =>
      let names := get_names g in
      if negb (mem to_shuffler names) then Failed FNoColumn
      else
        let drop_columns := filter (fun n => negb (String.eqb n to_shuffler)) names in
        if existsb (fun n => negb (String.eqb n "")) drop_columns then
          match drop_names g drop_columns with
          | Ok g' => Got (map snd (f_cols g'))
          | Err e => Failed (FExn e)
          end
        else Got (map snd (f_cols g))
  end.

(** Timeline.compute 50-56 and TimelinePipeline.compute 77-87. *)
Definition compute (strict : bool) (w : world) (d : nat -> label -> draw) (fh : fheap) (tl : timeline) : got (list row) :=
  match tl with
  | Raw data => Got data
  | FromPipe a p =>
      match pipeline_call strict w p d fh a with
      | (fh', Returned x) => shuffler_rows (fget fh' x)
      | (_, o) => Failed (FPipeline o)
      end
  end.

(** A sampler, called with the bounds 0 and [n] and the number wanted, on the state of its
    generator. *)
Definition sampler (R : Type) := R -> nat -> nat -> R * res (list Z).

(** Timeline.sample, shuffler.py 38-48, in the process which has the generator. *)
Definition sample {R} (smp : sampler R) (g : R) (data : got (list row)) (nb : nat) : R * got (list row) :=
  match data with
  | Failed f => (g, Failed f)
  | Got rows =>
      match smp g (length rows) nb with
      | (g', Err e) => (g', Failed (FExn e))
      | (g', Ok ix) => match mapM (pick rows) ix with
                       | Ok l => (g', Got l)
                       | Err e => (g', Failed (FExn e))
                       end
      end
  end.

(** Timelines handled one after the other with the same copy of the generator. The sampler is
    sent to the processes with each chunk of [pool.map]: a generator goes with its state, so
    a group is a chunk; if the processes share a generator inherited from their parent, a
    group is what one of them handles. A failure ends the group. *)
Fixpoint run_group {R} (smp : sampler R) (g : R) (data : nat -> got (list row)) (nb : nat) (tasks : list nat)
  : got (list (nat * list row)) :=
  match tasks with
  | [] => Got []
  | i :: more =>
      match sample smp g (data i) nb with
      | (_, Failed f) => Failed f
      | (g', Got rows) => match run_group smp g' data nb more with
                          | Failed f => Failed f
                          | Got l => Got ((i, rows) :: l)
                          end
      end
  end.

(** Groups in the order in which they are finished: the first failure is raised. *)
Fixpoint run_groups {R} (smp : sampler R) (g : R) (data : nat -> got (list row)) (nb : nat) (groups : list (list nat))
  : got (list (nat * list row)) :=
  match groups with
  | [] => Got []
  | ts :: more =>
      match run_group smp g data nb ts with
      | Failed f => Failed f
      | Got l => match run_groups smp g data nb more with
                 | Failed f => Failed f
                 | Got m => Got (l ++ m)
                 end
      end
  end.

(** The shuffler: its timelines by name (shuffler.py 106-112). *)
Definition shuffler := dict string timeline.

(** Shuffler.add_data, shuffler.py 114-122. *)
Definition add_data (sh : shuffler) (name : string) (data : list row) : shuffler := dset name (Raw data) sh.

(** Shuffler.add_pipeline, shuffler.py 124-137. *)
Definition add_pipeline (w : world) (fh : fheap) (sh : shuffler) (name : string) (a p : nat) : fheap * shuffler * res unit :=
  let f := standardize (fget fh a) in
  let fh1 := upd_nth a (fun _ => AMulti f) fh in
  let pl := pl_plug (pipe_at w p) in
  if negb (computable (lists w) pl (get_names f)) then (fh1, sh, Err ValueError)
  else if negb (assert_to_shuffler (lists w) pl) then (fh1, sh, Err ValueError)
  else (fh1, dset name (FromPipe a p) sh, Ok tt).

(** A history of a shuffler: calls of add_data and add_pipeline; a refused pipeline raises
    and the history goes on. *)
Inductive sop := SData (name : string) (data : list row) | SPipe (name : string) (df pipeline : nat).
Definition sstep (w : world) (st : fheap * shuffler) (o : sop) : fheap * shuffler :=
  match o with
  | SData name data => (fst st, add_data (snd st) name data)
  | SPipe name a p => fst (add_pipeline w (fst st) (snd st) name a p)
  end.
Definition srun (w : world) (fh : fheap) (ops : list sop) : fheap * shuffler := fold_left (sstep w) ops (fh, []).

(** Shuffler.shuffle, shuffler.py 139-151: results are put in the order of the timelines and
    turned into a dictionary. [d i] is what the stages of the pipeline of timeline [i] draw;
    [g] the state of the generator when it is sent. *)
Definition shuffle {R} (strict : bool) (w : world) (fh : fheap) (smp : sampler R) (g : R) (d : nat -> nat -> label -> draw)
           (sh : shuffler) (nb : nat) (groups : list (list nat)) : got (dict string (list row)) :=
  let data := fun i => match nth_error sh i with
                       | Some nt => compute strict w (d i) fh (snd nt)
                       | None => Failed (FExn IndexError)
                       end in
  match run_groups smp g data nb groups with
  | Failed f => Failed f
  | Got l =>
      Got (dict_of (flat_map (fun i => match nth_error sh i, dget i l with
                                       | Some nt, Some rows => [(fst nt, rows)]
                                       | _, _ => []
                                       end) (seq 0 (length sh))))
  end.
