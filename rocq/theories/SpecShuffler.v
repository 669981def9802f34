(** What is asked of the shuffler, in terms of rows, samplers and schedules. *)
From Coq Require Import String Ascii List ZArith QArith Bool Arith Lia Permutation.
From Verif Require Import Base Frame Pipeline Shuffler.
Import ListNotations.
Open Scope nat_scope.
Open Scope string_scope.
Open Scope list_scope.

(** A sampler as [randint]: for a non-empty range it answers the number wanted of positions
    in the range. *)
Definition legal_sampler {R} (smp : sampler R) : Prop :=
  forall g n nb, 0 < n ->
    exists g' ix, smp g n nb = (g', Ok ix) /\ length ix = nb /\ (forall z, In z ix -> (0 <= z < Z.of_nat n)%Z).

(** A sampler whose answers do not depend on what it answered before. *)
Definition forgetful {R} (smp : sampler R) : Prop := forall g g' n nb, snd (smp g n nb) = snd (smp g' n nb).

(** Every timeline is handled once. *)
Definition all_once (n : nat) (groups : list (list nat)) : Prop := Permutation (concat groups) (seq 0 n).

(** The columns the shuffler reads, in order. *)
Definition read_columns (g : frame) : list (list cell) :=
  map snd (filter (fun kc => String.eqb (snd (fst kc)) "to_shuffler") (f_cols g)).

(** A failure for want of a column. *)
Definition missing_column (f : failure) : Prop :=
  match f with
  | FNoColumn => True
  | FPipeline (Raised _ e) => e = KeyError
  | FPipeline (Returned _) => False
  | FPipeline _ => True
  | FExn e => e = KeyError
  end.

(** Positions and the rows found there, counted from the end when negative. *)
Definition rows_at (data : list (list cell)) (ix : list Z) (rows : list (list cell)) : Prop :=
  Forall2 (fun z r => (- Z.of_nat (length data) <= z < Z.of_nat (length data))%Z /\
                      nth_error data (Z.to_nat (z mod Z.of_nat (length data))) = Some r) ix rows.

(** The timelines of a group sampled one after the other, the generator going on from one
    to the next: [want i rows data] says that timeline [i] has these data and gives these
    rows. *)
Inductive stream {R} (smp : sampler R) (nb : nat) (want : nat -> list (list cell) -> list (list cell) -> Prop) : R -> list nat -> Prop :=
| stream_end g : stream smp nb want g []
| stream_next g g' i ts data ix rows :
    want i data rows -> smp g (length data) nb = (g', Ok ix) -> rows_at data ix rows ->
    stream smp nb want g' ts -> stream smp nb want g (i :: ts).

(** What a call declares, if it is accepted: a pipeline must find its columns in the frame and
    give the column the shuffler reads. *)
Definition sop_name (o : sop) : string := match o with SData n _ => n | SPipe n _ _ => n end.
Definition sop_timeline (o : sop) : timeline := match o with SData _ d => Raw d | SPipe _ a p => FromPipe a p end.
Definition sop_accepted (w : world) (fh : fheap) (o : sop) : Prop :=
  match o with
  | SData _ _ => True
  | SPipe _ a p =>
      let pl := pl_plug (pipe_at w p) in
      (forall n, In n (lget (lists w) (p_in pl)) -> exists s, In (s, n) (keys (standardize (fget fh a)))) /\
      In "to_shuffler" (lget (lists w) (p_out pl))
  end.
Definition sop_frame (fh : fheap) (o : sop) : Prop := match o with SData _ _ => True | SPipe _ a _ => a < length fh end.

(** The timeline that stands under a name: the one of the last accepted call with this name. *)
Definition stands (w : world) (fh : fheap) (ops : list sop) (name : string) (tl : timeline) : Prop :=
  exists before o after, ops = before ++ o :: after /\ sop_name o = name /\ sop_timeline o = tl /\ sop_accepted w fh o /\
    (forall o', In o' after -> sop_name o' = name -> ~ sop_accepted w fh o').
(** [a] was first declared before [b]. *)
Definition declared_before (w : world) (fh : fheap) (ops : list sop) (a b : string) : Prop :=
  exists before o after, ops = before ++ o :: after /\ sop_name o = a /\ sop_accepted w fh o /\
    (forall o', In o' before -> sop_name o' = b -> ~ sop_accepted w fh o') /\ a <> b /\
    (exists o', In o' after /\ sop_name o' = b /\ sop_accepted w fh o').
