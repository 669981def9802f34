(** Model of the generator of numpy as used by hadar/workflow/pipeline.py: reseeding by
    Stage.__call__ (288-290), the seed of Fault (515-516) and the order of its draws. *)
From Coq Require Import String Ascii List ZArith QArith Bool Arith Lia.
From Verif Require Import Base Frame Pipeline.
Import ListNotations.
Open Scope nat_scope.
Open Scope string_scope.
Open Scope list_scope.

(** The global generator of numpy with states [R]: [np.random.seed], [np.random.choice] of 0
    or 1 with a probability of 1, and [np.random.randint] between two bounds. *)
Record generator (R : Type) := Generator {
  r_seed : Z -> R;
  r_flags : R -> Q -> nat -> R * list bool;
  r_ints : R -> Z -> Z -> nat -> R * list Z }.
Arguments Generator {R}.
Arguments r_seed {R}.
Arguments r_flags {R}.
Arguments r_ints {R}.

(** A stage with the seed of its constructor, read only by Fault (pipeline.py 488-513). *)
Record sstage := SStage { ss_stage : stage; ss_seed : option Z }.

(** [if self.seed:], pipeline.py 515: neither None nor 0. *)
Definition truthy (seed : option Z) : option Z :=
  match seed with Some z => if (z =? 0)%Z then None else Some z | None => None end.
(** What [np.random.seed] accepts. *)
Definition seed_ok (z : Z) : bool := (0 <=? z)%Z && (z <? 4294967296)%Z.

(** Fault._process_scenarios, pipeline.py 515-526: the draws for one scenario of [n] rows. *)
Definition draw_scenario {R} (rg : generator R) (seed : option Z) (freq : Q) (dmin dmax : Z) (n : nat) (s : R) : R * draw :=
  let s0 := match truthy seed with Some z => r_seed rg z | None => s end in
  let '(s1, flags) := r_flags rg s0 freq n in
  let nb_faults := count_true flags in
  let '(s2, faults_begin) := r_ints rg s1 0 (Z.of_nat n) nb_faults in
  let '(s3, faults_duration) := r_ints rg s2 dmin dmax nb_faults in
  (s3, Draw flags faults_begin faults_duration).

(** The loop of FocusStage._process_timeline 392-393 over the scenarios. Simplification: when a
    scenario raises, the state is that after all of them. *)
Fixpoint draw_scenarios {R} (rg : generator R) (seed : option Z) (freq : Q) (dmin dmax : Z) (n : nat) (scns : list label) (s : R)
  : R * (label -> draw) :=
  match scns with
  | [] => (s, fun _ => Draw [] [] [])
  | scn :: more =>
      let '(s1, d) := draw_scenario rg seed freq dmin dmax n s in
      let '(s2, ds) := draw_scenarios rg seed freq dmin dmax n more s1 in
      (s2, fun x => if label_eqb x scn then d else ds x)
  end.

(** _process_timeline with the generator. A seed out of range raises ValueError for the first
    scenario. Simplification: stages of the user draw nothing. *)
Definition seeded_process {R} (rg : generator R) (strict : bool) (h : lheap) (st : sstage) (s : R) (f : frame)
  : R * (anyframe * res (option anyframe)) :=
  match st_body (ss_stage st) with
  | BFault loss freq dmin dmax =>
      let '(s', d) := draw_scenarios rg (ss_seed st) freq dmin dmax (length (f_index f)) (get_scenarios f) s in
      if match truthy (ss_seed st) with Some z => seed_ok z | None => true end
      then (s', process strict h (ss_stage st) d f)
      else (s, process strict h (Stage (st_plug (ss_stage st)) (BFocus (fun _ _ => Err ValueError))) d f)
  | _ => (s, process strict h (ss_stage st) (fun _ => Draw [] [] []) f)
  end.

(** Stage.__call__, pipeline.py 279-298: [e] is what [os.urandom] gave. *)
Definition seeded_call {R} (rg : generator R) (strict : bool) (h : lheap) (st : sstage) (e : Z) (i : nat) (s : R)
           (fh : fheap) (a : nat) : R * (fheap * outcome) :=
  let f := standardize (fget fh a) in
  let fh1 := upd_nth a (fun _ => AMulti f) fh in
  let s0 := r_seed rg e in
  if negb (computable h (st_plug (ss_stage st)) (get_names f)) then (s0, (fh1, StageRefused i))
  else
    let '(s1, (f', r)) := seeded_process rg strict h st s0 f in
    let fh2 := fh1 ++ [f'] in
    (s1, match r with
         | Err x => (fh2, Raised i x)
         | Ok None => (fh2, Returned (length fh1))
         | Ok (Some g) => (fh2 ++ [g], Returned (length fh2))
         end).

(** Pipeline.__call__, pipeline.py 202-216; [e i] is the entropy of the [i]-th stage. *)
Fixpoint seeded_loop {R} (rg : generator R) (strict : bool) (h : lheap) (sts : list sstage) (e : nat -> Z) (i : nat) (s : R)
         (fh : fheap) (a : nat) : R * (fheap * outcome) :=
  match sts with
  | [] => (s, (fh, Returned a))
  | st :: more =>
      match seeded_call rg strict h st (e i) i s (fh ++ [fget fh a]) (length fh) with
      | (s', (fh', Returned a')) => seeded_loop rg strict h more e (S i) s' fh' a'
      | other => other
      end
  end.
Definition seeded_run {R} (rg : generator R) (strict : bool) (h : lheap) (p : plug) (sts : list sstage) (e : nat -> Z) (s : R)
           (fh : fheap) (a : nat) : R * (fheap * outcome) :=
  let f := standardize (fget fh a) in
  let fh1 := upd_nth a (fun _ => AMulti f) fh in
  if negb (computable h p (get_names f)) then (s, (fh1, PipelineRefused))
  else seeded_loop rg strict h sts e 0 s fh1 a.
