(** What the workflow module is documented to do (docs/source/architecture/workflow.rst and
    the doc strings), stated without the functions of the model: contracts of plugs, frames
    cell by cell, faults, samples. *)
From Coq Require Import String Ascii List ZArith QArith Bool Arith Lia Permutation.
From Verif Require Import Base Frame Pipeline.
Import ListNotations.
Open Scope nat_scope.
Open Scope string_scope.
Open Scope list_scope.

(** ** Plugs *)

(** A contract: nothing asked nor promised, or columns needed and columns offered. *)
Inductive contract := Anything | Needs (ins outs : list string).

(** What a plug says in a heap. *)
Definition view (h : lheap) (p : plug) : contract :=
  if p_free p then Anything else Needs (lget h (p_in p)) (lget h (p_out p)).

(** The documented arithmetic: [d] is the sum of [a] and [b]. *)
Definition doc_sum (a b d : contract) : Prop :=
  match a, b with
  | Anything, _ => d = b
  | _, Anything => d = a
  | Needs i o, Needs i' o' =>
      exists out, d = Needs i out /\
        (forall x, In x out <-> In x o' \/ (In x o /\ ~ In x i')) /\
        (exists more, out = o' ++ more)
  end.

(** Documented linking: the inputs of the second are among the outputs of the first. *)
Definition doc_links (a b : contract) : Prop :=
  match a, b with
  | Needs _ o, Needs i' _ => forall x, In x i' -> In x o
  | _, _ => True
  end.

(** The lists held by a plug exist. *)
Definition plug_ok (h : lheap) (p : plug) : Prop := p_in p < length h /\ p_out p < length h.

(** Every stage holds existing lists, every pipeline an existing list of existing stages. *)
Definition world_ok (w : world) : Prop :=
  (forall s, In s (stages w) -> plug_ok (lists w) (st_plug s)) /\
  (forall l s, In l (slists w) -> In s l -> s < length (stages w)) /\
  (forall p, In p (pipes w) -> pl_stages p < length (slists w) /\ plug_ok (lists w) (pl_plug p)).

(** An operation on objects that exist. *)
Definition op_ok (w : world) (o : op) : Prop :=
  match o with
  | NewStage _ _ _ _ => True
  | NewStageOn ain aout _ => ain < length (lists w) /\ aout < length (lists w)
  | NewList l => forall s, In s l -> s < length (stages w)
  | NewPipeline l => l < length (slists w)
  | Add x y =>
      match x with OStage a => a < length (stages w) | OPipe p => p < length (pipes w) end /\
      match y with OStage a => a < length (stages w) | OPipe p => p < length (pipes w) end
  end.
Fixpoint ops_ok (w : world) (l : list op) : Prop :=
  match l with
  | [] => True
  | o :: r => op_ok w o /\ ops_ok (fst (step w o)) r
  end.
Definition nothing : world := World [] [] [] [].

(** No stage without contract stands between two stages with one. *)
Definition no_gap (w : world) (l : list nat) : Prop :=
  forall i j k a b c, i < j -> j < k ->
    nth_error l i = Some a -> nth_error l j = Some b -> nth_error l k = Some c ->
    p_free (plug_of w a) = false -> p_free (plug_of w b) = true -> p_free (plug_of w c) = false -> False.

(** In a list of contracts: the column [n] reaches place [k] if a stage before it offers it
    and no stage in between asks for it. *)
Definition offers (cs : list contract) (k : nat) (n : string) : Prop :=
  exists i ins outs, i < k /\ nth_error cs i = Some (Needs ins outs) /\ In n outs /\
    forall j ins' outs', i < j -> j < k -> nth_error cs j = Some (Needs ins' outs') -> ~ In n ins'.
(** The stage at place [k], if it has a contract and another one before it has one too, gets
    all it asks for. *)
Definition fed (cs : list contract) (k : nat) : Prop :=
  forall ins outs, nth_error cs k = Some (Needs ins outs) ->
    (exists i x y, i < k /\ nth_error cs i = Some (Needs x y)) ->
    forall n, In n ins -> offers cs k n.
(** The stage just before place [k] has a contract. *)
Definition after_contract (cs : list contract) (k : nat) : Prop :=
  exists i x y, k = S i /\ nth_error cs i = Some (Needs x y).

(** Two stages do not share their lists of names. *)
Definition separate (w : world) (l : list nat) : Prop :=
  NoDup (map (fun a => p_out (plug_of w a)) l) /\
  (forall a b, In a l -> In b l -> p_out (plug_of w a) <> p_in (plug_of w b)).

(** ** Frames *)

(** The cell in the [j]-th column and [i]-th row. *)
Definition cell_at (f : frame) (j i : nat) : option cell :=
  match nth_error (f_cols f) j with
  | Some kc => nth_error (snd kc) i
  | None => None
  end.

(** All columns are as long as the index. *)
Definition frame_ok (f : frame) : Prop := forall kc, In kc (f_cols f) -> length (snd kc) = length (f_index f).
Definition sframe_ok (f : sframe) : Prop := forall nc, In nc (s_cols f) -> length (snd nc) = length (s_index f).

(** Some scenario exists, and every scenario has a column [n]. *)
Definition every (f : frame) (n : string) : Prop :=
  (exists s, In (s, n) (keys f)) /\
  (forall s m, In (s, m) (keys f) -> In (s, n) (keys f)).

(** The cells of the column [o] under the row label [l]. *)
Definition cell_of (v : sframe) (o : string) (l : label) (x : cell) : Prop :=
  exists c i, In (o, c) (s_cols v) /\ nth_error (s_index v) i = Some l /\ nth_error c i = Some x.

(** Rows are numbered from 0. *)
Definition plain_rows (f : frame) : Prop := f_index f = map (fun i => LInt (Z.of_nat i)) (seq 0 (length (f_index f))).

(** Columns listed scenario by scenario with the same names in the same order. *)
Definition grid (scns : list label) (names : list string) : list (label * string) :=
  flat_map (fun s => map (fun n => (s, n)) names) scns.
Definition regular (f : frame) (scns : list label) (names : list string) : Prop :=
  NoDup scns /\ NoDup names /\ keys f = grid scns names.

(** A list of the things of [l], each once. *)
Definition lists_all {T} (r l : list T) : Prop := NoDup r /\ forall x, In x r <-> In x l.

(** Every scenario has every name. *)
Definition complete (f : frame) : Prop :=
  forall s n s' n', In (s, n') (keys f) -> In (s', n) (keys f) -> In (s, n) (keys f).

(** [g] is [f] repeated [n] times: scenario [k * nb + s] of [g] has the columns of the
    [s]-th of the scenarios [scns] of [f]. *)
Definition repeated (n : nat) (scns : list label) (f g : frame) : Prop :=
  forall k s scn x c, k < n -> nth_error scns s = Some scn ->
    (In ((LInt (Z.of_nat (k * length scns + s)), x), c) (f_cols g) <-> In ((scn, x), c) (f_cols f)).

(** [kept names a b]: [b] is [a] without the columns bearing one of the names. *)
Inductive kept {C : Type} (names : list string) : list ((label * string) * C) -> list ((label * string) * C) -> Prop :=
| kept_nil : kept names [] []
| kept_skip s n c a b : In n names -> kept names a b -> kept names (((s, n), c) :: a) b
| kept_keep s n c a b : ~ In n names -> kept names a b -> kept names (((s, n), c) :: a) (((s, n), c) :: b).

(** ** Bounds *)
Definition above (lower : option Q) (q : Q) : Prop := match lower with Some l => (l <= q)%Q | None => True end.
Definition below (upper : option Q) (q : Q) : Prop := match upper with Some u => (q <= u)%Q | None => True end.
Definition ordered (lower upper : option Q) : Prop :=
  match lower, upper with Some l, Some u => (l <= u)%Q | _, _ => True end.

(** ** Faults *)

(** What numpy may draw for a scenario of [h] times. *)
Definition legal_draw (h : nat) (dmin dmax : Z) (d : draw) : Prop :=
  length (d_flags d) = h /\
  length (d_begin d) = length (filter (fun b => b) (d_flags d)) /\
  length (d_duration d) = length (filter (fun b => b) (d_flags d)) /\
  (forall b, In b (d_begin d) -> (0 <= b < Z.of_nat h)%Z) /\
  (forall x, In x (d_duration d) -> (dmin <= x < dmax)%Z).

(** How many of the drawn faults cover time [t]. *)
Definition covers (bd : Z * Z) (t : nat) : bool := (fst bd <=? Z.of_nat t)%Z && (Z.of_nat t <? fst bd + snd bd)%Z.
Definition faults_at (d : draw) (t : nat) : nat :=
  length (filter (fun bd => covers bd t) (combine (d_begin d) (d_duration d))).

(** Downtimes of either sign: a fault ending before time 0 ends at that many times before the
    end of the scenario. [h] is the number of times of the scenario. *)
Definition reaches (h : nat) (bd : Z * Z) (t : nat) : bool :=
  (fst bd <=? Z.of_nat t)%Z &&
  (Z.of_nat t <? (if (fst bd + snd bd <? 0)%Z then fst bd + snd bd + Z.of_nat h else fst bd + snd bd))%Z.
Definition faults_reaching (h : nat) (d : draw) (t : nat) : nat :=
  length (filter (fun bd => reaches h bd t) (combine (d_begin d) (d_duration d))).

(** ** Running *)

(** [g] is the frame with flat labels [n] turned into [(0, n)], or the frame itself. *)
Definition relabelled (f : anyframe) (g : frame) : Prop :=
  match f with
  | AMulti x => g = x
  | AFlat s => f_index g = s_index s /\
               Forall2 (fun nc kc => fst kc = (LInt 0, fst nc) /\ snd kc = snd nc) (s_cols s) (f_cols g)
  end.

(** What a stage hands on, if it does not fail: the frame returned, or the one it was given
    after its changes. *)
Definition handed (r : anyframe * res (option anyframe)) : option frame :=
  match r with
  | (f, Ok None) => Some (standardize f)
  | (_, Ok (Some g)) => Some (standardize g)
  | (_, Err _) => None
  end.

(** A stage honours its contract, [decl] being the outputs it was declared with: given the
    columns it asks for, in every scenario, it does not miss a column, and hands on in every
    scenario the columns it declared and those which pass by it ([every] column for a free
    stage; for a restricted one those it did not ask for and which linking noted in its
    outputs). *)
Definition honours (strict : bool) (h : lheap) (decl : list string) (st : stage) : Prop :=
  let p := st_plug st in
  forall d f, (p_free p = false -> forall n, In n (lget h (p_in p)) -> every f n) ->
    snd (process strict h st d f) <> Err KeyError /\
    forall g, handed (process strict h st d f) = Some g ->
      (p_free p = true -> forall n, every f n -> every g n) /\
      (p_free p = false -> forall n, In n decl -> every g n) /\
      (p_free p = false -> forall n, every f n -> ~ In n (lget h (p_in p)) -> In n (lget h (p_out p)) -> every g n).

(** An end that is not about a missing column; if it is a frame, it has [promised]. *)
Definition well_ended (promised : list string) (fh : fheap) (o : outcome) : Prop :=
  match o with
  | Returned a => forall n, In n promised -> every (standardize (fget fh a)) n
  | PipelineRefused | StageRefused _ => False
  | Raised _ e => e <> KeyError
  end.

(** The columns of one scenario, in order, under their names alone. *)
Inductive columns_of (scn : label) : list ((label * string) * column) -> list (string * column) -> Prop :=
| CO_nil : columns_of scn [] []
| CO_take n c r l : columns_of scn r l -> columns_of scn (((scn, n), c) :: r) ((n, c) :: l)
| CO_skip s n c r l : s <> scn -> columns_of scn r l -> columns_of scn (((s, n), c) :: r) l.
Definition alone_in (f : frame) (scn : label) (v : sframe) : Prop := s_index v = f_index f /\ columns_of scn (f_cols f) (s_cols v).
