(** Pandas frames as the workflow module uses them: a row index, columns labelled by
    (scenario, name), cells that are numbers or NaN. Only the operations called by
    hadar/workflow are modelled. *)
From Coq Require Import String Ascii List ZArith QArith Bool Arith Lia.
From Verif Require Import Base.
Import ListNotations.
Open Scope nat_scope.
Open Scope list_scope.

(** A label of the scenario level or of the row index: an integer, or anything else
    (dates, texts) by its text. *)
Inductive label := LInt (z : Z) | LStr (s : string).

Definition label_eqb (a b : label) : bool :=
  match a, b with
  | LInt x, LInt y => Z.eqb x y
  | LStr x, LStr y => String.eqb x y
  | _, _ => false
  end.

Lemma label_eqb_eq a b : label_eqb a b = true <-> a = b.
Proof.
  destruct a as [x | x], b as [y | y]; simpl; try (split; discriminate).
  - rewrite Z.eqb_eq. split; [intros -> | intros [=]]; auto.
  - rewrite String.eqb_eq. split; [intros -> | intros [=]]; auto.
Qed.

#[global] Instance EqB_label : EqB label := { eqb := label_eqb; eqb_eq := label_eqb_eq }.

(** A cell: a number, or NaN. *)
Definition cell := option Q.
Notation column := (list cell) (only parsing).

(** A frame whose columns carry the two levels (scenario, name). Columns are in order;
    nothing forbids two columns with the same labels. *)
Record frame := Frame { f_index : list label; f_cols : list ((label * string) * column) }.

(** A frame with flat column names: what the user may give, and what
    [timeline[scn]] returns (one scenario, first level dropped). *)
Record sframe := SFrame { s_index : list label; s_cols : list (string * column) }.

Inductive anyframe := AFlat (f : sframe) | AMulti (f : frame).

(** [df.columns] *)
Definition keys (f : frame) : list (label * string) := map fst (f_cols f).
Definition skeys (f : sframe) : list string := map fst (s_cols f).

(** [RangeIndex(n)] *)
Definition range (n : nat) : list label := map (fun i => LInt (Z.of_nat i)) (seq 0 n).

(** Stage.get_scenarios, pipeline.py 341-343. *)
Definition get_scenarios (f : frame) : list label := unique (map fst (keys f)).
(** Stage.get_names, pipeline.py 345-347. *)
Definition get_names (f : frame) : list string := unique (map snd (keys f)).

(** Stage.standardize_column, pipeline.py 300-314: flat names get scenario 0
    ([np.zeros_like(columns)]). *)
Definition standardize (f : anyframe) : frame :=
  match f with
  | AFlat s => Frame (s_index s) (map (fun nc => ((LInt 0, fst nc), snd nc)) (s_cols s))
  | AMulti g => g
  end.

(** Stage.build_multi_index, pipeline.py 316-339: [np.repeat] of the scenarios beside
    [np.tile] of the names. *)
Definition build_multi_index (scenarios : list label) (names : list string) : list (label * string) :=
  let n_scn := length scenarios in
  let n_names := length names in
  combine (nprepeat scenarios n_names) (tile names n_scn).

(** [timeline[scn]]: the columns of one scenario, in order, with the first level dropped.
    Simplification: pandas returns a Series instead when the only column is named "". *)
Definition scenario_of (f : frame) (scn : label) : sframe :=
  SFrame (f_index f)
         (map (fun kc => (snd (fst kc), snd kc))
              (filter (fun kc => eqb (fst (fst kc)) scn) (f_cols f))).

(** [value.reindex(labels)] on the rows of one column: the cell under the label, NaN when
    the label is absent. *)
Fixpoint row_at (idx : list label) (c : column) (l : label) : cell :=
  match idx, c with
  | i :: ir, x :: xr => if eqb i l then x else row_at ir xr l
  | _, _ => None
  end.

Fixpoint nodupb {A} `{EqB A} (l : list A) : bool :=
  match l with [] => true | x :: r => negb (mem x r) && nodupb r end.

(** Alignment of the rows of a value with the frame it is stored into (pandas
    [_reindex_for_setitem]): same index, copy; other index, reindex by label, which raises
    when the labels of the value are not unique. *)
Definition align_rows (n : nat) (v : sframe) (c : column) : res column :=
  if list_eqb label_eqb (s_index v) (range n) then Ok c
  else if nodupb (s_index v) then Ok (map (row_at (s_index v) c) (range n))
  else Err ValueError.

(** Alignment of the columns of a value with the block it is stored into. Same names: by
    position. Other names: reindex by name, NaN columns for absent names, surplus columns
    lost; raises when the names of the value are not unique. From pandas 1.3 on
    ([strict]) the numbers of columns must agree in any case. *)
Definition align_cols (strict : bool) (outs : list string) (n : nat) (v : sframe) : res (list column) :=
  if strict && negb (Nat.eqb (length outs) (length (s_cols v))) then Err ValueError
  else if list_eqb String.eqb outs (skeys v) then mapM (fun nc => align_rows n v (snd nc)) (s_cols v)
  else if nodupb (skeys v) then
    mapM (fun o => match dget o (s_cols v) with
                   | Some c => align_rows n v c
                   | None => Ok (repeat None n)
                   end) outs
  else Err ValueError.

(** Store columns one after the other into the columns of scenario [scn]. *)
Fixpoint fill (scn : label) (cols : list ((label * string) * column)) (vals : list column)
  : list ((label * string) * column) :=
  match cols with
  | [] => []
  | (k, c) :: r =>
      if eqb (fst k) scn then
        match vals with
        | v :: vs => (k, v) :: fill scn r vs
        | [] => (k, c) :: fill scn r []
        end
      else (k, c) :: fill scn r vals
  end.

(** [output[scn] = value]. Simplification: when [output] has no column of the scenario
    (a stage without outputs), pandas inserts or raises depending on its version; taken
    as raising. *)
Definition set_block (strict : bool) (outs : list string) (out : frame) (scn : label) (v : sframe) : res frame :=
  match outs with
  | [] => Err ValueError
  | _ => let* vals := align_cols strict outs (length (f_index out)) v in
         Ok (Frame (f_index out) (fill scn (f_cols out) vals))
  end.

(** [timeline.drop(names, axis=1, level=1)]: removes the columns with these names; raises
    when no column goes away (so also for an empty list of names). *)
Definition drop_names (f : frame) (names : list string) : res frame :=
  let kept := filter (fun kc => negb (mem (snd (fst kc)) names)) (f_cols f) in
  if Nat.eqb (length kept) (length (f_cols f)) then Err KeyError
  else Ok (Frame (f_index f) kept).

(** [timeline.clip(lower, upper)] on one cell; pandas exchanges two scalar bounds given in
    the wrong order; NaN stays NaN. *)
Definition qmin (a b : Q) : Q := if qle a b then a else b.
Definition qmax (a b : Q) : Q := if qle a b then b else a.
Definition clip_bounds (lower upper : option Q) : option Q * option Q :=
  match lower, upper with
  | Some l, Some u => (Some (qmin l u), Some (qmax l u))
  | _, _ => (lower, upper)
  end.
Definition clip_q (lower upper : option Q) (q : Q) : Q :=
  let '(l, u) := clip_bounds lower upper in
  let q1 := match u with Some b => if qlt b q then b else q | None => q end in
  match l with Some b => if qlt q1 b then b else q1 | None => q1 end.
Definition clip_cell (lower upper : option Q) (c : cell) : cell := option_map (clip_q lower upper) c.

(** [loss_qt[start:stop]]: positions of a Python slice with step 1 in an array of length
    [h]; negative bounds count from the end, bounds beyond the ends are cut. *)
Definition slice_bound (h : nat) (z : Z) : nat :=
  if (z <? 0)%Z then Z.to_nat (Z.max 0 (z + Z.of_nat h)) else Nat.min h (Z.to_nat z).
Definition in_slice (h : nat) (start stop : Z) (i : nat) : bool :=
  Nat.leb (slice_bound h start) i && Nat.ltb i (slice_bound h stop).
