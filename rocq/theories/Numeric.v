(** Model of hadar/optimizer/domain/numeric.py *)
From Coq Require Import String List ZArith QArith Bool Arith.
From Verif Require Import Base.
Import ListNotations.
Open Scope nat_scope.

(** The four concrete classes of NumericalValue; every object carries [value],
    [horizon] and [nb_scn] (numeric.py:23-26). *)
Inductive numval :=
| Scalar (v : Q) (horizon nb_scn : nat)        (* ScalarNumericalValue, 55-83 *)
| Matrix (a : ndarray) (horizon nb_scn : nat)  (* MatrixNumericalValue, 98-112 *)
| Row (a : ndarray) (horizon nb_scn : nat)     (* RowNumericValue, 115-133 *)
| Column (a : ndarray) (horizon nb_scn : nat). (* ColumnNumericValue, 136-154 *)

(** [v[i, j]]: numeric.py:60-70, 103-105, 120-126, 141-147. Indices are Python
    integers, hence [Z]: the explicit tests only look at the upper bound. *)
Definition getitem (v : numval) (i j : Z) : res Q :=
  match v with
  | Scalar q h n =>
      if (Z.of_nat n <=? i)%Z then Err IndexError
      else if (Z.of_nat h <=? j)%Z then Err IndexError
      else Ok q
  | Matrix a _ _ => nd_get2 a i j
  | Row a _ n =>
      if (Z.of_nat n <=? i)%Z then Err IndexError else nd_get1 a j
  | Column a h _ =>
      if (Z.of_nat h <=? j)%Z then Err IndexError else nd_get2 a i 0
  end.

(** [v[i, j]] with the natural numbers the other modules use. *)
Definition getn (v : numval) (i j : nat) : res Q := getitem v (Z.of_nat i) (Z.of_nat j).

(** [v < q] and [v > q]: numeric.py:72-76 (scalar), 91-95 ([np.all] of the
    element-wise comparison). *)
Definition nv_lt (v : numval) (q : Q) : bool :=
  match v with
  | Scalar x _ _ => qlt x q
  | Matrix a _ _ | Row a _ _ | Column a _ _ => forallb (fun x => qlt x q) (data a)
  end.
Definition nv_gt (v : numval) (q : Q) : bool :=
  match v with
  | Scalar x _ _ => qlt q x
  | Matrix a _ _ | Row a _ _ | Column a _ _ => forallb (fun x => qlt q x) (data a)
  end.

(** [v <= q] and [v >= q]: numeric.py:36-37, 43-44. *)
Definition nv_le (v : numval) (q : Q) : bool := negb (nv_gt v q).
Definition nv_ge (v : numval) (q : Q) : bool := negb (nv_lt v q).

(** [v.flatten()]: numeric.py:78-79 ([np.ones(h*n) * value], the product by one
    being simplified), 107-108, 128-129, 149-150. *)
Definition flatten (v : numval) : list Q :=
  match v with
  | Scalar q h n => repeat q (h * n)
  | Matrix a _ _ => data a
  | Row a _ n => tile (data a) n
  | Column a h _ => nprepeat (data a) h
  end.

(** Objects a user may pass where a numerical value is expected. *)
Inductive pyval :=
| PJson (j : json)       (* number, list, dict, str, bool, None *)
| PArr (a : ndarray)     (* numpy array *)
| PFrame (a : ndarray)   (* pandas Series / DataFrame, with its np.array(...) *)
| PNV (v : numval)       (* already a NumericalValue *)
| POther.                (* anything else, e.g. a numpy scalar *)

(** NumericalValueFactory.create, the part after conversion to an array:
    numeric.py:187-214. The message of the final ValueError reads
    [value.shape[1]] when the rank is not 1, which raises IndexError on a
    zero-dimensional array. *)
Definition create_arr (h n : nat) (a : ndarray) : res numval :=
  if list_eqb Nat.eqb (shape a) [h] then Ok (Row a h n)
  else if list_eqb Nat.eqb (shape a) [n; 1] then Ok (Column a h n)
  else if list_eqb Nat.eqb (shape a) [n; h] then Ok (Matrix a h n)
  else match shape a with [] => Err IndexError | _ => Err ValueError end.

(** numeric.py:177-216 on non-NumericalValue, after the ['value'] unwrapping. *)
Definition create_json (h n : nat) (j : json) : res numval :=
  match j with
  | JNum q => Ok (Scalar q h n)
  | JList _ => let* a := np_array j in create_arr h n a
  | _ => Err ValueError
  end.

(** NumericalValueFactory(h, n).create(value): numeric.py:167-216. *)
Definition create (h n : nat) (x : pyval) : res numval :=
  match x with
  | PNV v => Ok v
  | PJson (JObj d) =>
      match dget "value"%string d with
      | Some j => create_json h n j
      | None => Err ValueError
      end
  | PJson j => create_json h n j
  | PArr a => create_arr h n a
  | PFrame a => create_arr h n a
  | POther => Err ValueError
  end.
