(** Specification vocabulary for numerical values: what a user means by giving a
    number, a list over time, a column over scenarios or a full matrix. It refers
    only to the objects passed in, not to the way hadar stores them. *)
From Coq Require Import String List ZArith QArith.
From Verif Require Import Base Numeric.
Import ListNotations.
Open Scope nat_scope.

(** The same data may come bare or inside the dictionary written by [to_json]. *)
Inductive carries : pyval -> json -> Prop :=
| carries_bare j : (forall d, j <> JObj d) -> carries (PJson j) j
| carries_dict d j : dget "value"%string d = Some j -> carries (PJson (JObj d)) j.

(** A number. *)
Definition given_number (q : Q) (x : pyval) : Prop := carries x (JNum q).

(** A one-dimensional series: list, array or pandas Series. *)
Definition given_series (l : list Q) (x : pyval) : Prop :=
  carries x (JList (map JNum l))
  \/ x = PArr (ND [length l] l) \/ x = PFrame (ND [length l] l).

(** A table with [c] columns, row by row. *)
Definition given_table (c : nat) (rows : list (list Q)) (x : pyval) : Prop :=
  Forall (fun r => length r = c) rows /\
  (carries x (JList (map (fun r => JList (map JNum r)) rows))
   \/ x = PArr (ND [length rows; c] (concat rows))
   \/ x = PFrame (ND [length rows; c] (concat rows))).

(** The array behind an array-like argument. *)
Inductive array_like : pyval -> ndarray -> Prop :=
| al_array a : array_like (PArr a) a
| al_frame a : array_like (PFrame a) a
| al_list x l a : carries x (JList l) -> np_array (JList l) = Ok a -> array_like x a.

(** Arguments whose array, if any, is a genuine array (its data fill its shape).
    This holds of every numpy array. *)
Definition sound_arg (x : pyval) : Prop :=
  match x with PArr a | PFrame a => nd_wf a | _ => True end.

(** An argument that is not an already built value. *)
Definition raw_arg (x : pyval) : Prop := forall v, x <> PNV v.
