(** Common vocabulary of the model: Python exceptions as values, a
    state-and-exception monad, insertion-ordered dictionaries, numpy arrays.
    Nothing here is specific to hadar. *)
From Coq Require Import String Ascii List ZArith QArith Bool Arith Lia.
Import ListNotations.
Open Scope nat_scope.
Open Scope list_scope.

(** ** Exceptions *)

(** The Python exception classes raised (explicitly or by the interpreter /
    numpy / pandas) in the modelled code. Messages are not modelled, except for
    [ServerError] whose message comes from the server
    (hadar/optimizer/remote/optimizer.py:21-23). *)
Inductive exn :=
| ValueError | KeyError | IndexError | TypeError | AttributeError
| ZeroDivisionError | IOError | UnboundLocalError
| ServerError (msg : string).

(** A computation that either returns or raises. *)
Inductive res (A : Type) :=
| Ok (a : A)
| Err (e : exn).
Arguments Ok {A} a.
Arguments Err {A} e.

Definition rbind {A B} (m : res A) (k : A -> res B) : res B :=
  match m with Ok a => k a | Err e => Err e end.

Notation "'let*' x ':=' m 'in' k" := (rbind m (fun x => k))
  (at level 200, x pattern, m at level 100, k at level 200, right associativity).

Definition is_ok {A} (r : res A) : bool :=
  match r with Ok _ => true | Err _ => false end.

(** Evaluate a list of computations left to right, stopping at the first
    exception (a Python comprehension or loop). *)
Fixpoint mapM {A B} (f : A -> res B) (l : list A) : res (list B) :=
  match l with
  | [] => Ok []
  | x :: r => let* y := f x in let* ys := mapM f r in Ok (y :: ys)
  end.

(** A fold that may raise (a [for] loop over an accumulator). *)
Fixpoint foldM {A S} (f : S -> A -> res S) (l : list A) (s : S) : res S :=
  match l with
  | [] => Ok s
  | x :: r => let* s' := f s x in foldM f r s'
  end.

(** ** State and exceptions: an exception keeps the state reached so far, as a
    Python statement sequence interrupted by [raise] does. *)
Definition ST (S A : Type) := S -> S * res A.

Definition sret {S A} (a : A) : ST S A := fun s => (s, Ok a).
Definition sraise {S A} (e : exn) : ST S A := fun s => (s, Err e).
Definition sget {S} : ST S S := fun s => (s, Ok s).
Definition sput {S} (s' : S) : ST S unit := fun _ => (s', Ok tt).
Definition slift {S A} (r : res A) : ST S A := fun s => (s, r).
Definition sbind {S A B} (m : ST S A) (k : A -> ST S B) : ST S B :=
  fun s => match m s with
           | (s', Ok a) => k a s'
           | (s', Err e) => (s', Err e)
           end.

Notation "'do' x '<-' m ';' k" := (sbind m (fun x => k))
  (at level 200, x pattern, m at level 100, k at level 200, right associativity).
Notation "m ';;' k" := (sbind m (fun _ => k))
  (at level 199, right associativity).

(** [if b: raise e] *)
Definition sguard {S} (b : bool) (e : exn) : ST S unit :=
  if b then sraise e else sret tt.

(** ** Decidable keys *)
Class EqB (A : Type) := {
  eqb : A -> A -> bool;
  eqb_eq : forall x y, eqb x y = true <-> x = y
}.

Global Instance EqB_string : EqB string := { eqb := String.eqb; eqb_eq := String.eqb_eq }.
Global Instance EqB_nat : EqB nat := { eqb := Nat.eqb; eqb_eq := Nat.eqb_eq }.
Global Instance EqB_Z : EqB Z := { eqb := Z.eqb; eqb_eq := Z.eqb_eq }.

Definition pair_eqb {A B} `{EqB A} `{EqB B} (x y : A * B) : bool :=
  eqb (fst x) (fst y) && eqb (snd x) (snd y).

Lemma pair_eqb_eq {A B} `{EqB A} `{EqB B} (x y : A * B) :
  pair_eqb x y = true <-> x = y.
Proof.
  destruct x as [a b], y as [c d]; unfold pair_eqb; simpl.
  rewrite andb_true_iff, !eqb_eq. split.
  - intros [-> ->]; reflexivity.
  - intros E; inversion E; auto.
Qed.

Global Instance EqB_pair {A B} `{EqB A} `{EqB B} : EqB (A * B) :=
  { eqb := pair_eqb; eqb_eq := pair_eqb_eq }.

(** Membership in a Python list ([x in l]). *)
Definition mem {A} `{EqB A} (x : A) (l : list A) : bool := existsb (eqb x) l.

(** [Index.unique()]: distinct elements in order of first appearance. *)
Fixpoint unique_from {A} `{EqB A} (seen : list A) (l : list A) : list A :=
  match l with
  | [] => []
  | x :: r => if mem x seen then unique_from seen r
              else x :: unique_from (x :: seen) r
  end.
Definition unique {A} `{EqB A} (l : list A) : list A := unique_from [] l.

(** ** Python dictionaries: insertion-ordered association lists *)
Definition dict (K V : Type) := list (K * V).

Section Dict.
  Context {K V : Type} `{EqB K}.

  (** [d.get(k)] *)
  Fixpoint dget (k : K) (d : dict K V) : option V :=
    match d with
    | [] => None
    | (k', v) :: r => if eqb k k' then Some v else dget k r
    end.

  (** [d[k] = v]: in place if the key is present, at the end otherwise. *)
  Fixpoint dset (k : K) (v : V) (d : dict K V) : dict K V :=
    match d with
    | [] => [(k, v)]
    | (k', v') :: r => if eqb k k' then (k', v) :: r else (k', v') :: dset k v r
    end.

  (** [k in d] *)
  Definition dmem (k : K) (d : dict K V) : bool :=
    match dget k d with Some _ => true | None => false end.

  (** [d[k]] *)
  Definition dlook (k : K) (d : dict K V) : res V :=
    match dget k d with Some v => Ok v | None => Err KeyError end.

  (** [d.keys()], [d.values()] *)
  Definition dkeys (d : dict K V) : list K := map fst d.
  Definition dvalues (d : dict K V) : list V := map snd d.

  (** [{k: v for k, v in l}] *)
  Definition dict_of (l : list (K * V)) : dict K V :=
    fold_left (fun d kv => dset (fst kv) (snd kv) d) l [].
End Dict.

(** [{k: f(v) for k, v in d.items()}] *)
Definition dmap {K V W} (f : V -> W) (d : dict K V) : dict K W :=
  map (fun kv => (fst kv, f (snd kv))) d.

(** The same with [f] possibly raising. *)
Definition dmapM {K V W} (f : V -> res W) (d : dict K V) : res (dict K W) :=
  mapM (fun kv => let* w := f (snd kv) in Ok (fst kv, w)) d.

(** ** Lists *)

(** [l[n] = f(l[n])]; no change when out of range (callers check the range). *)
Fixpoint upd_nth {A} (n : nat) (f : A -> A) (l : list A) : list A :=
  match l, n with
  | [], _ => []
  | x :: r, O => f x :: r
  | x :: r, S n' => x :: upd_nth n' f r
  end.

(** [l[n]] for a non-negative [n]. *)
Definition lnth {A} (l : list A) (n : nat) : res A :=
  match nth_error l n with Some a => Ok a | None => Err IndexError end.

(** [np.tile(l, n)] and [np.repeat(l, n)] on a one-dimensional array. *)
Definition tile {A} (l : list A) (n : nat) : list A := concat (repeat l n).
Definition nprepeat {A} (l : list A) (n : nat) : list A := flat_map (fun x => repeat x n) l.

Fixpoint list_eqb {A} (f : A -> A -> bool) (l m : list A) : bool :=
  match l, m with
  | [], [] => true
  | x :: l', y :: m' => f x y && list_eqb f l' m'
  | _, _ => false
  end.

(** ** Rationals *)
Definition qlt (a b : Q) : bool := negb (Qle_bool b a).
Definition qle (a b : Q) : bool := Qle_bool a b.

Definition qsum (l : list Q) : Q := fold_right Qplus 0%Q l.

Definition qnat (n : nat) : Q := inject_Z (Z.of_nat n).

(** ** JSON trees. [JPy] stands for a Python object that is not JSON data and
    that the code stores into a dictionary it was given (see [Json.v]). *)
Inductive json :=
| JNull
| JBool (b : bool)
| JNum (q : Q)
| JStr (s : string)
| JList (l : list json)
| JObj (d : list (string * json))
| JPy.

(** ** numpy arrays: shape and row-major data *)
Record ndarray := ND { shape : list nat; data : list Q }.

Definition size_of (s : list nat) : nat := fold_right Nat.mul 1 s.

Definition nd_wf (a : ndarray) : Prop := length (data a) = size_of (shape a).

(** Python index normalisation: [0 <= z < n] as is, [-n <= z < 0] from the end. *)
Definition pyindex (n : nat) (z : Z) : option nat :=
  if (0 <=? z)%Z && (z <? Z.of_nat n)%Z then Some (Z.to_nat z)
  else if (- Z.of_nat n <=? z)%Z && (z <? 0)%Z then Some (Z.to_nat (z + Z.of_nat n))
  else None.

(** [a[j]] on a one-dimensional array, [a[i, j]] on a two-dimensional one;
    anything else, or an index out of range, is an IndexError. *)
Definition nd_get1 (a : ndarray) (j : Z) : res Q :=
  match shape a with
  | [n] => match pyindex n j with
           | Some k => lnth (data a) k
           | None => Err IndexError
           end
  | _ => Err IndexError
  end.

Definition nd_get2 (a : ndarray) (i j : Z) : res Q :=
  match shape a with
  | [n; m] => match pyindex n i, pyindex m j with
              | Some k, Some l => lnth (data a) (k * m + l)
              | _, _ => Err IndexError
              end
  | _ => Err IndexError
  end.

(** [a[i, j] = q] with non-negative indices. *)
Definition nd_set2 (a : ndarray) (i j : nat) (q : Q) : res ndarray :=
  match shape a with
  | [n; m] => if (i <? n) && (j <? m)
              then Ok (ND (shape a) (upd_nth (i * m + j) (fun _ => q) (data a)))
              else Err IndexError
  | _ => Err IndexError
  end.

(** [np.zeros((n, m))] *)
Definition nd_zeros2 (n m : nat) : ndarray := ND [n; m] (repeat 0%Q (n * m)).

(** [np.array(x)] for nested lists of numbers. Ragged lists are refused with
    ValueError (numpy >= 1.24; older versions build an object array), other
    leaves with TypeError (the later comparison of the code raises it). *)
Fixpoint np_array (j : json) : res ndarray :=
  match j with
  | JNum q => Ok (ND [] [q])
  | JList l =>
      let* sub := (fix go (l : list json) : res (list ndarray) :=
                     match l with
                     | [] => Ok []
                     | x :: r => let* a := np_array x in
                                 let* b := go r in Ok (a :: b)
                     end) l in
      match sub with
      | [] => Ok (ND [0] [])
      | a :: rest =>
          if forallb (fun b => list_eqb Nat.eqb (shape b) (shape a)) rest
          then Ok (ND (length sub :: shape a) (flat_map data sub))
          else Err ValueError
      end
  | _ => Err TypeError
  end.

(** [a.tolist()] *)
Fixpoint tolist (s : list nat) (d : list Q) : json :=
  match s with
  | [] => JNum (hd 0%Q d)
  | n :: s' => JList (map (fun i => tolist s' (firstn (size_of s') (skipn (i * size_of s') d)))
                          (seq 0 n))
  end.
Definition nd_tolist (a : ndarray) : json := tolist (shape a) (data a).
