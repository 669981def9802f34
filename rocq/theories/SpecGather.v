(** Specification vocabulary: two studies that differ only by how finely the consumptions
    and the productions of each node are told. *)
From Coq Require Import String List ZArith QArith Arith.
From Verif Require Import Base Numeric Study SpecStudy SpecLP.
Import ListNotations.
Open Scope nat_scope.

Section Gathered.
  Variables (h scn : nat).
  (** Quantity, at [t], of the elements of [l] sent to place [j] by [p]. *)
  Definition sent {A} (qty : A -> numval) (p : nat -> nat) (j t : nat) (l : list A) : Q :=
    qsum (map (fun ia => value (qty (snd ia)) scn t) (filter (fun ia => Nat.eqb (p (fst ia)) j) (combine (seq 0 (length l)) l))).
  (** Each element of [l] is sent to one of [l'] of the same price, and each element of [l']
      has the quantity of all those sent to it (none if nothing is). *)
  Definition gathered {A} (qty cost : A -> numval) (l l' : list A) : Prop := exists p : nat -> nat,
    (forall i a, nth_error l i = Some a -> exists b, nth_error l' (p i) = Some b /\
       forall t, t < h -> (value (cost a) scn t == value (cost b) scn t)%Q) /\
    (forall j b, nth_error l' j = Some b -> forall t, t < h -> (value (qty b) scn t == sent qty p j t l)%Q).
  (** No element of [l] has a negative quantity. *)
  Definition no_debt {A} (qty : A -> numval) (l : list A) : Prop :=
    forall a t, In a l -> t < h -> (0 <= value (qty a) scn t)%Q.
End Gathered.

(** [s'] is [s] told more coarsely in scenario [scn]. *)
Record coarser (s s' : study) (scn : nat) : Prop := {
  co_horizon : st_horizon s' = st_horizon s;
  co_convs : st_converters s' = st_converters s;
  co_networks : Forall2 (fun a b => fst b = fst a /\
      Forall2 (fun c d => fst d = fst c /\ n_stors (snd d) = n_stors (snd c) /\ n_links (snd d) = n_links (snd c) /\
          gathered (st_horizon s) scn c_qty c_cost (n_cons (snd c)) (n_cons (snd d)) /\
          gathered (st_horizon s) scn p_qty p_cost (n_prods (snd c)) (n_prods (snd d))) (snd a) (snd b))
    (st_networks s) (st_networks s')
}.
(** No consumption and no production of [s] is negative in scenario [scn]. *)
Definition undebted (s : study) (scn : nat) : Prop := forall net nd n, node_at s net nd = Some n ->
  no_debt (st_horizon s) scn c_qty (n_cons n) /\ no_debt (st_horizon s) scn p_qty (n_prods n).
