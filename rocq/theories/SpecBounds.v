(** Specification vocabulary: bounds on what a study costs. *)
From Coq Require Import String List ZArith QArith Arith.
From Verif Require Import Base Numeric Study Output SpecStudy SpecLP.
Import ListNotations.
Open Scope nat_scope.

(** The study as it is in its first [k] times. *)
Definition first_times (k : nat) (s : study) : study := Study (st_version s) (st_networks s) (st_converters s) k (st_nb_scn s).

(** No price is negative in scenario [scn] from time [k] on. *)
Record no_gift (s : study) (scn k : nat) : Prop := {
  ng_cons : forall net nd n c t, node_at s net nd = Some n -> In c (n_cons n) -> k <= t < st_horizon s -> (0 <= value (c_cost c) scn t)%Q;
  ng_prods : forall net nd n p t, node_at s net nd = Some n -> In p (n_prods n) -> k <= t < st_horizon s -> (0 <= value (p_cost p) scn t)%Q;
  ng_stors : forall net nd n y t, node_at s net nd = Some n -> In y (n_stors n) -> k <= t < st_horizon s -> (0 <= value (s_cost y) scn t)%Q;
  ng_links : forall net nd n l t, node_at s net nd = Some n -> In l (n_links n) -> k <= t < st_horizon s -> (0 <= value (l_cost l) scn t)%Q;
  ng_convs : forall name v t, conv_at s name = Some v -> k <= t < st_horizon s -> (0 <= ovalue (v_cost v) scn t)%Q
}.

(** What it costs to serve nothing: the price of all loads, and of keeping what the first
    storage of each node holds. *)
Definition idle_price (s : study) (scn : nat) : Q :=
  total (fun t => total (fun ns : string * network => total (fun kn : string * node =>
      (total (fun c => value (c_cost c) scn t * value (c_qty c) scn t) (n_cons (snd kn)) +
       match n_stors (snd kn) with [] => 0 | y :: _ => value (s_cost y) scn t * s_init y end)%Q) (snd ns)) (st_networks s))
    (seq 0 (st_horizon s)).
