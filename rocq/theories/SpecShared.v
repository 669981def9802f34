(** Specification of what a study has in common with the memory of its caller. *)
From Coq Require Import String List ZArith QArith Bool.
From Verif Require Import Base Numeric Study Shared.
Import ListNotations.
Open Scope nat_scope.

(** The data of a study. *)
Inductive datum (s : rstudy) : rval -> Prop :=
| D_cons net ns nd n c v : In (net, ns) (rst_networks s) -> In (nd, n) ns -> In c (rn_cons n) -> In v [rc_cost c; rc_qty c] -> datum s v
| D_prod net ns nd n p v : In (net, ns) (rst_networks s) -> In (nd, n) ns -> In p (rn_prods n) -> In v [rp_cost p; rp_qty p] -> datum s v
| D_stor net ns nd n x v : In (net, ns) (rst_networks s) -> In (nd, n) ns -> In x (rn_stors n) ->
    In v [rs_capacity x; rs_flow_in x; rs_flow_out x; rs_cost x; rs_eff x] -> datum s v
| D_link net ns nd n l v : In (net, ns) (rst_networks s) -> In (nd, n) ns -> In l (rn_links n) -> In v [rl_qty l; rl_cost l] -> datum s v
| D_src name c k v : In (name, c) (rst_converters s) -> In (k, v) (rv_src c) -> datum s v
| D_dest name c v : In (name, c) (rst_converters s) -> rv_cost c = Some v \/ rv_max c = Some v -> datum s v.

(** A value, a study has in its hands the array at an address of the caller. *)
Definition in_hand (p : nat) (v : rval) : Prop :=
  match v with RScalar _ _ _ => False | RMatrix a _ _ | RRow a _ _ | RColumn a _ _ => a = Given p end.
Definition holds_array (s : rstudy) (p : nat) : Prop := exists v, datum s v /\ in_hand p v.

(** What is passed in a declaration, and the arrays among it. *)
Definition args {X} (d : decl X) : list X :=
  match d with
  | DNetwork _ | DNode _ _ => []
  | DLink _ _ _ c q | DCons _ _ _ c q | DProd _ _ _ c q => [c; q]
  | DStor _ _ _ ca fi fo c _ e => [ca; fi; fo; c; e]
  | DConv _ _ _ mx c => [mx; c]
  | DToConv _ _ _ r => [r]
  end.
Definition passes (p : nat) (x : rarg) : Prop := match x with RArr q => q = p | RObj v => in_hand p v | _ => False end.
Definition passed (es : list event) (p : nat) : Prop := exists d x, In (Told d) es /\ In x (args d) /\ passes p x.
Definition written (es : list event) (p : nat) : Prop := exists d, In (Write p d) es.
Definition only_told (es : list event) : Prop := forall p, ~ written es p.

(** Which declarations are accepted, told with values. *)
Fixpoint outcomes (ds : list (decl pyval)) (s : study) : list (res unit) :=
  match ds with [] => [] | d :: r => let (s', o) := declare d s in o :: outcomes r s' end.
Definition build_all (ds : list (decl pyval)) (s : study) : study := fold_left (fun s d => fst (declare d s)) ds s.
Definition contents (m : memory) (ds : list (decl rarg)) : list (decl pyval) := map (map_decl (rd_arg m)) ds.
Definition same_shapes (m m' : memory) : Prop := forall p, shape (m' p) = shape (m p).
