(** Specification vocabulary: a study and its parts in time. *)
From Coq Require Import String List ZArith QArith Arith.
From Verif Require Import Base Numeric Study Output SpecStudy SpecLP.
Import ListNotations.
Open Scope nat_scope.

Section At.
  Variables (scn scn' t t' : nat).
  Definition same_value (v v' : numval) : Prop := (value v scn t == value v' scn' t')%Q.
  Definition same_ovalue (v v' : option numval) : Prop := (ovalue v scn t == ovalue v' scn' t')%Q.
  Record node_same (n n' : node) : Prop := {
    ns_cons : Forall2 (fun a b => same_value (c_qty a) (c_qty b) /\ same_value (c_cost a) (c_cost b)) (n_cons n) (n_cons n');
    ns_prods : Forall2 (fun a b => same_value (p_qty a) (p_qty b) /\ same_value (p_cost a) (p_cost b)) (n_prods n) (n_prods n');
    ns_stors : Forall2 (fun a b => same_value (s_capacity a) (s_capacity b) /\ same_value (s_flow_in a) (s_flow_in b) /\
      same_value (s_flow_out a) (s_flow_out b) /\ same_value (s_eff a) (s_eff b) /\ same_value (s_cost a) (s_cost b)) (n_stors n) (n_stors n');
    ns_links : Forall2 (fun a b => l_dest b = l_dest a /\ same_value (l_qty a) (l_qty b) /\ same_value (l_cost a) (l_cost b)) (n_links n) (n_links n')
  }.
  Definition conv_same (v v' : converter) : Prop :=
    Forall2 (fun a b => fst b = fst a /\ same_value (snd a) (snd b)) (v_src v) (v_src v') /\
    v_dnet v' = v_dnet v /\ v_dnode v' = v_dnode v /\ same_ovalue (v_max v) (v_max v') /\ same_ovalue (v_cost v) (v_cost v').
  (** At time [t'] of scenario [scn'] the study [s'] has the data that [s] has at time [t] of
      scenario [scn]; initial contents of storages are not compared. *)
  Record same_at (s s' : study) : Prop := {
    sa_nodes : Forall2 (fun a b => fst b = fst a /\ Forall2 (fun d e => fst e = fst d /\ node_same (snd d) (snd e)) (snd a) (snd b))
      (st_networks s) (st_networks s');
    sa_convs : Forall2 (fun a b => fst b = fst a /\ conv_same (snd a) (snd b)) (st_converters s) (st_converters s')
  }.
End At.

(** Scenario [scn'] of [s'] tells the [len] times of scenario [scn] of [s] from time [off] on. *)
Definition part_of (s s' : study) (scn scn' off len : nat) : Prop :=
  st_horizon s' = len /\ forall t, t < len -> same_at scn scn' (off + t) t s s'.

(** The first storage of each node of [s'] starts with what it holds in the result [r] of [s]
    just before time [k]. *)
Definition starts_from (s s' : study) (r : result) (scn k : nat) : Prop := forall net nd n n' rn,
  node_at s net nd = Some n -> node_at s' net nd = Some n' -> rnode_at r net nd = Some rn ->
  match n_stors n, n_stors n', on_stors rn with
  | y :: _, y' :: _, o :: _ => (s_init y' == match k with O => s_init y | S j => entry (os_capacity o) scn j end)%Q
  | _, _, _ => True
  end.
(** It starts with what it has at first in [s]. *)
Definition same_start (s s' : study) : Prop := forall net nd n n',
  node_at s net nd = Some n -> node_at s' net nd = Some n' ->
  match n_stors n, n_stors n' with
  | y :: _, y' :: _ => (s_init y' == s_init y)%Q
  | _, _ => True
  end.
