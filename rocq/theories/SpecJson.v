(** Specification vocabulary for the JSON properties. *)
From Coq Require Import String List ZArith QArith.
From Verif Require Import Base Numeric Study Fluent Output SpecNumeric SpecStudy.
Import ListNotations.
Open Scope string_scope.
Open Scope list_scope.

(** The text contains two consecutive colons / ends with a colon. *)
Definition contains_cc (s : string) : Prop := exists p q, s = (p ++ "::" ++ q)%string.
Definition ends_colon (s : string) : Prop := exists p, s = (p ++ ":")%string.

(** A (network, node) pair whose names do not interfere with the separator. *)
Definition plain_key (k : string * string) : Prop :=
  ~ contains_cc (fst k) /\ ~ ends_colon (fst k) /\ ~ contains_cc (snd k).

(** Programs whose arguments are user data: numbers, lists, arrays, frames. *)
Definition meth_args (m : meth) : list pyval :=
  match m with
  | MNetwork _ | MNode _ => []
  | MLink _ _ c q | MConsumption _ c q | MProduction _ c q => [c; q]
  | MConverter _ _ _ mx c => [mx; c]
  | MStorage _ ca fi fo c _ e => [ca; fi; fo; c; e]
  | MToConverter _ r => [r]
  end.
Definition call_args (c : call) : list pyval :=
  match c with
  | OnStudy_add_link _ _ _ c q => [c; q]
  | OnSel _ m => meth_args m
  | _ => []
  end.
Definition plain_arg (x : pyval) : Prop := raw_arg x /\ sound_arg x.
Definition plain_program (cs : list call) : Prop :=
  forall c x, In c cs -> In x (call_args c) -> plain_arg x.

(** Every converter has a destination, and plain source keys. *)
Definition complete_converters (s : study) : Prop :=
  forall name v, conv_at s name = Some v ->
    v_cost v <> None /\ v_max v <> None /\
    forall k, In k (dkeys (v_src v)) -> plain_key k.

(** Results whose arrays are genuine arrays without empty axis. *)
Definition full_array (a : ndarray) : Prop := nd_wf a /\ Forall (fun n => 0 < n)%nat (shape a).

Definition node_arrays (n : onode) : list ndarray :=
  map oc_qty (on_cons n) ++ map op_qty (on_prods n)
  ++ flat_map (fun s => [os_capacity s; os_flow_in s; os_flow_out s]) (on_stors n)
  ++ map ol_qty (on_links n).
Definition conv_arrays (v : oconverter) : list ndarray := ov_dest v :: map snd (ov_src v).

Record full_result (r : result) : Prop := {
  fr_nodes : forall net ns nd n a, In (net, ns) (r_networks r) -> In (nd, n) ns ->
               In a (node_arrays n) -> full_array a;
  fr_convs : forall name v a, In (name, v) (r_converters r) -> In a (conv_arrays v) -> full_array a;
  fr_keys : forall name v, In (name, v) (r_converters r) -> NoDup (dkeys (ov_src v))
}.
