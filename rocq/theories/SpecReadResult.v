(** Specification vocabulary: which result a tree tells, field by field. *)
From Coq Require Import String List ZArith QArith.
From Verif Require Import Base Numeric Study Output SpecStudy SpecJson SpecReach Json SpecRead.
Import ListNotations.
Open Scope nat_scope.
Open Scope string_scope.
Open Scope list_scope.

Definition array_at (k : string) (j : json) (a : ndarray) : Prop := exists x, field k j x /\ spells (shape a) x (data a).
(** Times of the solver, none when they are left out or null. *)
Definition times_or_none (k : string) (j : json) (l : list Q) : Prop :=
  field k j (JList (map JNum l)) \/ (l = [] /\ (field k j JNull \/ forall x, ~ field k j x)).
Definition number_or_zero (k : string) (j : json) (q : Q) : Prop :=
  field k j (JNum q) \/ (q = 0%Q /\ forall x, ~ field k j x).

Definition told_ocons (j : json) (c : oconsumption) : Prop :=
  fields ["quantity"] ["name"] j /\ array_at "quantity" j (oc_qty c) /\ name_or "" j (oc_name c).
Definition told_oprod (j : json) (p : oproduction) : Prop :=
  fields ["quantity"] ["name"] j /\ array_at "quantity" j (op_qty p) /\ name_or "in" j (op_name p).
Definition told_ostor (j : json) (s : ostorage) : Prop :=
  fields ["name"; "capacity"; "flow_in"; "flow_out"] [] j /\ field "name" j (JStr (os_name s)) /\
  array_at "capacity" j (os_capacity s) /\ array_at "flow_in" j (os_flow_in s) /\ array_at "flow_out" j (os_flow_out s).
Definition told_olink (j : json) (l : olink) : Prop :=
  fields ["dest"; "quantity"] [] j /\ field "dest" j (JStr (ol_dest l)) /\ array_at "quantity" j (ol_qty l).
(** The source with names [a] and [b] is written [a::b]. *)
Definition told_flows (j : json) (src : dict (string * string) ndarray) : Prop :=
  exists js kjs, j = JObj js /\
    Forall2 (fun kj kx => fst kj = join_cc (fst kx) /\ plain_key (fst kx) /\ snd kj = snd kx) js kjs /\
    Forall2 (fun kx ka => fst kx = fst ka /\ spells (shape (snd ka)) (snd kx) (data (snd ka))) (dict_of kjs) src.
Definition told_oconv (j : json) (v : oconverter) : Prop :=
  fields ["name"; "flow_src"; "flow_dest"] [] j /\ field "name" j (JStr (ov_name v)) /\
  (exists x, field "flow_src" j x /\ told_flows x (ov_src v)) /\ array_at "flow_dest" j (ov_dest v).
Definition told_onode (j : json) (x : onode) : Prop :=
  fields ["consumptions"; "productions"; "storages"; "links"] [] j /\
  (exists y, field "consumptions" j y /\ told_list told_ocons y (on_cons x)) /\
  (exists y, field "productions" j y /\ told_list told_oprod y (on_prods x)) /\
  (exists y, field "storages" j y /\ told_list told_ostor y (on_stors x)) /\
  (exists y, field "links" j y /\ told_list told_olink y (on_links x)).
Definition told_onetwork (j : json) (ns : onetwork) : Prop :=
  fields ["nodes"] [] j /\ exists y, field "nodes" j y /\ told_dict told_onode y ns.
Definition told_bench (j : json) (b : benchmark) : Prop :=
  fields [] ["modeler"; "solver"; "mapper"; "total"] j /\
  times_or_none "modeler" j (b_modeler b) /\ times_or_none "solver" j (b_solver b) /\
  number_or_zero "mapper" j (b_mapper b) /\ number_or_zero "total" j (b_total b).
(** Other fields of the tree of a result are not looked at. *)
Definition told_result (j : json) (r : result) : Prop :=
  (exists y, field "networks" j y /\ told_dict told_onetwork y (r_networks r)) /\
  (exists y, field "converters" j y /\ told_dict told_oconv y (r_converters r)) /\
  (exists y, field "benchmark" j y /\ told_bench y (r_benchmark r)).

(** Arrays that nested lists can spell: filled, and nothing inside an empty dimension. *)
Fixpoint spellable_shape (sh : list nat) : Prop :=
  match sh with [] => True | k :: sh' => (k = 0 -> sh' = []) /\ spellable_shape sh' end.
Definition spellable (a : ndarray) : Prop := nd_wf a /\ spellable_shape (shape a).
Definition spellable_node (x : onode) : Prop :=
  Forall (fun c => spellable (oc_qty c)) (on_cons x) /\ Forall (fun p => spellable (op_qty p)) (on_prods x) /\
  Forall (fun s => spellable (os_capacity s) /\ spellable (os_flow_in s) /\ spellable (os_flow_out s)) (on_stors x) /\
  Forall (fun l => spellable (ol_qty l)) (on_links x).
Definition spellable_conv (v : oconverter) : Prop :=
  spellable (ov_dest v) /\ NoDup (dkeys (ov_src v)) /\ Forall (fun ka => plain_key (fst ka) /\ spellable (snd ka)) (ov_src v).
(** The results that a text can tell. *)
Record readable_result (r : result) : Prop := {
  rr_node : forall net ns nd x, In (net, ns) (r_networks r) -> In (nd, x) ns -> spellable_node x;
  rr_conv : forall name v, In (name, v) (r_converters r) -> spellable_conv v
}.
