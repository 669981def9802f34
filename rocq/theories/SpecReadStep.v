(** Specification vocabulary: which solved time step a tree tells, field by field. *)
From Coq Require Import String List ZArith QArith.
From Verif Require Import Base Numeric Study Output SpecStudy SpecJson Json SpecRead Transport.
Import ListNotations.
Open Scope nat_scope.
Open Scope string_scope.
Open Scope list_scope.

(** A number, with the one taken when there is none. *)
Definition number_or (k : string) (dflt : Q) (j : json) (q : Q) : Prop :=
  field k j (JNum q) \/ (q = dflt /\ forall x, ~ field k j x).

Definition told_lpcons (j : json) (c : dcons) : Prop :=
  fields ["quantity"; "variable"] ["cost"; "name"] j /\
  field "quantity" j (JNum (dc_qty c)) /\ field "variable" j (JNum (dc_val c)) /\
  number_or "cost" 0 j (dc_cost c) /\ name_or "" j (dc_name c).
Definition told_lpprod (j : json) (p : dprod) : Prop :=
  fields ["quantity"; "variable"] ["cost"; "name"] j /\
  field "quantity" j (JNum (dp_qty p)) /\ field "variable" j (JNum (dp_val p)) /\
  number_or "cost" 0 j (dp_cost p) /\ name_or "in" j (dp_name p).
Definition told_lpstor (j : json) (s : dstor) : Prop :=
  fields ["name"; "capacity"; "var_capacity"; "flow_in"; "var_flow_in"; "flow_out"; "var_flow_out"] ["cost"; "init_capacity"; "eff"] j /\
  field "name" j (JStr (ds_name s)) /\
  field "capacity" j (JNum (ds_capacity s)) /\ field "var_capacity" j (JNum (ds_vcap s)) /\
  field "flow_in" j (JNum (ds_flow_in s)) /\ field "var_flow_in" j (JNum (ds_vin s)) /\
  field "flow_out" j (JNum (ds_flow_out s)) /\ field "var_flow_out" j (JNum (ds_vout s)) /\
  number_or "cost" 0 j (ds_cost s) /\ number_or "init_capacity" 0 j (ds_init s) /\ number_or "eff" (99 # 100) j (ds_eff s).
Definition told_lplink (j : json) (l : dlink) : Prop :=
  fields ["src"; "dest"; "quantity"; "variable"] ["cost"] j /\
  field "src" j (JStr (dl_src l)) /\ field "dest" j (JStr (dl_dest l)) /\
  field "quantity" j (JNum (dl_qty l)) /\ field "variable" j (JNum (dl_val l)) /\ number_or "cost" 0 j (dl_cost l).

(** The parts of a text between the separators, from the left: no part holds a separator, and
    none that is followed by one ends with a colon. *)
Inductive parts : string -> list string -> Prop :=
| parts_last t : ~ contains_cc t -> parts t [t]
| parts_more p t l : ~ contains_cc p -> ~ ends_colon p -> parts t l -> parts (p ++ "::" ++ t) (p :: l).
(** Later entries of the same parts replace earlier ones. *)
Definition told_numbers (j : json) (d : dict (list string) Q) : Prop :=
  exists js kjs, j = JObj js /\
    Forall2 (fun kj kx => parts (fst kj) (fst kx) /\ snd kj = snd kx) js kjs /\
    Forall2 (fun kx kq => fst kx = fst kq /\ snd kx = JNum (snd kq)) (dict_of kjs) d.
Definition told_lpconv (j : json) (v : dconv) : Prop :=
  fields ["name"; "src_ratios"; "var_flow_src"; "dest_network"; "dest_node"; "var_flow_dest"; "cost"; "max"] [] j /\
  field "name" j (JStr (dv_name v)) /\
  (exists x, field "src_ratios" j x /\ told_numbers x (dv_ratios v)) /\
  (exists x, field "var_flow_src" j x /\ told_numbers x (dv_src v)) /\
  field "dest_network" j (JStr (dv_dnet v)) /\ field "dest_node" j (JStr (dv_dnode v)) /\
  field "var_flow_dest" j (JNum (dv_dest v)) /\ field "cost" j (JNum (dv_cost v)) /\ field "max" j (JNum (dv_max v)).
Definition told_lpnode (j : json) (x : dnode) : Prop :=
  fields ["consumptions"; "productions"; "storages"; "links"] [] j /\
  (exists y, field "consumptions" j y /\ told_list told_lpcons y (dn_cons x)) /\
  (exists y, field "productions" j y /\ told_list told_lpprod y (dn_prods x)) /\
  (exists y, field "storages" j y /\ told_list told_lpstor y (dn_stors x)) /\
  (exists y, field "links" j y /\ told_list told_lplink y (dn_links x)).
Definition told_lpnet (j : json) (ns : dict string dnode) : Prop :=
  fields ["nodes"] [] j /\ exists y, field "nodes" j y /\ told_dict told_lpnode y ns.
(** Other fields of the tree of a step are not looked at. *)
Definition told_lpstep (j : json) (p : dstep) : Prop :=
  (exists y, field "networks" j y /\ told_dict told_lpnet y (dt_networks p)) /\
  (exists y, field "converters" j y /\ told_dict told_lpconv y (dt_converters p)).

(** The steps that a tree can tell: the keys of a converter are parts of a text, each once. *)
Definition keyed (d : dict (list string) Q) : Prop := NoDup (dkeys d) /\ forall k, In k (dkeys d) -> exists t, parts t k.
Definition readable_step (p : dstep) : Prop :=
  forall name v, In (name, v) (dt_converters p) -> keyed (dv_ratios v) /\ keyed (dv_src v).
