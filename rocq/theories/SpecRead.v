(** Specification vocabulary: which study a tree tells, field by field. *)
From Coq Require Import String List ZArith QArith.
From Verif Require Import Base Numeric Study SpecStudy SpecJson SpecReach Json.
Import ListNotations.
Open Scope nat_scope.
Open Scope string_scope.
Open Scope list_scope.

(** The tree is an object with [x] at [k]; its keys are those of [req], and maybe some of [opt]. *)
Definition field (k : string) (j x : json) : Prop := exists d, j = JObj d /\ dget k d = Some x.
Definition fields (req opt : list string) (j : json) : Prop :=
  exists d, j = JObj d /\ (forall k, In k req -> In k (dkeys d)) /\ (forall k, In k (dkeys d) -> In k req \/ In k opt).

(** Nested lists of numbers of a shape, and their numbers in order. An empty list has no
    shape inside. *)
Fixpoint spells (sh : list nat) (x : json) (d : list Q) : Prop :=
  match sh with
  | [] => exists q, x = JNum q /\ d = [q]
  | k :: sh' => exists js ds, x = JList js /\ List.length js = k /\ (k = 0 -> sh' = []) /\
                              Forall2 (spells sh') js ds /\ d = concat ds
  end.
(** A value, told by a number, a list, a table or the dictionary of a value. A table of one
    column is one entry per scenario. *)
Definition tells (h n : nat) (x : json) (v : numval) : Prop :=
  exists y, (field "value" x y \/ ((forall d, x <> JObj d) /\ y = x)) /\
    match v with
    | Scalar q h' n' => h' = h /\ n' = n /\ y = JNum q
    | Row a h' n' => h' = h /\ n' = n /\ shape a = [h] /\ spells [h] y (data a)
    | Column a h' n' => h' = h /\ n' = n /\ shape a = [n; 1] /\ spells [n; 1] y (data a)
    | Matrix a h' n' => h' = h /\ n' = n /\ h <> 1 /\ shape a = [n; h] /\ spells [n; h] y (data a)
    end.
Definition value_at (h n : nat) (k : string) (j : json) (v : numval) : Prop := exists x, field k j x /\ tells h n x v.
(** A name, with the one taken when there is none. *)
Definition name_or (dflt : string) (j : json) (s : string) : Prop :=
  field "name" j (JStr s) \/ (s = dflt /\ forall x, ~ field "name" j x).

Definition told_list {A} (R : json -> A -> Prop) (j : json) (l : list A) : Prop := exists js, j = JList js /\ Forall2 R js l.
Definition told_dict {A} (R : json -> A -> Prop) (j : json) (d : dict string A) : Prop :=
  exists js, j = JObj js /\ Forall2 (fun kj ka => fst kj = fst ka /\ R (snd kj) (snd ka)) js d.

Section Told.
  Variables h n : nat.
  Definition told_cons (j : json) (c : consumption) : Prop :=
    fields ["quantity"; "cost"] ["name"] j /\
    value_at h n "cost" j (c_cost c) /\ value_at h n "quantity" j (c_qty c) /\ name_or "" j (c_name c).
  Definition told_prod (j : json) (p : production) : Prop :=
    fields ["quantity"; "cost"] ["name"] j /\
    value_at h n "cost" j (p_cost p) /\ value_at h n "quantity" j (p_qty p) /\ name_or "in" j (p_name p).
  Definition told_stor (j : json) (s : storage) : Prop :=
    fields ["name"; "capacity"; "flow_in"; "flow_out"; "cost"; "init_capacity"; "eff"] [] j /\
    value_at h n "cost" j (s_cost s) /\ value_at h n "capacity" j (s_capacity s) /\
    value_at h n "flow_in" j (s_flow_in s) /\ value_at h n "flow_out" j (s_flow_out s) /\
    value_at h n "eff" j (s_eff s) /\ field "name" j (JStr (s_name s)) /\ field "init_capacity" j (JNum (s_init s)).
  Definition told_link (j : json) (l : link) : Prop :=
    fields ["dest"; "quantity"; "cost"] [] j /\
    value_at h n "cost" j (l_cost l) /\ value_at h n "quantity" j (l_qty l) /\ field "dest" j (JStr (l_dest l)).
  (** The source with names [a] and [b] is written [a::b]. *)
  Definition told_sources (j : json) (src : dict (string * string) numval) : Prop :=
    exists js kvs, j = JObj js /\ src = dict_of kvs /\
      Forall2 (fun kj kv => fst kj = join_cc (fst kv) /\ plain_key (fst kv) /\ tells h n (snd kj) (snd kv)) js kvs.
  Definition told_conv (j : json) (v : converter) : Prop :=
    fields ["name"; "src_ratios"; "dest_network"; "dest_node"; "cost"; "max"] [] j /\
    (exists c, v_cost v = Some c /\ value_at h n "cost" j c) /\ (exists m, v_max v = Some m /\ value_at h n "max" j m) /\
    (exists x, field "src_ratios" j x /\ told_sources x (v_src v)) /\
    field "name" j (JStr (v_name v)) /\ field "dest_network" j (JStr (v_dnet v)) /\ field "dest_node" j (JStr (v_dnode v)).
  Definition told_node (j : json) (x : node) : Prop :=
    fields ["consumptions"; "productions"; "storages"; "links"] [] j /\
    (exists y, field "consumptions" j y /\ told_list told_cons y (n_cons x)) /\
    (exists y, field "productions" j y /\ told_list told_prod y (n_prods x)) /\
    (exists y, field "storages" j y /\ told_list told_stor y (n_stors x)) /\
    (exists y, field "links" j y /\ told_list told_link y (n_links x)).
  Definition told_network (j : json) (ns : network) : Prop :=
    fields ["nodes"] [] j /\ exists y, field "nodes" j y /\ told_dict told_node y ns.
End Told.

(** Other fields of the tree of a study are not looked at. *)
Definition told_study (j : json) (s : study) : Prop :=
  field "horizon" j (jnat (st_horizon s)) /\ field "nb_scn" j (jnat (st_nb_scn s)) /\
  ((exists v, field "version" j (JStr v) /\ st_version s = if String.eqb v "" then hadar_version else v) \/
   (field "version" j JNull /\ st_version s = hadar_version)) /\
  (exists y, field "networks" j y /\ told_dict (told_network (st_horizon s) (st_nb_scn s)) y (st_networks s)) /\
  (exists y, field "converters" j y /\ told_dict (told_conv (st_horizon s) (st_nb_scn s)) y (st_converters s)).

(** The studies that a text can tell: nothing is asked of names, links, and signs. *)
Record sized_node (h n : nat) (x : node) : Prop := {
  sn_cons : Forall (fun c => fits h n (c_cost c) /\ fits h n (c_qty c)) (n_cons x);
  sn_prods : Forall (fun p => fits h n (p_cost p) /\ fits h n (p_qty p)) (n_prods x);
  sn_stors : Forall (fun s => fits h n (s_capacity s) /\ fits h n (s_flow_in s) /\ fits h n (s_flow_out s) /\
                              fits h n (s_cost s) /\ fits h n (s_eff s)) (n_stors x);
  sn_links : Forall (fun l => fits h n (l_cost l) /\ fits h n (l_qty l)) (n_links x)
}.
Record sized_conv (h n : nat) (v : converter) : Prop := {
  sv_cost : exists c, v_cost v = Some c /\ fits h n c;
  sv_max : exists m, v_max v = Some m /\ fits h n m;
  sv_once : NoDup (dkeys (v_src v));
  sv_src : Forall (fun kr => plain_key (fst kr) /\ fits h n (snd kr)) (v_src v)
}.
Record readable (s : study) : Prop := {
  rs_version : st_version s <> "";
  rs_node : forall net ns nd x, In (net, ns) (st_networks s) -> In (nd, x) ns -> sized_node (st_horizon s) (st_nb_scn s) x;
  rs_conv : forall name v, In (name, v) (st_converters s) -> sized_conv (st_horizon s) (st_nb_scn s) v
}.
