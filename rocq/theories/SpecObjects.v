(** When two studies, or two results, are the same, and which data are light enough to be
    compared. Dictionaries are the same when they give the same answers, in any order. *)
From Coq Require Import String List ZArith QArith.
From Verif Require Import Base Numeric Study Output.
Import ListNotations.
Open Scope nat_scope.

Definition same_map {K V} `{EqB K} (R : V -> V -> Prop) (d e : dict K V) : Prop :=
  forall k, match dget k d, dget k e with
            | Some x, Some y => R x y
            | None, None => True
            | _, _ => False
            end.

Definition same_array (a b : ndarray) : Prop := shape a = shape b /\ Forall2 Qeq (data a) (data b).

(** ** Studies *)
Definition same_value (v w : numval) : Prop :=
  match v, w with
  | Scalar p h n, Scalar q h' n' => (p == q)%Q /\ h = h' /\ n = n'
  | Matrix a h n, Matrix b h' n' | Row a h n, Row b h' n' | Column a h n, Column b h' n' =>
      same_array a b /\ h = h' /\ n = n'
  | _, _ => False
  end.
Definition same_option (v w : option numval) : Prop :=
  match v, w with Some v, Some w => same_value v w | None, None => True | _, _ => False end.

Definition same_cons (c d : consumption) : Prop :=
  c_name c = c_name d /\ same_value (c_cost c) (c_cost d) /\ same_value (c_qty c) (c_qty d).
Definition same_prod (c d : production) : Prop :=
  p_name c = p_name d /\ same_value (p_cost c) (p_cost d) /\ same_value (p_qty c) (p_qty d).
Definition same_stor (c d : storage) : Prop :=
  s_name c = s_name d /\ same_value (s_capacity c) (s_capacity d) /\ same_value (s_flow_in c) (s_flow_in d) /\
  same_value (s_flow_out c) (s_flow_out d) /\ same_value (s_cost c) (s_cost d) /\ (s_init c == s_init d)%Q /\
  same_value (s_eff c) (s_eff d).
Definition same_link (c d : link) : Prop :=
  l_dest c = l_dest d /\ same_value (l_cost c) (l_cost d) /\ same_value (l_qty c) (l_qty d).
Definition same_conv (c d : converter) : Prop :=
  v_name c = v_name d /\ same_map same_value (v_src c) (v_src d) /\ v_dnet c = v_dnet d /\ v_dnode c = v_dnode d /\
  same_option (v_cost c) (v_cost d) /\ same_option (v_max c) (v_max d).
Definition same_node (c d : node) : Prop :=
  Forall2 same_cons (n_cons c) (n_cons d) /\ Forall2 same_prod (n_prods c) (n_prods d) /\
  Forall2 same_stor (n_stors c) (n_stors d) /\ Forall2 same_link (n_links c) (n_links d).
Definition same_study (s s' : study) : Prop :=
  st_version s = st_version s' /\ st_horizon s = st_horizon s' /\ st_nb_scn s = st_nb_scn s' /\
  same_map (same_map same_node) (st_networks s) (st_networks s') /\
  same_map same_conv (st_converters s) (st_converters s').

(** Every value a study holds. *)
Inductive holds_value (s : study) (v : numval) : Prop :=
| hv_node net ns nd n : In (net, ns) (st_networks s) -> In (nd, n) ns ->
    In v (flat_map (fun c => [c_cost c; c_qty c]) (n_cons n) ++ flat_map (fun p => [p_cost p; p_qty p]) (n_prods n) ++
          flat_map (fun x => [s_capacity x; s_flow_in x; s_flow_out x; s_cost x; s_eff x]) (n_stors n) ++
          flat_map (fun l => [l_cost l; l_qty l]) (n_links n)) -> holds_value s v
| hv_conv name c : In (name, c) (st_converters s) ->
    In v (map snd (v_src c)) \/ v_cost c = Some v \/ v_max c = Some v -> holds_value s v.

(** A number, or an array of one entry with the shape of its class. *)
Definition one_entry (v : numval) : Prop :=
  match v with
  | Scalar _ _ _ => True
  | Row a _ _ => exists q, a = ND [1] [q]
  | Matrix a _ _ | Column a _ _ => exists q, a = ND [1; 1] [q]
  end.
(** Two entries or more. *)
Definition many_entries (v : numval) : Prop :=
  match v with
  | Scalar _ _ _ => False
  | Row a _ _ | Matrix a _ _ | Column a _ _ => 2 <= size_of (shape a)
  end.

(** ** Results *)
Definition result_arrays (r : result) : list ndarray :=
  flat_map (fun kn : string * onetwork => flat_map (fun kd : string * onode =>
    map oc_qty (on_cons (snd kd)) ++ map op_qty (on_prods (snd kd)) ++
    flat_map (fun x => [os_capacity x; os_flow_in x; os_flow_out x]) (on_stors (snd kd)) ++
    map ol_qty (on_links (snd kd))) (snd kn)) (r_networks r) ++
  flat_map (fun kv : string * oconverter => ov_dest (snd kv) :: map snd (ov_src (snd kv))) (r_converters r).
