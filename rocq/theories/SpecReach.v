(** Specification vocabulary: the studies that make sense to the building methods,
    told by their contents alone. *)
From Coq Require Import String List ZArith QArith.
From Verif Require Import Base Numeric Study SpecStudy.
Import ListNotations.
Open Scope nat_scope.
Open Scope string_scope.
Open Scope list_scope.

(** A value for a study of [h] times and [n] scenarios: a number, one entry per time,
    one per scenario, or one per scenario and time. A table of one column is told to be
    one entry per scenario. *)
Definition fits (h n : nat) (v : numval) : Prop :=
  match v with
  | Scalar _ h' n' => h' = h /\ n' = n
  | Row a h' n' => h' = h /\ n' = n /\ shape a = [h] /\ List.length (data a) = h
  | Column a h' n' => h' = h /\ n' = n /\ shape a = [n; 1] /\ List.length (data a) = n
  | Matrix a h' n' => h' = h /\ n' = n /\ h <> 1 /\ shape a = [n; h] /\ List.length (data a) = n * h
  end.

(** Some entry is on the right side of a limit: what the building methods look at. *)
Definition not_below (q : Q) (v : numval) : Prop := exists x, In x (entries v) /\ (q <= x)%Q.
Definition not_above (q : Q) (v : numval) : Prop := exists x, In x (entries v) /\ (x <= q)%Q.

Definition good_cons (h n : nat) (c : consumption) : Prop :=
  fits h n (c_cost c) /\ fits h n (c_qty c) /\ not_below 0 (c_qty c).
Definition good_prod (h n : nat) (p : production) : Prop :=
  fits h n (p_cost p) /\ fits h n (p_qty p) /\ not_below 0 (p_qty p).
Definition good_link (h n : nat) (l : link) : Prop :=
  fits h n (l_cost l) /\ fits h n (l_qty l) /\ not_below 0 (l_qty l).
Record good_stor (h n : nat) (x : storage) : Prop := {
  gs_fits : fits h n (s_capacity x) /\ fits h n (s_flow_in x) /\ fits h n (s_flow_out x) /\
            fits h n (s_cost x) /\ fits h n (s_eff x);
  gs_low : not_below 0 (s_capacity x) /\ not_below 0 (s_flow_in x) /\ not_below 0 (s_flow_out x) /\
           not_below 0 (s_eff x);
  gs_eff : not_above 1 (s_eff x);
  gs_init : (0 <= s_init x)%Q
}.
Record good_node (h n : nat) (x : node) : Prop := {
  gn_cons : Forall (good_cons h n) (n_cons x);
  gn_prods : Forall (good_prod h n) (n_prods x);
  gn_stors : Forall (good_stor h n) (n_stors x);
  gn_links : Forall (good_link h n) (n_links x)
}.
Definition fits_opt (h n : nat) (o : option numval) : Prop := match o with Some v => fits h n v | None => True end.
(** The cost of a converter is given before its maximum. *)
Record good_conv (h n : nat) (v : converter) : Prop := {
  gv_src : Forall (fun kr => fits h n (snd kr)) (v_src v);
  gv_cost : fits_opt h n (v_cost v);
  gv_max : fits_opt h n (v_max v);
  gv_order : v_max v <> None -> v_cost v <> None
}.

(** Well-formed ([study_wf]: names are unique, links and converters join nodes of the
    study), with data as above; a converter needs a network to be called from. *)
Record valid_study (s : study) : Prop := {
  vs_horizon : 0 < st_horizon s;
  vs_nb_scn : 0 < st_nb_scn s;
  vs_version : st_version s <> "";
  vs_wf : study_wf s;
  vs_node : forall net nd x, node_at s net nd = Some x -> good_node (st_horizon s) (st_nb_scn s) x;
  vs_conv : forall name v, conv_at s name = Some v -> good_conv (st_horizon s) (st_nb_scn s) v;
  vs_network : st_converters s <> [] -> st_networks s <> []
}.
