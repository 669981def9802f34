(** Specification vocabulary: the stacked view of a node with any number of storages. *)
From Coq Require Import String List ZArith QArith Arith.
From Verif Require Import Base Numeric Study Fluent Output LP SpecStudy SpecLP Analyzer SpecAnalyzer SpecTotals Viewer SpecViewer.
Import ListNotations.
Open Scope nat_scope.
Open Scope string_scope.
Open Scope list_scope.

(** Flows of the last storage declared in the study, when it is in this node. *)
Inductive kept_flow (s : study) (r : result) (net nd : string) : string -> string -> (nat -> nat -> Q) -> Prop :=
| K_in x o : is_element n_stors on_stors s r net nd x o -> last_element n_stors s net nd x ->
    kept_flow s r net nd "flow_in" (s_name x) (entry (os_flow_in o))
| K_out x o : is_element n_stors on_stors s r net nd x o -> last_element n_stors s net nd x ->
    kept_flow s r net nd "flow_out" (s_name x) (entry (os_flow_out o)).
(** What the view shows of the storages of a node: this flow, or nothing. *)
Definition seen (s : study) (r : result) (net nd kind : string) (scn t : nat) (q : Q) : Prop :=
  (exists name F, kept_flow s r net nd kind name F /\ (q == F scn t)%Q) \/ ((forall name F, ~ kept_flow s r net nd kind name F) /\ (q == 0)%Q).

(** As [stack_of], with the last storage in the place of all. *)
Record stack_seen (s : study) (r : result) (net nd : string) (scn : nat) (prod_kind cons_kind : string) (areas lines : list (cell * list cell)) : Prop := {
  ss_areas : exists p x v i, listed (fun name => quantity s r net nd AProd name prod_kind) scn p /\ listed (kept_flow s r net nd "flow_out") scn x /\
    listed (conv_flow s r net nd ADestConv) scn v /\ unless_zero (st_horizon s) "import" (fun t => positive (- balance r net nd scn t)) i /\
    piled (st_horizon s) (fun _ => 0%Q) (p ++ x ++ v ++ i) areas;
  ss_lines : exists c x v e, listed (fun name => quantity s r net nd ACons name cons_kind) scn c /\ listed (kept_flow s r net nd "flow_in") scn x /\
    listed (conv_flow s r net nd ASrcConv) scn v /\ unless_zero (st_horizon s) "export" (fun t => positive (balance r net nd scn t)) e /\
    piled (st_horizon s) (fun _ => 0%Q) (c ++ x ++ v ++ e) (rev lines)
}.
