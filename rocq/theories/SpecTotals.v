(** Specification of balances, costs, remaining capacities and counts. *)
From Coq Require Import String List ZArith QArith Bool.
From Verif Require Import Base Numeric Study Fluent Output LP SpecStudy SpecLP.
Import ListNotations.
Open Scope nat_scope.

(** Energy sent on the links leaving a node minus energy received on links reaching it. *)
Definition balance (r : result) (net nd : string) (scn t : nat) : Q :=
  ((match rnode_at r net nd with Some rn => exported scn rn t | None => 0 end) - imported r scn net nd t)%Q.

(** Unused production and unserved consumption of a network. *)
Definition unused (scn t : nat) (n : node) (rn : onode) : Q :=
  total (fun po => value (p_qty (fst po)) scn t - entry (op_qty (snd po)) scn t)%Q (combine (n_prods n) (on_prods rn)).
Definition unserved (scn t : nat) (n : node) (rn : onode) : Q :=
  total (fun co => value (c_qty (fst co)) scn t - entry (oc_qty (snd co)) scn t)%Q (combine (n_cons n) (on_cons rn)).
Definition remaining (s : study) (r : result) (net : string) (scn t : nat) : Q :=
  match dget net (st_networks s), dget net (r_networks r) with
  | Some ns, Some rns => (total (fun dd => unused scn t (snd (fst dd)) (snd (snd dd))) (combine ns rns)
                          - total (fun dd => unserved scn t (snd (fst dd)) (snd (snd dd))) (combine ns rns))%Q
  | _, _ => 0%Q
  end.

(** Cost of the energy that converters deliver to a node. *)
Definition delivery_cost (s : study) (r : result) (net nd : string) (scn t : nat) : Q :=
  total (fun vv => if goes_to s (fst (fst vv)) net nd
                   then ovalue (v_cost (snd (fst vv))) scn t * entry (ov_dest (snd (snd vv))) scn t else 0)%Q
        (combine (st_converters s) (r_converters r)).

(** Costs of a node: of its consumptions, productions, storages and links, and of the
    converters that deliver to it. *)
Definition node_total (s : study) (r : result) (net nd : string) (scn t : nat) : Q :=
  ((match node_at s net nd, rnode_at r net nd with Some n, Some rn => node_cost scn n rn t | _, _ => 0 end)
   + delivery_cost s r net nd scn t)%Q.
Definition network_total (s : study) (r : result) (net : string) (scn t : nat) : Q :=
  match dget net (st_networks s) with
  | Some ns => total (fun nd => node_total s r net nd scn t) (dkeys ns)
  | None => 0%Q
  end.

(** Costs of storages alone. *)
Definition storage_cost (scn t : nat) (x : storage) (o : ostorage) : Q := (value (s_cost x) scn t * entry (os_capacity o) scn t)%Q.
Definition stored_cost (s : study) (r : result) (net nd : string) (scn t : nat) : Q :=
  match node_at s net nd, rnode_at r net nd with
  | Some n, Some rn => total (fun so => storage_cost scn t (fst so) (snd so)) (combine (n_stors n) (on_stors rn))
  | _, _ => 0%Q
  end.
Definition network_stored_cost (s : study) (r : result) (net : string) (scn t : nat) : Q :=
  match dget net (st_networks s) with
  | Some ns => total (fun nd => stored_cost s r net nd scn t) (dkeys ns)
  | None => 0%Q
  end.

(** Numbers of consumptions, productions, storages, links, converters fed by the node and
    converters feeding it. *)
Definition feeds (net nd : string) (v : converter) : Prop := In (net, nd) (dkeys (v_src v)).
Definition fed_by (net nd : string) (v : converter) : Prop := v_dnet v = net /\ v_dnode v = nd.
Definition counts (P : converter -> Prop) (s : study) (k : nat) : Prop :=
  exists names, NoDup names /\ List.length names = k /\ forall name, In name names <-> exists v, conv_at s name = Some v /\ P v.
Definition node_counts (s : study) (net nd : string) (size : list nat) : Prop := exists n i o,
  node_at s net nd = Some n /\ counts (feeds net nd) s i /\ counts (fed_by net nd) s o /\
  size = [List.length (n_cons n); List.length (n_prods n); List.length (n_stors n); List.length (n_links n); i; o].
Definition sum_counts (l : list (list nat)) : list nat :=
  map (fun k => list_sum (map (fun size => nth k size 0) l)) [0; 1; 2; 3; 4; 5].
