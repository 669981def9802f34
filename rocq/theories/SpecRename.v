(** Specification vocabulary: two studies that describe the same system, under other
    names and declared in another order. *)
From Coq Require Import String List ZArith QArith Permutation.
From Verif Require Import Base Numeric Study SpecStudy SpecLP.
Import ListNotations.
Open Scope nat_scope.
Open Scope string_scope.
Open Scope list_scope.

(** [l'] holds, in any order, a counterpart of each element of [l] and nothing else. *)
Definition shuffled {A} (R : A -> A -> Prop) (l l' : list A) : Prop := exists l1, Permutation l l1 /\ Forall2 R l1 l'.

Section Same.
  (** Scenario [scn] of the one is compared with scenario [scn'] of the other, on [h] time
      steps; [f], [g] and [c] give the new names of networks, of the nodes of a network and
      of converters. *)
  Variables (h scn scn' : nat) (f : string -> string) (g : string -> string -> string) (c : string -> string).
  Definition alike (v w : numval) : Prop := forall t, t < h -> (value v scn t == value w scn' t)%Q.
  Definition oalike (v w : option numval) : Prop := forall t, t < h -> (ovalue v scn t == ovalue w scn' t)%Q.
  (** The names of consumptions, productions and storages are free. *)
  Definition same_cons (a b : consumption) : Prop := alike (c_qty a) (c_qty b) /\ alike (c_cost a) (c_cost b).
  Definition same_prod (a b : production) : Prop := alike (p_qty a) (p_qty b) /\ alike (p_cost a) (p_cost b).
  Definition same_stor (a b : storage) : Prop :=
    alike (s_capacity a) (s_capacity b) /\ alike (s_flow_in a) (s_flow_in b) /\ alike (s_flow_out a) (s_flow_out b) /\
    (s_init a == s_init b)%Q /\ alike (s_eff a) (s_eff b) /\ alike (s_cost a) (s_cost b).
  Definition same_link (net : string) (a b : link) : Prop :=
    l_dest b = g net (l_dest a) /\ alike (l_qty a) (l_qty b) /\ alike (l_cost a) (l_cost b).
  (** The first storage of a node stays the first. *)
  Definition same_stors (l l' : list storage) : Prop :=
    match l, l' with
    | [], [] => True
    | a :: m, b :: m' => same_stor a b /\ shuffled same_stor m m'
    | _, _ => False
    end.
  Record same_node (net : string) (n n' : node) : Prop := {
    sn_cons : shuffled same_cons (n_cons n) (n_cons n');
    sn_prods : shuffled same_prod (n_prods n) (n_prods n');
    sn_stors : same_stors (n_stors n) (n_stors n');
    sn_links : shuffled (same_link net) (n_links n) (n_links n')
  }.
  Record same_conv (v v' : converter) : Prop := {
    sm_src : shuffled (fun a b => fst b = (f (fst (fst a)), g (fst (fst a)) (snd (fst a))) /\ alike (snd a) (snd b)) (v_src v) (v_src v');
    sm_dnet : v_dnet v' = f (v_dnet v);
    sm_dnode : v_dnode v' = g (v_dnet v) (v_dnode v);
    sm_max : oalike (v_max v) (v_max v');
    sm_cost : oalike (v_cost v) (v_cost v')
  }.
End Same.

Record same_under (f : string -> string) (g : string -> string -> string) (c : string -> string) (s s' : study) (scn scn' : nat) : Prop := {
  su_horizon : st_horizon s' = st_horizon s;
  su_networks : shuffled (fun a b => fst b = f (fst a) /\
      shuffled (fun p q => fst q = g (fst a) (fst p) /\ same_node (st_horizon s) scn scn' g (fst a) (snd p) (snd q)) (snd a) (snd b))
    (st_networks s) (st_networks s');
  su_convs : shuffled (fun a b => fst b = c (fst a) /\ same_conv (st_horizon s) scn scn' f g (snd a) (snd b))
    (st_converters s) (st_converters s')
}.
(** The same system under some names. *)
Definition same_system (s s' : study) (scn scn' : nat) : Prop := exists f g c, same_under f g c s s' scn scn'.
