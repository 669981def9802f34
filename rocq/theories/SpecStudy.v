(** Specification vocabulary for studies: what a study contains, as a user would
    look it up, and what a well-formed study is. *)
From Coq Require Import String List ZArith QArith.
From Verif Require Import Base Numeric Study Fluent.
Import ListNotations.
Open Scope nat_scope.

(** [study.networks[net].nodes[nd]] *)
Definition node_at (s : study) (net nd : string) : option node :=
  match dget net (st_networks s) with
  | Some ns => dget nd ns
  | None => None
  end.

Definition has_node (s : study) (net nd : string) : Prop := node_at s net nd <> None.
Definition has_network (s : study) (net : string) : Prop := dget net (st_networks s) <> None.

(** [study.converters[name]] *)
Definition conv_at (s : study) (name : string) : option converter :=
  dget name (st_converters s).

(** Well-formedness. *)
Record node_wf (s : study) (net : string) (n : node) : Prop := {
  wf_cons : NoDup (map c_name (n_cons n));
  wf_prods : NoDup (map p_name (n_prods n));
  wf_stors : NoDup (map s_name (n_stors n));
  wf_links : NoDup (map l_dest (n_links n));
  wf_dests : forall l, In l (n_links n) -> has_node s net (l_dest l)
}.

Record conv_wf (s : study) (name : string) (v : converter) : Prop := {
  wf_vname : v_name v = name;
  wf_once : NoDup (dkeys (v_src v));
  wf_srcs : forall net nd, In (net, nd) (dkeys (v_src v)) -> has_node s net nd;
  wf_dest : (v_dnet v = ""%string /\ v_dnode v = ""%string /\ v_cost v = None /\ v_max v = None) \/
            has_node s (v_dnet v) (v_dnode v)
}.

Record study_wf (s : study) : Prop := {
  wf_networks : NoDup (dkeys (st_networks s));
  wf_nodes : forall net ns, dget net (st_networks s) = Some ns -> NoDup (dkeys ns);
  wf_convs : NoDup (dkeys (st_converters s));
  wf_node : forall net nd n, node_at s net nd = Some n -> node_wf s net n;
  wf_conv : forall name v, conv_at s name = Some v -> conv_wf s name v
}.

(** [s'] is [s] but for the content of node [nd] of [net]. *)
Record only_node (s s' : study) (net nd : string) : Prop := {
  on_nets : dkeys (st_networks s') = dkeys (st_networks s);
  on_nodes : forall m ns, dget m (st_networks s) = Some ns ->
             exists ns', dget m (st_networks s') = Some ns' /\ dkeys ns' = dkeys ns;
  on_other : forall m d, (m, d) <> (net, nd) -> node_at s' m d = node_at s m d;
  on_convs : st_converters s' = st_converters s;
  on_rest : st_version s' = st_version s /\ st_horizon s' = st_horizon s /\ st_nb_scn s' = st_nb_scn s
}.

(** [s'] is [s] but for converter [name]. *)
Record only_conv (s s' : study) (name : string) : Prop := {
  oc_nets : st_networks s' = st_networks s;
  oc_other : forall m, m <> name -> conv_at s' m = conv_at s m;
  oc_rest : st_version s' = st_version s /\ st_horizon s' = st_horizon s /\ st_nb_scn s' = st_nb_scn s
}.

(** Worlds reached by a user program on a new study. *)
Definition reachable (w : world) : Prop :=
  exists h n version cs, w = run (start h n version) cs.

(** Data entries of a value. *)
Definition entries (v : numval) : list Q :=
  match v with
  | Scalar q _ _ => [q]
  | Matrix a _ _ | Row a _ _ | Column a _ _ => data a
  end.

(** The selector object number [i], the dictionary it holds and its keys. *)
Definition addr (h : handle) : nat := match h with HNet a | HNode a => a end.

Definition selector_dict (w : world) (i : nat) : option nat :=
  option_map addr (nth_error (w_handles w) i).

Definition selector_keys (w : world) (i : nat) : option sel :=
  match selector_dict w i with
  | Some a => nth_error (f_sels (w_fs w)) a
  | None => None
  end.

Definition selects (w : world) (i : nat) (net nd : string) : Prop :=
  selector_keys w i = Some (Sel (Some net) (Some nd)).

(** Value of an argument in a study. *)
Definition becomes (s : study) (x : pyval) (v : numval) : Prop :=
  create (st_horizon s) (st_nb_scn s) x = Ok v.

(** What an element call means for the node it applies to: before [n], after [n']. *)
Inductive element_added (s : study) : meth -> node -> node -> Prop :=
| ea_cons name c q vc vq n n' :
    becomes s c vc -> becomes s q vq ->
    n_cons n' = n_cons n ++ [Cons name vc vq] -> n_prods n' = n_prods n ->
    n_stors n' = n_stors n -> n_links n' = n_links n ->
    element_added s (MConsumption name c q) n n'
| ea_prod name c q vc vq n n' :
    becomes s c vc -> becomes s q vq ->
    n_prods n' = n_prods n ++ [Prod name vc vq] -> n_cons n' = n_cons n ->
    n_stors n' = n_stors n -> n_links n' = n_links n ->
    element_added s (MProduction name c q) n n'
| ea_stor name ca fi fo c i e vca vfi vfo vc ve n n' :
    becomes s ca vca -> becomes s fi vfi -> becomes s fo vfo -> becomes s c vc -> becomes s e ve ->
    n_stors n' = n_stors n ++ [Stor name vca vfi vfo vc i ve] -> n_cons n' = n_cons n ->
    n_prods n' = n_prods n -> n_links n' = n_links n ->
    element_added s (MStorage name ca fi fo c i e) n n'
| ea_link src dest c q vc vq n n' :
    becomes s c vc -> becomes s q vq ->
    n_links n' = n_links n ++ [Lnk dest vq vc] -> n_cons n' = n_cons n ->
    n_prods n' = n_prods n -> n_stors n' = n_stors n ->
    element_added s (MLink src dest c q) n n'.

Definition is_element (m : meth) : Prop :=
  match m with
  | MConsumption _ _ _ | MProduction _ _ _ | MStorage _ _ _ _ _ _ _ => True
  | _ => False
  end.

(** Calls that touch converters. *)
Definition is_converter_call (c : call) : Prop :=
  match c with
  | OnSel _ (MConverter _ _ _ _ _) | OnSel _ (MToConverter _ _) => True
  | _ => False
  end.

(** A call of [.node] through a selector holding the same dictionary as selector [j]. *)
Definition moves_selector (j : nat) (w : world) (c : call) : Prop :=
  exists k nd, c = OnSel k (MNode nd) /\ selector_dict w k = selector_dict w j.

Fixpoint undisturbed (j : nat) (w : world) (cs : list call) : Prop :=
  match cs with
  | [] => True
  | c :: r => ~ moves_selector j w c /\ undisturbed j (fst (step w c)) r
  end.
