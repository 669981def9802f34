(** Specification of the views of a result. *)
From Coq Require Import String List ZArith QArith Bool Permutation Sorted.
From Verif Require Import Base Numeric Study Fluent Output LP SpecStudy SpecLP Analyzer SpecAnalyzer SpecTotals.
Import ListNotations.
Open Scope nat_scope.
Open Scope string_scope.
Open Scope list_scope.

(** A drawn value is this number; a curve shows these numbers. *)
Definition holds (c : cell) (q : Q) : Prop := exists v, c = CNum v /\ (v == q)%Q.
Definition shows (l : list cell) (m : list Q) : Prop := Forall2 holds l m.

(** The quantity that a column names for an element, at each scenario and time. *)
Inductive quantity (s : study) (r : result) (net nd : string) : axis -> string -> string -> (nat -> nat -> Q) -> Prop :=
| Q_asked c o : is_element n_cons on_cons s r net nd c o -> quantity s r net nd ACons (c_name c) "asked" (value (c_qty c))
| Q_given c o : is_element n_cons on_cons s r net nd c o -> quantity s r net nd ACons (c_name c) "given" (entry (oc_qty o))
| Q_prod_avail p o : is_element n_prods on_prods s r net nd p o -> quantity s r net nd AProd (p_name p) "avail" (value (p_qty p))
| Q_prod_used p o : is_element n_prods on_prods s r net nd p o -> quantity s r net nd AProd (p_name p) "used" (entry (op_qty o))
| Q_link_avail l o : is_element n_links on_links s r net nd l o -> quantity s r net nd ALink (l_dest l) "avail" (value (l_qty l))
| Q_link_used l o : is_element n_links on_links s r net nd l o -> quantity s r net nd ALink (l_dest l) "used" (entry (ol_qty o)).

(** The flow of a converter: taken from a source, delivered to the destination. *)
Inductive conv_flow (s : study) (r : result) (net nd : string) : axis -> string -> (nat -> nat -> Q) -> Prop :=
| F_src v q a name : is_source s r name v net nd q a -> conv_flow s r net nd ASrcConv name (entry a)
| F_dest v rv name : conv_at s name = Some v -> rconv_at r name = Some rv -> v_dnet v = net -> v_dnode v = nd ->
    conv_flow s r net nd ADestConv name (entry (ov_dest rv)).

(** Every converter has a cost, a maximum and exactly one source. *)
Definition simple_converters (s : study) : Prop := forall name v, conv_at s name = Some v ->
  v_cost v <> None /\ v_max v <> None /\ List.length (v_src v) = 1.

(** ** Monotone: the values, each as often as it occurs, in decreasing order. *)
Definition monotone_of (values : list Q) (y : list cell) : Prop :=
  exists l, shows y l /\ Permutation l values /\ StronglySorted (fun a b => (b <= a)%Q) l.

(** ** Timeline: a curve for each scenario. *)
Definition timeline_of (n h : nat) (f : nat -> nat -> Q) (curves : list (cell * list cell)) : Prop :=
  Forall2 (fun scn (c : cell * list cell) => fst c = CInt (Z.of_nat scn) /\ shows (snd c) (map (f scn) (seq 0 h))) (seq 0 n) curves.

(** ** Gaussian: mean, variance and maximum of the values, which are split according to the
    sign of the remaining capacity. *)
Record gaussian_of (values rac : list Q) (mean var top : Q) (green red : list Q) : Prop := {
  go_length : List.length rac = List.length values;
  go_mean : (mean * inject_Z (Z.of_nat (List.length values)) == total (fun q => q) values)%Q;
  go_var : (var * inject_Z (Z.of_nat (List.length values)) == total (fun q => (q - mean) * (q - mean)) values)%Q;
  go_top : (exists q, In q values /\ (top == q)%Q) /\ forall q, In q values -> (q <= top)%Q;
  go_green : Forall2 Qeq green (map fst (filter (fun vr => Qle_bool 0 (snd vr)) (combine values rac)));
  go_red : Forall2 Qeq red (map fst (filter (fun vr => negb (Qle_bool 0 (snd vr))) (combine values rac)))
}.

(** ** Candles: open at the previous close, close at the content. *)
Record candles_of (s : study) (x : storage) (o : ostorage) (scn : nat) (open close : list cell) : Prop := {
  ca_first : match open with c :: _ => holds c (s_init x) | [] => False end;
  ca_next : tl open = removelast close;
  ca_close : shows close (map (fun t => entry (os_capacity o) scn t) (seq 0 (st_horizon s)))
}.

(** ** Map: energy on the link from a node to another, net energy exchanged. *)
Definition carried (s : study) (r : result) (net src dest : string) (scn t : nat) (q : Q) : Prop :=
  (exists l o, is_element n_links on_links s r net src l o /\ l_dest l = dest /\ (q == entry (ol_qty o) scn t)%Q) \/
  ((forall l o, is_element n_links on_links s r net src l o -> l_dest l <> dest) /\ (q == 0)%Q).
Definition net_flow (s : study) (r : result) (net src dest : string) (scn t : nat) (q : Q) : Prop :=
  exists go back, carried s r net src dest scn t go /\ carried s r net dest src scn t back /\ (q == go - back)%Q.
Definition linked (s : study) (net src dest : string) : Prop :=
  exists n l, node_at s net src = Some n /\ In l (n_links n) /\ l_dest l = dest.

(** What the map shows: the balance of every node; between linked nodes, once, the net
    energy in the direction in which it flows. *)
Record map_of (s : study) (r : result) (net : string) (scn t : nat) (nodes : dict string Q) (lines : dict (cell * cell) cell) : Prop := {
  mo_nodes : exists ns, dget net (st_networks s) = Some ns /\ dkeys nodes = dkeys ns;
  mo_balance : forall nd q, In (nd, q) nodes -> (q == balance r net nd scn t)%Q;
  mo_once : NoDup (dkeys lines);
  mo_lines : forall c d v, dget (c, d) lines = Some v -> exists a b q, c = CStr a /\ d = CStr b /\ holds v q /\ (0 <= q)%Q /\
    net_flow s r net a b scn t q /\ (linked s net a b \/ linked s net b a);
  mo_links : forall a b, linked s net a b -> exists v, dget (CStr a, CStr b) lines = Some v \/ dget (CStr b, CStr a) lines = Some v
}.

(** The colour scale reaches exactly the greatest balance, in absolute value. *)
Definition covers (limit : Q) (nodes : dict string Q) : Prop :=
  (forall nd q, In (nd, q) nodes -> (- limit <= q <= limit)%Q) /\ exists nd q, In (nd, q) nodes /\ (limit == q \/ limit == - q)%Q.

(** ** Matrix: a colour of the sign of the value, between -1 and 1. *)
Definition colour_of (q v : Q) : Prop := (-1 <= v <= 1)%Q /\ (0 < q <-> 0 < v)%Q /\ (q < 0 <-> v < 0)%Q.

(** ** Stack *)
(** Energy put in or taken from a storage. *)
Inductive stor_flow (s : study) (r : result) (net nd : string) : string -> string -> (nat -> nat -> Q) -> Prop :=
| S_in x o : is_element n_stors on_stors s r net nd x o -> stor_flow s r net nd "flow_in" (s_name x) (entry (os_flow_in o))
| S_out x o : is_element n_stors on_stors s r net nd x o -> stor_flow s r net nd "flow_out" (s_name x) (entry (os_flow_out o)).

(** Layers: a name and a thickness at each time. One layer per element, in some order. *)
Definition listed (P : string -> (nat -> nat -> Q) -> Prop) (scn : nat) (l : list (string * (nat -> Q))) : Prop :=
  NoDup (map fst l) /\ forall name f, In (name, f) l <-> exists F, P name F /\ f = F scn.
(** A layer that is left out when it is zero at all times. *)
Definition unless_zero (h : nat) (name : string) (f : nat -> Q) (l : list (string * (nat -> Q))) : Prop :=
  (l = [] /\ forall t, t < h -> (f t == 0)%Q) \/ (l = [(name, f)] /\ exists t, t < h /\ ~ (f t == 0)%Q).
Definition positive (q : Q) : Q := if Qle_bool 0 q then q else 0%Q.

(** Each curve is drawn above the layers before it. *)
Fixpoint piled (h : nat) (below : nat -> Q) (ls : list (string * (nat -> Q))) (curves : list (cell * list cell)) : Prop :=
  match ls, curves with
  | [], [] => True
  | (name, f) :: ls, (c, y) :: curves => let top := fun t => (below t + f t)%Q in c = CStr name /\ shows y (map top (seq 0 h)) /\ piled h top ls curves
  | _, _ => False
  end.

Record stack_of (s : study) (r : result) (net nd : string) (scn : nat) (prod_kind cons_kind : string) (areas lines : list (cell * list cell)) : Prop := {
  so_areas : exists p x v i, listed (fun name => quantity s r net nd AProd name prod_kind) scn p /\ listed (stor_flow s r net nd "flow_out") scn x /\
    listed (conv_flow s r net nd ADestConv) scn v /\ unless_zero (st_horizon s) "import" (fun t => positive (- balance r net nd scn t)) i /\
    piled (st_horizon s) (fun _ => 0%Q) (p ++ x ++ v ++ i) areas;
  so_lines : exists c x v e, listed (fun name => quantity s r net nd ACons name cons_kind) scn c /\ listed (stor_flow s r net nd "flow_in") scn x /\
    listed (conv_flow s r net nd ASrcConv) scn v /\ unless_zero (st_horizon s) "export" (fun t => positive (balance r net nd scn t)) e /\
    piled (st_horizon s) (fun _ => 0%Q) (c ++ x ++ v ++ e) (rev lines)
}.

(** The storage of the node, if any, is the one that the table keeps; the converters fed by
    the node have this only source, or there is one scenario. *)
Definition storages_kept (s : study) (net nd : string) : Prop := forall nn, node_at s net nd = Some nn ->
  n_stors nn = [] \/ exists e, n_stors nn = [e] /\ last_element n_stors s net nd e.
Definition sources_right (s : study) (net nd : string) : Prop := st_nb_scn s = 1 \/
  forall name v, conv_at s name = Some v -> feeds net nd v -> List.length (v_src v) = 1.

(** Height of the highest of these curves, the last. *)
Definition top_height (t : nat) (curves : list (cell * list cell)) (q : Q) : Prop :=
  match curves with
  | [] => (q == 0)%Q
  | c :: _ => exists v, nth_error (snd (last curves c)) t = Some v /\ holds v q
  end.
