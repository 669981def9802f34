(** Model of hadar/optimizer/domain/input.py: elements, Study and its building
    methods. Methods are computations in [ST study]: when they raise, the study
    keeps the updates made before the exception. *)
From Coq Require Import String List ZArith QArith Bool Arith.
From Verif Require Import Base Numeric.
Import ListNotations.
Open Scope nat_scope.

(** Consumption: input.py:33-56 *)
Record consumption := Cons { c_name : string; c_cost : numval; c_qty : numval }.

(** Production: input.py:59-83 *)
Record production := Prod { p_name : string; p_cost : numval; p_qty : numval }.

(** Storage: input.py:86-129. [init_capacity] stays the number given. *)
Record storage := Stor {
  s_name : string; s_capacity : numval; s_flow_in : numval; s_flow_out : numval;
  s_cost : numval; s_init : Q; s_eff : numval }.

(** Link: input.py:132-154 *)
Record link := Lnk { l_dest : string; l_qty : numval; l_cost : numval }.

(** Converter: input.py:157-204. [cost] and [max] are the plain integer 0 until
    the destination is set (input.py:412-416): [None] stands for that integer. *)
Record converter := Conv {
  v_name : string;
  v_src : dict (string * string) numval;
  v_dnet : string; v_dnode : string;
  v_cost : option numval; v_max : option numval }.

(** InputNode: input.py:207-247 *)
Record node := Node {
  n_cons : list consumption; n_prods : list production;
  n_stors : list storage; n_links : list link }.

Definition empty_node := Node [] [] [] [].

(** InputNetwork: input.py:250-266 (its only attribute is [nodes]). *)
Definition network := dict string node.

(** Study: input.py:269-286. The [factory] attribute is determined by
    [horizon] and [nb_scn]. *)
Record study := Study {
  st_version : string;
  st_networks : dict string network;
  st_converters : dict string converter;
  st_horizon : nat;
  st_nb_scn : nat }.

(** hadar/__init__.py: [__version__] *)
Definition hadar_version : string := "0.5.0".

(** Study(horizon, nb_scn, version): input.py:274-286 ([version or __version__]). *)
Definition new_study (h n : nat) (version : option string) : study :=
  Study (match version with
         | Some v => if String.eqb v "" then hadar_version else v
         | None => hadar_version
         end) [] [] h n.

Definition set_networks (s : study) (d : dict string network) : study :=
  Study (st_version s) d (st_converters s) (st_horizon s) (st_nb_scn s).
Definition set_converters (s : study) (d : dict string converter) : study :=
  Study (st_version s) (st_networks s) d (st_horizon s) (st_nb_scn s).

(** [self.factory.create(x)] *)
Definition mk (x : pyval) : ST study numval :=
  fun s => (s, create (st_horizon s) (st_nb_scn s) x).

(** [self.networks[network].nodes], [self.networks[network].nodes[node]] *)
Definition nodes_of (net : string) : ST study network :=
  fun s => (s, dlook net (st_networks s)).
Definition node_of (net nd : string) : ST study node :=
  do ns <- nodes_of net; slift (dlook nd ns).

(** In-place update of the node object found at [networks[net].nodes[nd]]. *)
Definition upd_node (net nd : string) (f : node -> node) : ST study unit :=
  do ns <- nodes_of net;
  do n <- slift (dlook nd ns);
  fun s => (set_networks s (dset net (dset nd (f n) ns) (st_networks s)), Ok tt).

Definition push_cons (c : consumption) (n : node) : node :=
  Node (n_cons n ++ [c]) (n_prods n) (n_stors n) (n_links n).
Definition push_prod (p : production) (n : node) : node :=
  Node (n_cons n) (n_prods n ++ [p]) (n_stors n) (n_links n).
Definition push_stor (x : storage) (n : node) : node :=
  Node (n_cons n) (n_prods n) (n_stors n ++ [x]) (n_links n).
Definition push_link (l : link) (n : node) : node :=
  Node (n_cons n) (n_prods n) (n_stors n) (n_links n ++ [l]).

(** Study.add_link: input.py:319-353 *)
Definition add_link (net src dest : string) (cost quantity : pyval) : ST study unit :=
  do ns <- nodes_of net;
  sguard (negb (dmem src ns)) ValueError;;
  sguard (negb (dmem dest ns)) ValueError;;
  do n <- slift (dlook src ns);
  sguard (mem dest (map l_dest (n_links n))) ValueError;;
  do q <- mk quantity;
  sguard (nv_lt q 0) ValueError;;
  do c <- mk cost;
  upd_node net src (push_link (Lnk dest q c)).

(** Study.add_network: input.py:355-357 *)
Definition add_network (net : string) : ST study unit :=
  fun s => if dmem net (st_networks s) then (s, Ok tt)
           else (set_networks s (dset net [] (st_networks s)), Ok tt).

(** Study.add_node: input.py:359-363 *)
Definition add_node (net nd : string) : ST study unit :=
  do ns <- nodes_of net;
  if dmem nd ns then sret tt
  else fun s => (set_networks s (dset net (dset nd empty_node ns) (st_networks s)), Ok tt).

(** Study._add_production: input.py:365-376 *)
Definition add_production (net nd name : string) (cost quantity : pyval) : ST study unit :=
  do n <- node_of net nd;
  sguard (mem name (map p_name (n_prods n))) ValueError;;
  do q <- mk quantity;
  sguard (nv_lt q 0) ValueError;;
  do c <- mk cost;
  upd_node net nd (push_prod (Prod name c q)).

(** Study._add_consumption: input.py:378-389 *)
Definition add_consumption (net nd name : string) (cost quantity : pyval) : ST study unit :=
  do n <- node_of net nd;
  sguard (mem name (map c_name (n_cons n))) ValueError;;
  do q <- mk quantity;
  sguard (nv_lt q 0) ValueError;;
  do c <- mk cost;
  upd_node net nd (push_cons (Cons name c q)).

(** Study._add_storage: input.py:391-410 *)
Definition add_storage (net nd name : string)
    (capacity flow_in flow_out cost : pyval) (init : Q) (eff : pyval) : ST study unit :=
  do n <- node_of net nd;
  sguard (mem name (map s_name (n_stors n))) ValueError;;
  do fi <- mk flow_in;
  do fo <- mk flow_out;
  sguard (nv_lt fi 0 || nv_lt fo 0) ValueError;;
  do ca <- mk capacity;
  sguard (nv_lt ca 0 || qlt init 0) ValueError;;
  do e <- mk eff;
  sguard (nv_lt e 0 || nv_gt e 1) ValueError;;
  do c <- mk cost;
  upd_node net nd (push_stor (Stor name ca fi fo c init e)).

(** Study._add_converter: input.py:412-416 *)
Definition add_converter (name : string) : ST study unit :=
  fun s => if dmem name (st_converters s) then (s, Ok tt)
           else (set_converters s (dset name (Conv name [] "" "" None None) (st_converters s)), Ok tt).

(** [self.converters[name]] *)
Definition conv_of (name : string) : ST study converter :=
  fun s => (s, dlook name (st_converters s)).

(** In-place update of a converter object. *)
Definition upd_conv (name : string) (f : converter -> converter) : ST study unit :=
  do v <- conv_of name;
  fun s => (set_converters s (dset name (f v) (st_converters s)), Ok tt).

(** Study._add_converter_src: input.py:418-427 *)
Definition add_converter_src (name net nd : string) (ratio : pyval) : ST study unit :=
  do v <- conv_of name;
  sguard (dmem (net, nd) (v_src v)) ValueError;;
  do r <- mk ratio;
  upd_conv name (fun v => Conv (v_name v) (dset (net, nd) r (v_src v))
                               (v_dnet v) (v_dnode v) (v_cost v) (v_max v)).

(** Study._set_converter_dest: input.py:429-448. The four assignments are
    separate statements: an exception in the third or fourth leaves the first ones. *)
Definition set_converter_dest (name net nd : string) (cost max : pyval) : ST study unit :=
  do v <- conv_of name;
  sguard (negb (String.eqb (v_dnet v) "") && negb (String.eqb (v_dnode v) "")) ValueError;;
  do s <- sget;
  sguard (match dget net (st_networks s) with
          | None => true
          | Some ns => negb (dmem nd ns)
          end) ValueError;;
  upd_conv name (fun v => Conv (v_name v) (v_src v) net (v_dnode v) (v_cost v) (v_max v));;
  upd_conv name (fun v => Conv (v_name v) (v_src v) (v_dnet v) nd (v_cost v) (v_max v));;
  do c <- mk cost;
  upd_conv name (fun v => Conv (v_name v) (v_src v) (v_dnet v) (v_dnode v) (Some c) (v_max v));;
  do m <- mk max;
  upd_conv name (fun v => Conv (v_name v) (v_src v) (v_dnet v) (v_dnode v) (v_cost v) (Some m)).

(** The two fluent calls touching converters:
    NetworkFluentAPISelector.converter (input.py:506-529) and
    NodeFluentAPISelector.to_converter (input.py:676-691). *)
Definition do_converter (name to_net to_nd : string) (max cost : pyval) : ST study unit :=
  add_converter name;; set_converter_dest name to_net to_nd cost max.
Definition do_to_converter (name net nd : string) (ratio : pyval) : ST study unit :=
  add_converter name;; add_converter_src name net nd ratio.
