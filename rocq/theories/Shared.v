(** Model of the memory behind a study: hadar/optimizer/domain/numeric.py and input.py again, now
    with the numpy arrays as objects. [create] (numeric.py:167-216) keeps a numpy array that it is
    given as the very object of the caller ([value=value]); lists, Series and DataFrames are copied
    by [np.array] (184-185), and a NumericalValue is returned as it is (174-175). Study.v tells what
    the building methods do with values; here the same methods are told with references.

    Simplifications: the caller does not reach into the objects of the study, so that an array made
    by [create] is never written ([Own]); the caller writes into the arrays, they do not reshape them;
    the methods are given the network and the node, which the selectors of Fluent.v supply. *)
From Coq Require Import String List ZArith QArith Bool Arith.
From Verif Require Import Base Numeric Study.
Import ListNotations.
Open Scope nat_scope.

(** The arrays of the caller, by address. *)
Definition memory := nat -> ndarray.
(** [a[...] = ...]: other numbers, the same shape. *)
Definition write (m : memory) (p : nat) (d : list Q) : memory :=
  fun k => if Nat.eqb k p then ND (shape (m p)) d else m k.

(** The array of a NumericalValue: its own, or the one the caller gave. *)
Inductive held := Own (a : ndarray) | Given (p : nat).
Inductive rval :=
| RScalar (v : Q) (horizon nb_scn : nat)
| RMatrix (a : held) (horizon nb_scn : nat)
| RRow (a : held) (horizon nb_scn : nat)
| RColumn (a : held) (horizon nb_scn : nat).

(** What a caller passes: data that are copied, one of their arrays, a NumericalValue. *)
Inductive rarg :=
| RJson (j : json)
| RFrame (a : ndarray)
| RArr (p : nat)
| RObj (v : rval)
| ROther.

(** The elements: input.py:33-204 *)
Record rcons := RCons { rc_name : string; rc_cost : rval; rc_qty : rval }.
Record rprod := RProd { rp_name : string; rp_cost : rval; rp_qty : rval }.
Record rstor := RStor {
  rs_name : string; rs_capacity : rval; rs_flow_in : rval; rs_flow_out : rval;
  rs_cost : rval; rs_init : Q; rs_eff : rval }.
Record rlink := RLnk { rl_dest : string; rl_qty : rval; rl_cost : rval }.
Record rconv := RConv {
  rv_name : string;
  rv_src : dict (string * string) rval;
  rv_dnet : string; rv_dnode : string;
  rv_cost : option rval; rv_max : option rval }.
Record rnode := RNode {
  rn_cons : list rcons; rn_prods : list rprod;
  rn_stors : list rstor; rn_links : list rlink }.
Definition rempty := RNode [] [] [] [].
Definition rnetwork := dict string rnode.
Record rstudy := RStudy {
  rst_version : string;
  rst_networks : dict string rnetwork;
  rst_converters : dict string rconv;
  rst_horizon : nat;
  rst_nb_scn : nat }.

Definition rset_networks (s : rstudy) (d : dict string rnetwork) : rstudy :=
  RStudy (rst_version s) d (rst_converters s) (rst_horizon s) (rst_nb_scn s).
Definition rset_converters (s : rstudy) (d : dict string rconv) : rstudy :=
  RStudy (rst_version s) (rst_networks s) d (rst_horizon s) (rst_nb_scn s).

(** Study(...): input.py:274-286 *)
Definition rnew (h n : nat) (version : option string) : rstudy :=
  RStudy (st_version (new_study h n version)) [] [] h n.

(** ** Reading in a memory *)
Section Reading.
  Variable m : memory.

  Definition rd_held (a : held) : ndarray := match a with Own a => a | Given p => m p end.
  Definition rd (v : rval) : numval :=
    match v with
    | RScalar q h n => Scalar q h n
    | RMatrix a h n => Matrix (rd_held a) h n
    | RRow a h n => Row (rd_held a) h n
    | RColumn a h n => Column (rd_held a) h n
    end.
  Definition rd_arg (x : rarg) : pyval :=
    match x with
    | RJson j => PJson j
    | RFrame a => PFrame a
    | RArr p => PArr (m p)
    | RObj v => PNV (rd v)
    | ROther => POther
    end.
  Definition rd_cons (c : rcons) : consumption := Cons (rc_name c) (rd (rc_cost c)) (rd (rc_qty c)).
  Definition rd_prod (p : rprod) : production := Prod (rp_name p) (rd (rp_cost p)) (rd (rp_qty p)).
  Definition rd_stor (s : rstor) : storage :=
    Stor (rs_name s) (rd (rs_capacity s)) (rd (rs_flow_in s)) (rd (rs_flow_out s)) (rd (rs_cost s)) (rs_init s) (rd (rs_eff s)).
  Definition rd_link (l : rlink) : link := Lnk (rl_dest l) (rd (rl_qty l)) (rd (rl_cost l)).
  Definition rd_conv (v : rconv) : converter :=
    Conv (rv_name v) (dmap rd (rv_src v)) (rv_dnet v) (rv_dnode v) (option_map rd (rv_cost v)) (option_map rd (rv_max v)).
  Definition rd_node (n : rnode) : node :=
    Node (map rd_cons (rn_cons n)) (map rd_prod (rn_prods n)) (map rd_stor (rn_stors n)) (map rd_link (rn_links n)).
  Definition rd_study (s : rstudy) : study :=
    Study (rst_version s) (dmap (dmap rd_node) (rst_networks s)) (dmap rd_conv (rst_converters s)) (rst_horizon s) (rst_nb_scn s).
End Reading.

(** ** NumericalValueFactory.create: numeric.py:167-216, keeping the array [a], whose content is [x] *)
Definition rcreate_arr (h n : nat) (x : ndarray) (a : held) : res rval :=
  if list_eqb Nat.eqb (shape x) [h] then Ok (RRow a h n)
  else if list_eqb Nat.eqb (shape x) [n; 1] then Ok (RColumn a h n)
  else if list_eqb Nat.eqb (shape x) [n; h] then Ok (RMatrix a h n)
  else match shape x with [] => Err IndexError | _ => Err ValueError end.
Definition rcreate_json (h n : nat) (j : json) : res rval :=
  match j with
  | JNum q => Ok (RScalar q h n)
  | JList _ => let* a := np_array j in rcreate_arr h n a (Own a)
  | _ => Err ValueError
  end.
Definition rcreate (m : memory) (h n : nat) (x : rarg) : res rval :=
  match x with
  | RObj v => Ok v
  | RJson (JObj d) =>
      match dget "value"%string d with
      | Some j => rcreate_json h n j
      | None => Err ValueError
      end
  | RJson j => rcreate_json h n j
  | RArr p => rcreate_arr h n (m p) (Given p)
  | RFrame a => rcreate_arr h n a (Own a)
  | ROther => Err ValueError
  end.

(** ** The building methods, as in Study.v *)
Section Methods.
  Variable m : memory.   (* the arrays at the time of the call *)

  Definition rmk (x : rarg) : ST rstudy rval := fun s => (s, rcreate m (rst_horizon s) (rst_nb_scn s) x).
  Definition rlt (v : rval) (q : Q) : bool := nv_lt (rd m v) q.
  Definition rgt (v : rval) (q : Q) : bool := nv_gt (rd m v) q.

  Definition rnodes_of (net : string) : ST rstudy rnetwork := fun s => (s, dlook net (rst_networks s)).
  Definition rnode_of (net nd : string) : ST rstudy rnode := do ns <- rnodes_of net; slift (dlook nd ns).
  Definition rupd_node (net nd : string) (f : rnode -> rnode) : ST rstudy unit :=
    do ns <- rnodes_of net;
    do n <- slift (dlook nd ns);
    fun s => (rset_networks s (dset net (dset nd (f n) ns) (rst_networks s)), Ok tt).

  Definition rpush_cons (c : rcons) (n : rnode) : rnode := RNode (rn_cons n ++ [c]) (rn_prods n) (rn_stors n) (rn_links n).
  Definition rpush_prod (p : rprod) (n : rnode) : rnode := RNode (rn_cons n) (rn_prods n ++ [p]) (rn_stors n) (rn_links n).
  Definition rpush_stor (x : rstor) (n : rnode) : rnode := RNode (rn_cons n) (rn_prods n) (rn_stors n ++ [x]) (rn_links n).
  Definition rpush_link (l : rlink) (n : rnode) : rnode := RNode (rn_cons n) (rn_prods n) (rn_stors n) (rn_links n ++ [l]).

  (** Study.add_link: input.py:319-353 *)
  Definition radd_link (net src dest : string) (cost quantity : rarg) : ST rstudy unit :=
    do ns <- rnodes_of net;
    sguard (negb (dmem src ns)) ValueError;;
    sguard (negb (dmem dest ns)) ValueError;;
    do n <- slift (dlook src ns);
    sguard (mem dest (map rl_dest (rn_links n))) ValueError;;
    do q <- rmk quantity;
    sguard (rlt q 0) ValueError;;
    do c <- rmk cost;
    rupd_node net src (rpush_link (RLnk dest q c)).

  (** Study.add_network, add_node: input.py:355-363 *)
  Definition radd_network (net : string) : ST rstudy unit :=
    fun s => if dmem net (rst_networks s) then (s, Ok tt)
             else (rset_networks s (dset net [] (rst_networks s)), Ok tt).
  Definition radd_node (net nd : string) : ST rstudy unit :=
    do ns <- rnodes_of net;
    if dmem nd ns then sret tt
    else fun s => (rset_networks s (dset net (dset nd rempty ns) (rst_networks s)), Ok tt).

  (** Study._add_production, _add_consumption, _add_storage: input.py:365-410 *)
  Definition radd_production (net nd name : string) (cost quantity : rarg) : ST rstudy unit :=
    do n <- rnode_of net nd;
    sguard (mem name (map rp_name (rn_prods n))) ValueError;;
    do q <- rmk quantity;
    sguard (rlt q 0) ValueError;;
    do c <- rmk cost;
    rupd_node net nd (rpush_prod (RProd name c q)).
  Definition radd_consumption (net nd name : string) (cost quantity : rarg) : ST rstudy unit :=
    do n <- rnode_of net nd;
    sguard (mem name (map rc_name (rn_cons n))) ValueError;;
    do q <- rmk quantity;
    sguard (rlt q 0) ValueError;;
    do c <- rmk cost;
    rupd_node net nd (rpush_cons (RCons name c q)).
  Definition radd_storage (net nd name : string) (capacity flow_in flow_out cost : rarg) (init : Q) (eff : rarg) : ST rstudy unit :=
    do n <- rnode_of net nd;
    sguard (mem name (map rs_name (rn_stors n))) ValueError;;
    do fi <- rmk flow_in;
    do fo <- rmk flow_out;
    sguard (rlt fi 0 || rlt fo 0) ValueError;;
    do ca <- rmk capacity;
    sguard (rlt ca 0 || qlt init 0) ValueError;;
    do e <- rmk eff;
    sguard (rlt e 0 || rgt e 1) ValueError;;
    do c <- rmk cost;
    rupd_node net nd (rpush_stor (RStor name ca fi fo c init e)).

  (** Study._add_converter, _add_converter_src, _set_converter_dest: input.py:412-448 *)
  Definition radd_converter (name : string) : ST rstudy unit :=
    fun s => if dmem name (rst_converters s) then (s, Ok tt)
             else (rset_converters s (dset name (RConv name [] "" "" None None) (rst_converters s)), Ok tt).
  Definition rconv_of (name : string) : ST rstudy rconv := fun s => (s, dlook name (rst_converters s)).
  Definition rupd_conv (name : string) (f : rconv -> rconv) : ST rstudy unit :=
    do v <- rconv_of name;
    fun s => (rset_converters s (dset name (f v) (rst_converters s)), Ok tt).
  Definition radd_converter_src (name net nd : string) (ratio : rarg) : ST rstudy unit :=
    do v <- rconv_of name;
    sguard (dmem (net, nd) (rv_src v)) ValueError;;
    do r <- rmk ratio;
    rupd_conv name (fun v => RConv (rv_name v) (dset (net, nd) r (rv_src v))
                                   (rv_dnet v) (rv_dnode v) (rv_cost v) (rv_max v)).
  Definition rset_converter_dest (name net nd : string) (cost max : rarg) : ST rstudy unit :=
    do v <- rconv_of name;
    sguard (negb (String.eqb (rv_dnet v) "") && negb (String.eqb (rv_dnode v) "")) ValueError;;
    do s <- sget;
    sguard (match dget net (rst_networks s) with
            | None => true
            | Some ns => negb (dmem nd ns)
            end) ValueError;;
    rupd_conv name (fun v => RConv (rv_name v) (rv_src v) net (rv_dnode v) (rv_cost v) (rv_max v));;
    rupd_conv name (fun v => RConv (rv_name v) (rv_src v) (rv_dnet v) nd (rv_cost v) (rv_max v));;
    do c <- rmk cost;
    rupd_conv name (fun v => RConv (rv_name v) (rv_src v) (rv_dnet v) (rv_dnode v) (Some c) (rv_max v));;
    do x <- rmk max;
    rupd_conv name (fun v => RConv (rv_name v) (rv_src v) (rv_dnet v) (rv_dnode v) (rv_cost v) (Some x)).
End Methods.

(** ** Histories: declarations and writes *)
(** What is declared, with data of type [X]. *)
Inductive decl (X : Type) :=
| DNetwork (net : string)
| DNode (net nd : string)
| DLink (net src dest : string) (cost quantity : X)
| DCons (net nd name : string) (cost quantity : X)
| DProd (net nd name : string) (cost quantity : X)
| DStor (net nd name : string) (capacity flow_in flow_out cost : X) (init : Q) (eff : X)
| DConv (name to_net to_nd : string) (max cost : X)
| DToConv (name net nd : string) (ratio : X).
Arguments DNetwork {X}. Arguments DNode {X}. Arguments DLink {X}. Arguments DCons {X}.
Arguments DProd {X}. Arguments DStor {X}. Arguments DConv {X}. Arguments DToConv {X}.

Definition map_decl {X Y} (f : X -> Y) (d : decl X) : decl Y :=
  match d with
  | DNetwork net => DNetwork net
  | DNode net nd => DNode net nd
  | DLink net src dest c q => DLink net src dest (f c) (f q)
  | DCons net nd name c q => DCons net nd name (f c) (f q)
  | DProd net nd name c q => DProd net nd name (f c) (f q)
  | DStor net nd name ca fi fo c i e => DStor net nd name (f ca) (f fi) (f fo) (f c) i (f e)
  | DConv name tn td mx c => DConv name tn td (f mx) (f c)
  | DToConv name net nd r => DToConv name net nd (f r)
  end.

(** A declaration with values (Study.v) and with references; [converter] and [to_converter] create
    the converter first (input.py:506-529, 676-691). *)
Definition declare (d : decl pyval) : ST study unit :=
  match d with
  | DNetwork net => add_network net
  | DNode net nd => add_node net nd
  | DLink net src dest c q => add_link net src dest c q
  | DCons net nd name c q => add_consumption net nd name c q
  | DProd net nd name c q => add_production net nd name c q
  | DStor net nd name ca fi fo c i e => add_storage net nd name ca fi fo c i e
  | DConv name tn td mx c => do_converter name tn td mx c
  | DToConv name net nd r => do_to_converter name net nd r
  end.
Definition rdeclare (m : memory) (d : decl rarg) : ST rstudy unit :=
  match d with
  | DNetwork net => radd_network net
  | DNode net nd => radd_node net nd
  | DLink net src dest c q => radd_link m net src dest c q
  | DCons net nd name c q => radd_consumption m net nd name c q
  | DProd net nd name c q => radd_production m net nd name c q
  | DStor net nd name ca fi fo c i e => radd_storage m net nd name ca fi fo c i e
  | DConv name tn td mx c => radd_converter name;; rset_converter_dest m name tn td c mx
  | DToConv name net nd r => radd_converter name;; radd_converter_src m name net nd r
  end.

(** A session: a refused declaration raises and the session goes on. *)
Inductive event := Told (d : decl rarg) | Write (p : nat) (d : list Q).
Definition happen (st : memory * rstudy) (e : event) : memory * rstudy :=
  match e with
  | Told d => (fst st, fst (rdeclare (fst st) d (snd st)))
  | Write p d => (write (fst st) p d, snd st)
  end.
Definition session (st : memory * rstudy) (es : list event) : memory * rstudy := fold_left happen es st.
