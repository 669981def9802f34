(** Model of the passage of the answers from the workers to the main process:
    hadar/optimizer/lp/domain.py (to_json, from_json) and optimizer.py 415-463.

    A worker turns its time steps into trees of dictionaries, lists, texts and
    numbers and packs them with msgpack; the main process unpacks and reads them
    back. Packing and unpacking are the identity on these trees (lists come back
    as tuples, read in the same way). The two durations packed along are not
    modelled. *)
From Coq Require Import String Ascii List ZArith QArith Bool Arith.
From Verif Require Import Base Numeric Study Output Json LP.
Import ListNotations.
Open Scope nat_scope.
Open Scope string_scope.
Open Scope list_scope.

(** ** Writing: attributes in the order of the constructors; a variable is
    replaced by its value in [x] ([solution_value()]). *)
Section Write.
  Variable x : var -> Q.

  (** JSONLP.to_json (domain.py:19-36) of LPConsumption (64-67) *)
  Definition lpcons_to_json (c : lpcons) : json :=
    JObj [("cost", JNum (lc_cost c)); ("quantity", JNum (lc_qty c)); ("name", JStr (lc_name c));
          ("variable", JNum (x (lc_var c)))].
  (** LPProduction (92-95) *)
  Definition lpprod_to_json (p : lpprod) : json :=
    JObj [("name", JStr (lp_name p)); ("cost", JNum (lp_cost p)); ("variable", JNum (x (lp_var p)));
          ("quantity", JNum (lp_qty p))].
  (** LPStorage (134-143) *)
  Definition lpstor_to_json (s : lpstor) : json :=
    JObj [("name", JStr (ls_name s)); ("capacity", JNum (ls_capacity s)); ("var_capacity", JNum (x (ls_vcap s)));
          ("flow_in", JNum (ls_flow_in s)); ("var_flow_in", JNum (x (ls_vin s)));
          ("flow_out", JNum (ls_flow_out s)); ("var_flow_out", JNum (x (ls_vout s)));
          ("cost", JNum (ls_cost s)); ("init_capacity", JNum (ls_init s)); ("eff", JNum (ls_eff s))].
  (** LPLink (172-176) *)
  Definition lplink_to_json (l : lplink) : json :=
    JObj [("src", JStr (ll_src l)); ("dest", JStr (ll_dest l)); ("quantity", JNum (ll_qty l));
          ("variable", JNum (x (ll_var l))); ("cost", JNum (ll_cost l))].
  (** LPConverter (211-218); the tuples of both dictionaries are joined with ["::"] (24-29). *)
  Definition lpconv_to_json (v : lpconv) : json :=
    JObj [("name", JStr (lv_name v));
          ("src_ratios", JObj (dict_of (map (fun kr => (join_cc (fst kr), JNum (snd kr))) (lv_ratios v))));
          ("var_flow_src", JObj (dict_of (map (fun kx => (join_cc (fst kx), JNum (x (snd kx)))) (lv_src v))));
          ("dest_network", JStr (lv_dnet v)); ("dest_node", JStr (lv_dnode v));
          ("var_flow_dest", JNum (x (lv_dest v))); ("cost", JNum (lv_cost v)); ("max", JNum (lv_max v))].
  (** JSON.to_json (utils.py:58-59) of LPNode (domain.py:250-253), LPNetwork (277) and LPTimeStep (289-290) *)
  Definition lpnode_to_json (n : lpnode) : json :=
    JObj [("consumptions", JList (map lpcons_to_json (ln_cons n)));
          ("productions", JList (map lpprod_to_json (ln_prods n)));
          ("storages", JList (map lpstor_to_json (ln_stors n)));
          ("links", JList (map lplink_to_json (ln_links n)))].
  Definition lpnet_to_json (ns : dict string lpnode) : json := JObj [("nodes", JObj (dmap lpnode_to_json ns))].
  Definition lpstep_to_json (p : lpstep) : json :=
    JObj [("networks", JObj (dmap lpnet_to_json (lt_networks p)));
          ("converters", JObj (dmap lpconv_to_json (lt_converters p)))].
End Write.

(** ** Reading. The same classes with numbers in place of the variables. *)
Record dcons := DCons { dc_qty : Q; dc_val : Q; dc_cost : Q; dc_name : string }.
Record dprod := DProd { dp_qty : Q; dp_val : Q; dp_cost : Q; dp_name : string }.
Record dstor := DStor {
  ds_name : string; ds_capacity : Q; ds_vcap : Q; ds_flow_in : Q; ds_vin : Q;
  ds_flow_out : Q; ds_vout : Q; ds_cost : Q; ds_init : Q; ds_eff : Q }.
Record dlink := DLink { dl_src : string; dl_dest : string; dl_qty : Q; dl_val : Q; dl_cost : Q }.
(** Keys are tuples of any length. *)
Record dconv := DConv {
  dv_name : string; dv_ratios : dict (list string) Q; dv_src : dict (list string) Q;
  dv_dnet : string; dv_dnode : string; dv_dest : Q; dv_cost : Q; dv_max : Q }.
Record dnode := DNode { dn_cons : list dcons; dn_prods : list dprod; dn_stors : list dstor; dn_links : list dlink }.
Record dstep := DStep { dt_networks : dict string (dict string dnode); dt_converters : dict string dconv }.

(** A number given by default when the key is absent. *)
Definition jnum_opt (k : string) (dflt : Q) : ST json Q :=
  fun j => (j, match jfield k j with Ok v => as_num v | Err _ => Ok dflt end).

(** LPConsumption.from_json: domain.py:48-67, 70-72 *)
Definition lpcons_from_json : ST json dcons :=
  kwargs ["quantity"; "variable"] ["cost"; "name"];;
  do q <- jnum "quantity"; do v <- jnum "variable"; do c <- jnum_opt "cost" 0; do n <- jstr_opt "name" "";
  sret (DCons q v c n).

(** LPProduction.from_json: 76-95, 98-100 *)
Definition lpprod_from_json : ST json dprod :=
  kwargs ["quantity"; "variable"] ["cost"; "name"];;
  do q <- jnum "quantity"; do v <- jnum "variable"; do c <- jnum_opt "cost" 0; do n <- jstr_opt "name" "in";
  sret (DProd q v c n).

(** LPStorage.from_json: 108-143, 146-148 *)
Definition lpstor_from_json : ST json dstor :=
  kwargs ["name"; "capacity"; "var_capacity"; "flow_in"; "var_flow_in"; "flow_out"; "var_flow_out"]
         ["cost"; "init_capacity"; "eff"];;
  do n <- jstr "name"; do c <- jnum "capacity"; do vc <- jnum "var_capacity";
  do fi <- jnum "flow_in"; do vi <- jnum "var_flow_in"; do fo <- jnum "flow_out"; do vo <- jnum "var_flow_out";
  do co <- jnum_opt "cost" 0; do i <- jnum_opt "init_capacity" 0; do e <- jnum_opt "eff" (99 # 100);
  sret (DStor n c vc fi vi fo vo co i e).

(** LPLink.from_json: 156-176, 179-181 *)
Definition lplink_from_json : ST json dlink :=
  kwargs ["src"; "dest"; "quantity"; "variable"] ["cost"];;
  do s <- jstr "src"; do d <- jstr "dest"; do q <- jnum "quantity"; do v <- jnum "variable";
  do c <- jnum_opt "cost" 0;
  sret (DLink s d q v c).

(** [{tuple(k.split("::")): v for k, v in dict[key].items()}], put back at its key. *)
Definition split_keys (key : string) : ST json (dict (list string) json) :=
  do j <- jread key;
  do d <- slift (match j with JObj d => Ok d | _ => Err AttributeError end);
  jwrite key JPy;;
  sret (dict_of (map (fun kv => (split_cc (fst kv), snd kv)) d)).

(** LPConverter.from_json: 189-218, 221-229 *)
Definition lpconv_from_json : ST json dconv :=
  do r <- split_keys "src_ratios";
  do s <- split_keys "var_flow_src";
  kwargs ["name"; "src_ratios"; "var_flow_src"; "dest_network"; "dest_node"; "var_flow_dest"; "cost"; "max"] [];;
  do n <- jstr "name"; do rs <- slift (dmapM as_num r); do ss <- slift (dmapM as_num s);
  do dn <- jstr "dest_network"; do dd <- jstr "dest_node"; do d <- jnum "var_flow_dest";
  do c <- jnum "cost"; do m <- jnum "max";
  sret (DConv n rs ss dn dd d c m).

(** LPNode.from_json: 237-253, 255-263 *)
Definition lpnode_from_json : ST json dnode :=
  do c <- jeach "consumptions" lpcons_from_json;
  do p <- jeach "productions" lpprod_from_json;
  do s <- jeach "storages" lpstor_from_json;
  do l <- jeach "links" lplink_from_json;
  kwargs ["consumptions"; "productions"; "storages"; "links"] [];;
  sret (DNode c p s l).

(** LPNetwork.from_json: 271-282 *)
Definition lpnet_from_json : ST json (dict string dnode) :=
  do ns <- focus "nodes" (each_obj lpnode_from_json);
  jwrite "nodes" (JObj (dmap (fun _ => JPy) ns));;
  kwargs [] ["nodes"];; sret ns.

(** LPTimeStep.from_json: 300-308 *)
Definition lpstep_from_json : ST json dstep :=
  do ns <- focus "networks" (each_obj lpnet_from_json);
  do vs <- focus "converters" (each_obj lpconv_from_json);
  sret (DStep ns vs).

(** ** What the output mapper looks at in what it is given (mapper.py:199-232):
    the records of [LP.v]. *)
Definition seen_node (n : dnode) : anode :=
  ANode (map (fun c => (dc_qty c, dc_val c)) (dn_cons n)) (map dp_val (dn_prods n))
        (map (fun s => (ds_vcap s, ds_vin s, ds_vout s)) (dn_stors n)) (map dl_val (dn_links n)).
Definition seen_conv (v : dconv) : aconv := AConv (dv_src v) (dv_dest v).
Definition seen (p : dstep) : astep :=
  AStep (dmap (dmap seen_node) (dt_networks p)) (dmap seen_conv (dt_converters p)).

(** ** The job of a worker up to what it packs (optimizer.py:348-421), and what the
    main process unpacks (455-463). *)
Definition worker (answer : solver -> var -> Q) (s : study) (scn : nat) : res json :=
  let* p := build s scn in
  Ok (JList (map (lpstep_to_json (answer (fst p))) (snd p))).
Definition unpack (j : json) : res (list dstep) := snd (each_list lpstep_from_json j).

Definition write_packed (s : study) (answers : list (option json)) (o : ostate) (scn : nat) : res ostate :=
  let* a := lnth answers scn in
  match a with
  | Some j =>
      let* vs := unpack j in
      foldM (fun o t => write_step s scn t (map seen vs) o) (seq 0 (st_horizon s)) o
  | None => Err TypeError
  end.

(** solve_lp: optimizer.py:437-489, with the trees. *)
Definition solve_packed (answer : nat -> solver -> var -> Q) (sched : list nat) (bench : benchmark) (s : study)
  : res result :=
  let* answers := pool_map (fun scn => worker (answer scn) s scn) (st_nb_scn s) sched in
  let* o := foldM (write_packed s answers) (seq 0 (st_nb_scn s)) (out_init s) in
  Ok (Result (os_nets o) (os_convs o) bench).
