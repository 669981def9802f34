(** Model of the JSON encoding of hadar: utils.py:37-65, to_json / from_json of
    domain/input.py and domain/output.py. A [from_json] function may change the
    tree it reads, so it is a computation in [ST json]. A Python object stored in
    the tree is [JPy]. *)
From Coq Require Import String Ascii List ZArith QArith Bool Arith.
From Verif Require Import Base Numeric Study Output.
Import ListNotations.
Open Scope nat_scope.
Open Scope string_scope.
Open Scope list_scope.

(** ** Text keys of converter sources *)

(** ["::".join((a, b))]: input.py:197, output.py:147 *)
Definition join_cc (k : string * string) : string := (fst k ++ "::" ++ snd k)%string.

(** [s.split("::")], scanning from the left: first piece and other pieces. *)
Fixpoint split_cc_ (s : string) : string * list string :=
  match s with
  | EmptyString => ("", [])
  | String c r =>
      match r with
      | String c' r' =>
          if Ascii.eqb c ":" && Ascii.eqb c' ":"
          then let (p, ps) := split_cc_ r' in ("", p :: ps)
          else let (p, ps) := split_cc_ r in (String c p, ps)
      | EmptyString => (String c "", [])
      end
  end.
Definition split_cc (s : string) : list string :=
  let (p, ps) := split_cc_ s in p :: ps.

(** [tuple(k.split("::"))]. Simplification: Python accepts a tuple of any length
    here and fails later, when the tuple is unpacked or looked up; the model
    raises ValueError at once when the length is not two. *)
Definition key_of (s : string) : res (string * string) :=
  match split_cc s with
  | [a; b] => Ok (a, b)
  | _ => Err ValueError
  end.

(** ** Trees *)
Definition jnat (n : nat) : json := JNum (qnat n).

(** [d[k]]: KeyError on a missing key, TypeError on a non-dictionary. *)
Definition jfield (k : string) (j : json) : res json :=
  match j with JObj d => dlook k d | _ => Err TypeError end.

(** [d[k] = v] *)
Definition jset (k : string) (v : json) (j : json) : json :=
  match j with JObj d => JObj (dset k v d) | _ => j end.

Definition jread (k : string) : ST json json := fun j => (j, jfield k j).
Definition jwrite (k : string) (v : json) : ST json unit := fun j => (jset k v j, Ok tt).

(** Run a computation on the child [d[k]], in place. *)
Definition focus {A} (k : string) (m : ST json A) : ST json A :=
  fun j => match jfield k j with
           | Ok c => let (c', r) := m c in (jset k c' j, r)
           | Err e => (j, Err e)
           end.

(** [[m(v) for v in l]], children changed in place, stopping at an exception. *)
Fixpoint mapJ {A} (m : ST json A) (l : list json) : list json * res (list A) :=
  match l with
  | [] => ([], Ok [])
  | x :: r => match m x with
              | (x', Ok a) => let (r', o) := mapJ m r in
                              (x' :: r', let* b := o in Ok (a :: b))
              | (x', Err e) => (x' :: r, Err e)
              end
  end.

Definition each_list {A} (m : ST json A) : ST json (list A) :=
  fun j => match j with
           | JList l => let (l', r) := mapJ m l in (JList l', r)
           | _ => (j, Err TypeError)   (* simplification: iterating another kind of object *)
           end.

(** [{k: m(v) for k, v in d.items()}] *)
Definition each_obj {A} (m : ST json A) : ST json (dict string A) :=
  fun j => match j with
           | JObj d => let (l', r) := mapJ m (dvalues d) in
                       (JObj (combine (dkeys d) l'), let* b := r in Ok (combine (dkeys d) b))
           | _ => (j, Err AttributeError)
           end.

(** Call with keyword arguments from [d]: every required argument present, no unknown one. *)
Definition kwargs (req opt : list string) : ST json unit :=
  fun j => match j with
           | JObj d => if forallb (fun k => dmem k d) req && forallb (fun k => mem k (req ++ opt)) (dkeys d)
                       then (j, Ok tt) else (j, Err TypeError)
           | _ => (j, Err TypeError)
           end.

(** Readings of leaves. Simplification: hadar does not check these types; the
    model raises TypeError on a tree whose leaf has another type. *)
Definition as_str (j : json) : res string := match j with JStr s => Ok s | _ => Err TypeError end.
Definition as_num (j : json) : res Q := match j with JNum q => Ok q | _ => Err TypeError end.
Definition as_nat (j : json) : res nat :=
  match j with
  | JNum q => if (Z.leb 0 (Qnum q)) && (Pos.eqb (Qden q) 1) then Ok (Z.to_nat (Qnum q)) else Err TypeError
  | _ => Err TypeError
  end.
Definition as_nums (j : json) : res (list Q) :=
  match j with JList l => mapM as_num l | _ => Err TypeError end.

Definition jstr (k : string) : ST json string := do v <- jread k; slift (as_str v).
Definition jnum (k : string) : ST json Q := do v <- jread k; slift (as_num v).
(** A defaulted argument. *)
Definition jstr_opt (k dflt : string) : ST json string :=
  fun j => (j, match jfield k j with Ok v => as_str v | Err _ => Ok dflt end).

(** ** Encoding: [{k: JSON.convert(v) for k, v in self.__dict__.items()}] *)

(** NumericalValue: utils.py:58-59, attributes in the order of numeric.py:23-26 *)
Definition nv_to_json (v : numval) : json :=
  let obj x h n := JObj [("value", x); ("horizon", jnat h); ("nb_scn", jnat n)] in
  match v with
  | Scalar q h n => obj (JNum q) h n
  | Matrix a h n | Row a h n | Column a h n => obj (nd_tolist a) h n
  end.

(** A converter's [cost]/[max], possibly still the integer 0. *)
Definition onv_to_json (v : option numval) : json :=
  match v with Some x => nv_to_json x | None => JNum 0 end.

(** Consumption 47-49, Production 75-77, Storage 113-119, Link 146-148 *)
Definition cons_to_json (c : consumption) : json :=
  JObj [("cost", nv_to_json (c_cost c)); ("quantity", nv_to_json (c_qty c)); ("name", JStr (c_name c))].
Definition prod_to_json (p : production) : json :=
  JObj [("name", JStr (p_name p)); ("cost", nv_to_json (p_cost p)); ("quantity", nv_to_json (p_qty p))].
Definition stor_to_json (s : storage) : json :=
  JObj [("name", JStr (s_name s)); ("capacity", nv_to_json (s_capacity s));
        ("flow_in", nv_to_json (s_flow_in s)); ("flow_out", nv_to_json (s_flow_out s));
        ("cost", nv_to_json (s_cost s)); ("init_capacity", JNum (s_init s)); ("eff", nv_to_json (s_eff s))].
Definition link_to_json (l : link) : json :=
  JObj [("dest", JStr (l_dest l)); ("quantity", nv_to_json (l_qty l)); ("cost", nv_to_json (l_cost l))].

(** Converter.to_json: input.py:187-195 *)
Definition conv_to_json (v : converter) : json :=
  JObj [("name", JStr (v_name v));
        ("src_ratios", JObj (dict_of (map (fun kv => (join_cc (fst kv), nv_to_json (snd kv))) (v_src v))));
        ("dest_network", JStr (v_dnet v)); ("dest_node", JStr (v_dnode v));
        ("cost", onv_to_json (v_cost v)); ("max", onv_to_json (v_max v))].

(** InputNode, InputNetwork (attributes 227-230, 259) *)
Definition node_to_json (n : node) : json :=
  JObj [("consumptions", JList (map cons_to_json (n_cons n)));
        ("productions", JList (map prod_to_json (n_prods n)));
        ("storages", JList (map stor_to_json (n_stors n)));
        ("links", JList (map link_to_json (n_links n)))].
Definition network_to_json (ns : network) : json := JObj [("nodes", JObj (dmap node_to_json ns))].

(** Study.to_json: input.py:288-292 *)
Definition study_to_json (s : study) : json :=
  JObj [("version", JStr (st_version s));
        ("networks", JObj (dmap network_to_json (st_networks s)));
        ("converters", JObj (dmap conv_to_json (st_converters s)));
        ("horizon", jnat (st_horizon s)); ("nb_scn", jnat (st_nb_scn s))].

(** ** Decoding of studies *)
Section Decode.
  Variables h n : nat.   (* the factory's dimensions *)

  (** [dict[k] = factory.create(dict[k])]: the new attribute value and the tree
      in which an object has replaced the data. *)
  Definition jcreate (k : string) : ST json numval :=
    do x <- jread k;
    do v <- slift (create h n (PJson x));
    jwrite k JPy;; sret v.

  (** Consumption.from_json: input.py:51-55 *)
  Definition cons_from_json : ST json consumption :=
    do c <- jcreate "cost"; do q <- jcreate "quantity";
    kwargs ["quantity"; "cost"] ["name"];;
    do name <- jstr_opt "name" ""; sret (Cons name c q).

  (** Production.from_json: input.py:79-83 *)
  Definition prod_from_json : ST json production :=
    do c <- jcreate "cost"; do q <- jcreate "quantity";
    kwargs ["quantity"; "cost"] ["name"];;
    do name <- jstr_opt "name" "in"; sret (Prod name c q).

  (** Storage.from_json: input.py:121-129 *)
  Definition stor_from_json : ST json storage :=
    do c <- jcreate "cost"; do ca <- jcreate "capacity"; do fi <- jcreate "flow_in";
    do fo <- jcreate "flow_out"; do e <- jcreate "eff";
    kwargs ["name"; "capacity"; "flow_in"; "flow_out"; "cost"; "init_capacity"; "eff"] [];;
    do name <- jstr "name"; do i <- jnum "init_capacity";
    sret (Stor name ca fi fo c i e).

  (** Link.from_json: input.py:150-154 *)
  Definition link_from_json : ST json link :=
    do c <- jcreate "cost"; do q <- jcreate "quantity";
    kwargs ["dest"; "quantity"; "cost"] [];;
    do d <- jstr "dest"; sret (Lnk d q c).

  (** Converter.from_json: input.py:197-208 *)
  Definition conv_from_json : ST json converter :=
    do c <- jcreate "cost"; do m <- jcreate "max";
    do src <- jread "src_ratios";
    do kvs <- slift (match src with
                     | JObj d => mapM (fun kv => let* k := key_of (fst kv) in
                                                 let* v := create h n (PJson (snd kv)) in Ok (k, v)) d
                     | _ => Err AttributeError
                     end);
    jwrite "src_ratios" JPy;;
    kwargs ["name"; "src_ratios"; "dest_network"; "dest_node"; "cost"; "max"] [];;
    do name <- jstr "name"; do dn <- jstr "dest_network"; do dd <- jstr "dest_node";
    sret (Conv name (dict_of kvs) dn dd (Some c) (Some m)).

  (** [dict[k] = [X.from_json(v) for v in dict[k]]] *)
  Definition jeach {A} (k : string) (m : ST json A) : ST json (list A) :=
    do l <- focus k (each_list m);
    jwrite k (JList (map (fun _ => JPy) l));; sret l.

  (** InputNode.from_json: input.py:232-247 *)
  Definition node_from_json : ST json node :=
    do c <- jeach "consumptions" cons_from_json;
    do p <- jeach "productions" prod_from_json;
    do s <- jeach "storages" stor_from_json;
    do l <- jeach "links" link_from_json;
    kwargs ["consumptions"; "productions"; "storages"; "links"] [];;
    sret (Node c p s l).

  (** InputNetwork.from_json: input.py:261-266 ([nodes if nodes else {}] is the
      same dictionary content). *)
  Definition network_from_json : ST json network :=
    do ns <- focus "nodes" (each_obj node_from_json);
    jwrite "nodes" (JObj (dmap (fun _ => JPy) ns));;
    kwargs [] ["nodes"];; sret ns.
End Decode.

(** Study.from_json on the copy of the tree: input.py:296-308 *)
Definition study_from_json_ : ST json study :=
  do jh <- jread "horizon"; do h <- slift (as_nat jh);
  do jn <- jread "nb_scn"; do n <- slift (as_nat jn);
  do jv <- jread "version";
  do v <- slift (match jv with JStr s => Ok (Some s) | JNull => Ok None | _ => Err TypeError end);
  do nets <- focus "networks" (each_obj (network_from_json h n));
  do convs <- focus "converters" (each_obj (conv_from_json h n));
  let s := new_study h n v in
  sret (Study (st_version s) nets convs h n).

(** Study.from_json: input.py:294-308. [dict = deepcopy(dict)] first, so the
    caller's tree is the one given. *)
Definition study_from_json : ST json study :=
  fun j => let (_, r) := study_from_json_ j in (j, r).

(** ** Results *)

(** Encoding: attributes in the order of output.py:40-41, 61-62, 90-93, 114-115. *)
Definition ocons_to_json (c : oconsumption) : json :=
  JObj [("quantity", nd_tolist (oc_qty c)); ("name", JStr (oc_name c))].
Definition oprod_to_json (p : oproduction) : json :=
  JObj [("name", JStr (op_name p)); ("quantity", nd_tolist (op_qty p))].
Definition ostor_to_json (s : ostorage) : json :=
  JObj [("name", JStr (os_name s)); ("capacity", nd_tolist (os_capacity s));
        ("flow_in", nd_tolist (os_flow_in s)); ("flow_out", nd_tolist (os_flow_out s))].
Definition olink_to_json (l : olink) : json :=
  JObj [("dest", JStr (ol_dest l)); ("quantity", nd_tolist (ol_qty l))].
(** OutputConverter.to_json: output.py:143-150 *)
Definition oconv_to_json (v : oconverter) : json :=
  JObj [("name", JStr (ov_name v));
        ("flow_src", JObj (dict_of (map (fun kv => (join_cc (fst kv), nd_tolist (snd kv))) (ov_src v))));
        ("flow_dest", nd_tolist (ov_dest v))].
Definition onode_to_json (n : onode) : json :=
  JObj [("consumptions", JList (map ocons_to_json (on_cons n)));
        ("productions", JList (map oprod_to_json (on_prods n)));
        ("storages", JList (map ostor_to_json (on_stors n)));
        ("links", JList (map olink_to_json (on_links n)))].
Definition onetwork_to_json (ns : onetwork) : json := JObj [("nodes", JObj (dmap onode_to_json ns))].
Definition bench_to_json (b : benchmark) : json :=
  JObj [("modeler", JList (map JNum (b_modeler b))); ("solver", JList (map JNum (b_solver b)));
        ("mapper", JNum (b_mapper b)); ("total", JNum (b_total b))].
Definition result_to_json (r : result) : json :=
  JObj [("networks", JObj (dmap onetwork_to_json (r_networks r)));
        ("converters", JObj (dmap oconv_to_json (r_converters r)));
        ("benchmark", bench_to_json (r_benchmark r))].

(** [np.array(d[k])] in a constructor called with keyword arguments; the tree is not changed. *)
Definition jarr (k : string) : ST json ndarray := do v <- jread k; slift (np_array v).

(** output.py:43-45, 64-66, 96-98, 117-119 *)
Definition ocons_from_json : ST json oconsumption :=
  kwargs ["quantity"] ["name"];;
  do q <- jarr "quantity"; do name <- jstr_opt "name" ""; sret (OCons q name).
Definition oprod_from_json : ST json oproduction :=
  kwargs ["quantity"] ["name"];;
  do name <- jstr_opt "name" "in"; do q <- jarr "quantity"; sret (OProd name q).
Definition ostor_from_json : ST json ostorage :=
  kwargs ["name"; "capacity"; "flow_in"; "flow_out"] [];;
  do name <- jstr "name"; do c <- jarr "capacity"; do fi <- jarr "flow_in"; do fo <- jarr "flow_out";
  sret (OStor name c fi fo).
Definition olink_from_json : ST json olink :=
  kwargs ["dest"; "quantity"] [];;
  do d <- jstr "dest"; do q <- jarr "quantity"; sret (OLnk d q).

(** OutputConverter.from_json: output.py:152-160. The dictionary with tuple keys
    put in the tree is [JPy], unless it is empty. *)
Definition oconv_from_json : ST json oconverter :=
  do src <- jread "flow_src";
  do d <- slift (match src with JObj d => Ok d | _ => Err AttributeError end);
  do ks <- slift (mapM (fun kv => key_of (fst kv)) d);
  jwrite "flow_src" (match d with [] => JObj [] | _ => JPy end);;
  kwargs ["name"; "flow_src"; "flow_dest"] [];;
  do name <- jstr "name";
  do srcs <- slift (mapM (fun kv => let* a := np_array (snd kv) in Ok (fst kv, a))
                         (dict_of (combine ks (dvalues d))));
  do dest <- jarr "flow_dest";
  sret (OConv name srcs dest).

(** OutputNode.from_json: output.py:217-230 *)
Definition onode_from_json : ST json onode :=
  do c <- jeach "consumptions" ocons_from_json;
  do p <- jeach "productions" oprod_from_json;
  do s <- jeach "storages" ostor_from_json;
  do l <- jeach "links" olink_from_json;
  kwargs ["consumptions"; "productions"; "storages"; "links"] [];;
  sret (ONode c p s l).

(** OutputNetwork.from_json: output.py:246-249 *)
Definition onetwork_from_json : ST json onetwork :=
  do ns <- focus "nodes" (each_obj onode_from_json);
  jwrite "nodes" (JObj (dmap (fun _ => JPy) ns));;
  kwargs ["nodes"] [];; sret ns.

(** Benchmark.from_json: output.py:266-268 *)
Definition bench_from_json : ST json benchmark :=
  kwargs [] ["modeler"; "solver"; "mapper"; "total"];;
  fun j => (j,
    let lst k := match jfield k j with Ok JNull => Ok [] | Ok x => as_nums x | Err _ => Ok [] end in
    let num k := match jfield k j with Ok x => as_num x | Err _ => Ok 0%Q end in
    let* m := lst "modeler" in let* s := lst "solver" in
    let* p := num "mapper" in let* t := num "total" in Ok (Bench m s p t)).

(** Result.from_json: output.py:291-303 *)
Definition result_from_json : ST json result :=
  do nets <- focus "networks" (each_obj onetwork_from_json);
  do convs <- focus "converters" (each_obj oconv_from_json);
  do b <- focus "benchmark" bench_from_json;
  sret (Result nets convs b).
