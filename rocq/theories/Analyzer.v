(** Model of hadar/analyzer/result.py: the flat tables, the queries and the
    aggregations.

    What is used of pandas: a data frame is a list of rows, each an assignment of
    cells to the columns; [np.empty] fills it with arbitrary cells. The columns
    [t] and [scn] hold floats equal to integers, which are integers here. NaN is
    kept as such (infinities, which only a division by zero can produce here, are
    NaN too). The order of the columns of a query's answer is not modelled. *)
From Coq Require Import String Ascii List ZArith QArith Bool Arith.
From Verif Require Import Base Numeric Study Output.
Import ListNotations.
Open Scope nat_scope.
Open Scope string_scope.
Open Scope list_scope.

(** ** Cells *)
Inductive cell :=
| CNum (q : Q)
| CInt (z : Z)
| CStr (s : string)
| CNaN.

Definition q_same (a b : Q) : bool := Z.eqb (Qnum a) (Qnum b) && Pos.eqb (Qden a) (Qden b).
Definition cell_eqb (a b : cell) : bool :=
  match a, b with
  | CNum x, CNum y => q_same x y
  | CInt x, CInt y => Z.eqb x y
  | CStr x, CStr y => String.eqb x y
  | CNaN, CNaN => true
  | _, _ => false
  end.
Lemma cell_eqb_eq a b : cell_eqb a b = true <-> a = b.
Proof.
  destruct a as [[n d]|z|s|], b as [[n' d']|z'|s'|]; simpl; split; intros H; try discriminate; auto.
  - unfold q_same in H. simpl in H. apply andb_true_iff in H as [A B]. apply Z.eqb_eq in A. apply Pos.eqb_eq in B. now subst.
  - inversion H; subst. unfold q_same. simpl. now rewrite Z.eqb_refl, Pos.eqb_refl.
  - apply Z.eqb_eq in H. now subst.
  - inversion H; subst. apply Z.eqb_refl.
  - apply String.eqb_eq in H. now subst.
  - inversion H; subst. apply String.eqb_refl.
Qed.
Global Instance EqB_cell : EqB cell := { eqb := cell_eqb; eqb_eq := cell_eqb_eq }.

Lemma list_eqb_eq {A} `{EqB A} (l m : list A) : list_eqb eqb l m = true <-> l = m.
Proof.
  revert m. induction l as [|x l IH]; destruct m as [|y m]; simpl; split; intros E; try discriminate; auto.
  - apply andb_true_iff in E as [E1 E2]. apply eqb_eq in E1. apply IH in E2. congruence.
  - inversion E; subst. rewrite (proj2 (eqb_eq y y) eq_refl). now apply IH.
Qed.
Global Instance EqB_list {A} `{EqB A} : EqB (list A) := { eqb := list_eqb eqb; eqb_eq := list_eqb_eq }.

Definition is_nan (c : cell) : bool := match c with CNaN => true | _ => false end.

(** Order of the labels when pandas sorts them: numbers, strings by code points. *)
Fixpoint str_le (a b : string) : bool :=
  match a, b with
  | EmptyString, _ => true
  | String _ _, EmptyString => false
  | String x a', String y b' =>
      Nat.ltb (nat_of_ascii x) (nat_of_ascii y) || (Nat.eqb (nat_of_ascii x) (nat_of_ascii y) && str_le a' b')
  end.
Definition cell_rank (c : cell) : nat := match c with CNum _ => 0 | CInt _ => 1 | CStr _ => 2 | CNaN => 3 end.
Definition cell_le (a b : cell) : bool :=
  match a, b with
  | CNum x, CNum y => qle x y
  | CInt x, CInt y => Z.leb x y
  | CStr x, CStr y => str_le x y
  | CNaN, CNaN => true
  | _, _ => Nat.leb (cell_rank a) (cell_rank b)
  end.
Fixpoint key_le (k l : list cell) : bool :=
  match k, l with
  | [], _ => true
  | _ :: _, [] => false
  | a :: k', b :: l' => if eqb a b then key_le k' l' else cell_le a b
  end.

Fixpoint insert {A} (le : A -> A -> bool) (x : A) (l : list A) : list A :=
  match l with
  | [] => [x]
  | y :: r => if le x y then x :: y :: r else y :: insert le x r
  end.
Definition isort {A} (le : A -> A -> bool) (l : list A) : list A := fold_right (insert le) [] l.

(** ** Data frames *)
Definition trow := dict string cell.
Record table := Table { tb_cols : list string; tb_rows : list trow }.

Definition cell_of (c : string) (r : trow) : cell := match dget c r with Some x => x | None => CNaN end.

(** [pd.DataFrame({c: np.empty(size)})] *)
Definition new_table (junk : string -> nat -> cell) (cols : list string) (size : nat) : table :=
  Table cols (map (fun k => map (fun c => (c, junk c k)) cols) (seq 0 size)).

(** [df.loc[df.index[a:b], col] = v]: a missing column is added, filled with NaN. An
    array must have the length of the slice, except that some versions of pandas
    accept an array of length one ([bcast]). *)
Inductive colval := VScalar (c : cell) | VArray (l : list cell).

Fixpoint set_from (k a b : nat) (col : string) (v : nat -> cell) (rows : list trow) : list trow :=
  match rows with
  | [] => []
  | r :: rest => (if Nat.leb a k && Nat.ltb k b then dset col (v (k - a)) r else r) :: set_from (S k) a b col v rest
  end.

Definition loc_set (bcast : bool) (a b : nat) (tb : table) (asg : string * colval) : res table :=
  let (col, v) := asg in
  let n := Nat.min b (List.length (tb_rows tb)) - a in
  let tb' := if mem col (tb_cols tb) then tb
             else Table (tb_cols tb ++ [col]) (map (fun r => r ++ [(col, CNaN)]) (tb_rows tb)) in
  let put f := Ok (Table (tb_cols tb') (set_from 0 a b col f (tb_rows tb'))) in
  match v with
  | VScalar c => put (fun _ => c)
  | VArray l => if Nat.eqb (List.length l) n then put (fun j => nth j l CNaN)
                else if bcast && Nat.eqb (List.length l) 1 then put (fun _ => nth 0 l CNaN)
                else Err ValueError
  end.
Definition loc_sets (bcast : bool) (a b : nat) (tb : table) (l : list (string * colval)) : res table :=
  foldM (loc_set bcast a b) l tb.

Definition floats (l : list Q) : colval := VArray (map CNum l).
Definition ints (l : list nat) : colval := VArray (map (fun n => CInt (Z.of_nat n)) l).

(** ** The flat tables: result.py:182-456 *)
Section Tables.
  Variables (bcast : bool) (junk : nat -> string -> nat -> cell).

  (** [for n, net in result.networks.items(): for node in net.nodes.keys(): for i, x in enumerate(...)] *)
  Definition each_element {E S} (get : onode -> list E) (body : string -> string -> nat -> E -> S -> res S)
      (r : result) (s0 : S) : res S :=
    foldM (fun s (kn : string * onetwork) =>
      foldM (fun s (kd : string * onode) =>
        foldM (fun s (ie : nat * E) => body (fst kn) (fst kd) (fst ie) (snd ie) s)
          (combine (seq 0 (List.length (get (snd kd)))) (get (snd kd))) s) (snd kn) s) (r_networks r) s0.

  (** [sum([sum([len(n.xs) for n in net.nodes.values()]) for net in study.networks.values()])] *)
  Definition count_elements {E} (get : node -> list E) (s : study) : nat :=
    list_sum (map (fun kn : string * network => list_sum (map (fun kd => List.length (get (snd kd))) (snd kn))) (st_networks s)).

  (** [study.networks[n].nodes[node].xs[i]] *)
  Definition study_element {E} (get : node -> list E) (s : study) (net nd : string) (i : nat) : res E :=
    let* ns := dlook net (st_networks s) in
    let* n := dlook nd ns in
    lnth (get n) i.

  (** Labels of a block: [np.tile(np.arange(h), scn)], [np.repeat(np.arange(scn), h)]. *)
  Definition labels (s : study) : list (string * colval) :=
    [("t", ints (tile (seq 0 (st_horizon s)) (st_nb_scn s)));
     ("scn", ints (nprepeat (seq 0 (st_nb_scn s)) (st_horizon s)))].

  (** The common text of the four functions below: allocate, then fill one block of
      [h * scn] rows per element, the block number being increased by [step]. *)
  Definition build_table {E F} (j : nat) (cols : list string) (step : nat) (gets : node -> list E) (getr : onode -> list F)
      (asg : string -> string -> E -> F -> list (string * colval)) (s : study) (r : result) : res table :=
    let h := st_horizon s in let scn := st_nb_scn s in
    let tb0 := new_table (junk j) cols (scn * h * count_elements gets s) in
    let* out := each_element getr (fun net nd i o '(tb, k) =>
      let* e := study_element gets s net nd i in
      let* tb' := loc_sets bcast (k * h * scn) ((k + 1) * h * scn) tb (asg net nd e o) in
      Ok (tb', k + step)) r (tb0, 0) in
    Ok (fst out).

  (** _build_consumption: 182-227 *)
  Definition build_consumption (s : study) (r : result) : res table :=
    build_table 0 ["cost"; "asked"; "given"; "name"; "node"; "network"; "t"; "scn"] 1 n_cons on_cons
      (fun net nd sc rc =>
        [("cost", floats (flatten (c_cost sc))); ("name", VScalar (CStr (oc_name rc)));
         ("node", VScalar (CStr nd)); ("network", VScalar (CStr net));
         ("asked", floats (flatten (c_qty sc))); ("given", floats (data (oc_qty rc)))] ++ labels s) s r.

  (** _build_production: 229-273 *)
  Definition build_production (s : study) (r : result) : res table :=
    build_table 1 ["cost"; "avail"; "used"; "name"; "node"; "network"; "t"; "scn"] 1 n_prods on_prods
      (fun net nd sp rp =>
        [("cost", floats (flatten (p_cost sp))); ("name", VScalar (CStr (op_name rp)));
         ("node", VScalar (CStr nd)); ("network", VScalar (CStr net));
         ("avail", floats (flatten (p_qty sp))); ("used", floats (data (op_qty rp)))] ++ labels s) s r.

  (** _build_storage: 275-334. The block number [n_stor] is never increased. *)
  Definition build_storage (s : study) (r : result) : res table :=
    build_table 2 ["max_capacity"; "capacity"; "max_flow_in"; "flow_in"; "max_flow_out"; "flow_out"; "cost";
                   "init_capacity"; "eff"; "name"; "node"; "network"; "t"; "scn"] 0 n_stors on_stors
      (fun net nd ss c =>
        [("max_capacity", floats (flatten (s_capacity ss))); ("capacity", floats (data (os_capacity c)));
         ("max_flow_in", floats (flatten (s_flow_in ss))); ("flow_in", floats (data (os_flow_in c)));
         ("max_flow_out", floats (flatten (s_flow_out ss))); ("flow_out", floats (data (os_flow_out c)));
         ("cost", floats (flatten (s_cost ss))); ("init_capacity", VScalar (CNum (s_init ss)));
         ("eff", floats (flatten (s_eff ss))); ("network", VScalar (CStr net)); ("name", VScalar (CStr (os_name c)));
         ("node", VScalar (CStr nd))] ++ labels s) s r.

  (** _build_link: 336-381 *)
  Definition build_link (s : study) (r : result) : res table :=
    build_table 3 ["cost"; "avail"; "used"; "node"; "dest"; "network"; "t"; "scn"] 1 n_links on_links
      (fun net nd sl rl =>
        [("cost", floats (flatten (l_cost sl))); ("dest", VScalar (CStr (ol_dest rl)));
         ("node", VScalar (CStr nd)); ("network", VScalar (CStr net));
         ("avail", floats (flatten (l_qty sl))); ("used", floats (data (ol_qty rl)))] ++ labels s) s r.

  (** [sum([len(v.src_ratios) for v in study.converters.values()])] *)
  Definition count_sources (s : study) : nat :=
    list_sum (map (fun kv : string * converter => List.length (v_src (snd kv))) (st_converters s)).

  (** [v.cost.flatten()]: the integer 0 of an unfinished converter has no [flatten]. *)
  Definition oflatten (v : option numval) : res (list Q) :=
    match v with Some x => Ok (flatten x) | None => Err AttributeError end.

  (** _build_dest_converter: 383-411 *)
  Definition build_dest_converter (s : study) (r : result) : res table :=
    let h := st_horizon s in let scn := st_nb_scn s in
    let tb0 := new_table (junk 4) ["name"; "network"; "node"; "flow"; "cost"; "max"] (h * scn * count_sources s) in
    foldM (fun tb (ikv : nat * (string * converter)) =>
      let i := fst ikv in let v := snd (snd ikv) in
      let a := i * h * scn in let b := (i + 1) * h * scn in
      let* tb := loc_sets bcast a b tb [("name", VScalar (CStr (v_name v)))] in
      let* co := oflatten (v_cost v) in
      let* tb := loc_sets bcast a b tb [("cost", floats co)] in
      let* mx := oflatten (v_max v) in
      let* tb := loc_sets bcast a b tb
        [("max", floats mx); ("network", VScalar (CStr (v_dnet v))); ("node", VScalar (CStr (v_dnode v)))] in
      let* rv := dlook (fst (snd ikv)) (r_converters r) in
      loc_sets bcast a b tb (("flow", floats (data (ov_dest rv))) :: labels s))
      (combine (seq 0 (List.length (st_converters s))) (st_converters s)) tb0.

  (** [a / b] on floats *)
  Definition cell_div (a b : cell) : cell :=
    match a, b with
    | CNum x, CNum y => if Qeq_bool y 0 then CNaN else CNum (x / y)%Q
    | _, _ => CNaN
    end.

  (** _build_src_converter: 413-456 *)
  Definition build_src_converter (s : study) (r : result) : res table :=
    let h := st_horizon s in let scn := st_nb_scn s in
    let tb0 := new_table (junk 5) ["name"; "network"; "node"; "ratio"; "flow"; "max"] (h * scn * count_sources s) in
    let* out := foldM (fun '(tb, st) (kv : string * converter) =>
      let v := snd kv in
      let size := List.length (v_src v) in
      let* tb := loc_sets bcast st (st + h * scn * size) tb
        [("name", VScalar (CStr (v_name v)));
         ("t", ints (tile (seq 0 h) (scn * size))); ("scn", ints (nprepeat (seq 0 scn) (h * size)))] in
      foldM (fun '(tb, st) (ik : nat * (string * string * numval)) =>
        let k := fst (snd ik) in
        let e := st + h * scn * (fst ik + 1) in
        let* tb := loc_sets bcast st e tb [("network", VScalar (CStr (fst k))); ("node", VScalar (CStr (snd k)))] in
        let* mx := oflatten (v_max v) in
        let* tb := loc_sets bcast st e tb [("max", floats mx); ("ratio", floats (flatten (snd (snd ik))))] in
        let* rv := dlook (fst kv) (r_converters r) in
        let* a := dlook k (ov_src rv) in
        let* tb := loc_sets bcast st e tb [("flow", floats (data a))] in
        Ok (tb, e)) (combine (seq 0 size) (v_src v)) (tb, st)) (st_converters s) (tb0, 0) in
    let tb := fst out in
    Ok (Table (tb_cols tb) (map (fun row => dset "max" (cell_div (cell_of "max" row) (cell_of "ratio" row)) row) (tb_rows tb))).
End Tables.

(** ResultAnalyzer.__init__: 161-180 *)
Record analyzer := Analyzer {
  an_study : study; an_result : result;
  an_cons : table; an_prod : table; an_stor : table; an_link : table; an_src : table; an_dest : table }.
Definition new_analyzer (bcast : bool) (junk : nat -> string -> nat -> cell) (s : study) (r : result) : res analyzer :=
  let* c := build_consumption bcast junk s r in
  let* p := build_production bcast junk s r in
  let* x := build_storage bcast junk s r in
  let* l := build_link bcast junk s r in
  let* v := build_src_converter bcast junk s r in
  let* d := build_dest_converter bcast junk s r in
  Ok (Analyzer s r c p x l v d).

(** ** Indexes: result.py:22-153 *)
Inductive axis := ACons | AProd | AStor | ALink | ASrcConv | ADestConv | ANode | ANetwork | ATime | AScn.

Definition axis_eqb (a b : axis) : bool :=
  match a, b with
  | ACons, ACons | AProd, AProd | AStor, AStor | ALink, ALink | ASrcConv, ASrcConv | ADestConv, ADestConv
  | ANode, ANode | ANetwork, ANetwork | ATime, ATime | AScn, AScn => true
  | _, _ => false
  end.

(** 67-153: the column of each class. *)
Definition axis_column (a : axis) : string :=
  match a with
  | ACons | AProd | AStor | ASrcConv | ADestConv => "name"
  | ALink => "dest"
  | ANode => "node"
  | ANetwork => "network"
  | ATime => "t"
  | AScn => "scn"
  end.

(** The argument given by the user: None, one value, a list, a tuple, a slice. *)
Inductive iarg :=
| INone
| IOne (c : cell)
| IList (l : list cell)
| ITuple (l : list cell)
| ISlice (start stop step : option Z).

(** Index: [index] is absent when the argument is None. *)
Record index := Index { ix_axis : axis; ix_all : bool; ix_index : list cell }.
Definition ix_column (i : index) : string := axis_column (ix_axis i).

(** [range(start, stop, step)] *)
Definition py_range (start stop step : Z) : res (list Z) :=
  if (step =? 0)%Z then Err ValueError
  else let n := (if 0 <? step then (stop - start + step - 1) / step else (start - stop - step - 1) / (- step))%Z in
       Ok (map (fun k => (start + Z.of_nat k * step)%Z) (seq 0 (Z.to_nat n))).

(** Index.__init__ 27-45, IntIndex.__init__ 126-139, and the subclasses. A slice given to
    another axis than time and scn is not hashable: TypeError, raised later by [isin]. *)
Definition new_index (a : axis) (x : iarg) : res index :=
  match x with
  | INone => Ok (Index a true [])
  | IList l => Ok (Index a (Nat.eqb (List.length l) 0) l)
  | IOne c => Ok (Index a false [c])
  | ITuple l => Ok (Index a false l)
  | ISlice start stop step =>
      match a with
      | ATime | AScn =>
          let start' := match start with None => 0%Z | Some z => z end in
          let stop' := match start with None => Some (-1)%Z | Some _ => stop end in
          let step' := match step with None => 1%Z | Some z => z end in
          match stop' with
          | None => Err TypeError
          | Some e => let* l := py_range start' e step' in Ok (Index a false (map CInt l))
          end
      | _ => Err TypeError
      end
  end.

(** Index.filter: 47-56, on one row. *)
Definition ix_keeps (i : index) (r : trow) : bool :=
  if ix_all i then negb (is_nan (cell_of (ix_column i) r)) else mem (cell_of (ix_column i) r) (ix_index i).

(** Index.is_alone: 58-64 *)
Definition is_alone (i : index) : bool := negb (ix_all i) && Nat.leb (List.length (ix_index i)) 1.

(** ** Aggregation: result.py:458-488 *)
Definition key_of (names : list string) (r : trow) : list cell := map (fun c => cell_of c r) names.

(** Groups of a [groupby]: the distinct keys in order, those with NaN dropped. *)
Definition group_keys (names : list string) (rows : list trow) : list (list cell) :=
  isort key_le (unique (filter (fun k => negb (existsb is_nan k)) (map (key_of names) rows))).
Definition group (names : list string) (rows : list trow) (k : list cell) : list trow :=
  filter (fun r => eqb (key_of names r) k) rows.

Definition nums (l : list cell) : list Q := flat_map (fun c => match c with CNum q => [q] | _ => [] end) l.

(** Mean of the cells that are not NaN. *)
Definition mean (l : list cell) : cell :=
  match nums l with [] => CNaN | q => CNum (qsum q / qnat (List.length q))%Q end.

(** A frame with a multi-index. *)
Record frame := Frame { fr_levels : list string; fr_rows : list (list cell * trow) }.

(** [pd.pivot_table(data, index=names)]: means of the other columns by group; lines with
    only NaN are dropped. *)
Definition pivot_table (names : list string) (tb : table) : frame :=
  let vals := filter (fun c => negb (mem c names)) (tb_cols tb) in
  let lines := map (fun k => (k, map (fun c => (c, mean (map (cell_of c) (group names (tb_rows tb) k)))) vals))
                   (group_keys names (tb_rows tb)) in
  Frame names (filter (fun l : list cell * trow => existsb (fun cv => negb (is_nan (snd cv))) (snd l)) lines).

(** [x in df.index], [df.loc[x]] *)
Definition in_index (x : cell) (f : frame) : bool := existsb (fun l => match fst l with c :: _ => eqb c x | [] => false end) (fr_rows f).
Definition frame_loc (x : cell) (f : frame) : frame :=
  Frame (tl (fr_levels f))
        (flat_map (fun l : list cell * trow => match fst l with c :: k => if eqb c x then [(k, snd l)] else [] | [] => [] end) (fr_rows f)).

(** _remove_useless_index_level: 458-474. [indexes[0]] on an empty list and [index[0]] on
    an empty tuple raise IndexError. *)
Fixpoint remove_useless (f : frame) (ixs : list index) : res frame :=
  match ixs with
  | [] => Err IndexError
  | i :: rest =>
      if is_alone i then
        match ix_index i with
        | [] => Err IndexError
        | x :: _ => if in_index x f then remove_useless (frame_loc x f) rest else Ok f
        end
      else Ok f
  end.

(** _pivot: 476-488 ([df[column]] raises KeyError on a missing column). *)
Definition pivot (ixs : list index) (tb : table) : res frame :=
  if forallb (fun i => mem (ix_column i) (tb_cols tb)) ixs then
    remove_useless (pivot_table (map ix_column ixs)
      (Table (tb_cols tb) (filter (fun r => forallb (fun i => ix_keeps i r) ixs) (tb_rows tb)))) ixs
  else Err KeyError.

(** check_index: 490-498 *)
Definition check_index (ixs : list index) (a : axis) : bool := existsb (fun i => axis_eqb (ix_axis i) a) ixs.

(** filter: 514-539; the answer is None without any element axis. *)
Definition an_filter (an : analyzer) (ixs : list index) : res (option frame) :=
  if check_index ixs ATime && check_index ixs ANode && check_index ixs ANetwork && check_index ixs AScn then
    let some tb := let* f := pivot ixs tb in Ok (Some f) in
    if check_index ixs ACons then some (an_cons an)
    else if check_index ixs AProd then some (an_prod an)
    else if check_index ixs AStor then some (an_stor an)
    else if check_index ixs ALink then some (an_link an)
    else if check_index ixs ASrcConv then some (an_src an)
    else if check_index ixs ADestConv then some (an_dest an)
    else Ok None
  else Err ValueError.

(** ** The fluent interface: result.py:541-547 and 753-809

    Lists of indexes are objects: a selector holds a reference to one, which [_append]
    extends in place. The methods of a selector are fixed when it is created. *)
Record selector := Selector { se_list : nat; se_axes : list axis }.
Definition aheap := list (list index).

Inductive answer_of := AFrame (f : option frame) | ASelector (se : selector).

(** NetworkFluentAPISelector.__init__: 766-792: the methods offered. *)
Definition element_axes := [ACons; AProd; ALink; AStor; ASrcConv; ADestConv].
Definition offered (ixs : list index) : list axis :=
  (if existsb (check_index ixs) element_axes then [] else element_axes) ++
  (if check_index ixs ANode then [] else [ANode]) ++
  (if check_index ixs ATime then [] else [ATime]) ++
  (if check_index ixs AScn then [] else [AScn]).
Definition new_selector (ixs : list index) : ST aheap selector :=
  fun h => (h ++ [ixs], Ok (Selector (List.length h) (offered ixs))).

(** network: 541-547 *)
Definition an_network (x : iarg) : ST aheap selector :=
  do i <- slift (new_index ANetwork x);
  new_selector [i].

(** [se.node(x)], [se.time(x)], ... : the lambdas of 778-792, then _append 797-809 (the
    copy of the list given to a new selector is deep). *)
Definition ask (an : analyzer) (se : selector) (a : axis) (x : iarg) : ST aheap answer_of :=
  sguard (negb (existsb (axis_eqb a) (se_axes se))) AttributeError;;
  do i <- slift (new_index a x);
  fun h =>
    let l := nth (se_list se) h [] ++ [i] in
    let h' := upd_nth (se_list se) (fun _ => l) h in
    if Nat.eqb (List.length l) 5 then (h', let* f := an_filter an l in Ok (AFrame f))
    else (do s <- new_selector l; sret (ASelector s)) h'.

(** ** Counts: get_elements_inside, 549-590 *)
Definition name_true (x : option string) : bool := match x with Some n => negb (String.eqb n "") | None => false end.

Definition node_elements (s : study) (net nd : string) : res (list nat) :=
  let* ns := dlook net (st_networks s) in
  let* n := dlook nd ns in
  Ok [List.length (n_cons n); List.length (n_prods n); List.length (n_stors n); List.length (n_links n);
      list_sum (map (fun kv : string * converter => if dmem (net, nd) (v_src (snd kv)) then 1 else 0) (st_converters s));
      list_sum (map (fun kv : string * converter =>
        if String.eqb net (v_dnet (snd kv)) && String.eqb nd (v_dnode (snd kv)) then 1 else 0) (st_converters s))].

(** [size += ...] on arrays of six numbers *)
Definition plus6 (a b : list nat) : list nat := map (fun xy => fst xy + snd xy) (combine a b).
Definition zeros6 : list nat := [0; 0; 0; 0; 0; 0].

(** With [node is None] and a network given (565-569). A name that is the empty string is
    false: the call then looks for the node None (575), a KeyError. *)
Definition network_elements (s : study) (net : string) : res (list nat) :=
  if String.eqb net "" then Err KeyError
  else let* ns := dlook net (st_networks s) in
       foldM (fun size nd => let* e := node_elements s net nd in Ok (plus6 size e)) (dkeys ns) zeros6.

Definition elements_inside (s : study) (nd net : option string) : res (list nat) :=
  match net, nd with
  | None, None => foldM (fun size net => let* e := network_elements s net in Ok (plus6 size e)) (dkeys (st_networks s)) zeros6
  | Some net, None => network_elements s net
  | Some net, Some nd => node_elements s net nd
  | None, Some nd => if name_true (Some nd) then node_elements s "default" nd else Err KeyError
  end.

(** ** Balances: get_balance, 592-615 *)
Definition sum_cells (l : list cell) : Q := qsum (nums l).

(** [pd.pivot_table(rows, index=names, aggfunc=np.sum)[col]], in order of the keys *)
Definition pivot_sum (names : list string) (col : string) (rows : list trow) : list Q :=
  map (fun k => sum_cells (map (cell_of col) (group names rows k))) (group_keys names rows).

(** [v.reshape(n, h)], [a + b], [a - b] *)
Definition reshape2 (n h : nat) (v : list Q) : res ndarray :=
  if Nat.eqb (List.length v) (n * h) then Ok (ND [n; h] v) else Err ValueError.
Definition nd_op (f : Q -> Q -> Q) (a b : ndarray) : res ndarray :=
  if list_eqb Nat.eqb (shape a) (shape b) then Ok (ND (shape a) (map (fun xy => f (fst xy) (snd xy)) (combine (data a) (data b))))
  else Err ValueError.

Definition get_balance (an : analyzer) (nd net : string) : res ndarray :=
  let s := an_study an in
  let n := st_nb_scn s in let h := st_horizon s in
  let rows := tb_rows (an_link an) in
  let im := pivot_sum ["scn"; "t"] "used"
              (filter (fun r => eqb (cell_of "dest" r) (CStr nd) && eqb (cell_of "network" r) (CStr net)) rows) in
  let* b := match im with
            | [] => Ok (nd_zeros2 n h)
            | _ => let* a := reshape2 n h (map Qopp im) in nd_op Qplus (nd_zeros2 n h) a
            end in
  let exp := pivot_sum ["scn"; "t"] "used"
               (filter (fun r => eqb (cell_of "node" r) (CStr nd) && eqb (cell_of "network" r) (CStr net)) rows) in
  match exp with
  | [] => Ok b
  | _ => let* a := reshape2 n h exp in nd_op Qplus b a
  end.

(** ** Costs: get_cost, 617-678 *)

(** Position of a level; a missing one is a KeyError. *)
Fixpoint level_pos (c : string) (l : list string) : res nat :=
  match l with
  | [] => Err KeyError
  | x :: r => if String.eqb x c then Ok 0 else let* k := level_pos c r in Ok (S k)
  end.

(** [series.groupby(axis=0, level=("scn", "t")).sum().sort_index(level=(0, 1)).values], for
    the series of [f] over the lines of a frame *)
Definition level_sums (f : trow -> cell) (fr : frame) : res (list Q) :=
  let* i := level_pos "scn" (fr_levels fr) in
  let* j := level_pos "t" (fr_levels fr) in
  let rows := map (fun l : list cell * trow => [("scn", nth i (fst l) CNaN); ("t", nth j (fst l) CNaN); ("v", f (snd l))]) (fr_rows fr) in
  Ok (pivot_sum ["scn"; "t"] "v" rows).

Definition cell_op (f : Q -> Q -> Q) (a b : cell) : cell :=
  match a, b with CNum x, CNum y => CNum (f x y) | _, _ => CNaN end.

(** [self.network(network).node(node).scn().time().<element>()] *)
Definition cost_query (an : analyzer) (nd net : option string) (a : axis) : res (option frame) :=
  let arg x := match x with Some n => IOne (CStr n) | None => INone end in
  let '(_, r) := (do s1 <- an_network (arg net);
    do a1 <- ask an s1 ANode (arg nd);
    match a1 with ASelector s2 =>
      do a2 <- ask an s2 AScn INone;
      match a2 with ASelector s3 =>
        do a3 <- ask an s3 ATime INone;
        match a3 with ASelector s4 => ask an s4 a INone | x => sret x end
      | x => sret x end
    | x => sret x end) [] in
  let* x := r in match x with AFrame f => Ok f | ASelector _ => Ok None end.

(** [if c: cost += ...] *)
Definition add_cost (an : analyzer) (nd net : option string) (count : nat) (a : axis) (f : trow -> cell) (cost : ndarray) : res ndarray :=
  if Nat.eqb count 0 then Ok cost
  else let* fr := cost_query an nd net a in
       match fr with
       | None => Err TypeError
       | Some fr =>
           let* v := level_sums f fr in
           let* m := reshape2 (st_nb_scn (an_study an)) (st_horizon (an_study an)) v in
           nd_op Qplus cost m
       end.

Definition times (c d : string) (r : trow) : cell := cell_op Qmult (cell_of c r) (cell_of d r).

Definition get_cost (an : analyzer) (nd net : option string) : res ndarray :=
  let s := an_study an in
  let* e := elements_inside s nd net in
  let net' := match net with None => if name_true nd then Some "default" else None | x => x end in
  let cost := nd_zeros2 (st_nb_scn s) (st_horizon s) in
  let* cost := add_cost an nd net' (nth 0 e 0) ACons
    (fun r => cell_op Qmult (cell_op Qminus (cell_of "asked" r) (cell_of "given" r)) (cell_of "cost" r)) cost in
  let* cost := add_cost an nd net' (nth 1 e 0) AProd (times "used" "cost") cost in
  let* cost := add_cost an nd net' (nth 2 e 0) AStor (times "capacity" "cost") cost in
  let* cost := add_cost an nd net' (nth 3 e 0) ALink (times "used" "cost") cost in
  add_cost an nd net' (nth 5 e 0) ADestConv (times "flow" "cost") cost.

(** ** Remaining capacity: get_rac, 680-723 *)

(** [rows.pivot_table(index="scn", columns="t", aggfunc=np.sum).values] for the only number
    column left, [fill_width_zeros] included. A pair of labels without row would give a NaN:
    an exception here, never reached for tables of a matching result. *)
Definition pivot_scn_t (s : study) (col : string) (rows : list trow) : res ndarray :=
  let scns := group_keys ["scn"] rows in let ts := group_keys ["t"] rows in
  if Nat.eqb (List.length scns * List.length ts) 0 then Ok (nd_zeros2 (st_nb_scn s) (st_horizon s))
  else
    let* v := mapM (fun k => match group ["scn"; "t"] rows k with
                             | [] => Err ValueError
                             | g => Ok (sum_cells (map (cell_of col) g)) end)
                   (flat_map (fun a => map (fun b => a ++ b) ts) scns) in
    Ok (ND [List.length scns; List.length ts] v).

Definition get_rac (an : analyzer) (net : string) : res ndarray :=
  let s := an_study an in
  let here tb := filter (fun r => eqb (cell_of "network" r) (CStr net)) (tb_rows tb) in
  let* used := pivot_scn_t s "used" (here (an_prod an)) in
  let* avail := pivot_scn_t s "avail" (here (an_prod an)) in
  let* asked := pivot_scn_t s "asked" (here (an_cons an)) in
  let* given := pivot_scn_t s "given" (here (an_cons an)) in
  let* a := nd_op Qminus avail used in
  let* b := nd_op Qminus asked given in
  nd_op Qminus a b.
