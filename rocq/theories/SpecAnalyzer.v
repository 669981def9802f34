(** Specification of the analysis of results: what the flat tables should hold,
    what a query selects. *)
From Coq Require Import String List ZArith QArith Bool Permutation Sorted.
From Verif Require Import Base Numeric Study Fluent Output LP SpecStudy SpecLP Analyzer.
Import ListNotations.
Open Scope nat_scope.
Open Scope string_scope.
Open Scope list_scope.

(** [e] and [o] are the same element of a node in the study and in the result. *)
Definition is_element {E F} (gets : node -> list E) (getr : onode -> list F) (s : study) (r : result)
    (net nd : string) (e : E) (o : F) : Prop :=
  exists n rn i, node_at s net nd = Some n /\ rnode_at r net nd = Some rn /\
    nth_error (gets n) i = Some e /\ nth_error (getr rn) i = Some o.

(** The row of each kind of element at a scenario and time. *)
Definition when (scn t : nat) : trow := [("t", CInt (Z.of_nat t)); ("scn", CInt (Z.of_nat scn))].

Definition cons_row (net nd : string) (c : consumption) (o : oconsumption) (scn t : nat) : trow :=
  [("cost", CNum (value (c_cost c) scn t)); ("asked", CNum (value (c_qty c) scn t)); ("given", CNum (entry (oc_qty o) scn t));
   ("name", CStr (c_name c)); ("node", CStr nd); ("network", CStr net)] ++ when scn t.
Definition prod_row (net nd : string) (p : production) (o : oproduction) (scn t : nat) : trow :=
  [("cost", CNum (value (p_cost p) scn t)); ("avail", CNum (value (p_qty p) scn t)); ("used", CNum (entry (op_qty o) scn t));
   ("name", CStr (p_name p)); ("node", CStr nd); ("network", CStr net)] ++ when scn t.
Definition link_row (net nd : string) (l : link) (o : olink) (scn t : nat) : trow :=
  [("cost", CNum (value (l_cost l) scn t)); ("avail", CNum (value (l_qty l) scn t)); ("used", CNum (entry (ol_qty o) scn t));
   ("node", CStr nd); ("dest", CStr (l_dest l)); ("network", CStr net)] ++ when scn t.
Definition stor_row (net nd : string) (x : storage) (o : ostorage) (scn t : nat) : trow :=
  [("max_capacity", CNum (value (s_capacity x) scn t)); ("capacity", CNum (entry (os_capacity o) scn t));
   ("max_flow_in", CNum (value (s_flow_in x) scn t)); ("flow_in", CNum (entry (os_flow_in o) scn t));
   ("max_flow_out", CNum (value (s_flow_out x) scn t)); ("flow_out", CNum (entry (os_flow_out o) scn t));
   ("cost", CNum (value (s_cost x) scn t)); ("init_capacity", CNum (s_init x)); ("eff", CNum (value (s_eff x) scn t));
   ("name", CStr (s_name x)); ("node", CStr nd); ("network", CStr net)] ++ when scn t.
Definition dest_row (v : converter) (rv : oconverter) (scn t : nat) : trow :=
  [("name", CStr (v_name v)); ("network", CStr (v_dnet v)); ("node", CStr (v_dnode v));
   ("flow", CNum (entry (ov_dest rv) scn t)); ("cost", CNum (ovalue (v_cost v) scn t)); ("max", CNum (ovalue (v_max v) scn t))] ++ when scn t.
Definition src_row (v : converter) (net nd : string) (ratio : numval) (flow : ndarray) (scn t : nat) : trow :=
  [("name", CStr (v_name v)); ("network", CStr net); ("node", CStr nd); ("ratio", CNum (value ratio scn t));
   ("flow", CNum (entry flow scn t));
   ("max", if Qeq_bool (value ratio scn t) 0 then CNaN else CNum (ovalue (v_max v) scn t / value ratio scn t)%Q)] ++ when scn t.

(** A table holds one row for every element, scenario and time, and no other row. *)
Definition faithful {E F} (gets : node -> list E) (getr : onode -> list F) (element : string)
    (row : string -> string -> E -> F -> nat -> nat -> trow) (s : study) (r : result) (rows : list trow) : Prop :=
  (forall net nd e o scn t, is_element gets getr s r net nd e o -> scn < st_nb_scn s -> t < st_horizon s ->
     In (row net nd e o scn t) rows) /\
  (forall x, In x rows -> exists net nd e o scn t, is_element gets getr s r net nd e o /\ scn < st_nb_scn s /\ t < st_horizon s /\
     x = row net nd e o scn t) /\
  NoDup (map (key_of ["network"; "node"; element; "scn"; "t"]) rows).

(** The last element of a kind in a study: its node has none after it, and neither has any node or network that follows. *)
Definition last_element {E} (gets : node -> list E) (s : study) (net nd : string) (e : E) : Prop :=
  exists nets ns nets' nodes n nodes' l,
    st_networks s = nets ++ (net, ns) :: nets' /\ ns = nodes ++ (nd, n) :: nodes' /\ gets n = l ++ [e] /\
    (forall k m d x, In (k, m) nets' -> In (d, x) m -> gets x = []) /\ (forall d x, In (d, x) nodes' -> gets x = []).

(** The same for the destinations and the sources of converters. *)
Definition faithful_dest (s : study) (r : result) (rows : list trow) : Prop :=
  (forall name v rv scn t, conv_at s name = Some v -> rconv_at r name = Some rv -> scn < st_nb_scn s -> t < st_horizon s ->
     In (dest_row v rv scn t) rows) /\
  (forall x, In x rows -> exists name v rv scn t, conv_at s name = Some v /\ rconv_at r name = Some rv /\
     scn < st_nb_scn s /\ t < st_horizon s /\ x = dest_row v rv scn t) /\
  NoDup (map (key_of ["network"; "node"; "name"; "scn"; "t"]) rows).
Definition is_source (s : study) (r : result) (name : string) (v : converter) (net nd : string) (q : numval) (a : ndarray) : Prop :=
  exists rv, conv_at s name = Some v /\ rconv_at r name = Some rv /\ dget (net, nd) (v_src v) = Some q /\ dget (net, nd) (ov_src rv) = Some a.
Definition faithful_src (s : study) (r : result) (rows : list trow) : Prop :=
  (forall name v net nd q a scn t, is_source s r name v net nd q a -> scn < st_nb_scn s -> t < st_horizon s ->
     In (src_row v net nd q a scn t) rows) /\
  (forall x, In x rows -> exists name v net nd q a scn t, is_source s r name v net nd q a /\
     scn < st_nb_scn s /\ t < st_horizon s /\ x = src_row v net nd q a scn t) /\
  NoDup (map (key_of ["network"; "node"; "name"; "scn"; "t"]) rows).

(** How many sources the converters have. Every one has at most one, except that the last one
    to have any may have two. *)
Definition source_counts (s : study) : list nat := map (fun kv : string * converter => List.length (v_src (snd kv))) (st_converters s).
Definition sources_fit (l : list nat) : Prop := forall before k after, l = before ++ k :: after -> k <= 1 \/ (k = 2 /\ Forall (eq 0) after).

(** Arrays of the wrong length are refused (some versions of pandas accept those of length one). *)
Definition refuses (bcast : bool) (s : study) : Prop := bcast = false \/ 2 <= st_horizon s * st_nb_scn s.

(** The studies with an analyzer, when arrays of the wrong length are refused (C67). *)
Definition analysable (s : study) : Prop :=
  (forall name v, conv_at s name = Some v -> v_cost v <> None /\ v_max v <> None) /\
  sources_fit (source_counts s) /\ List.length (st_converters s) <= list_sum (source_counts s).
Definition well_read (bcast : bool) (s : study) : Prop := refuses bcast s \/ analysable s.

(** The rows of this side of the converter are right: a destination, or one source, or one scenario. *)
Definition one_block (s : study) (el : axis) (name : string) : Prop :=
  el = ADestConv \/ st_nb_scn s = 1 \/ forall v, conv_at s name = Some v -> List.length (v_src v) = 1.

Definition storage_count (s : study) : nat :=
  list_sum (map (fun kn : string * network => list_sum (map (fun kd => List.length (n_stors (snd kd))) (snd kn))) (st_networks s)).
(** Nothing that was in the memory of the storage table reads as the name of a network. *)
Definition unwritten (junk : nat -> string -> nat -> cell) (s : study) : Prop :=
  storage_count s <= 1 \/ forall k net, In net (dkeys (st_networks s)) -> junk 2 "network" k <> CStr net.

(** A row of the source table with another scenario. *)
Definition relabelled (scn : nat) (x : trow) : trow := dset "scn" (CInt (Z.of_nat scn)) x.

(** ** Queries *)

(** What an argument selects among the labels of its axis. *)
Definition selects (x : iarg) (c : cell) : Prop :=
  match x with
  | INone | IList [] => True
  | IOne v => c = v
  | IList l | ITuple l => In c l
  | ISlice start stop step =>
      let a := match start with Some z => z | None => 0%Z end in
      let d := match step with Some z => z | None => 1%Z end in
      exists i k, c = CInt i /\ (0 <= k)%Z /\ i = (a + k * d)%Z /\ match stop with Some b => (i < b)%Z | None => True end
  end.

(** Slices with both ends, in increasing order. *)
Definition closed (x : iarg) : Prop :=
  match x with
  | ISlice (Some _) (Some _) None => True
  | ISlice (Some _) (Some _) (Some d) => (0 < d)%Z
  | ISlice _ _ _ => False
  | _ => True
  end.

(** An argument that can select several values; one that selects nothing. *)
Definition several (x : iarg) : Prop :=
  match x with
  | INone => True
  | IOne _ => False
  | IList l => List.length l <> 1
  | ITuple l => 2 <= List.length l
  | ISlice _ _ _ => exists c d, c <> d /\ selects x c /\ selects x d
  end.
Definition void (x : iarg) : Prop := forall c, ~ selects x c.

(** A query: an argument for each axis, in any order. *)
Definition query := list (axis * iarg).
Definition whole (el : axis) (q : query) : Prop := Permutation (map fst q) [ANetwork; ANode; el; AScn; ATime].
Definition query_names (q : query) : list string := map (fun ax => axis_column (fst ax)) q.
Definition matches (q : query) (r : trow) : Prop := forall a x, In (a, x) q -> selects x (cell_of (axis_column a) r).

(** Tables with unique keys: every row has labels in the five key columns; no two rows have
    the same; at least one other column holds a number, the others numbers or nothing. *)
Definition is_label (c : cell) : Prop := match c with CInt _ | CStr _ => True | _ => False end.
Record keyed (el : axis) (tb : table) : Prop := {
  ky_cols : incl ["network"; "node"; axis_column el; "scn"; "t"] (tb_cols tb);
  ky_labels : forall r c, In r (tb_rows tb) -> In c ["network"; "node"; axis_column el; "scn"; "t"] -> is_label (cell_of c r);
  ky_unique : NoDup (map (key_of ["network"; "node"; axis_column el; "scn"; "t"]) (tb_rows tb));
  ky_values : forall r c, In r (tb_rows tb) -> In c (tb_cols tb) -> ~ In c ["network"; "node"; axis_column el; "scn"; "t"] ->
    match cell_of c r with CNum _ | CNaN => True | _ => False end;
  ky_some : forall r, In r (tb_rows tb) -> exists c q, In c (tb_cols tb) /\
    ~ In c ["network"; "node"; axis_column el; "scn"; "t"] /\ cell_of c r = CNum q
}.

(** Order of labels: numbers by value, names by code points; lexicographic on several axes. *)
Definition label_lt (a b : cell) : Prop :=
  match a, b with
  | CInt x, CInt y => (x < y)%Z
  | CStr x, CStr y => String.compare x y = Lt
  | CInt _, CStr _ => True
  | _, _ => False
  end.
Fixpoint before (k l : list cell) : Prop :=
  match k, l with
  | a :: k', b :: l' => label_lt a b \/ (a = b /\ before k' l')
  | _, _ => False
  end.

(** The same value. *)
Definition same_cell (a b : cell) : Prop :=
  match a, b with CNum x, CNum y => (x == y)%Q | _, _ => a = b end.

(** A line of an answer carries a row of the table: its labels in the order of the query's
    axes, its other values unchanged. *)
Definition carries (q : query) (tb : table) (r : trow) (l : list cell * trow) : Prop :=
  fst l = key_of (query_names q) r /\
  forall c, In c (tb_cols tb) -> ~ In c (query_names q) -> exists v, dget c (snd l) = Some v /\ same_cell v (cell_of c r).

(** [f] answers the query [q] on [tb]: after its labels are completed by those of the levels
    that were dropped, there is exactly one line per row selected, in the order of the labels. *)
Definition answers (q : query) (tb : table) (f : frame) : Prop := exists dropped rows,
  let lines := map (fun l => (dropped ++ fst l, snd l)) (fr_rows f) in
  fr_levels f = skipn (List.length dropped) (query_names q) /\
  NoDup rows /\ (forall r, In r rows <-> In r (tb_rows tb) /\ matches q r) /\
  Forall2 (carries q tb) rows lines /\
  StronglySorted before (map fst lines).

(** Arguments that are accepted: slices on time and scenario only, both ends given. *)
Definition accepted (q : query) : Prop := forall a x, In (a, x) q -> closed x /\
  match x with ISlice _ _ _ => a = ATime \/ a = AScn | _ => True end.

(** The table of an element axis. *)
Definition table_of (an : analyzer) (el : axis) : option table :=
  match el with
  | ACons => Some (an_cons an)
  | AProd => Some (an_prod an)
  | AStor => Some (an_stor an)
  | ALink => Some (an_link an)
  | ASrcConv => Some (an_src an)
  | ADestConv => Some (an_dest an)
  | _ => None
  end.

(** Two answers with the same lines up to the order of lines and axes. *)
Definition completed (dropped : list cell) (f : frame) : list (list cell * trow) := map (fun l => (dropped ++ fst l, snd l)) (fr_rows f).
Definition same_line (q q' : query) (tb : table) (l l' : list cell * trow) : Prop :=
  Permutation (combine (query_names q) (fst l)) (combine (query_names q') (fst l')) /\
  forall c, In c (tb_cols tb) -> ~ In c (query_names q) ->
    exists v v', dget c (snd l) = Some v /\ dget c (snd l') = Some v' /\ same_cell v v'.
Definition same_answer (q q' : query) (tb : table) (f f' : frame) : Prop := exists dropped dropped' lines,
  fr_levels f = skipn (List.length dropped) (query_names q) /\ fr_levels f' = skipn (List.length dropped') (query_names q') /\
  Permutation (completed dropped' f') lines /\ Forall2 (same_line q q' tb) (completed dropped f) lines.

(** ** Programs of queries

    A program calls [network] and the methods of the selectors returned by its earlier calls. *)
Inductive qcall :=
| QNetwork (x : iarg)
| QAsk (k : nat) (a : axis) (x : iarg).

Definition outcome := res answer_of.
Definition qstep (an : analyzer) (st : aheap * list outcome) (c : qcall) : aheap * list outcome :=
  let '(h, os) := st in
  match c with
  | QNetwork x => let '(h', o) := (do s <- an_network x; sret (ASelector s)) h in (h', os ++ [o])
  | QAsk k a x =>
      match nth_error os k with
      | Some (Ok (ASelector se)) => let '(h', o) := ask an se a x h in (h', os ++ [o])
      | _ => (h, os ++ [Err AttributeError])
      end
  end.
Definition qrun (an : analyzer) (cs : list qcall) : aheap * list outcome := fold_left (qstep an) cs ([], []).

(** Calls on earlier results; the receivers of the calls. *)
Definition wf_calls (cs : list qcall) : Prop := forall k j a x, nth_error cs k = Some (QAsk j a x) -> j < k.
Definition receivers (cs : list qcall) : list nat := flat_map (fun c => match c with QAsk k _ _ => [k] | _ => [] end) cs.

(** The query that each call completes, and the program that writes it alone. *)
Definition chains (cs : list qcall) : list query :=
  fold_left (fun acc c => acc ++ [match c with QNetwork x => [(ANetwork, x)] | QAsk j a x => nth j acc [] ++ [(a, x)] end]) cs [].
Definition straight (q : query) : list qcall :=
  match q with
  | [] => []
  | (_, x) :: rest => QNetwork x :: map (fun iax => QAsk (fst iax) (fst (snd iax)) (snd (snd iax))) (combine (seq 0 (List.length rest)) rest)
  end.

(** What is seen of an outcome: the data, or the methods offered. *)
Inductive seen := SData (f : option frame) | SMethods (l : list axis).
Definition view (o : outcome) : res seen :=
  match o with
  | Ok (AFrame f) => Ok (SData f)
  | Ok (ASelector se) => Ok (SMethods (se_axes se))
  | Err e => Err e
  end.
Definition written_alone (an : analyzer) (q : query) : option outcome := nth_error (snd (qrun an (straight q))) (List.length q - 1).
