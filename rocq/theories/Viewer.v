(** Views of a result: hadar/viewer/abc.py and hadar/viewer/html.py.

    A view asks the analyzer, computes the numbers to draw and hands them to the drawing
    functions. The model keeps the numbers that end up in the figure and leaves out the
    layout: colours, marker positions and map coordinates are in [Picture.v] and [Drawing.v],
    titles (except where formatting one raises) and axis names in [Titles.v]. Numbers are cells of [Analyzer.v], so
    that the NaN of a badly filled table stays visible. Indices [t] and [scn] are Python
    integers, negative ones included. *)
From Coq Require Import String Ascii List ZArith QArith Bool Arith Lia.
From Verif Require Import Base Numeric Study Fluent Output LP Analyzer.
Import ListNotations.
Open Scope nat_scope.
Open Scope string_scope.
Open Scope list_scope.

(** ** Asking the analyzer *)

(** [x.m1(...).m2(...)]: each call on the selector returned by the one before. *)
Fixpoint asks (an : analyzer) (a : answer_of) (l : list (axis * iarg)) : ST aheap answer_of :=
  match l with
  | [] => sret a
  | (ax, x) :: rest =>
      match a with
      | ASelector se => do a' <- ask an se ax x; asks an a' rest
      | AFrame _ => sraise AttributeError
      end
  end.

(** [self.agg.network(net).m1(...). ... .m4(...)]. The list of indexes is created by
    [network], so the other lists of the heap do not matter. An answer that is None has no
    columns: TypeError. *)
Definition fetch (an : analyzer) (net : iarg) (l : list (axis * iarg)) : res frame :=
  let '(_, r) := (do s <- an_network net; asks an (ASelector s) l) [] in
  match r with
  | Ok (AFrame (Some f)) => Ok f
  | Ok _ => Err TypeError
  | Err e => Err e
  end.

(** [df[col].values]; on a frame without lines the array is empty. *)
Definition column (col : string) (f : frame) : res (list cell) :=
  mapM (fun l : list cell * trow => match dget col (snd l) with Some v => Ok v | None => Err KeyError end) (fr_rows f).

(** [df.sort_index(ascending=True, inplace=True)] *)
Definition line_le (l m : list cell * trow) : bool := key_le (fst l) (fst m).
Definition sort_index (f : frame) : frame := Frame (fr_levels f) (isort line_le (fr_rows f)).

(** [df.index.get_level_values(name).unique()] *)
Definition level_values (name : string) (f : frame) : res (list cell) :=
  let* i := level_pos name (fr_levels f) in
  Ok (unique (map (fun l => nth i (fst l) CNaN) (fr_rows f))).

Definition int (z : Z) : iarg := IOne (CInt z).
Definition str (s : string) : iarg := IOne (CStr s).
Definition opt (z : option Z) : iarg := match z with Some z => int z | None => INone end.

(** [a[i]], [a[i, :]] and [a[:, j]] on an array of two dimensions *)
Definition nd_row (a : ndarray) (i : Z) : res (list Q) :=
  match shape a with
  | [n; m] => match pyindex n i with Some k => Ok (firstn m (skipn (k * m) (data a))) | None => Err IndexError end
  | _ => Err IndexError
  end.
Definition nd_col (a : ndarray) (j : Z) : res (list Q) :=
  match shape a with
  | [n; m] => match pyindex m j with
              | Some k => mapM (fun i => lnth (data a) (i * m + k)) (seq 0 n)
              | None => Err IndexError
              end
  | _ => Err IndexError
  end.

(** ** Monotone: html.py:88-90. [y.sort()] puts NaN last. *)
Definition draw_monotone (y : list cell) : list cell := rev (isort cell_le y).

(** monotone of consumptions 155-194, productions 275-314, links 481-516 and converters
    591-630, 709-748: the column [col] is 'flow' for converters, the kind asked otherwise.
    With neither time nor scenario, [y] has no value. *)
Definition monotone (an : analyzer) (net nd : string) (el : axis) (name col : string) (t scn : option Z) : res (list cell) :=
  match t, scn with
  | Some _, Some _ => Err ValueError
  | Some t, None =>
      let* f := fetch an (str net) [(ANode, str nd); (el, str name); (ATime, int t); (AScn, INone)] in
      let* y := column col f in
      Ok (draw_monotone y)
  | None, Some scn =>
      let* f := fetch an (str net) [(ANode, str nd); (el, str name); (AScn, int scn); (ATime, INone)] in
      let* y := column col f in
      Ok (draw_monotone y)
  | None, None => Err UnboundLocalError
  end.

Definition zip_cells (f : Q -> Q -> Q) (a b : list cell) : list cell := map (fun xy => cell_op f (fst xy) (snd xy)) (combine a b).

(** monotone of storages: 402-443 *)
Definition storage_monotone (an : analyzer) (net nd name : string) (t scn : option Z) : res (list cell) :=
  let flows f :=
    let f := sort_index f in
    let* i := column "flow_in" f in
    let* o := column "flow_out" f in
    Ok (draw_monotone (zip_cells Qminus i o)) in
  match t, scn with
  | Some _, Some _ => Err ValueError
  | Some t, None => let* f := fetch an (str net) [(ANode, str nd); (AStor, str name); (ATime, int t); (AScn, INone)] in flows f
  | None, Some scn => let* f := fetch an (str net) [(ANode, str nd); (AStor, str name); (AScn, int scn); (ATime, INone)] in flows f
  | None, None => Err UnboundLocalError
  end.

(** ** Gaussian: html.py:104-156. What is drawn: the curve, given by mean, variance and
    greatest value; green and red points. Boolean indexing needs arrays of the same length. *)
Record gauss := Gauss { ga_mean : Q; ga_var : Q; ga_max : Q; ga_green : list Q; ga_red : list Q }.

Definition qmax (a b : Q) : Q := if qlt a b then b else a.
Definition qmin (a b : Q) : Q := if qlt b a then b else a.
Definition list_max (l : list Q) : res Q := match l with [] => Err ValueError | x :: r => Ok (fold_left qmax r x) end.
Definition list_min (l : list Q) : res Q := match l with [] => Err ValueError | x :: r => Ok (fold_left qmin r x) end.

Definition average (l : list Q) : Q := (qsum l / qnat (List.length l))%Q.
Definition pick {A} (keep : list bool) (l : list A) : res (list A) :=
  if Nat.eqb (List.length keep) (List.length l) then Ok (map snd (filter fst (combine keep l))) else Err IndexError.

(** The values of a table are numbers; a NaN would be drawn nowhere: an exception here. *)
Definition numbers (l : list cell) : res (list Q) := mapM (fun c => match c with CNum q => Ok q | _ => Err ValueError end) l.

Definition draw_gaussian (rac : list Q) (qt : list Q) : res gauss :=
  let* _ := list_min qt in
  let* top := list_max qt in
  let m := average qt in
  let* green := pick (map (fun x => qle 0 x) rac) qt in
  let* red := pick (map (fun x => qlt x 0) rac) qt in
  Ok (Gauss m (average (map (fun x => (x - m) * (x - m))%Q qt)) top green red).

(** gaussian of consumptions 196-237, productions 316-357, links 518-555. With neither time
    nor scenario, the title cannot be formatted. *)
Definition gaussian (an : analyzer) (net nd : string) (el : axis) (name col : string) (t scn : option Z) : res gauss :=
  match t, scn with
  | Some _, Some _ => Err ValueError
  | None, _ =>
      let* f := fetch an (str net) [(ANode, str nd); (el, str name); (AScn, opt scn); (ATime, INone)] in
      let* y := column col f in
      let* a := get_rac an net in
      match scn with
      | None => Err TypeError
      | Some scn => let* rac := nd_row a scn in let* y := numbers y in draw_gaussian rac y
      end
  | Some t, None =>
      let* f := fetch an (str net) [(ANode, str nd); (el, str name); (ATime, int t); (AScn, INone)] in
      let* y := column col f in
      let* a := get_rac an net in
      let* rac := nd_col a t in let* y := numbers y in draw_gaussian rac y
  end.

(** gaussian of converters 632-673, 750-791: the same except for the query of 642-650 and
    760-768, [.time(t).scn()] with [t] None. *)
Definition converter_gaussian (an : analyzer) (net nd : string) (el : axis) (name : string) (t scn : option Z) : res gauss :=
  match t, scn with
  | Some _, Some _ => Err ValueError
  | None, _ =>
      let* f := fetch an (str net) [(ANode, str nd); (el, str name); (ATime, INone); (AScn, INone)] in
      let* y := column "flow" f in
      let* a := get_rac an net in
      match scn with
      | None => Err TypeError
      | Some scn => let* rac := nd_row a scn in let* y := numbers y in draw_gaussian rac y
      end
  | Some t, None =>
      let* f := fetch an (str net) [(ANode, str nd); (el, str name); (ATime, int t); (AScn, INone)] in
      let* y := column "flow" f in
      let* a := get_rac an net in
      let* rac := nd_col a t in let* y := numbers y in draw_gaussian rac y
  end.

(** ** Timeline: one curve per scenario. The [timeline] of each element 140-153, 260-273,
    466-479, 576-589, 694-707; html.py:61-86 ([1 / scenarios.size] on no scenario). *)
Definition timeline (an : analyzer) (net nd : string) (el : axis) (name col : string) : res (list (cell * list cell)) :=
  let* f := fetch an (str net) [(ANode, str nd); (el, str name); (AScn, INone); (ATime, INone)] in
  let* _ := column col f in
  let* scns := level_values "scn" f in
  match scns with
  | [] => Err ZeroDivisionError
  | _ => mapM (fun s => if in_index s f then let* y := column col (frame_loc s f) in Ok (s, y) else Err KeyError) scns
  end.

(** ** Candles: 378-400 *)

(** [series[0]]: the line labelled 0 on an index of times. *)
Definition label_zero (col : string) (f : frame) : res cell :=
  match fr_levels f with
  | [_] => match find (fun l : list cell * trow => eqb (fst l) [CInt 0]) (fr_rows f) with
           | Some l => match dget col (snd l) with Some v => Ok v | None => Err KeyError end
           | None => Err KeyError
           end
  | _ => Err KeyError
  end.

Fixpoint cumsum_from (acc : cell) (l : list cell) : list cell :=
  match l with
  | [] => []
  | x :: r => let acc := cell_op Qplus acc x in acc :: cumsum_from acc r
  end.
Definition cumsum (l : list cell) : list cell := match l with [] => [] | x :: r => x :: cumsum_from x r end.

(** Opening and closing values. *)
Definition candles (an : analyzer) (net nd name : string) (scn : Z) : res (list cell * list cell) :=
  let* f := fetch an (str net) [(ANode, str nd); (AStor, str name); (AScn, int scn); (ATime, INone)] in
  let f := sort_index f in
  let* init := label_zero "init_capacity" f in
  let* fin := column "flow_in" f in
  let* eff := column "eff" f in
  let* fout := column "flow_out" f in
  let points := cumsum (init :: zip_cells Qminus (zip_cells Qmult fin eff) fout) in
  Ok (removelast points, tl points).

(** ** Stack: 806-911 *)
Section Stack.
  (** The order in which [sort_values('cost', ascending=False)] leaves the lines. *)
  Variable by_cost : list (list cell * trow) -> list (list cell * trow).

  (** extract: 817-827 *)
  Definition extract (an : analyzer) (net nd : string) (scn : Z) (el : axis) (value_col : string) (sort : bool) : res (list (cell * list cell)) :=
    let* f := fetch an (str net) [(AScn, int scn); (ANode, str nd); (el, INone); (ATime, INone)] in
    let f := if sort then Frame (fr_levels f) (by_cost (fr_rows f)) else f in
    let* ids := level_values "name" f in
    mapM (fun i => if in_index i f then let* y := column value_col (sort_index (frame_loc i f)) in Ok (i, y) else Err KeyError) ids.

  (** [extract(...) if count > 0 else []] *)
  Definition extract_if (count : nat) (an : analyzer) (net nd : string) (scn : Z) (el : axis) (value_col : string) (sort : bool) : res (list (cell * list cell)) :=
    if Nat.ltb 0 count then extract an net nd scn el value_col sort else Ok [].

  (** [if not (x == 0).all(): ... .append((name, x))] *)
  Definition append_if (name : string) (x : list Q) : list (cell * list cell) :=
    if forallb (fun q => Qeq_bool q 0) x then [] else [(CStr name, map CNum x)].

  Definition stack_data (an : analyzer) (net nd : string) (scn : Z) (prod_kind cons_kind : string) :
      res (list (cell * list cell) * list (cell * list cell)) :=
    let* e := elements_inside (an_study an) (Some nd) (Some net) in
    let* a1 := extract_if (nth 1 e 0) an net nd scn AProd prod_kind true in
    let* a2 := extract_if (nth 2 e 0) an net nd scn AStor "flow_out" true in
    let* a3 := extract_if (nth 5 e 0) an net nd scn ADestConv "flow" false in
    let* b := get_balance an nd net in
    let* b := nd_row b scn in
    let im := map (fun q => - qmin q 0)%Q b in
    let* l1 := extract_if (nth 0 e 0) an net nd scn ACons cons_kind true in
    let* l2 := extract_if (nth 2 e 0) an net nd scn AStor "flow_in" true in
    let* l3 := extract_if (nth 4 e 0) an net nd scn ASrcConv "flow" false in
    let ex := map (fun q => qmax q 0) b in
    Ok (a1 ++ a2 ++ a3 ++ append_if "import" im, l1 ++ l2 ++ l3 ++ append_if "export" ex).

  (** html.py:186-230: [stack += data], one curve per element. *)
  Definition add_layer (stack data : list cell) : res (list cell) :=
    if Nat.eqb (List.length data) (List.length stack) then Ok (zip_cells Qplus stack data)
    else match data with
         | [x] => Ok (map (fun y => cell_op Qplus y x) stack)
         | _ => Err ValueError
         end.
  Definition layers (h : nat) (l : list (cell * list cell)) : res (list (cell * list cell)) :=
    let* out := foldM (fun '(stack, done) (nd : cell * list cell) =>
      let* stack := add_layer stack (snd nd) in Ok (stack, done ++ [(fst nd, stack)])) l (repeat (CNum 0) h, []) in
    Ok (snd out).

  (** The curves of the areas, bottom first; of the lines, top first. *)
  Definition stack (an : analyzer) (net nd : string) (scn : Z) (prod_kind cons_kind : string) :
      res (list (cell * list cell) * list (cell * list cell)) :=
    let* al := stack_data an net nd scn prod_kind cons_kind in
    let* areas := layers (st_horizon (an_study an)) (fst al) in
    let* lines := layers (st_horizon (an_study an)) (snd al) in
    Ok (areas, rev lines).
End Stack.

(** ** Matrix of remaining capacities: 1019-1029, html.py:232-236 *)

(** [x[x > 0] /= np.max(x[x > 0])] and the same for negative numbers *)
Definition sdt (x : list Q) : res (list Q) :=
  let* up := list_max (filter (fun q => qlt 0 q) x) in
  let x := map (fun q => if qlt 0 q then (q / up)%Q else q) x in
  let* down := list_min (filter (fun q => qlt q 0) x) in
  Ok (map (fun q => if qlt q 0 then (q / (- down))%Q else q) x).

Definition draw_matrix (a : ndarray) : res ndarray :=
  let* z := sdt (data a) in Ok (ND (shape a) z).

(** The share of values that are not negative, and the colours. *)
Definition rac_matrix (an : analyzer) (net : string) : res (Q * ndarray) :=
  let* rac := get_rac an net in
  let pct := (qnat (List.length (filter (fun q => qle 0 q) (data rac))) / qnat (List.length (data rac)) * 100)%Q in
  let* z := draw_matrix rac in
  Ok (pct, z).

(** ** Map of exchanges: 1031-1065 *)
Definition cell_nonneg (c : cell) : bool := match c with CNum q => qle 0 q | _ => false end.
Definition cell_neg (c : cell) : cell := match c with CNum q => CNum (- q)%Q | x => x end.

(** [links.loc[src, dest]["used"]], [(src, dest) in links.index] *)
Definition find_line (f : frame) (src dest : cell) : option (list cell * trow) := find (fun l => eqb (fst l) [src; dest]) (fr_rows f).
Definition line_used (f : frame) (src dest : cell) : res cell :=
  match find_line f src dest with
  | Some l => match dget "used" (snd l) with Some v => Ok v | None => Err KeyError end
  | None => Err KeyError
  end.

(** [links.loc[src].index.get_level_values("dest").unique()] *)
Definition dests (f : frame) (src : cell) : res (list cell) :=
  if in_index src f then level_values "dest" (frame_loc src f) else Err KeyError.

Record exchange_map := ExchangeMap { em_nodes : dict string Q; em_limit : Q; em_lines : dict (cell * cell) cell }.

Definition map_view (an : analyzer) (net : string) (t scn : Z) (limit : option Q) : res exchange_map :=
  let* ns := dlook net (st_networks (an_study an)) in
  let* nodes := mapM (fun nd => let* b := get_balance an nd net in let* q := nd_get2 b scn t in Ok (nd, q)) (dkeys ns) in
  let* limit := match limit with
                | Some q => Ok q
                | None => let* up := list_max (map snd nodes) in let* down := list_min (map snd nodes) in Ok (qmax up (- down)%Q)
                end in
  let* f := fetch an (str net) [(AScn, int scn); (ATime, int t); (ANode, INone); (ALink, INone)] in
  let* srcs := level_values "node" f in
  let* lines := foldM (fun lines src =>
    let* ds := dests f src in
    foldM (fun lines dest =>
      let* go := line_used f src dest in
      let* back := match find_line f dest src with Some _ => line_used f dest src | None => Ok (CNum 0) end in
      let ex := cell_op Qminus go back in
      Ok (if cell_nonneg ex then dset (src, dest) ex lines else dset (dest, src) (cell_neg ex) lines)) ds lines) srcs [] in
  Ok (ExchangeMap nodes limit lines).
