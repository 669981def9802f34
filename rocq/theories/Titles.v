(** Figures with their titles and the names of their axes: the methods of the fluent interface of
    hadar/viewer/abc.py, 140-1065, and the layouts of hadar/viewer/html.py. The contents are those
    of [Viewer.v] and [Picture.v]. *)
From Coq Require Import String Ascii List ZArith QArith Bool Arith Lia DecimalString DecimalZ Decimal.
From Verif Require Import Base Numeric Study Output LP Analyzer Viewer Picture Drawing.
Import ListNotations.
Open Scope nat_scope.
Open Scope string_scope.
Open Scope list_scope.

(** What can be asked of a node, abc.py 913-1003. The kinds are names of columns. *)
Inductive element :=
| Consumption (name kind : string)
| Production (name kind : string)
| Storage (name : string)
| Link (dest kind : string)
| ToConverter (name : string)
| FromConverter (name : string).

Inductive view :=
| Timeline (e : element)
| Monotone (e : element) (t scn : option Z)
| Gaussian (e : element) (t scn : option Z)
| Candles (e : element) (scn : Z)
| Stack (scn : Z) (prod_kind cons_kind : string).

Inductive figure_request :=
| AtNode (net nd : string) (v : view)
| Matrix (net : string)
| Map (net : string) (t scn : Z) (limit : option Q) (zoom : Q).

(** [self.agg. ... .consumption(name)] ... [[kind]]: axis, name and column of an element. *)
Definition element_axis (e : element) : axis :=
  match e with
  | Consumption _ _ => ACons | Production _ _ => AProd | Storage _ => AStor | Link _ _ => ALink
  | ToConverter _ => ASrcConv | FromConverter _ => ADestConv
  end.
Definition element_name (e : element) : string :=
  match e with Consumption n _ | Production n _ | Storage n | Link n _ | ToConverter n | FromConverter n => n end.
Definition element_column (e : element) : string :=
  match e with Consumption _ k | Production _ k | Link _ k => k | _ => "flow" end.

(** ["%0d" % z] and ["%d" % z]. Simplification: the indices are Python integers. *)
Definition decimal (z : Z) : string := NilZero.string_of_int (Z.to_int z).

(** The titles of timelines: 152, 272, 478, 588, 706. *)
Definition timeline_title (nd : string) (e : element) : string :=
  match e with
  | Consumption name kind => "Consumptions " ++ kind ++ " for " ++ name ++ " on node " ++ nd
  | Production name kind => "Production " ++ kind ++ " for " ++ name ++ " on node " ++ nd
  | Link dest kind => "Link " ++ kind ++ " from " ++ nd ++ " to " ++ dest
  | ToConverter name => "Timeline converter " ++ name ++ " from node " ++ nd
  | FromConverter name => "Timeline converter " ++ name ++ " to node " ++ nd
  | Storage _ => ""
  end.

(** Of monotones, before the index: 174-192, 294-312, 422-441, 500-514, 610-628, 728-746. *)
Definition monotone_title (nd : string) (e : element) : string :=
  match e with
  | Consumption name _ => "Monotone consumption of " ++ name ++ " on node " ++ nd
  | Production name _ => "Monotone production of " ++ name ++ " on node " ++ nd
  | Storage name => "Monotone storage of " ++ name ++ " on node " ++ nd
  | Link dest _ => "Monotone link from " ++ nd ++ " to " ++ dest
  | ToConverter name => "Timeline converter " ++ name ++ " from node " ++ nd
  | FromConverter name => "Timeline converter " ++ name ++ " to node " ++ nd
  end.

(** Of gaussians, before the index: 216-235, 336-355, 538-553, 652-671, 770-789. *)
Definition gaussian_title (nd : string) (e : element) : string :=
  match e with
  | Consumption name _ => "Gaussian consumption of " ++ name ++ " on node " ++ nd
  | Production name _ => "Gaussian production of " ++ name ++ " on node " ++ nd
  | Link dest _ => "Gaussian link from " ++ nd ++ " to " ++ dest
  | ToConverter name => "Gaussian converter " ++ name ++ " from node " ++ nd
  | FromConverter name => "Gaussian converter " ++ name ++ " to node " ++ nd
  | Storage _ => ""
  end.

(** The index: " at t=%0d" or " at scn=%0d"; " for scn=%0d" in the monotone of storages. *)
Definition index_title (e : element) (t scn : option Z) : string :=
  match t, scn with
  | Some t, _ => " at t=" ++ decimal t
  | None, Some scn => match e with Storage _ => " for scn=" ++ decimal scn | _ => " at scn=" ++ decimal scn end
  | None, None => ""
  end.

Inductive drawn :=
| DTimeline (curves : list (cell * list cell))
| DMonotone (curve : list cell)
| DGaussian (g : gauss)
| DCandles (points : list cell * list cell)
| DStack (layers : list (cell * list cell) * list (cell * list cell))
| DMatrix (cells : ndarray)
| DMap (p : picture).

(** Title, names of the axes (of the colours for the map), content. *)
Record figure := Figure { fg_title : string; fg_x : string; fg_y : string; fg_drawn : drawn }.

Section Show.
  Variable by_cost : list (list cell * trow) -> list (list cell * trow).
  Variable nz : bool.
  Variable co : option coords.
  Variable symbol : string.

  (** ABCPlotting.__init__, abc.py 1103, and the layouts of html.py. *)
  Definition unit_text : string := if String.eqb symbol "" then "" else "(" ++ symbol ++ ")".
  Definition quantity : string := "Quantity " ++ unit_text.

  (** Storages have neither timelines nor gaussians, other elements no candles: AttributeError. *)
  Definition show_view (an : analyzer) (net nd : string) (v : view) : res figure :=
    match v with
    | Timeline (Storage _) => Err AttributeError
    | Timeline e =>
        let* c := timeline an net nd (element_axis e) (element_name e) (element_column e) in
        Ok (Figure (timeline_title nd e) "time" quantity (DTimeline c))
    | Monotone e t scn =>
        let* c := match e with
                  | Storage name => storage_monotone an net nd name t scn
                  | _ => monotone an net nd (element_axis e) (element_name e) (element_column e) t scn
                  end in
        Ok (Figure (monotone_title nd e ++ index_title e t scn) "%" quantity (DMonotone c))
    | Gaussian (Storage _) _ _ => Err AttributeError
    | Gaussian e t scn =>
        let* g := match e with
                  | ToConverter name | FromConverter name => converter_gaussian an net nd (element_axis e) name t scn
                  | _ => gaussian an net nd (element_axis e) (element_name e) (element_column e) t scn
                  end in
        Ok (Figure (gaussian_title nd e ++ index_title e t scn) quantity "" (DGaussian g))
    | Candles (Storage name) scn =>
        let* p := candles an net nd name scn in
        Ok (Figure ("Stockage capacity of " ++ name ++ " on node " ++ nd ++ " for scn=" ++ decimal scn) "Time" quantity (DCandles p))
    | Candles _ _ => Err AttributeError
    | Stack scn pk ck =>
        let* l := stack by_cost an net nd scn pk ck in
        Ok (Figure ("Stack for node " ++ nd) "time" quantity (DStack l))
    end.

  Definition show (an : analyzer) (q : figure_request) : res figure :=
    match q with
    | AtNode net nd v => show_view an net nd v
    | Matrix net =>
        let* pz := rac_matrix an net in
        Ok (Figure ("RAC Matrix " ++ decimal (title_percent (fst pz)) ++ " % passed") "time" "scenarios" (DMatrix (snd pz)))
    | Map net t scn limit zoom =>
        let* m := map_view an net t scn limit in
        let* p := draw_map nz co zoom m in
        Ok (Figure ("Exchange map at t=" ++ decimal t ++ " scn=" ++ decimal scn) "" ("Net Position " ++ unit_text) (DMap p))
    end.
End Show.
