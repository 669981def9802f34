(** Model of the map drawn by HTMLElementPlotting.map_exchange and _plot_links,
    hadar/viewer/html.py 255-350, on the numbers of [map_view]. *)
From Coq Require Import String Ascii List ZArith QArith Qabs Bool Arith Lia.
From Verif Require Import Base Numeric Study Output Analyzer Viewer.
Import ListNotations.
Open Scope nat_scope.
Open Scope string_scope.
Open Scope list_scope.

(** Longitude and latitude. Simplification: coordinates given by the user are pairs. *)
Notation point := (Q * Q)%type (only parsing).
Definition coords := dict string (Q * Q).

(** What the colour map of matplotlib gives for a number: its place on the scale from 0 to 1,
    numbers beyond an end have the colour of this end; or the colour of what is no number. *)
Inductive shade := Ramp (x : Q) | Bad.
Definition on_scale (x : Q) : shade := Ramp (if qlt x 0 then 0 else if qlt 1 x then 1 else x)%Q.

(** [self.cmap(abs(qt) / 2 / limit + 0.5)], html.py 270. numpy divides by zero without raising:
    0 / 0 is no number, otherwise the result is beyond the end of the sign of the zero, which
    the model does not know ([nz]: it is negative). *)
Definition shade_of (nz : bool) (limit : Q) (qt : cell) : shade :=
  match qt with
  | CNum q => if Qeq_bool limit 0 then if Qeq_bool q 0 then Bad else Ramp (if nz then 0 else 1)%Q
              else on_scale (Qabs q / 2 / limit + (1 # 2))%Q
  | _ => Bad
  end.

Definition psub (a b : point) : point := ((fst a - fst b)%Q, (snd a - snd b)%Q).
Definition padd (a b : point) : point := ((fst a + fst b)%Q, (snd a + snd b)%Q).
Definition pscale (k : Q) (a : point) : point := ((k * fst a)%Q, (k * snd a)%Q).

Record arrow := Arrow { a_start : point; a_end : point; a_tip : point; a_left : point; a_right : point; a_shade : shade; a_text : cell }.
Record picture := Picture { pc_arrows : list arrow; pc_circles : list (point * Q); pc_center : point; pc_zoom : Q }.

(** _plot_links, html.py 305-350. *)
Definition plot_link (start end_ : point) (sh : shade) (qt : cell) : arrow :=
  let v := psub end_ start in
  let w := (snd v, (- fst v)%Q) in
  let A := psub end_ (pscale (1 # 10) v) in
  let B := psub (psub A (pscale (1 # 10) v)) (pscale (1 # 10) w) in
  let C := padd (psub A (pscale (1 # 10) v)) (pscale (1 # 10) w) in
  Arrow start end_ A B C sh qt.

(** [self.coord[n]] *)
Definition coord_of (co : coords) (c : cell) : res point :=
  match c with CStr n => dlook n co | _ => Err KeyError end.

(** np.mean over the nodes *)
Definition mean_point (l : list point) : point := (average (map fst l), average (map snd l)).

(** map_exchange, html.py 255-303. *)
Definition draw_map (nz : bool) (co : option coords) (size : Q) (m : exchange_map) : res picture :=
  match co with
  | None => Err ValueError
  | Some co =>
      let* node_coords := mapM (fun nq => dlook (fst nq) co) (em_nodes m) in
      let center := mean_point node_coords in
      let* arrows := mapM (fun kv : (cell * cell) * cell =>
        let sh := shade_of nz (em_limit m) (snd kv) in
        let* start := coord_of co (fst (fst kv)) in
        let* end_ := coord_of co (snd (fst kv)) in
        Ok (plot_link start end_ sh (snd kv))) (em_lines m) in
      if Qeq_bool size 0 then Err ZeroDivisionError
      else Ok (Picture arrows (combine node_coords (map snd (em_nodes m))) center (1 / size / (7 # 100))%Q)
  end.

(** The time axis of ABCPlotting.__init__, hadar/viewer/abc.py 1106-1115. Dates are whole
    numbers of nanoseconds. [pandas.date_range] with both ends and a number of dates spreads them
    evenly, each cut to a whole number, towards the start or, with numpy from version 1.20 on,
    downwards ([floor]); one date is the start. *)
Definition date_range (floor : bool) (start end_ : Z) (periods : nat) : list Z :=
  map (fun i => match periods with
                | S (S k) => (start + (if floor then Z.div else Z.quot) (Z.of_nat i * (end_ - start)) (Z.of_nat (S k)))%Z
                | _ => start
                end) (seq 0 periods).
Inductive axis_values := Dates (l : list Z) | Numbers (l : list nat).
Definition time_index (floor : bool) (time_start time_end : option Z) (horizon : nat) : res axis_values :=
  match time_start, time_end with
  | None, Some _ | Some _, None => Err ValueError
  | Some a, Some b => Ok (Dates (date_range floor a b horizon))
  | None, None => Ok (Numbers (seq 0 horizon))
  end.
