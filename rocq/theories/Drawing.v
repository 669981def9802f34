(** What the figures of hadar/viewer/html.py carry besides the values computed in
    [Viewer.v]: axes, labels, colours, opacity.

    A trace pairs the lists [x] and [y] it is given by position, up to the end of
    the shorter one (plotly). Sizes, fonts and widths are not modelled. *)
From Coq Require Import String Ascii List ZArith QArith Bool Arith.
From Verif Require Import Base Numeric Study Output LP Analyzer Viewer.
Import ListNotations.
Open Scope nat_scope.

(** [np.linspace(a, b, n)]: evenly spread with both ends; one point is the start. *)
Definition linspace (a b : Q) (n : nat) : list Q :=
  match n with
  | O => []
  | 1 => [a]
  | S k => map (fun i => qnat i * ((b - a) / qnat k) + a)%Q (seq 0 n)
  end.

(** ["%d" % q] for a float: cut towards zero. *)
Definition whole (q : Q) : Z := Z.quot (Qnum q) (Zpos (Qden q)).

(** monotone, html.py:88-94: the points. *)
Definition monotone_points (y : list cell) : list (Q * cell) :=
  combine (linspace 0 100 (List.length y)) (draw_monotone y).

(** candles, html.py:158-176. The text of a candle is written with the three whole
    numbers given here; a label that is no number would raise. *)
Record candle (T : Type) := Candle {
  cd_x : T; cd_open : Q; cd_high : Q; cd_low : Q; cd_close : Q; cd_begin : Z; cd_end : Z; cd_flow : Z }.
Arguments Candle {T}. Arguments cd_x {T}. Arguments cd_open {T}. Arguments cd_high {T}. Arguments cd_low {T}.
Arguments cd_close {T}. Arguments cd_begin {T}. Arguments cd_end {T}. Arguments cd_flow {T}.
Definition draw_candles {T} (times : list T) (open close : list Q) : list (candle T) :=
  map (fun xoc => let o := fst (snd xoc) in let c := snd (snd xoc) in
                  Candle (fst xoc) o o c c (whole o) (whole c) (whole (c - o)))
      (combine times (combine open close)).

(** timeline, html.py:63-64: opacity of a curve. *)
Definition opacity (scenarios : nat) : res Q :=
  match scenarios with
  | O => Err ZeroDivisionError
  | S _ => Ok (qmax (1 # 100) (1 / qnat scenarios))
  end.

(** stack, html.py:215-224: the colour of each line, from the ten of [cmap_cons]
    (32-43), given by its place there. *)
Definition line_colours {A} (lines : list A) : list (A * nat) :=
  combine lines (map (fun i => Nat.modulo i 10) (seq 0 (List.length lines))).

(** matrix, html.py:238-249: scenario, time, colour and text of each cell. *)
Definition draw_heat {T} (times : list T) (a : ndarray) : res (list (nat * T * Q * Q)) :=
  let* z := draw_matrix a in
  match shape a with
  | n :: _ => Ok (map (fun c => (fst (fst c), snd (fst c), fst (snd c), snd (snd c)))
                      (combine (list_prod (seq 0 n) times) (combine (data z) (data a))))
  | [] => Err IndexError
  end.

(** rac_matrix, abc.py:1019-1029: the percentage written in the title. *)
Definition title_percent (pct : Q) : Z := whole pct.
