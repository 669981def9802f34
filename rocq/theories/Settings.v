(** Model of the colour scale of the figures, hadar/viewer/html.py 22-61 and 282-288, and of the
    level of the messages, hadar/__init__.py 32-45. *)
From Coq Require Import String Ascii List ZArith QArith Qround Bool Arith Lia.
From Verif Require Import Base Numeric Study Output Analyzer Viewer Picture.
Import ListNotations.
Open Scope nat_scope.
Open Scope string_scope.
Open Scope list_scope.

(** Red, green and blue of a colour map, from 0 to 1. *)
Record colour := Colour { c_red : Q; c_green : Q; c_blue : Q }.
(** The same as three numbers in a string "rgb(r, g, b)". Simplification: the text is not
    modelled, the numbers are. *)
Record rgb := Rgb { red : Z; green : Z; blue : Z }.

(** [(np.array(x) * 255).astype(np.uint8)]: numpy cuts what is behind the point and keeps eight
    bits. *)
Definition truncated (q : Q) : Z := if Qle_bool 0 q then Qfloor q else Qceiling q.
Definition byte (x : Q) : Z := (truncated (x * 255) mod 256)%Z.

(** html.py:46-61 matplotlib_to_plotly. [range(res)] is empty when [res] is not positive. *)
Definition plotly_scale (cmap : Q -> colour) (n : Z) : res (list (Q * rgb)) :=
  if Z.eqb n 1 then Err ZeroDivisionError
  else let h := (1 / inject_Z (n - 1))%Q in
       Ok (map (fun k => let x := (inject_Z (Z.of_nat k) * h)%Q in
                         let c := cmap x in
                         (x, Rgb (byte (c_red c)) (byte (c_green c)) (byte (c_blue c))))
               (seq 0 (Z.to_nat n))).

(** html.py:30 *)
Definition figure_scale (cmap : Q -> colour) : res (list (Q * rgb)) := plotly_scale cmap 255.

(** html.py:282-288: plotly puts a value on the scale between [cmin=-limit] and [cmax=limit].
    Simplification: plotly is not modelled, this is what these two arguments mean. *)
Definition circle_place (limit q : Q) : Q := ((q - (- limit)) / (limit - (- limit)))%Q.

(** __init__.py:32-45. *)
Inductive level := INFO | DEBUG | WARNING | ERROR.
Definition log_level (var : option string) : level :=
  let l := match var with Some x => x | None => "WARNING" end in
  if String.eqb l "INFO" then INFO else if String.eqb l "DEBUG" then DEBUG
  else if String.eqb l "WARNING" then WARNING else if String.eqb l "ERROR" then ERROR else WARNING.
