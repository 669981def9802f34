(** Generic encoding and text of library objects: classes DTO and JSON of
    hadar/optimizer/utils.py, 22-59, with the overrides of input.py and output.py. *)
From Coq Require Import String List ZArith QArith Bool Arith.
From Verif Require Import Base Numeric Study Output Json Objects.
Import ListNotations.
Open Scope nat_scope.
Open Scope string_scope.
Open Scope list_scope.

(** ** Encoding *)

(** Keys of an encoded dictionary: names stay, pairs cannot be written to JSON. *)
Fixpoint name_keys (d : list (pkey * json)) : option (list (string * json)) :=
  match d with
  | [] => Some []
  | (KName k, v) :: r => option_map (cons (k, v)) (name_keys r)
  | (KPair _ _, _) :: _ => None
  end.
(** [{"::".join(k): v for k, v in d.items()}] on pairs of texts; a text is a sequence of
    its letters, which no class of the library passes: not modelled. *)
Fixpoint pair_keys (d : list (pkey * json)) : option (list (string * json)) :=
  match d with
  | [] => Some []
  | (KPair a b, v) :: r => option_map (cons (join_cc (a, b), v)) (pair_keys r)
  | (KName _, _) :: _ => None
  end.

(** Attribute of a class whose keys are joined: Converter.to_json, input.py:183-191, and
    OutputConverter.to_json, output.py:138-145. The latter calls [tolist] itself, as
    JSON.convert does. *)
Definition joined_attr (cls k : string) : bool :=
  (String.eqb cls "Converter" && String.eqb k "src_ratios") || (String.eqb cls "OutputConverter" && String.eqb k "flow_src").
(** Attribute left out: Study.to_json, input.py:288-292 *)
Definition hidden_attr (cls k : string) : bool := String.eqb cls "Study" && String.eqb k "factory".

(** JSON.convert and JSON.to_json, utils.py:42-59. None: the tree is not one of JSON, as
    with a factory, which is not of class JSON and is left as it is. *)
Fixpoint convert (x : pobj) : option json :=
  match x with
  | ONone => Some JNull
  | ONum q => Some (JNum q)
  | OStr s => Some (JStr s)
  | OArr _ a => Some (nd_tolist a)
  | OList l =>
      option_map JList ((fix items l := match l with
        | [] => Some []
        | x :: r => match convert x, items r with Some y, Some z => Some (y :: z) | _, _ => None end
        end) l)
  | ODict d =>
      match (fix entries (d : list (pkey * pobj)) := match d with
        | [] => Some []
        | (k, x) :: r => match convert x, entries r with Some y, Some z => Some ((k, y) :: z) | _, _ => None end
        end) d with
      | Some e => option_map JObj (name_keys e)
      | None => None
      end
  | OObj cls f =>
      if String.eqb cls "NumericalValueFactory" then None else
      option_map JObj ((fix attrs (f : list (string * pobj)) := match f with
        | [] => Some []
        | (k, x) :: r =>
            if hidden_attr cls k then attrs r else
            match (if joined_attr cls k
                   then match x with
                        | ODict d =>
                            match (fix entries (d : list (pkey * pobj)) := match d with
                              | [] => Some []
                              | (k, x) :: r => match convert x, entries r with Some y, Some z => Some ((k, y) :: z) | _, _ => None end
                              end) d with
                            | Some e => option_map (fun e => JObj (dict_of e)) (pair_keys e)
                            | None => None
                            end
                        | _ => None
                        end
                   else convert x), attrs r with
            | Some y, Some z => Some ((k, y) :: z)
            | _, _ => None
            end
        end) f)
  end.

(** ** Text: DTO.__str__ and __repr__, utils.py:22-34 *)
Section Text.
  (** Texts of the leaves, chosen by Python and numpy: [str] and [repr] of a number and of
      an array, [repr] of a text. A factory has no text of its own: the interpreter shows
      its address [addr]. *)
  Variables (num_str num_repr : Q -> string) (arr_str arr_repr : ndarray -> string) (quote : string -> string) (addr : string).

  Definition key_text (k : pkey) : string :=
    match k with
    | KName s => quote s
    | KPair a b => ("(" ++ quote a ++ ", " ++ quote b ++ ")")%string
    end.
  (** [", ".join(l)] *)
  Fixpoint commas (l : list string) : string :=
    match l with
    | [] => ""
    | [x] => x
    | x :: r => (x ++ ", " ++ commas r)%string
    end.

  (** [repr(x)] if [inner], else [str(x)]: containers show the [repr] of their items. *)
  Fixpoint text (inner : bool) (x : pobj) : string :=
    match x with
    | ONone => "None"
    | ONum q => if inner then num_repr q else num_str q
    | OStr s => if inner then quote s else s
    | OArr _ a => if inner then arr_repr a else arr_str a
    | OList l => ("[" ++ commas (map (text true) l) ++ "]")%string
    | ODict d => ("{" ++ commas (map (fun kv => (key_text (fst kv) ++ ": " ++ text true (snd kv))%string) d) ++ "}")%string
    | OObj cls f =>
        if String.eqb cls "NumericalValueFactory" then addr else
        (cls ++ "(" ++ commas (map (fun kt : string * string => (fst kt ++ "=" ++ snd kt)%string)
                                   (sort_items (map (fun kv => (fst kv, text false (snd kv))) f))) ++ ")")%string
    end.
End Text.
