(** Comparison and hashing of library objects: class DTO of hadar/optimizer/utils.py, 11-33.

    A Python object is seen as a tree: numbers, strings, None, numpy arrays, lists,
    dictionaries (insertion order kept) and instances with their [__dict__]. Whether two
    parts are the same object only matters for arrays, since the interpreter takes an object
    as equal to itself without comparing: comparing one container with itself gives what
    comparing its arrays with themselves gives. So only arrays carry an identity; an array
    that occurs nowhere else has none. Numbers are exact: no value differs from itself. *)
From Coq Require Import String List ZArith QArith Bool Arith.
From Verif Require Import Base Numeric Study Output.
Import ListNotations.
Open Scope nat_scope.
Open Scope string_scope.
Open Scope list_scope.

(** Keys of dictionaries: names, or (network, node) pairs. *)
Inductive pkey := KName (s : string) | KPair (net nd : string).
Definition pkey_eqb (a b : pkey) : bool :=
  match a, b with
  | KName s, KName t => String.eqb s t
  | KPair s t, KPair s' t' => String.eqb s s' && String.eqb t t'
  | _, _ => false
  end.
Lemma pkey_eqb_eq a b : pkey_eqb a b = true <-> a = b.
Proof.
  destruct a, b; simpl; try (split; discriminate).
  - rewrite String.eqb_eq. split; congruence.
  - rewrite andb_true_iff, !String.eqb_eq. split; [intros [-> ->]; auto | intros E; inversion E; auto].
Qed.
Global Instance EqB_pkey : EqB pkey := { eqb := pkey_eqb; eqb_eq := pkey_eqb_eq }.

Inductive pobj :=
| ONone
| ONum (q : Q)
| OStr (s : string)
| OArr (id : option nat) (a : ndarray)
| OList (l : list pobj)
| ODict (d : list (pkey * pobj))
| OObj (cls : string) (fields : list (string * pobj)).

(** [a is b] for arrays *)
Definition same_object (i j : option nat) : bool :=
  match i, j with Some i, Some j => Nat.eqb i j | _, _ => false end.

(** Shape of [a == b] by numpy broadcasting, on reversed shapes. *)
Fixpoint broadcast_rev (a b : list nat) : option (list nat) :=
  match a, b with
  | [], x => Some x
  | x, [] => Some x
  | m :: a', n :: b' =>
      match broadcast_rev a' b' with
      | None => None
      | Some r => if Nat.eqb m n then Some (m :: r) else if Nat.eqb m 1 then Some (n :: r)
                  else if Nat.eqb n 1 then Some (m :: r) else None
      end
  end.

Section Compare.
  (** [old]: versions of numpy in which comparing arrays of incompatible shapes, and the
      truth value of an empty array, are False instead of an error. [swap]: whether the
      interpreter compares the values of two dictionaries from right to left. *)
  Variables old swap : bool.

  (** [bool(a == b)] for two arrays: an error unless there is exactly one entry. *)
  Definition arr_eq (a b : ndarray) : res bool :=
    let no := if old then Ok false else Err ValueError in
    match broadcast_rev (rev (shape a)) (rev (shape b)) with
    | None => no
    | Some sh => match size_of sh with
                 | 0 => no
                 | 1 => Ok (Qeq_bool (nth 0 (data a) 0%Q) (nth 0 (data b) 0%Q))
                 | _ => Err ValueError
                 end
    end.

  (** Comparisons one after the other, until one is False or raises. *)
  Fixpoint all_equal {A} (f : A -> res bool) (l : list A) : res bool :=
    match l with
    | [] => Ok true
    | x :: r => let* b := f x in if b then all_equal f r else Ok false
    end.

  (** [d == e] on dictionaries: same number of keys, and each value of [d] equal to the
      value of [e] for this key. *)
  Definition dict_eq {K V} `{EqB K} (eq : V -> V -> res bool) (d e : dict K V) : res bool :=
    if Nat.eqb (List.length d) (List.length e) then
      all_equal (fun kv => match dget (fst kv) e with
                           | None => Ok false
                           | Some w => if swap then eq w (snd kv) else eq (snd kv) w
                           end) d
    else Ok false.

  (** [x == y]. For instances DTO.__eq__, 19-20: [isinstance(other, type(self))] (no class
      compared here has a subclass among the others), then the two [__dict__].
      NumericalValueFactory.__eq__ (numeric.py:162-165) compares its two attributes. Lists
      are compared after their lengths. The other pairs are not equal; arrays are only
      compared with arrays by the classes of the library. [n] bounds the depth. *)
  Fixpoint eq_upto (n : nat) (x y : pobj) : res bool :=
    match n with
    | O => Ok false
    | S n =>
        match x, y with
        | ONone, ONone => Ok true
        | ONum p, ONum q => Ok (Qeq_bool p q)
        | OStr s, OStr t => Ok (String.eqb s t)
        | OArr i a, OArr j b => if same_object i j then Ok true else arr_eq a b
        | OList l, OList m =>
            if Nat.eqb (List.length l) (List.length m)
            then all_equal (fun xy => eq_upto n (fst xy) (snd xy)) (combine l m) else Ok false
        | ODict d, ODict e => dict_eq (eq_upto n) d e
        | OObj c f, OObj c' f' => if String.eqb c c' then dict_eq (eq_upto n) f f' else Ok false
        | _, _ => Ok false
        end
    end.

  Fixpoint depth (x : pobj) : nat :=
    match x with
    | OList l => S (fold_right (fun y m => Nat.max (depth y) m) 0 l)
    | ODict d => S (fold_right (fun kv m => Nat.max (depth (snd kv)) m) 0 d)
    | OObj _ f => S (fold_right (fun kv m => Nat.max (depth (snd kv)) m) 0 f)
    | _ => 0
    end.

  Definition py_eq (x y : pobj) : res bool := eq_upto (S (depth x + depth y)) x y.
End Compare.

(** ** Hashing: DTO.__hash__, 16-17: [hash(tuple(sorted(self.__dict__.items())))]. The
    attributes are sorted by name, which never looks at the values since the names differ.
    Lists, dictionaries and arrays have no hash: TypeError. NumericalValueFactory defines
    [__eq__] only, which removes the hash. The hash functions of numbers, strings, None and
    tuples are arbitrary; equal numbers have the same hash. *)
Section Hash.
  Variables (hnone : Z) (hnum : Q -> Z) (hstr : string -> Z) (htuple : list Z -> Z).

  Fixpoint str_leb (a b : string) : bool :=
    match a, b with
    | EmptyString, _ => true
    | _, EmptyString => false
    | String x a', String y b' =>
        Nat.ltb (Ascii.nat_of_ascii x) (Ascii.nat_of_ascii y)
        || (Nat.eqb (Ascii.nat_of_ascii x) (Ascii.nat_of_ascii y) && str_leb a' b')
    end.
  Fixpoint insert_item {V} (x : string * V) (l : list (string * V)) : list (string * V) :=
    match l with
    | [] => [x]
    | y :: r => if str_leb (fst x) (fst y) then x :: y :: r else y :: insert_item x r
    end.
  Definition sort_items {V} (l : list (string * V)) : list (string * V) := fold_right insert_item [] l.

  (** The values are hashed in the order of the sorted names; the exception is the same
      whichever value raises it, so hashing before sorting changes nothing. *)
  Fixpoint py_hash (x : pobj) : res Z :=
    match x with
    | ONone => Ok hnone
    | ONum q => Ok (hnum q)
    | OStr s => Ok (hstr s)
    | OArr _ _ | OList _ | ODict _ => Err TypeError
    | OObj cls f =>
        if String.eqb cls "NumericalValueFactory" then Err TypeError
        else let* l := (fix hashes f := match f with
                                        | [] => Ok []
                                        | (k, v) :: r => let* h := py_hash v in let* hs := hashes r in Ok ((k, h) :: hs)
                                        end) f in
             Ok (htuple (map (fun kh : string * Z => htuple [hstr (fst kh); snd kh]) (sort_items l)))
    end.
End Hash.

(** ** The objects of a study: [__dict__] of each class, in the order of the assignments in
    [__init__]. No array is shared. *)
Definition fresh (a : ndarray) : pobj := OArr None a.

(** numeric.py:23-26 *)
Definition val_obj (v : numval) : pobj :=
  let attrs x h n := [("value", x); ("horizon", ONum (qnat h)); ("nb_scn", ONum (qnat n))] in
  match v with
  | Scalar q h n => OObj "ScalarNumericalValue" (attrs (ONum q) h n)
  | Matrix a h n => OObj "MatrixNumericalValue" (attrs (fresh a) h n)
  | Row a h n => OObj "RowNumericValue" (attrs (fresh a) h n)
  | Column a h n => OObj "ColumnNumericValue" (attrs (fresh a) h n)
  end.

(** input.py:47-49, 71-73, 112-118, 140-142 *)
Definition cons_obj (c : consumption) : pobj :=
  OObj "Consumption" [("cost", val_obj (c_cost c)); ("quantity", val_obj (c_qty c)); ("name", OStr (c_name c))].
Definition prod_obj (p : production) : pobj :=
  OObj "Production" [("name", OStr (p_name p)); ("cost", val_obj (p_cost p)); ("quantity", val_obj (p_qty p))].
Definition stor_obj (s : storage) : pobj :=
  OObj "Storage" [("name", OStr (s_name s)); ("capacity", val_obj (s_capacity s)); ("flow_in", val_obj (s_flow_in s));
                  ("flow_out", val_obj (s_flow_out s)); ("cost", val_obj (s_cost s));
                  ("init_capacity", ONum (s_init s)); ("eff", val_obj (s_eff s))].
Definition link_obj (l : link) : pobj :=
  OObj "Link" [("dest", OStr (l_dest l)); ("quantity", val_obj (l_qty l)); ("cost", val_obj (l_cost l))].

(** 175-180; [cost] and [max] are the integer 0 before the destination is given (412-416) *)
Definition opt_val_obj (v : option numval) : pobj := match v with Some v => val_obj v | None => ONum 0 end.
Definition keyed {V W} (f : V -> W) (d : dict (string * string) V) : list (pkey * W) :=
  map (fun kv => (KPair (fst (fst kv)) (snd (fst kv)), f (snd kv))) d.
Definition named {V W} (f : V -> W) (d : dict string V) : list (pkey * W) :=
  map (fun kv => (KName (fst kv), f (snd kv))) d.
Definition conv_obj (v : converter) : pobj :=
  OObj "Converter" [("name", OStr (v_name v)); ("src_ratios", ODict (keyed val_obj (v_src v)));
                    ("dest_network", OStr (v_dnet v)); ("dest_node", OStr (v_dnode v));
                    ("cost", opt_val_obj (v_cost v)); ("max", opt_val_obj (v_max v))].

(** 227-230, 257, 281-286 *)
Definition node_obj (n : node) : pobj :=
  OObj "InputNode" [("consumptions", OList (map cons_obj (n_cons n))); ("productions", OList (map prod_obj (n_prods n)));
                    ("storages", OList (map stor_obj (n_stors n))); ("links", OList (map link_obj (n_links n)))].
Definition network_obj (ns : network) : pobj := OObj "InputNetwork" [("nodes", ODict (named node_obj ns))].
Definition study_obj (s : study) : pobj :=
  OObj "Study" [("version", OStr (st_version s)); ("networks", ODict (named network_obj (st_networks s)));
                ("converters", ODict (named conv_obj (st_converters s)));
                ("horizon", ONum (qnat (st_horizon s))); ("nb_scn", ONum (qnat (st_nb_scn s)));
                ("factory", OObj "NumericalValueFactory" [("horizon", ONum (qnat (st_horizon s))); ("nb_scn", ONum (qnat (st_nb_scn s)))])].

(** ** The objects of a result: output.py:38-39, 58-59, 85-88, 108-109, 132-134, 177-180,
    230, 245-248, 270-272 *)
Definition ocons_obj (c : oconsumption) : pobj := OObj "OutputConsumption" [("quantity", fresh (oc_qty c)); ("name", OStr (oc_name c))].
Definition oprod_obj (p : oproduction) : pobj := OObj "OutputProduction" [("name", OStr (op_name p)); ("quantity", fresh (op_qty p))].
Definition ostor_obj (s : ostorage) : pobj :=
  OObj "OutputStorage" [("name", OStr (os_name s)); ("capacity", fresh (os_capacity s)); ("flow_in", fresh (os_flow_in s));
                        ("flow_out", fresh (os_flow_out s))].
Definition olink_obj (l : olink) : pobj := OObj "OutputLink" [("dest", OStr (ol_dest l)); ("quantity", fresh (ol_qty l))].
Definition oconv_obj (v : oconverter) : pobj :=
  OObj "OutputConverter" [("name", OStr (ov_name v)); ("flow_src", ODict (keyed fresh (ov_src v))); ("flow_dest", fresh (ov_dest v))].
Definition onode_obj (n : onode) : pobj :=
  OObj "OutputNode" [("consumptions", OList (map ocons_obj (on_cons n))); ("productions", OList (map oprod_obj (on_prods n)));
                     ("storages", OList (map ostor_obj (on_stors n))); ("links", OList (map olink_obj (on_links n)))].
Definition onetwork_obj (ns : onetwork) : pobj := OObj "OutputNetwork" [("nodes", ODict (named onode_obj ns))].
Definition bench_obj (b : benchmark) : pobj :=
  OObj "Benchmark" [("modeler", OList (map ONum (b_modeler b))); ("solver", OList (map ONum (b_solver b)));
                    ("mapper", ONum (b_mapper b)); ("total", ONum (b_total b))].
Definition result_obj (r : result) : pobj :=
  OObj "Result" [("networks", ODict (named onetwork_obj (r_networks r))); ("converters", ODict (named oconv_obj (r_converters r)));
                 ("benchmark", bench_obj (r_benchmark r))].

(** The same object with its arrays seen as belonging to nobody else. *)
Fixpoint unshare (x : pobj) : pobj :=
  match x with
  | OArr _ a => OArr None a
  | OList l => OList (map unshare l)
  | ODict d => ODict (map (fun kv => (fst kv, unshare (snd kv))) d)
  | OObj c f => OObj c (map (fun kv => (fst kv, unshare (snd kv))) f)
  | x => x
  end.
