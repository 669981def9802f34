(** Specification of what a user reads: the lines of an answer told with the elements that were
    declared and the values that the solver gave. *)
From Coq Require Import String List ZArith QArith Bool Sorted.
From Verif Require Import Base Numeric Study Output LP SpecStudy SpecLP Analyzer SpecAnalyzer.
Import ListNotations.
Open Scope nat_scope.
Open Scope string_scope.
Open Scope list_scope.

Definition reads (l : trow) (c : string) (v : Q) : Prop := exists w, dget c l = Some (CNum w) /\ (w == v)%Q.

(** Queries on things that stand at places, with labels and values. *)
Section Told.
  Context {P E : Type}.
  Variables (stands : P -> E -> Prop) (label : P -> E -> axis -> cell) (values : P -> E -> list (string * Q)).

  Definition wanted (q : query) (p : P) (e : E) : Prop := forall a x, In (a, x) q -> selects x (label p e a).

  (** [f] tells the things wanted: one line per place, with its labels and these values, in the
      order of the labels. The levels dropped have the same label on every line. *)
  Definition tells (q : query) (f : frame) : Prop := exists dropped places,
    fr_levels f = skipn (List.length dropped) (map (fun ax => axis_column (fst ax)) q) /\
    NoDup places /\
    (forall p, In p places <-> exists e, stands p e /\ wanted q p e) /\
    Forall2 (fun p l => exists e, stands p e /\
               dropped ++ fst l = map (fun ax => label p e (fst ax)) q /\
               forall c v, In (c, v) (values p e) -> reads (snd l) c v) places (fr_rows f) /\
    StronglySorted before (map (fun l => dropped ++ fst l) (fr_rows f)).

  (** No line can be shown: the first argument selects nothing, or a single cell is asked for. *)
  Definition unanswered (q : query) : Prop :=
    (exists a x rest, q = (a, x) :: rest /\ void x) \/
    ((forall a x, In (a, x) q -> ~ several x) /\ exists p e, stands p e /\ wanted q p e).

  (** A query written in the fluent interface ends without an answer, or with these data. *)
  Definition answered (an : analyzer) (q : query) : Prop :=
    (unanswered q -> exists o, written_alone an q = Some o /\ view o = Err IndexError) /\
    (~ unanswered q -> exists o f, written_alone an q = Some o /\ view o = Ok (SData (Some f)) /\ tells q f).
End Told.

(** Elements of nodes: network, node and rank of the element, scenario and time. *)
Definition place : Type := (string * string * nat) * (nat * nat).
Definition stands {E} (gets : node -> list E) (s : study) (p : place) (e : E) : Prop :=
  let '((net, nd, i), (scn, t)) := p in
  exists n, node_at s net nd = Some n /\ nth_error (gets n) i = Some e /\ scn < st_nb_scn s /\ t < st_horizon s.
Definition tag (net nd name : string) (scn t : nat) (a : axis) : cell :=
  match a with
  | ANetwork => CStr net
  | ANode => CStr nd
  | AScn => CInt (Z.of_nat scn)
  | ATime => CInt (Z.of_nat t)
  | _ => CStr name
  end.
Definition label {E} (name : E -> string) (p : place) (e : E) : axis -> cell :=
  let '((net, nd, _), (scn, t)) := p in tag net nd (name e) scn t.

(** What is read of each kind, when the solver gave [x] for a scenario. *)
Definition about_prod (x : nat -> var -> Q) (p : place) (e : production) : list (string * Q) :=
  let '((net, nd, i), (scn, t)) := p in
  [("cost", value (p_cost e) scn t); ("avail", value (p_qty e) scn t); ("used", x scn (VProd net nd i t))].
Definition about_cons (x : nat -> var -> Q) (p : place) (e : consumption) : list (string * Q) :=
  let '((net, nd, i), (scn, t)) := p in
  [("cost", value (c_cost e) scn t); ("asked", value (c_qty e) scn t);
   ("given", (value (c_qty e) scn t - x scn (VLol net nd i t))%Q)].
Definition about_link (x : nat -> var -> Q) (p : place) (e : link) : list (string * Q) :=
  let '((net, nd, i), (scn, t)) := p in
  [("cost", value (l_cost e) scn t); ("avail", value (l_qty e) scn t); ("used", x scn (VLink net nd i t))].
Definition about_stor (x : nat -> var -> Q) (p : place) (e : storage) : list (string * Q) :=
  let '((net, nd, i), (scn, t)) := p in
  [("max_capacity", value (s_capacity e) scn t); ("capacity", x scn (VCap net nd i t));
   ("max_flow_in", value (s_flow_in e) scn t); ("flow_in", x scn (VIn net nd i t));
   ("max_flow_out", value (s_flow_out e) scn t); ("flow_out", x scn (VOut net nd i t));
   ("cost", value (s_cost e) scn t); ("init_capacity", s_init e); ("eff", value (s_eff e) scn t)].

(** Converters: name, scenario and time; for a source its network and node too. *)
Definition ends (s : study) (p : string * (nat * nat)) (v : converter) : Prop :=
  let '(name, (scn, t)) := p in conv_at s name = Some v /\ scn < st_nb_scn s /\ t < st_horizon s.
Definition dest_label (p : string * (nat * nat)) (v : converter) : axis -> cell :=
  let '(name, (scn, t)) := p in tag (v_dnet v) (v_dnode v) name scn t.
Definition about_dest (x : nat -> var -> Q) (p : string * (nat * nat)) (v : converter) : list (string * Q) :=
  let '(name, (scn, t)) := p in
  [("flow", x scn (VDest name t)); ("cost", ovalue (v_cost v) scn t); ("max", ovalue (v_max v) scn t)].
Definition begins (s : study) (p : (string * (string * string)) * (nat * nat)) (vq : converter * numval) : Prop :=
  let '((name, k), (scn, t)) := p in
  conv_at s name = Some (fst vq) /\ dget k (v_src (fst vq)) = Some (snd vq) /\ scn < st_nb_scn s /\ t < st_horizon s.
Definition src_label (p : (string * (string * string)) * (nat * nat)) (vq : converter * numval) : axis -> cell :=
  let '((name, k), (scn, t)) := p in tag (fst k) (snd k) name scn t.
Definition about_src (x : nat -> var -> Q) (p : (string * (string * string)) * (nat * nat)) (vq : converter * numval) : list (string * Q) :=
  let '((name, k), (scn, t)) := p in
  [("flow", x scn (VSrc name (fst k) (snd k) t)); ("ratio", value (snd vq) scn t);
   ("max", (ovalue (v_max (fst vq)) scn t / value (snd vq) scn t)%Q)].
