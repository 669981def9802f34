(** Model of the building selectors of hadar/optimizer/domain/input.py:
    NetworkFluentAPISelector (451-537) and NodeFluentAPISelector (540-698).
    A selector object holds a reference to a dictionary [selector]; several
    selectors may hold the same dictionary, hence the heap [f_sels]. *)
From Coq Require Import String List ZArith QArith Bool Arith.
From Verif Require Import Base Numeric Study.
Import ListNotations.
Open Scope nat_scope.

(** The keys ["network"] and ["node"] of a selector dictionary. *)
Record sel := Sel { sel_net : option string; sel_node : option string }.

(** A selector object: its class and the address of its dictionary. *)
Inductive handle :=
| HNet (addr : nat)    (* NetworkFluentAPISelector *)
| HNode (addr : nat).  (* NodeFluentAPISelector *)

Record fstate := FS { f_study : study; f_sels : list sel }.

(** Run a study method. *)
Definition onstudy {A} (m : ST study A) : ST fstate A :=
  fun fs => let (s', r) := m (f_study fs) in (FS s' (f_sels fs), r).

(** A new dictionary [{...}]; the dictionary at an address; the keys. *)
Definition new_sel (x : sel) : ST fstate nat :=
  fun fs => (FS (f_study fs) (f_sels fs ++ [x]), Ok (length (f_sels fs))).
Definition sel_at (a : nat) : ST fstate sel :=
  fun fs => (fs, match nth_error (f_sels fs) a with Some x => Ok x | None => Err KeyError end).
Definition key_network (a : nat) : ST fstate string :=
  do x <- sel_at a;
  match sel_net x with Some n => sret n | None => sraise KeyError end.
Definition key_node (a : nat) : ST fstate string :=
  do x <- sel_at a;
  match sel_node x with Some n => sret n | None => sraise KeyError end.
Definition set_node_key (a : nat) (name : string) : ST fstate unit :=
  fun fs => (FS (f_study fs) (upd_nth a (fun x => Sel (sel_net x) (Some name)) (f_sels fs)), Ok tt).

(** NetworkFluentAPISelector.network: input.py:495-504; Study.network 310-317
    does the same. *)
Definition fl_network (name : string) : ST fstate handle :=
  onstudy (add_network name);;
  do a <- new_sel (Sel (Some name) None);
  sret (HNet a).

(** NetworkFluentAPISelector.node: input.py:460-469. The dictionary is updated
    before the network is looked up. *)
Definition fl_node (a : nat) (name : string) : ST fstate handle :=
  set_node_key a name;;
  do net <- key_network a;
  onstudy (add_node net name);;
  sret (HNode a).

(** NetworkFluentAPISelector.link: input.py:471-493 *)
Definition fl_link (a : nat) (src dest : string) (cost quantity : pyval) : ST fstate handle :=
  do net <- key_network a;
  onstudy (add_link net src dest cost quantity);;
  sret (HNet a).

(** NetworkFluentAPISelector.converter: input.py:506-529, returns a selector on
    a new empty dictionary; NodeFluentAPISelector.converter 654-674 calls it. *)
Definition fl_converter (name to_net to_nd : string) (max cost : pyval) : ST fstate handle :=
  onstudy (do_converter name to_net to_nd max cost);;
  do a <- new_sel (Sel None None);
  sret (HNet a).

(** NodeFluentAPISelector.consumption: input.py:549-565 *)
Definition fl_consumption (a : nat) (name : string) (cost quantity : pyval) : ST fstate handle :=
  do net <- key_network a; do nd <- key_node a;
  onstudy (add_consumption net nd name cost quantity);; sret (HNode a).

(** NodeFluentAPISelector.production: input.py:567-583 *)
Definition fl_production (a : nat) (name : string) (cost quantity : pyval) : ST fstate handle :=
  do net <- key_network a; do nd <- key_node a;
  onstudy (add_production net nd name cost quantity);; sret (HNode a).

(** NodeFluentAPISelector.storage: input.py:585-619 *)
Definition fl_storage (a : nat) (name : string) (capacity flow_in flow_out cost : pyval)
    (init : Q) (eff : pyval) : ST fstate handle :=
  do net <- key_network a; do nd <- key_node a;
  onstudy (add_storage net nd name capacity flow_in flow_out cost init eff);; sret (HNode a).

(** NodeFluentAPISelector.to_converter: input.py:676-691. The converter is
    created before the dictionary is read. *)
Definition fl_to_converter (a : nat) (name : string) (ratio : pyval) : ST fstate handle :=
  onstudy (add_converter name);;
  do net <- key_network a; do nd <- key_node a;
  onstudy (add_converter_src name net nd ratio);; sret (HNode a).

(** Methods a user can call on a selector. *)
Inductive meth :=
| MNetwork (name : string)
| MNode (name : string)
| MLink (src dest : string) (cost quantity : pyval)
| MConverter (name to_net to_nd : string) (max cost : pyval)
| MConsumption (name : string) (cost quantity : pyval)
| MProduction (name : string) (cost quantity : pyval)
| MStorage (name : string) (capacity flow_in flow_out cost : pyval) (init : Q) (eff : pyval)
| MToConverter (name : string) (ratio : pyval).

(** Attribute lookup: element methods exist only on node selectors
    (AttributeError otherwise); the others exist on both classes and do the same
    (input.py:621-674 delegate to NetworkFluentAPISelector with the same dictionary). *)
Definition fl_call (h : handle) (m : meth) : ST fstate handle :=
  match m, h with
  | MNetwork name, _ => fl_network name
  | MNode name, (HNet a | HNode a) => fl_node a name
  | MLink src dest c q, (HNet a | HNode a) => fl_link a src dest c q
  | MConverter name tn td mx c, _ => fl_converter name tn td mx c
  | MConsumption name c q, HNode a => fl_consumption a name c q
  | MProduction name c q, HNode a => fl_production a name c q
  | MStorage name ca fi fo c i e, HNode a => fl_storage a name ca fi fo c i e
  | MToConverter name r, HNode a => fl_to_converter a name r
  | _, HNet _ => sraise AttributeError
  end.

(** A user program is a list of calls: on the study itself, or on a selector
    obtained earlier (numbered in order of creation). Every call may raise; the
    program (an interactive session) goes on with the state reached. *)
Inductive call :=
| OnStudy_network (name : string)
| OnStudy_add_link (net src dest : string) (cost quantity : pyval)
| OnStudy_add_network (net : string)
| OnStudy_add_node (net nd : string)
| OnSel (i : nat) (m : meth).

Record world := World { w_fs : fstate; w_handles : list handle }.

Definition push_handle (w : world) (r : fstate * res handle) : world * res unit :=
  match r with
  | (fs, Ok h) => (World fs (w_handles w ++ [h]), Ok tt)
  | (fs, Err e) => (World fs (w_handles w), Err e)
  end.

Definition no_handle (w : world) (r : fstate * res unit) : world * res unit :=
  (World (fst r) (w_handles w), snd r).

(** One call. Naming a selector that does not exist is not a Python program;
    it is modelled as doing nothing but raising. *)
Definition step (w : world) (c : call) : world * res unit :=
  match c with
  | OnStudy_network name => push_handle w (fl_network name (w_fs w))
  | OnStudy_add_link net src dest co q =>
      no_handle w (onstudy (add_link net src dest co q) (w_fs w))
  | OnStudy_add_network net => no_handle w (onstudy (add_network net) (w_fs w))
  | OnStudy_add_node net nd => no_handle w (onstudy (add_node net nd) (w_fs w))
  | OnSel i m =>
      match nth_error (w_handles w) i with
      | Some h => push_handle w (fl_call h m (w_fs w))
      | None => (w, Err IndexError)
      end
  end.

Definition run (w : world) (cs : list call) : world :=
  fold_left (fun w c => fst (step w c)) cs w.

Definition start (h n : nat) (version : option string) : world :=
  World (FS (new_study h n version) []) [].

(** The study obtained by a program. *)
Definition w_study (w : world) : study := f_study (w_fs w).
