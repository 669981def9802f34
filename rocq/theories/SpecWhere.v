(** Specification vocabulary: the places that the links and converters of a study name exist. *)
From Coq Require Import String List ZArith QArith.
From Verif Require Import Base Study SpecStudy.
Import ListNotations.

Record joins_places (s : study) : Prop := {
  (** a link leads to a node of its own network *)
  jp_links : forall net nd n l, node_at s net nd = Some n -> In l (n_links n) -> exists m, node_at s net (l_dest l) = Some m;
  (** a converter gives to a node *)
  jp_dest : forall name v, conv_at s name = Some v -> exists m, node_at s (v_dnet v) (v_dnode v) = Some m;
  (** and takes from nodes *)
  jp_sources : forall name v net nd q, conv_at s name = Some v -> In ((net, nd), q) (v_src v) -> exists m, node_at s net nd = Some m
}.

(** A dictionary of Python has each of its keys once. *)
Record keys_once (s : study) : Prop := {
  ko_networks : NoDup (dkeys (st_networks s));
  ko_nodes : forall net ns, In (net, ns) (st_networks s) -> NoDup (dkeys ns);
  ko_convs : NoDup (dkeys (st_converters s))
}.

(** No node has two links to the same node. *)
Definition links_once (s : study) : Prop := forall net nd n, node_at s net nd = Some n -> NoDup (map l_dest (n_links n)).
