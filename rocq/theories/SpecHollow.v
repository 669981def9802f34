(** Specification vocabulary: elements that can neither ask, give, carry nor keep anything. *)
From Coq Require Import String List ZArith QArith Arith.
From Verif Require Import Base Numeric Study Fluent SpecStudy SpecLP.
Import ListNotations.
Open Scope nat_scope.

Section Hollow.
  Variables (h scn : nat).
  (** The value is zero at all times. *)
  Definition nil_at (v : numval) : Prop := forall t, t < h -> (value v scn t == 0)%Q.
  Definition hollow_stor (y : storage) : Prop :=
    nil_at (s_capacity y) /\ nil_at (s_flow_in y) /\ nil_at (s_flow_out y) /\ (s_init y == 0)%Q.
  Definition hollow_conv (v : converter) : Prop := forall t, t < h -> (ovalue (v_max v) scn t == 0)%Q.
  (** [l'] is [l], then only elements such as these. *)
  Definition adds {A} (P : A -> Prop) (l l' : list A) : Prop := exists more, l' = l ++ more /\ Forall P more.
  Record node_adds (n n' : node) : Prop := {
    na_cons : adds (fun c => nil_at (c_qty c)) (n_cons n) (n_cons n');
    na_prods : adds (fun p => nil_at (p_qty p)) (n_prods n) (n_prods n');
    na_stors : adds hollow_stor (n_stors n) (n_stors n');
    na_links : adds (fun l => nil_at (l_qty l)) (n_links n) (n_links n')
  }.
End Hollow.

(** [s'] is [s] with, in scenario [scn], only elements of nothing more. *)
Record adds_nothing (s s' : study) (scn : nat) : Prop := {
  an_horizon : st_horizon s' = st_horizon s;
  an_networks : Forall2 (fun a b => fst b = fst a /\
      Forall2 (fun c d => fst d = fst c /\ node_adds (st_horizon s) scn (snd c) (snd d)) (snd a) (snd b))
    (st_networks s) (st_networks s');
  an_convs : adds (fun kv => hollow_conv (st_horizon s) scn (snd kv)) (st_converters s) (st_converters s')
}.

(** Calls that tell, in a study of horizon [h] and [n] scenarios, an element of nothing for
    scenario [scn]. *)
Section Told.
  Variables (h n scn : nat).
  Definition zero_told (x : pyval) : Prop := forall v, create h n x = Ok v -> nil_at h scn v.
  Definition tells_nothing (c : call) : Prop :=
    match c with
    | OnStudy_add_link _ _ _ _ q | OnSel _ (MLink _ _ _ q) => zero_told q
    | OnSel _ (MConsumption _ _ q) | OnSel _ (MProduction _ _ q) => zero_told q
    | OnSel _ (MStorage _ ca fi fo _ init _) => zero_told ca /\ zero_told fi /\ zero_told fo /\ (init == 0)%Q
    | _ => False
    end.
End Told.
