(** Specification vocabulary: two studies that differ only by the side of a connection on which
    some consumptions and productions stand. *)
From Coq Require Import String List ZArith QArith Arith.
From Verif Require Import Base Numeric Study SpecStudy SpecLP.
Import ListNotations.
Open Scope nat_scope.

Section Side.
  Variables (net a b : string) (mc : list consumption) (mp : list production).
  (** Node [nd] of network [k] before ([c]) and after ([d]): [a] loses what [b] gains. *)
  Record carried (k nd : string) (c d : node) : Prop := {
    ca_stors : n_stors d = n_stors c;
    ca_links : n_links d = n_links c;
    ca_from : k = net -> nd = a -> n_cons c = n_cons d ++ mc /\ n_prods c = n_prods d ++ mp;
    ca_to : k = net -> nd = b -> n_cons d = n_cons c ++ mc /\ n_prods d = n_prods c ++ mp;
    ca_else : ~ (k = net /\ (nd = a \/ nd = b)) -> n_cons d = n_cons c /\ n_prods d = n_prods c
  }.
  (** [s'] is [s] with the consumptions [mc] and the productions [mp] of [a] told at [b]. *)
  Record moved_across (s s' : study) : Prop := {
    mv_horizon : st_horizon s' = st_horizon s;
    mv_convs : st_converters s' = st_converters s;
    mv_networks : Forall2 (fun x y => fst y = fst x /\
        Forall2 (fun c d => fst d = fst c /\ carried (fst x) (fst c) (snd c) (snd d)) (snd x) (snd y))
      (st_networks s) (st_networks s')
  }.
End Side.

(** Most that can come to node [nd] otherwise than from node [peer]. *)
Definition intake (s : study) (scn t : nat) (net nd peer : string) : Q :=
  match dget net (st_networks s) with
  | Some ns =>
     (match dget nd ns with
      | Some n => total (fun p => value (p_qty p) scn t) (n_prods n) + total (fun y => value (s_flow_out y) scn t) (n_stors n)
      | None => 0
      end
      + total (fun kd => if String.eqb (fst kd) peer then 0 else
                 total (fun l => if String.eqb (l_dest l) nd then value (l_qty l) scn t else 0) (n_links (snd kd))) ns
      + total (fun kv => if String.eqb (v_dnet (snd kv)) net && String.eqb (v_dnode (snd kv)) nd then ovalue (v_max (snd kv)) scn t else 0)
              (st_converters s))%Q
  | None => 0%Q
  end.
(** From [a] to [b] there is a link that costs nothing and carries all that can come to [a];
    [a] is not linked to itself. *)
Definition poured (s : study) (scn : nat) (net a b : string) : Prop := exists n i l,
  node_at s net a = Some n /\ nth_error (n_links n) i = Some l /\ l_dest l = b /\
  (forall t, t < st_horizon s -> (value (l_cost l) scn t == 0)%Q /\ (intake s scn t net a b <= value (l_qty l) scn t)%Q) /\
  (forall m, In m (n_links n) -> l_dest m <> a).
