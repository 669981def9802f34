(** Specification of solving: the documented linear model, stated on a study and
    a result, and what it means for an assignment to satisfy a program. *)
From Coq Require Import String List ZArith QArith Bool Permutation.
From Verif Require Import Base Numeric Study Fluent Output LP SpecStudy SpecJson.
Import ListNotations.
Open Scope nat_scope.

(** ** Programs *)
Definition lin (c : dict var Q) (x : var -> Q) : Q := qsum (map (fun vc => snd vc * x (fst vc))%Q c).

Definition within (lo y up : Q) : Prop := (lo <= y)%Q /\ (y <= up)%Q.

Record satisfies (p : solver) (x : var -> Q) : Prop := {
  sat_vars : forall v lo up, In (v, (lo, up)) (sv_vars p) -> within lo (x v) up;
  sat_cons : forall k, In k (sv_cons p) -> within (k_lb k) (lin (k_coefs k) x) (k_ub k)
}.

Definition objective (p : solver) (x : var -> Q) : Q := lin (sv_obj p) x.

Definition optimal (p : solver) (x : var -> Q) : Prop :=
  satisfies p x /\ forall y, satisfies p y -> (objective p x <= objective p y)%Q.

(** ** Data of a study, content of a result *)
Definition value (v : numval) (scn t : nat) : Q :=
  match getn v scn t with Ok q => q | Err _ => 0%Q end.
Definition ovalue (v : option numval) (scn t : nat) : Q :=
  match v with Some x => value x scn t | None => 0%Q end.
Definition entry (a : ndarray) (scn t : nat) : Q :=
  match nd_get2 a (Z.of_nat scn) (Z.of_nat t) with Ok q => q | Err _ => 0%Q end.

Definition rnode_at (r : result) (net nd : string) : option onode :=
  match dget net (r_networks r) with Some ns => dget nd ns | None => None end.
Definition rconv_at (r : result) (name : string) : option oconverter := dget name (r_converters r).

(** ** A result has the structure of a study *)
Definition has_dims (s : study) (a : ndarray) : Prop :=
  shape a = [st_nb_scn s; st_horizon s] /\ nd_wf a.

Record node_like (s : study) (n : node) (rn : onode) : Prop := {
  nl_cons : Forall2 (fun c o => oc_name o = c_name c /\ has_dims s (oc_qty o)) (n_cons n) (on_cons rn);
  nl_prods : Forall2 (fun p o => op_name o = p_name p /\ has_dims s (op_qty o)) (n_prods n) (on_prods rn);
  nl_stors : Forall2 (fun x o => os_name o = s_name x /\ has_dims s (os_capacity o) /\
                                 has_dims s (os_flow_in o) /\ has_dims s (os_flow_out o)) (n_stors n) (on_stors rn);
  nl_links : Forall2 (fun l o => ol_dest o = l_dest l /\ has_dims s (ol_qty o)) (n_links n) (on_links rn)
}.

Definition conv_like (s : study) (name : string) (v : converter) (rv : oconverter) : Prop :=
  ov_name rv = name /\ has_dims s (ov_dest rv) /\
  Forall2 (fun (k : string * string * numval) (o : string * string * ndarray) =>
             fst o = fst k /\ has_dims s (snd o)) (v_src v) (ov_src rv).

Record mirrors (s : study) (r : result) : Prop := {
  mr_nodes : Forall2 (fun (kn : string * network) (ko : string * onetwork) => fst ko = fst kn /\
               Forall2 (fun (kd : string * node) (kr : string * onode) =>
                          fst kr = fst kd /\ node_like s (snd kd) (snd kr)) (snd kn) (snd ko))
             (st_networks s) (r_networks r);
  mr_convs : Forall2 (fun (kv : string * converter) (ko : string * oconverter) =>
               fst ko = fst kv /\ conv_like s (fst kv) (snd kv) (snd ko)) (st_converters s) (r_converters r)
}.

(** ** The documented linear model, for one scenario *)
Section Model.
  Variables (s : study) (r : result) (scn : nat).

  (** Sum of [f] over a list. *)
  Definition total {A} (f : A -> Q) (l : list A) : Q := qsum (map f l).

  (** Bounds. *)
  Definition node_within (n : node) (rn : onode) (t : nat) : Prop :=
    Forall2 (fun c o => within 0 (entry (oc_qty o) scn t) (value (c_qty c) scn t)) (n_cons n) (on_cons rn) /\
    Forall2 (fun p o => within 0 (entry (op_qty o) scn t) (value (p_qty p) scn t)) (n_prods n) (on_prods rn) /\
    Forall2 (fun x o => within 0 (entry (os_capacity o) scn t) (value (s_capacity x) scn t) /\
                        within 0 (entry (os_flow_in o) scn t) (value (s_flow_in x) scn t) /\
                        within 0 (entry (os_flow_out o) scn t) (value (s_flow_out x) scn t))
            (n_stors n) (on_stors rn) /\
    Forall2 (fun l o => within 0 (entry (ol_qty o) scn t) (value (l_qty l) scn t)) (n_links n) (on_links rn).

  Definition conv_within (v : converter) (rv : oconverter) (t : nat) : Prop :=
    within 0 (entry (ov_dest rv) scn t) (ovalue (v_max v) scn t) /\
    forall k a, In (k, a) (ov_src rv) -> (0 <= entry a scn t)%Q.

  Definition capacities_respected : Prop := forall t, t < st_horizon s ->
    (forall net nd n rn, node_at s net nd = Some n -> rnode_at r net nd = Some rn -> node_within n rn t) /\
    (forall name v rv, conv_at s name = Some v -> rconv_at r name = Some rv -> conv_within v rv t).

  (** Energy served, produced, ... at a node. *)
  Definition served (rn : onode) (t : nat) : Q := total (fun o => entry (oc_qty o) scn t) (on_cons rn).
  Definition produced (rn : onode) (t : nat) : Q := total (fun o => entry (op_qty o) scn t) (on_prods rn).
  Definition stored (rn : onode) (t : nat) : Q := total (fun o => entry (os_flow_in o) scn t) (on_stors rn).
  Definition withdrawn (rn : onode) (t : nat) : Q := total (fun o => entry (os_flow_out o) scn t) (on_stors rn).
  Definition exported (rn : onode) (t : nat) : Q := total (fun o => entry (ol_qty o) scn t) (on_links rn).

  (** Energy on links of a node [nd] to itself. *)
  Definition looped (nd : string) (rn : onode) (t : nat) : Q :=
    total (fun o => if String.eqb (ol_dest o) nd then entry (ol_qty o) scn t else 0%Q) (on_links rn).

  (** Energy entering node [nd] of network [net] by links from any node. *)
  Definition imported (net nd : string) (t : nat) : Q :=
    match dget net (r_networks r) with
    | Some rns => total (fun kr => total (fun o => if String.eqb (ol_dest o) nd then entry (ol_qty o) scn t else 0%Q)
                                         (on_links (snd kr))) rns
    | None => 0%Q
    end.

  (** Energy sent by node [nd] of [net] to converters, received from converters. *)
  Definition sent (net nd : string) (t : nat) : Q :=
    total (fun kv => total (fun ka => if pair_eqb (fst ka) (net, nd) then entry (snd ka) scn t else 0%Q)
                           (ov_src (snd kv))) (r_converters r).
  Definition goes_to (name net nd : string) : bool :=
    match conv_at s name with
    | Some v => String.eqb (v_dnet v) net && String.eqb (v_dnode v) nd
    | None => false
    end.
  Definition received (net nd : string) (t : nat) : Q :=
    total (fun kv => if goes_to (fst kv) net nd then entry (ov_dest (snd kv)) scn t else 0%Q) (r_converters r).

  Definition balanced : Prop := forall t net nd rn, t < st_horizon s -> rnode_at r net nd = Some rn ->
    (served rn t + exported rn t + stored rn t + sent net nd t ==
     produced rn t + imported net nd t + withdrawn rn t + received net nd t)%Q.

  (** Content of a storage from one time to the next. *)
  Definition storage_evolves (x : storage) (o : ostorage) : Prop := forall t, t < st_horizon s ->
    (entry (os_capacity o) scn t ==
     (match t with O => s_init x | S t' => entry (os_capacity o) scn t' end)
     + value (s_eff x) scn t * entry (os_flow_in o) scn t - entry (os_flow_out o) scn t)%Q.
  Definition storages_evolve : Prop := forall net nd n rn,
    node_at s net nd = Some n -> rnode_at r net nd = Some rn ->
    Forall2 storage_evolves (n_stors n) (on_stors rn).

  (** Source flow times ratio is the flow delivered. *)
  Definition converters_convert : Prop := forall name v rv t,
    conv_at s name = Some v -> rconv_at r name = Some rv -> t < st_horizon s ->
    Forall2 (fun (kr : string * string * numval) (ka : string * string * ndarray) =>
               (value (snd kr) scn t * entry (snd ka) scn t == entry (ov_dest rv) scn t)%Q) (v_src v) (ov_src rv).

  Record dispatch_ok : Prop := {
    dk_capacities : capacities_respected;
    dk_balance : balanced;
    dk_storages : storages_evolve;
    dk_converters : converters_convert
  }.

  (** Total cost. *)
  Definition node_cost (n : node) (rn : onode) (t : nat) : Q :=
    (total (fun co => value (c_cost (fst co)) scn t * (value (c_qty (fst co)) scn t - entry (oc_qty (snd co)) scn t))
           (combine (n_cons n) (on_cons rn))
     + total (fun po => value (p_cost (fst po)) scn t * entry (op_qty (snd po)) scn t)
           (combine (n_prods n) (on_prods rn))
     + total (fun xo => value (s_cost (fst xo)) scn t * entry (os_capacity (snd xo)) scn t)
           (combine (n_stors n) (on_stors rn))
     + total (fun lo => value (l_cost (fst lo)) scn t * entry (ol_qty (snd lo)) scn t)
           (combine (n_links n) (on_links rn)))%Q.
  Definition step_cost (t : nat) : Q :=
    (total (fun kk => total (fun dd => node_cost (snd (fst dd)) (snd (snd dd)) t)
                            (combine (snd (fst kk)) (snd (snd kk))))
           (combine (st_networks s) (r_networks r))
     + total (fun vv => ovalue (v_cost (snd (fst vv))) scn t * entry (ov_dest (snd (snd vv))) scn t)
           (combine (st_converters s) (r_converters r)))%Q.
  Definition total_cost : Q := total step_cost (seq 0 (st_horizon s)).
End Model.

(** ** Studies that can be solved *)
Definition readable (s : study) (v : numval) : Prop :=
  forall scn t, scn < st_nb_scn s -> t < st_horizon s -> getn v scn t = Ok (value v scn t).

Record node_ready (s : study) (n : node) : Prop := {
  nr_cons : forall c, In c (n_cons n) -> readable s (c_cost c) /\ readable s (c_qty c);
  nr_prods : forall p, In p (n_prods n) -> readable s (p_cost p) /\ readable s (p_qty p);
  nr_stors : forall x, In x (n_stors n) -> readable s (s_capacity x) /\ readable s (s_flow_in x) /\
       readable s (s_flow_out x) /\ readable s (s_cost x) /\ readable s (s_eff x);
  nr_links : forall l, In l (n_links n) -> readable s (l_cost l) /\ readable s (l_qty l)
}.

(** Values of the study's dimensions, converters with a destination and non-null ratios. *)
Record conv_ready (s : study) (v : converter) : Prop := {
  vr_cost : exists c, v_cost v = Some c /\ readable s c;
  vr_max : exists m, v_max v = Some m /\ readable s m;
  vr_src : forall k q, In (k, q) (v_src v) -> readable s q /\
           forall scn t, scn < st_nb_scn s -> t < st_horizon s -> ~ (value q scn t == 0)%Q;
  vr_dest : has_node s (v_dnet v) (v_dnode v)
}.

Record ready (s : study) : Prop := {
  rd_wf : study_wf s;
  rd_node : forall net nd n, node_at s net nd = Some n -> node_ready s n;
  rd_conv : forall name v, conv_at s name = Some v -> conv_ready s v
}.

(** What the linear program needs of a study: less than [ready], nothing is asked of the
    names of consumptions, productions, storages, and of those inside converters. *)
Record laid (s : study) : Prop := {
  ld_networks : NoDup (dkeys (st_networks s));
  ld_nodes : forall net ns, dget net (st_networks s) = Some ns -> NoDup (dkeys ns);
  ld_convs : NoDup (dkeys (st_converters s));
  ld_links : forall net nd n, node_at s net nd = Some n -> NoDup (map l_dest (n_links n));
  ld_dests : forall net nd n l, node_at s net nd = Some n -> In l (n_links n) -> has_node s net (l_dest l);
  ld_once : forall name v, conv_at s name = Some v -> NoDup (dkeys (v_src v));
  ld_srcs : forall name v net nd, conv_at s name = Some v -> In (net, nd) (dkeys (v_src v)) -> has_node s net nd;
  ld_node : forall net nd n, node_at s net nd = Some n -> node_ready s n;
  ld_conv : forall name v, conv_at s name = Some v -> conv_ready s v
}.
Lemma ready_laid s : ready s -> laid s.
Proof.
  intros [W N C]. constructor.
  - exact (wf_networks _ W).
  - exact (wf_nodes _ W).
  - exact (wf_convs _ W).
  - intros net nd n D. exact (wf_links _ _ _ (wf_node _ W _ _ _ D)).
  - intros net nd n l D. exact (wf_dests _ _ _ (wf_node _ W _ _ _ D) l).
  - intros name v D. exact (wf_once _ _ _ (wf_conv _ W _ _ D)).
  - intros name v net nd D. exact (wf_srcs _ _ _ (wf_conv _ W _ _ D) net nd).
  - exact N.
  - exact C.
Qed.
Coercion ready_laid : ready >-> laid.
Global Hint Resolve ready_laid : core.

(** No link from a node to itself; at most one storage per node; positive ratios. *)
Definition no_self_link (s : study) : Prop := forall net nd n l,
  node_at s net nd = Some n -> In l (n_links n) -> l_dest l <> nd.
Definition one_storage (s : study) : Prop := forall net nd n,
  node_at s net nd = Some n -> length (n_stors n) <= 1.
Definition positive_ratios (s : study) : Prop := forall name v k q scn t,
  conv_at s name = Some v -> In (k, q) (v_src v) -> scn < st_nb_scn s -> t < st_horizon s ->
  (0 < value q scn t)%Q.

(** ** The entries of a result for one scenario are an assignment of the variables *)
Record carries_answer (s : study) (r : result) (scn : nat) (x : var -> Q) : Prop := {
  ca_cons : forall net nd n rn i c o t, t < st_horizon s ->
    node_at s net nd = Some n -> rnode_at r net nd = Some rn ->
    nth_error (n_cons n) i = Some c -> nth_error (on_cons rn) i = Some o ->
    (entry (oc_qty o) scn t == value (c_qty c) scn t - x (VLol net nd i t))%Q;
  ca_prods : forall net nd n rn i p o t, t < st_horizon s ->
    node_at s net nd = Some n -> rnode_at r net nd = Some rn ->
    nth_error (n_prods n) i = Some p -> nth_error (on_prods rn) i = Some o ->
    (entry (op_qty o) scn t == x (VProd net nd i t))%Q;
  ca_stors : forall net nd n rn i y o t, t < st_horizon s ->
    node_at s net nd = Some n -> rnode_at r net nd = Some rn ->
    nth_error (n_stors n) i = Some y -> nth_error (on_stors rn) i = Some o ->
    (entry (os_capacity o) scn t == x (VCap net nd i t))%Q /\
    (entry (os_flow_in o) scn t == x (VIn net nd i t))%Q /\
    (entry (os_flow_out o) scn t == x (VOut net nd i t))%Q;
  ca_links : forall net nd n rn i l o t, t < st_horizon s ->
    node_at s net nd = Some n -> rnode_at r net nd = Some rn ->
    nth_error (n_links n) i = Some l -> nth_error (on_links rn) i = Some o ->
    (entry (ol_qty o) scn t == x (VLink net nd i t))%Q;
  ca_src : forall name v rv net nd a t, t < st_horizon s ->
    conv_at s name = Some v -> rconv_at r name = Some rv -> In ((net, nd), a) (ov_src rv) ->
    (entry a scn t == x (VSrc name net nd t))%Q;
  ca_dest : forall name v rv t, t < st_horizon s ->
    conv_at s name = Some v -> rconv_at r name = Some rv ->
    (entry (ov_dest rv) scn t == x (VDest name t))%Q
}.

(** Source keys of converters are plain names (see [SpecJson.v]). *)
Definition plain_sources (s : study) : Prop := forall name v k,
  conv_at s name = Some v -> In k (dkeys (v_src v)) -> plain_key k.

(** The program of a scenario. *)
Definition program_of (s : study) (scn : nat) : solver :=
  match build s scn with Ok (p, _) => p | Err _ => Solver [] [] [] end.

(** Studies built by calls of the fluent API with user data. *)
Definition api_study (s : study) : Prop := exists h n version cs,
  0 < h /\ 0 < n /\ plain_program cs /\ s = w_study (run (start h n version) cs).

(** Converters that can be solved: a destination was given, and no ratio is null. *)
Definition usable_converters (s : study) : Prop := forall name v, conv_at s name = Some v ->
  v_cost v <> None /\ v_max v <> None /\
  forall k q scn t, In (k, q) (v_src v) -> scn < st_nb_scn s -> t < st_horizon s -> ~ (value q scn t == 0)%Q.

(** The result of a solve: the workers complete in any order. *)
Definition solved (answer : nat -> solver -> var -> Q) (s : study) (r : result) : Prop :=
  exists sched bench, Permutation sched (seq 0 (st_nb_scn s)) /\ solve_lp answer sched bench s = Ok r.

(** The solver's answer for a scenario satisfies the program, is an optimum of it. *)
Definition feasible_answer (answer : nat -> solver -> var -> Q) (s : study) (scn : nat) : Prop :=
  satisfies (program_of s scn) (answer scn (program_of s scn)).
Definition optimal_answer (answer : nat -> solver -> var -> Q) (s : study) (scn : nat) : Prop :=
  optimal (program_of s scn) (answer scn (program_of s scn)).

(** ** Two studies with the same data in one scenario *)
Section Agree.
  Variables (h scn : nat).
  Definition same_at (v w : numval) : Prop := forall t, t < h -> value v scn t = value w scn t.
  Definition osame_at (v w : option numval) : Prop := forall t, t < h -> ovalue v scn t = ovalue w scn t.
  Record node_agree (n m : node) : Prop := {
    na_cons : Forall2 (fun a b => c_name a = c_name b /\ same_at (c_cost a) (c_cost b) /\ same_at (c_qty a) (c_qty b))
                      (n_cons n) (n_cons m);
    na_prods : Forall2 (fun a b => p_name a = p_name b /\ same_at (p_cost a) (p_cost b) /\ same_at (p_qty a) (p_qty b))
                       (n_prods n) (n_prods m);
    na_stors : Forall2 (fun a b => s_name a = s_name b /\ s_init a = s_init b /\ same_at (s_capacity a) (s_capacity b) /\
                                   same_at (s_flow_in a) (s_flow_in b) /\ same_at (s_flow_out a) (s_flow_out b) /\
                                   same_at (s_cost a) (s_cost b) /\ same_at (s_eff a) (s_eff b))
                       (n_stors n) (n_stors m);
    na_links : Forall2 (fun a b => l_dest a = l_dest b /\ same_at (l_cost a) (l_cost b) /\ same_at (l_qty a) (l_qty b))
                       (n_links n) (n_links m)
  }.
  Record conv_agree (v w : converter) : Prop := {
    va_name : v_name v = v_name w;
    va_dest : v_dnet v = v_dnet w /\ v_dnode v = v_dnode w;
    va_cost : osame_at (v_cost v) (v_cost w);
    va_max : osame_at (v_max v) (v_max w);
    va_src : Forall2 (fun (a b : string * string * numval) => fst a = fst b /\ same_at (snd a) (snd b)) (v_src v) (v_src w)
  }.
  Record agree (s s' : study) : Prop := {
    ag_nodes : Forall2 (fun (a b : string * network) => fst a = fst b /\
                 Forall2 (fun (c d : string * node) => fst c = fst d /\ node_agree (snd c) (snd d)) (snd a) (snd b))
               (st_networks s) (st_networks s');
    ag_convs : Forall2 (fun (a b : string * converter) => fst a = fst b /\ conv_agree (snd a) (snd b))
               (st_converters s) (st_converters s')
  }.

  (** Two results with the same entries in scenario [scn]. *)
  Definition same_row (a b : ndarray) : Prop := forall t, t < h -> (entry a scn t == entry b scn t)%Q.
  Record same_node (n m : onode) : Prop := {
    sn_cons : Forall2 (fun a b => oc_name a = oc_name b /\ same_row (oc_qty a) (oc_qty b)) (on_cons n) (on_cons m);
    sn_prods : Forall2 (fun a b => op_name a = op_name b /\ same_row (op_qty a) (op_qty b)) (on_prods n) (on_prods m);
    sn_stors : Forall2 (fun a b => os_name a = os_name b /\ same_row (os_capacity a) (os_capacity b) /\
                          same_row (os_flow_in a) (os_flow_in b) /\ same_row (os_flow_out a) (os_flow_out b)) (on_stors n) (on_stors m);
    sn_links : Forall2 (fun a b => ol_dest a = ol_dest b /\ same_row (ol_qty a) (ol_qty b)) (on_links n) (on_links m)
  }.
  Record same_scenario (r r' : result) : Prop := {
    sm_nodes : Forall2 (fun (a b : string * onetwork) => fst a = fst b /\
                 Forall2 (fun (c d : string * onode) => fst c = fst d /\ same_node (snd c) (snd d)) (snd a) (snd b))
               (r_networks r) (r_networks r');
    sm_convs : Forall2 (fun (a b : string * oconverter) => fst a = fst b /\ ov_name (snd a) = ov_name (snd b) /\
                 same_row (ov_dest (snd a)) (ov_dest (snd b)) /\
                 Forall2 (fun (c d : string * string * ndarray) => fst c = fst d /\ same_row (snd c) (snd d))
                         (ov_src (snd a)) (ov_src (snd b)))
               (r_converters r) (r_converters r')
  }.
End Agree.

(** ** Data without negative quantity; initial contents that fit *)
Record nonnegative (s : study) (scn : nat) : Prop := {
  nn_cons : forall net nd n c t, node_at s net nd = Some n -> In c (n_cons n) -> t < st_horizon s -> (0 <= value (c_qty c) scn t)%Q;
  nn_prods : forall net nd n c t, node_at s net nd = Some n -> In c (n_prods n) -> t < st_horizon s -> (0 <= value (p_qty c) scn t)%Q;
  nn_links : forall net nd n c t, node_at s net nd = Some n -> In c (n_links n) -> t < st_horizon s -> (0 <= value (l_qty c) scn t)%Q;
  nn_stors : forall net nd n x t, node_at s net nd = Some n -> In x (n_stors n) -> t < st_horizon s ->
    (0 <= s_init x /\ 0 <= value (s_capacity x) scn t /\ 0 <= value (s_flow_in x) scn t /\ 0 <= value (s_flow_out x) scn t)%Q;
  nn_convs : forall name v t, conv_at s name = Some v -> t < st_horizon s -> (0 <= ovalue (v_max v) scn t)%Q
}.
Definition init_fits (s : study) (scn : nat) : Prop := forall net nd n x t,
  node_at s net nd = Some n -> In x (n_stors n) -> t < st_horizon s -> (s_init x <= value (s_capacity x) scn t)%Q.

(** ** Energy of a network *)
Definition network_conserves (s : study) (r : result) (scn : nat) : Prop := forall t net rns,
  t < st_horizon s -> dget net (r_networks r) = Some rns ->
  (total (fun kr => produced scn (snd kr) t + withdrawn scn (snd kr) t + received s r scn net (fst kr) t) rns ==
   total (fun kr => served scn (snd kr) t + stored scn (snd kr) t + sent r scn net (fst kr) t) rns)%Q.
