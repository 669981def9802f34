(** Model of hadar/optimizer/lp: domain.py, mapper.py, optimizer.py.

    The ortools solver is a mutable object: variables with bounds, constraints
    with coefficients, an objective. Its answer is not computed: it is a
    parameter [answer], any function giving a value to every variable. *)
From Coq Require Import String Ascii List ZArith QArith Bool Arith.
From Verif Require Import Base Numeric Study Output Json.
Import ListNotations.
Open Scope nat_scope.

(** ** Solver *)

(** Identity of a variable object. [NumVar] returns a new object at each call;
    the model names it by the place where the code keeps it: network, node,
    position in the list of the node and time; converter, source key and time. *)
Inductive var :=
| VLol (net nd : string) (i t : nat)
| VProd (net nd : string) (i t : nat)
| VCap (net nd : string) (i t : nat)
| VIn (net nd : string) (i t : nat)
| VOut (net nd : string) (i t : nat)
| VLink (net nd : string) (i t : nat)
| VSrc (conv net nd : string) (t : nat)
| VDest (conv : string) (t : nat).

Definition var_eq_dec (x y : var) : {x = y} + {x <> y}.
Proof. decide equality; auto using Nat.eq_dec, string_dec. Defined.
Definition var_eqb (x y : var) : bool := if var_eq_dec x y then true else false.
Lemma var_eqb_eq x y : var_eqb x y = true <-> x = y.
Proof. unfold var_eqb. destruct (var_eq_dec x y); split; congruence. Qed.
Global Instance EqB_var : EqB var := { eqb := var_eqb; eqb_eq := var_eqb_eq }.

Record constr := Constr { k_lb : Q; k_ub : Q; k_coefs : dict var Q }.

(** Variables in order of creation with their bounds; constraints in order of
    creation, a handle being the position; objective (minimised). *)
Record solver := Solver {
  sv_vars : list (var * (Q * Q)); sv_cons : list constr; sv_obj : dict var Q }.

(** ** Linear programming domain: domain.py *)
Record lpcons := LPCons { lc_name : string; lc_cost : Q; lc_qty : Q; lc_var : var }.
Record lpprod := LPProd { lp_name : string; lp_cost : Q; lp_qty : Q; lp_var : var }.
Record lpstor := LPStor {
  ls_name : string; ls_capacity : Q; ls_vcap : var; ls_flow_in : Q; ls_vin : var;
  ls_flow_out : Q; ls_vout : var; ls_cost : Q; ls_init : Q; ls_eff : Q }.
Record lplink := LPLink { ll_src : string; ll_dest : string; ll_qty : Q; ll_var : var; ll_cost : Q }.
Record lpconv := LPConv {
  lv_name : string; lv_ratios : dict (string * string) Q; lv_src : dict (string * string) var;
  lv_dnet : string; lv_dnode : string; lv_dest : var; lv_cost : Q; lv_max : Q }.
Record lpnode := LPNode {
  ln_cons : list lpcons; ln_prods : list lpprod; ln_stors : list lpstor; ln_links : list lplink }.

(** LPTimeStep: domain.py:283-308 *)
Record lpstep := LPStep {
  lt_networks : dict string (dict string lpnode); lt_converters : dict string lpconv }.

(** ** State of the building phase: the solver and the attributes of the builders
    AdequacyBuilder (optimizer.py:129-130) and StorageBuilder (291). *)
Definition akey := (nat * string * string)%type.            (* t, network, node *)
Definition ikey := (nat * string * string * string)%type.   (* t, network, node, link destination or storage *)
Record bstate := BState {
  b_solver : solver;
  b_adq : dict akey nat;       (* AdequacyBuilder.constraints, to handles *)
  b_imp : dict ikey var;       (* AdequacyBuilder.importations *)
  b_cap : dict ikey var }.     (* StorageBuilder.capacities *)

Definition b_init : bstate := BState (Solver [] [] []) [] [] [].
Definition B := ST bstate.

Definition set_solver (f : solver -> solver) : B unit :=
  fun b => (BState (f (b_solver b)) (b_adq b) (b_imp b) (b_cap b), Ok tt).

(** [solver.NumVar(lb, ub, name)] *)
Definition num_var (v : var) (lb ub : Q) : B var :=
  set_solver (fun s => Solver (sv_vars s ++ [(v, (lb, ub))]) (sv_cons s) (sv_obj s));; sret v.

(** [solver.Constraint(lb, ub)] *)
Definition new_constraint (lb ub : Q) : B nat :=
  fun b => let s := b_solver b in
           (BState (Solver (sv_vars s) (sv_cons s ++ [Constr lb ub []]) (sv_obj s))
                   (b_adq b) (b_imp b) (b_cap b), Ok (length (sv_cons s))).

(** [constraint.SetCoefficient(var, c)]: the coefficient replaces a former one. *)
Definition set_coef (h : nat) (v : var) (c : Q) : B unit :=
  set_solver (fun s => Solver (sv_vars s)
    (upd_nth h (fun k => Constr (k_lb k) (k_ub k) (dset v c (k_coefs k))) (sv_cons s)) (sv_obj s)).

(** [objective.SetCoefficient(var, c)] *)
Definition obj_coef (v : var) (c : Q) : B unit :=
  set_solver (fun s => Solver (sv_vars s) (sv_cons s) (dset v c (sv_obj s))).

(** [for x in l: body(x)] and [[body(i, x) for i, x in ...]] *)
Fixpoint sfor {St A} (f : A -> ST St unit) (l : list A) : ST St unit :=
  match l with
  | [] => sret tt
  | x :: r => f x;; sfor f r
  end.
Fixpoint smapi {St A C} (f : nat -> A -> ST St C) (i : nat) (l : list A) : ST St (list C) :=
  match l with
  | [] => sret []
  | x :: r => do y <- f i x; do ys <- smapi f (S i) r; sret (y :: ys)
  end.

(** ** InputMapper: mapper.py:27-163 *)

(** get_node_var: mapper.py:42-130. [float(...)] is the identity on rationals;
    the text names of the variables are not modelled. *)
Definition get_node_var (s : study) (net nd : string) (t scn : nat) : B lpnode :=
  do ns <- slift (dlook net (st_networks s));
  do n <- slift (dlook nd ns);
  do cs <- smapi (fun i c =>
      do co <- slift (getn (c_cost c) scn t);
      do q <- slift (getn (c_qty c) scn t);
      do v <- num_var (VLol net nd i t) 0 q;
      sret (LPCons (c_name c) co q v)) 0 (n_cons n);
  do ps <- smapi (fun i p =>
      do co <- slift (getn (p_cost p) scn t);
      do q <- slift (getn (p_qty p) scn t);
      do v <- num_var (VProd net nd i t) 0 q;
      sret (LPProd (p_name p) co q v)) 0 (n_prods n);
  do ss <- smapi (fun i x =>
      do fi <- slift (getn (s_flow_in x) scn t);
      do fo <- slift (getn (s_flow_out x) scn t);
      do e <- slift (getn (s_eff x) scn t);
      do ca <- slift (getn (s_capacity x) scn t);
      do co <- slift (getn (s_cost x) scn t);
      do vc <- num_var (VCap net nd i t) 0 ca;
      do vi <- num_var (VIn net nd i t) 0 fi;
      do vo <- num_var (VOut net nd i t) 0 fo;
      sret (LPStor (s_name x) ca vc fi vi fo vo co (s_init x) e)) 0 (n_stors n);
  do ls <- smapi (fun i l =>
      do co <- slift (getn (l_cost l) scn t);
      do q <- slift (getn (l_qty l) scn t);
      do v <- num_var (VLink net nd i t) 0 q;
      sret (LPLink nd (l_dest l) q v co)) 0 (n_links n);
  sret (LPNode cs ps ss ls).

(** [v.cost[scn, t]] when the attribute may still be the integer 0. *)
Definition ogetn (v : option numval) (i j : nat) : res Q :=
  match v with Some x => getn x i j | None => Err TypeError end.

(** [a / b] of Python numbers. Simplification: when both are numpy numbers a null
    divisor gives an infinite bound and a warning instead of ZeroDivisionError. *)
Definition pydiv (a b : Q) : res Q :=
  if Qeq_bool b 0 then Err ZeroDivisionError else Ok (a / b)%Q.

(** get_conv_var: mapper.py:132-163 *)
Definition get_conv_var (s : study) (name : string) (t scn : nat) : B lpconv :=
  do v <- slift (dlook name (st_converters s));
  do ratios <- slift (dmapM (fun r => getn r scn t) (v_src v));
  do co <- slift (ogetn (v_cost v) scn t);
  do mx <- slift (ogetn (v_max v) scn t);
  do srcs <- smapi (fun _ kr =>
      do ub <- slift (pydiv mx (snd kr));
      do x <- num_var (VSrc name (fst (fst kr)) (snd (fst kr)) t) 0 ub;
      sret (fst kr, x)) 0 ratios;
  do d <- num_var (VDest name t) 0 mx;
  sret (LPConv (v_name v) ratios srcs (v_dnet v) (v_dnode v) d co mx).

(** ** Builders: optimizer.py *)

(** ObjectiveBuilder.add_node and add_converter: 48-111 *)
Definition obj_add_node (n : lpnode) : B unit :=
  sfor (fun c => obj_coef (lc_var c) (lc_cost c)) (ln_cons n);;
  sfor (fun p => obj_coef (lp_var p) (lp_cost p)) (ln_prods n);;
  sfor (fun x => obj_coef (ls_vcap x) (ls_cost x)) (ln_stors n);;
  sfor (fun l => obj_coef (ll_var l) (ll_cost l)) (ln_links n).
Definition obj_add_converter (v : lpconv) : B unit := obj_coef (lv_dest v) (lv_cost v).

(** [self.constraints[key].SetCoefficient(var, c)] *)
Definition adq_coef (k : akey) (v : var) (c : Q) : B unit :=
  do b <- sget;
  do h <- slift (dlook k (b_adq b));
  set_coef h v c.

Definition set_adq (k : akey) (h : nat) : B unit :=
  fun b => (BState (b_solver b) (dset k h (b_adq b)) (b_imp b) (b_cap b), Ok tt).
Definition set_imp (k : ikey) (v : var) : B unit :=
  fun b => (BState (b_solver b) (b_adq b) (dset k v (b_imp b)) (b_cap b), Ok tt).
Definition set_cap (k : ikey) (v : var) : B unit :=
  fun b => (BState (b_solver b) (b_adq b) (b_imp b) (dset k v (b_cap b)), Ok tt).

(** AdequacyBuilder.add_node: 134-257 *)
Definition adq_add_node (net nd : string) (n : lpnode) (t : nat) : B unit :=
  let load := qsum (map lc_qty (ln_cons n)) in
  do h <- new_constraint load load;
  set_adq (t, net, nd) h;;
  sfor (fun c => adq_coef (t, net, nd) (lc_var c) 1) (ln_cons n);;
  sfor (fun p => adq_coef (t, net, nd) (lp_var p) 1) (ln_prods n);;
  sfor (fun x => adq_coef (t, net, nd) (ls_vin x) (-1);; adq_coef (t, net, nd) (ls_vout x) 1) (ln_stors n);;
  sfor (fun l => adq_coef (t, net, ll_src l) (ll_var l) (-1);;
                 set_imp (t, net, ll_src l, ll_dest l) (ll_var l)) (ln_links n).

(** AdequacyBuilder.add_converter: 259-272 *)
Definition adq_add_converter (v : lpconv) (t : nat) : B unit :=
  adq_coef (t, lv_dnet v, lv_dnode v) (lv_dest v) 1;;
  sfor (fun kx => adq_coef (t, fst (fst kx), snd (fst kx)) (snd kx) (-1)) (lv_src v).

(** AdequacyBuilder.build: 274-282 *)
Definition adq_build : B unit :=
  do b <- sget;
  sfor (fun kv => match fst kv with
                  | (t, net, _, dest) => adq_coef (t, net, dest) (snd kv) 1
                  end) (b_imp b).

(** StorageBuilder.add_node: 295-314. Both branches of the loop body end with
    [return], so that the loop stops after the first storage. *)
Definition stor_add_node (net nd : string) (n : lpnode) (t : nat) : B unit :=
  match ln_stors n with
  | [] => sret tt
  | x :: _ =>
      set_cap (t, net, nd, ls_name x) (ls_vcap x);;
      match t with
      | O =>
          do h <- new_constraint (ls_init x) (ls_init x);
          set_coef h (ls_vin x) (- ls_eff x);;
          set_coef h (ls_vout x) 1;;
          set_coef h (ls_vcap x) 1
      | S t' =>
          do h <- new_constraint 0 0;
          set_coef h (ls_vin x) (- ls_eff x);;
          set_coef h (ls_vout x) 1;;
          do b <- sget;
          do prev <- slift (dlook (t', net, nd, ls_name x) (b_cap b));
          set_coef h prev (-1);;
          set_coef h (ls_vcap x) 1
      end
  end.

(** ConverterMixBuilder.add_converter: 329-342 *)
Definition mix_add_converter (v : lpconv) : B unit :=
  sfor (fun kr =>
    do x <- slift (dlook (fst kr) (lv_src v));
    do h <- new_constraint 0 0;
    set_coef h x (snd kr);;
    set_coef h (lv_dest v) (-1)) (lv_ratios v).

(** ** _solve_batch: 348-421 *)

(** One node of one time step: 378-388. *)
Definition batch_node (s : study) (scn t : nat) (net nd : string) : B lpnode :=
  do n <- get_node_var s net nd t scn;
  adq_add_node net nd n t;;
  stor_add_node net nd n t;;
  obj_add_node n;;
  sret n.

(** One converter of one time step: 392-396. *)
Definition batch_conv (s : study) (scn t : nat) (name : string) : B lpconv :=
  do v <- get_conv_var s name t scn;
  adq_add_converter v t;;
  mix_add_converter v;;
  obj_add_converter v;;
  sret v.

(** Body of the loop over time: 375-396. The assignments
    [variables[t].networks[..].nodes[..] = node] over all keys give the
    dictionaries returned here. *)
Definition batch_step (s : study) (scn t : nat) : B lpstep :=
  do nets <- smapi (fun _ kn =>
      do ns <- smapi (fun _ kd =>
          do n <- batch_node s scn t (fst kn) (fst kd); sret (fst kd, n)) 0 (snd kn);
      sret (fst kn, ns)) 0 (st_networks s);
  do convs <- smapi (fun _ kv =>
      do v <- batch_conv s scn t (fst kv); sret (fst kv, v)) 0 (st_converters s);
  sret (LPStep nets convs).

(** The building phase: 370-401. *)
Definition build_batch (s : study) (scn : nat) : B (list lpstep) :=
  do vs <- smapi (fun _ t => batch_step s scn t) 0 (seq 0 (st_horizon s));
  adq_build;;
  sret vs.

(** The program handed to the solver, and the variables kept aside. *)
Definition build (s : study) (scn : nat) : res (solver * list lpstep) :=
  match build_batch s scn b_init with
  | (b, Ok vs) => Ok (b_solver b, vs)
  | (_, Err e) => Err e
  end.

(** ** Serialised answer of a worker: variables replaced by their values
    ([JSONLP.to_json], domain.py:19-36), keys of converter sources joined with
    ["::"] and split again ([LPConverter.from_json], 214-222). Packing with
    msgpack is the identity on these trees. A time step of the answer: values
    instead of variables. *)
Record anode := ANode {
  an_cons : list (Q * Q);           (* quantity, variable *)
  an_prods : list Q;
  an_stors : list (Q * Q * Q);      (* var_capacity, var_flow_in, var_flow_out *)
  an_links : list Q }.
(** [var_flow_src] after [from_json]: keys are tuples of any length. *)
Record aconv := AConv { av_src : dict (list string) Q; av_dest : Q }.
Record astep := AStep { at_networks : dict string (dict string anode); at_converters : dict string aconv }.

Definition node_answer (x : var -> Q) (n : lpnode) : anode :=
  ANode (map (fun c => (lc_qty c, x (lc_var c))) (ln_cons n))
        (map (fun p => x (lp_var p)) (ln_prods n))
        (map (fun s => (x (ls_vcap s), x (ls_vin s), x (ls_vout s))) (ln_stors n))
        (map (fun l => x (ll_var l)) (ln_links n)).

Fixpoint lstring_eqb (a b : list string) : bool :=
  match a, b with
  | [], [] => true
  | x :: a', y :: b' => String.eqb x y && lstring_eqb a' b'
  | _, _ => false
  end.
Lemma lstring_eqb_eq a : forall b, lstring_eqb a b = true <-> a = b.
Proof.
  induction a as [|x a IH]; destruct b as [|y b]; simpl; split; try congruence; auto.
  - intros H. apply andb_true_iff in H as [H1 H2]. apply String.eqb_eq in H1. apply IH in H2. congruence.
  - intros H. inversion H; subst. rewrite String.eqb_refl. simpl. now apply IH.
Qed.
Global Instance EqB_lstring : EqB (list string) := { eqb := lstring_eqb; eqb_eq := lstring_eqb_eq }.

Definition conv_answer (x : var -> Q) (v : lpconv) : aconv :=
  let joined := dict_of (map (fun kx => (join_cc (fst kx), x (snd kx))) (lv_src v)) in
  AConv (dict_of (map (fun kx => (split_cc (fst kx), snd kx)) joined)) (x (lv_dest v)).

Definition step_answer (x : var -> Q) (p : lpstep) : astep :=
  AStep (dmap (dmap (node_answer x)) (lt_networks p)) (dmap (conv_answer x) (lt_converters p)).

(** A whole job: the solver's answer may be anything, it may depend on the program. *)
Definition solve_batch (answer : solver -> var -> Q) (s : study) (scn : nat) : res (list astep) :=
  let* p := build s scn in
  Ok (map (step_answer (answer (fst p))) (snd p)).

(** ** pool.map: optimizer.py:450-453. The jobs finish in any order [sched]; the
    pool stores each answer at the position of its job. The first exception to
    arrive is raised (simplification: multiprocessing groups jobs in chunks, which
    may change which exception is raised). *)
Definition pool_map {A} (job : nat -> res A) (n : nat) (sched : list nat) : res (list (option A)) :=
  foldM (fun acc i => let* a := job i in Ok (upd_nth i (fun _ => Some a) acc)) sched (repeat None n).

(** ** OutputMapper: mapper.py:166-240 *)
Record ostate := OState { os_nets : dict string onetwork; os_convs : dict string oconverter }.

(** __init__: 171-197. Constructors of output classes copy the array
    ([np.array(...)]), so that no two elements share their data. *)
Definition out_init (s : study) : ostate :=
  let zeros := nd_zeros2 (st_nb_scn s) (st_horizon s) in
  OState (dmap (dmap (fun n => build_like_input n zeros)) (st_networks s))
         (map (fun kv => (fst kv, OConv (fst kv) (dmap (fun _ => zeros) (v_src (snd kv))) zeros))
              (st_converters s)).

(** [for i in range(len(vals)): l[i].attr[scn, t] = vals[i]] *)
Fixpoint set_all {A V} (set : A -> V -> res A) (i : nat) (vals : list V) (l : list A) : res (list A) :=
  match vals with
  | [] => Ok l
  | v :: r =>
      let* a := lnth l i in
      let* a' := set a v in
      set_all set (S i) r (upd_nth i (fun _ => a') l)
  end.

(** set_node_var: 199-227 *)
Definition set_node_var (o : ostate) (net nd : string) (t scn : nat) (vars : anode) : res ostate :=
  let* ns := dlook net (os_nets o) in
  let* n := dlook nd ns in
  let* cs := set_all (fun c qv => let* a := nd_set2 (oc_qty c) scn t (fst qv - snd qv) in
                                  Ok (OCons a (oc_name c))) 0 (an_cons vars) (on_cons n) in
  let* ps := set_all (fun p v => let* a := nd_set2 (op_qty p) scn t v in Ok (OProd (op_name p) a))
                     0 (an_prods vars) (on_prods n) in
  let* ss := set_all (fun x v => let* a := nd_set2 (os_capacity x) scn t (fst (fst v)) in
                                 let* b := nd_set2 (os_flow_in x) scn t (snd (fst v)) in
                                 let* c := nd_set2 (os_flow_out x) scn t (snd v) in
                                 Ok (OStor (os_name x) a b c)) 0 (an_stors vars) (on_stors n) in
  let* ls := set_all (fun l v => let* a := nd_set2 (ol_qty l) scn t v in Ok (OLnk (ol_dest l) a))
                     0 (an_links vars) (on_links n) in
  Ok (OState (dset net (dset nd (ONode cs ps ss ls) ns) (os_nets o)) (os_convs o)).

(** [flow_src[src][scn, t] = var] with a tuple [src] of any length. *)
Definition set_src (t scn : nat) (src : dict (string * string) ndarray) (kx : list string * Q)
  : res (dict (string * string) ndarray) :=
  match fst kx with
  | [a; b] => let* arr := dlook (a, b) src in
              let* arr' := nd_set2 arr scn t (snd kx) in
              Ok (dset (a, b) arr' src)
  | _ => Err KeyError
  end.

(** set_converter_var: 229-232 *)
Definition set_converter_var (o : ostate) (name : string) (t scn : nat) (vars : aconv) : res ostate :=
  let* v := dlook name (os_convs o) in
  let* src := foldM (set_src t scn) (av_src vars) (ov_src v) in
  let* d := nd_set2 (ov_dest v) scn t (av_dest vars) in
  Ok (OState (os_nets o) (dset name (OConv (ov_name v) src d) (os_convs o))).

(** ** solve_lp: optimizer.py:437-489 *)

(** Body of the loops 464-482 for one scenario and time. *)
Definition write_step (s : study) (scn t : nat) (vs : list astep) (o : ostate) : res ostate :=
  let* p := lnth vs t in
  let* o1 := foldM (fun o kn =>
      foldM (fun o kd =>
        let* ns := dlook (fst kn) (at_networks p) in
        let* n := dlook (fst kd) ns in
        set_node_var o (fst kn) (fst kd) t scn n) (snd kn) o) (st_networks s) o in
  foldM (fun o kv =>
      let* v := dlook (fst kv) (at_converters p) in
      set_converter_var o (fst kv) t scn v) (st_converters s) o1.

Definition write_scn (s : study) (answers : list (option (list astep))) (o : ostate) (scn : nat) : res ostate :=
  let* a := lnth answers scn in
  match a with
  | Some vs => foldM (fun o t => write_step s scn t vs o) (seq 0 (st_horizon s)) o
  | None => Err TypeError    (* [unpackb(None)] *)
  end.

(** The timings [bench] are not otherwise modelled. *)
Definition solve_lp (answer : nat -> solver -> var -> Q) (sched : list nat) (bench : benchmark) (s : study)
  : res result :=
  let* answers := pool_map (fun scn => solve_batch (answer scn) s scn) (st_nb_scn s) sched in
  let* o := foldM (write_scn s answers) (seq 0 (st_nb_scn s)) (out_init s) in
  Ok (Result (os_nets o) (os_convs o) bench).
