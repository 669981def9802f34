(** Model of the classes of hadar/optimizer/domain/output.py. Their constructors
    call [np.array] on arrays or lists; the records hold the resulting array. *)
From Coq Require Import String List ZArith QArith Bool Arith.
From Verif Require Import Base Numeric Study.
Import ListNotations.
Open Scope nat_scope.

(** OutputConsumption 27-45, OutputProduction 48-66, OutputStorage 69-98, OutputLink 101-119 *)
Record oconsumption := OCons { oc_qty : ndarray; oc_name : string }.
Record oproduction := OProd { op_name : string; op_qty : ndarray }.
Record ostorage := OStor { os_name : string; os_capacity : ndarray; os_flow_in : ndarray; os_flow_out : ndarray }.
Record olink := OLnk { ol_dest : string; ol_qty : ndarray }.

(** OutputConverter 122-163 *)
Record oconverter := OConv {
  ov_name : string; ov_src : dict (string * string) ndarray; ov_dest : ndarray }.

(** OutputNode 166-230, OutputNetwork 233-249 *)
Record onode := ONode {
  on_cons : list oconsumption; on_prods : list oproduction;
  on_stors : list ostorage; on_links : list olink }.
Definition onetwork := dict string onode.

(** Benchmark 252-268: timings, not otherwise modelled. *)
Record benchmark := Bench {
  b_modeler : list Q; b_solver : list Q; b_mapper : Q; b_total : Q }.

(** Result 271-303 *)
Record result := Result {
  r_networks : dict string onetwork;
  r_converters : dict string oconverter;
  r_benchmark : benchmark }.

(** OutputNode.build_like_input: 193-215 *)
Definition build_like_input (n : node) (fill : ndarray) : onode :=
  ONode (map (fun c => OCons fill (c_name c)) (n_cons n))
        (map (fun p => OProd (p_name p) fill) (n_prods n))
        (map (fun s => OStor (s_name s) fill fill fill) (n_stors n))
        (map (fun l => OLnk (l_dest l) fill) (n_links n)).
