(** The tests of the repository, replayed on the model: tests/optimizer/it/test_optimizer.py
    and tests/optimizer/remote/test_optimizer.py.

    The tests of the first file solve a study with the real solver and compare the result
    with the expected one. Here the solver is any function, and the claim is that whatever it
    answers, if its answers are optima of the programs it is given, the result is the
    expected one: the expected dispatch is the only cheapest one. *)
From Coq Require Import String Ascii List ZArith QArith Bool Arith Lia Lqa Permutation Sorted.
From Verif Require Import Base BaseFacts Numeric Study Fluent Output Json Objects LP Remote SpecStudy SpecLP StudyFacts LPBuild LPFacts LPSat LPResult LPReady LPSolve LPWeak LPMore P_LP P_Opt T_Domain.
Import ListNotations.
Open Scope nat_scope.
Open Scope string_scope.
Open Scope list_scope.

(** Equal results, numbers compared as numbers. *)
Definition same (a b : ndarray) : Prop := shape a = shape b /\ Forall2 Qeq (data a) (data b).
Definition same_dict {K V} (R : V -> V -> Prop) : dict K V -> dict K V -> Prop := Forall2 (fun x y => fst x = fst y /\ R (snd x) (snd y)).
Definition same_node (n m : onode) : Prop :=
  Forall2 (fun x y => oc_name x = oc_name y /\ same (oc_qty x) (oc_qty y)) (on_cons n) (on_cons m) /\
  Forall2 (fun x y => op_name x = op_name y /\ same (op_qty x) (op_qty y)) (on_prods n) (on_prods m) /\
  Forall2 (fun x y => os_name x = os_name y /\ same (os_capacity x) (os_capacity y) /\ same (os_flow_in x) (os_flow_in y) /\ same (os_flow_out x) (os_flow_out y)) (on_stors n) (on_stors m) /\
  Forall2 (fun x y => ol_dest x = ol_dest y /\ same (ol_qty x) (ol_qty y)) (on_links n) (on_links m).
Definition same_conv (v w : oconverter) : Prop := ov_name v = ov_name w /\ same_dict same (ov_src v) (ov_src w) /\ same (ov_dest v) (ov_dest w).
Definition same_result (r e : result) : Prop :=
  same_dict (same_dict same_node) (r_networks r) (r_networks e) /\ same_dict same_conv (r_converters r) (r_converters e).
(** A row, several rows. *)
Definition row (l : list Q) : ndarray := ND [1; List.length l] l.
Definition rows (l : list (list Q)) : ndarray := ND [List.length l; List.length (hd [] l)] (concat l).

(** What is claimed of a study and its expected result. *)
Definition solves_to (s : study) (e : result) : Prop :=
  (exists answer, forall scn, scn < st_nb_scn s -> optimal_answer answer s scn) /\
  forall answer sched bench, Permutation sched (seq 0 (st_nb_scn s)) -> (forall scn, scn < st_nb_scn s -> optimal_answer answer s scn) ->
    exists r, solve_lp answer sched bench s = Ok r /\ same_result r e.

Lemma by_program answer sched bench s : solve_lp answer sched bench s = solve_lp (fun scn _ => answer scn (program_of s scn)) sched bench s.
Proof.
  unfold solve_lp. f_equal. unfold pool_map. generalize (repeat (@None (list astep)) (st_nb_scn s)) as acc.
  induction sched as [|i sched IH]; intros acc; [reflexivity|]. cbn [foldM].
  assert (E : solve_batch (answer i) s i = solve_batch (fun _ => answer i (program_of s i)) s i).
  { unfold solve_batch, program_of. destruct (LP.build s i) as [[p vs]|e]; reflexivity. }
  rewrite E. destruct (solve_batch (fun _ : solver => answer i (program_of s i)) s i); [|reflexivity]. cbn. apply IH.
Qed.
Lemma solves_by s e (x : nat -> var -> Q) : (forall scn, scn < st_nb_scn s -> optimal (program_of s scn) (x scn)) ->
  (forall X sched bench, Permutation sched (seq 0 (st_nb_scn s)) ->
     (forall scn, scn < st_nb_scn s -> satisfies (program_of s scn) (X scn) /\ (objective (program_of s scn) (X scn) <= objective (program_of s scn) (x scn))%Q) ->
     exists r, solve_lp (fun scn _ => X scn) sched bench s = Ok r /\ same_result r e) -> solves_to s e.
Proof.
  intros H1 H2. split.
  - exists (fun scn _ => x scn). exact H1.
  - intros answer sched bench P O. rewrite by_program. apply (H2 (fun scn => answer scn (program_of s scn)) sched bench P).
    intros scn L. destruct (O scn L) as [F M]. split; auto. apply M. apply (H1 scn L).
Qed.

(** Optimality of the expected answer, then the values of any other one, from the
    inequalities of the program. *)
Ltac optimal_tac p :=
  let q := eval vm_compute in p in
  change p with q; split;
  [ apply satb_ok; vm_compute; reflexivity
  | let y := fresh "y" in let F := fresh "F" in let V := fresh "V" in let K := fresh "K" in
    intros y F; pose proof (satisfies_vars _ _ F) as V; pose proof (satisfies_cons _ _ F) as K;
    cbn [sv_vars sv_cons] in V, K; open_forall V; open_forall K; unfold objective; cbn; lra ].
Ltac facts_tac H p :=
  let q := eval vm_compute in p in
  change p with q in H;
  let F := fresh "F" in let V := fresh "V" in let K := fresh "K" in let M := fresh "M" in
  destruct H as [F M]; pose proof (satisfies_vars _ _ F) as V; pose proof (satisfies_cons _ _ F) as K;
  cbn [sv_vars sv_cons] in V, K; open_forall V; open_forall K; unfold objective in M; cbn in M; clear F.
Ltac values_tac := eexists; split; [lazy -[Qminus]; reflexivity|];
  unfold same_result, same_dict, same_node, same_conv, same; cbn -[Qminus Qeq];
  repeat (first [progress (repeat split) | constructor]); cbn -[Qminus Qeq]; try reflexivity; lra.

Definition million : pyval := num 1000000.
Definition study_of (r : res study) : study := match r with Ok s => s | Err _ => new_study 1 1 None end.
Definition blank : benchmark := Bench [] [] 0 0.

(** test_merit_order, 25-76 *)
Definition merit : study := Eval vm_compute in study_of (T_Domain.build 3 2 "default"
  [ MNode "a"; MConsumption "load" million (jm [[30; 6; 6]; [6; 30; 30]]%Z); MProduction "nuclear" (num 20) (jm [[15; 3; 3]; [3; 15; 15]]%Z);
    MProduction "solar" (num 10) (jm [[10; 2; 2]; [2; 10; 10]]%Z); MProduction "oil" (num 30) (jm [[10; 2; 2]; [2; 10; 10]]%Z) ]).
Definition merit_expected : result := Result [("default", [("a", ONode
  [OCons (rows [[30; 6; 6]; [6; 30; 30]]%Q) "load"]
  [OProd "nuclear" (rows [[15; 3; 3]; [3; 15; 15]]%Q); OProd "solar" (rows [[10; 2; 2]; [2; 10; 10]]%Q); OProd "oil" (rows [[5; 1; 1]; [1; 5; 5]]%Q)] [] [])])] [] blank.
Definition merit_x (scn : nat) (v : var) : Q :=
  let big := fun t => xorb (Nat.eqb scn 0) (negb (Nat.eqb t 0)) in
  match v with
  | VProd _ _ 0 t => if big t then 15 else 3 | VProd _ _ 1 t => if big t then 10 else 2 | VProd _ _ 2 t => if big t then 5 else 1 | _ => 0
  end%Q.
Example test_merit_order : solves_to merit merit_expected.
Proof.
  apply solves_by with (x := merit_x).
  - intros [|[|scn]] L; [optimal_tac (program_of merit 0) | optimal_tac (program_of merit 1) | cbn in L; lia].
  - intros X sched bench P H. pose proof (H 0 ltac:(cbn; lia)) as H0. pose proof (H 1 ltac:(cbn; lia)) as H1. clear H.
    facts_tac H0 (program_of merit 0). facts_tac H1 (program_of merit 1).
    change (st_nb_scn merit) with 2 in P. apply Permutation_sym, Permutation_length_2_inv in P. destruct P as [-> | ->]; values_tac.
Qed.

(** Studies of one scenario *)
Ltac one_scenario s w :=
  apply (solves_by s _ (fun _ => w));
  [ let scn := fresh "scn" in let L := fresh "L" in intros [|scn] L; [optimal_tac (program_of s 0) | cbn in L; lia]
  | let X := fresh "X" in let P := fresh "P" in let H := fresh "H" in let H0 := fresh "H0" in
    intros X sched bench P H; pose proof (H 0 ltac:(cbn; lia)) as H0; clear H; facts_tac H0 (program_of s 0);
    change (st_nb_scn s) with 1 in P; apply Permutation_sym, Permutation_length_1_inv in P; subst sched; values_tac ].

(** test_exchange_two_nodes, 78-127 *)
Definition two_nodes : study := Eval vm_compute in study_of (T_Domain.build 2 1 "default"
  [ MNode "a"; MConsumption "load" million (jl [20; 200]%Z); MProduction "prod" (num 10) (jl [30; 300]%Z);
    MNode "b"; MConsumption "load" million (jl [20; 200]%Z); MProduction "prod" (num 20) (jl [10; 100]%Z); MLink "a" "b" (num 2) (jl [10; 100]%Z) ]).
Definition two_nodes_x (v : var) : Q :=
  match v with
  | VProd _ "a" _ 0 => 30 | VProd _ "a" _ _ => 300 | VProd _ _ _ 0 => 10 | VProd _ _ _ _ => 100 | VLink _ _ _ 0 => 10 | VLink _ _ _ _ => 100 | _ => 0
  end%Q.
Example test_exchange_two_nodes : solves_to two_nodes (Result [("default",
  [ ("a", ONode [OCons (row [20; 200]%Q) "load"] [OProd "prod" (row [30; 300]%Q)] [] [OLnk "b" (row [10; 100]%Q)]);
    ("b", ONode [OCons (row [20; 200]%Q) "load"] [OProd "prod" (row [10; 100]%Q)] [] []) ])] [] blank).
Proof. one_scenario two_nodes two_nodes_x. Qed.

(** test_exchange_two_concurrent_nodes, 129-199 *)
Definition concurrent : study := Eval vm_compute in study_of (T_Domain.build 1 1 "default"
  [ MNode "a"; MConsumption "load" million (num 10); MProduction "nuclear" (num 10) (num 30);
    MNode "b"; MConsumption "load" million (num 10); MProduction "nuclear" (num 20) (num 10);
    MNode "c"; MConsumption "load" million (num 10); MProduction "nuclear" (num 20) (num 10);
    MLink "a" "b" (num 2) (num 20); MLink "a" "c" (num 2) (num 20) ]).
Definition concurrent_x (v : var) : Q := match v with VProd _ "a" _ _ => 30 | VLink _ _ _ _ => 10 | _ => 0 end%Q.
Example test_exchange_two_concurrent_nodes : solves_to concurrent (Result [("default",
  [ ("a", ONode [OCons (row [10]%Q) "load"] [OProd "nuclear" (row [30]%Q)] [] [OLnk "b" (row [10]%Q); OLnk "c" (row [10]%Q)]);
    ("b", ONode [OCons (row [10]%Q) "load"] [OProd "nuclear" (row [0]%Q)] [] []);
    ("c", ONode [OCons (row [10]%Q) "load"] [OProd "nuclear" (row [0]%Q)] [] []) ])] [] blank).
Proof. one_scenario concurrent concurrent_x. Qed.

(** test_exchange_link_saturation, 201-257 *)
Definition saturation : study := Eval vm_compute in study_of (T_Domain.build 1 1 "default"
  [ MNode "a"; MProduction "nuclear" (num 10) (jl [30]%Z); MNode "b"; MConsumption "load" million (jl [10]%Z);
    MNode "c"; MConsumption "load" million (jl [20]%Z); MLink "a" "b" (num 2) (jl [20]%Z); MLink "b" "c" (num 2) (jl [15]%Z) ]).
Definition saturation_x (v : var) : Q := match v with VProd _ _ _ _ => 20 | VLink _ "a" _ _ => 20 | VLink _ "b" _ _ => 10 | VLol _ "c" _ _ => 10 | _ => 0 end%Q.
Example test_exchange_link_saturation : solves_to saturation (Result [("default",
  [ ("a", ONode [] [OProd "nuclear" (row [20]%Q)] [] [OLnk "b" (row [20]%Q)]);
    ("b", ONode [OCons (row [10]%Q) "load"] [] [] [OLnk "c" (row [10]%Q)]);
    ("c", ONode [OCons (row [10]%Q) "load"] [] [] []) ])] [] blank).
Proof. one_scenario saturation saturation_x. Qed.

(** test_consumer_cancel_exchange, 259-323 *)
Definition cancel : study := Eval vm_compute in study_of (T_Domain.build 1 1 "default"
  [ MNode "a"; MConsumption "load" million (num 10); MProduction "nuclear" (num 10) (num 20);
    MNode "b"; MConsumption "load" million (num 5); MProduction "nuclear" (num 20) (num 15);
    MNode "c"; MConsumption "load" million (num 20); MProduction "nuclear" (num 10) (num 10);
    MLink "a" "b" (num 2) (num 20); MLink "b" "c" (num 2) (num 20) ]).
Definition cancel_x (v : var) : Q :=
  match v with VProd _ "a" _ _ => 20 | VProd _ "b" _ _ => 5 | VProd _ "c" _ _ => 10 | VLink _ _ _ _ => 10 | _ => 0 end%Q.
Example test_consumer_cancel_exchange : solves_to cancel (Result [("default",
  [ ("a", ONode [OCons (row [10]%Q) "load"] [OProd "nuclear" (row [20]%Q)] [] [OLnk "b" (row [10]%Q)]);
    ("b", ONode [OCons (row [5]%Q) "load"] [OProd "nuclear" (row [5]%Q)] [] [OLnk "c" (row [10]%Q)]);
    ("c", ONode [OCons (row [20]%Q) "load"] [OProd "nuclear" (row [10]%Q)] [] []) ])] [] blank).
Proof. one_scenario cancel cancel_x. Qed.

(** test_many_links_on_node, 325-396. The test does not look at the links of [c]; they are
    given here too. *)
Definition many : study := Eval vm_compute in study_of (T_Domain.build 2 1 "default"
  [ MNode "a"; MConsumption "load" million (num 10); MProduction "gas" (num 80) (num 20);
    MNode "b"; MConsumption "load" million (jl [15; 25]%Z); MNode "c"; MProduction "nuclear" (num 50) (num 30);
    MLink "a" "b" (num 10) (num 20); MLink "c" "a" (num 10) (num 20); MLink "c" "b" (num 10) (num 15) ]).
Definition many_x (v : var) : Q :=
  match v with
  | VProd _ "a" _ 0 => 0 | VProd _ "a" _ _ => 5 | VProd _ "c" _ 0 => 25 | VProd _ "c" _ _ => 30
  | VLink _ "a" _ 0 => 0 | VLink _ "a" _ _ => 10 | VLink _ "c" 0 0 => 10 | VLink _ "c" 0 _ => 15 | VLink _ "c" _ _ => 15 | _ => 0
  end%Q.
Example test_many_links_on_node : solves_to many (Result [("default",
  [ ("a", ONode [OCons (row [10; 10]%Q) "load"] [OProd "gas" (row [0; 5]%Q)] [] [OLnk "b" (row [0; 10]%Q)]);
    ("b", ONode [OCons (row [15; 25]%Q) "load"] [] [] []);
    ("c", ONode [] [OProd "nuclear" (row [25; 30]%Q)] [] [OLnk "a" (row [10; 15]%Q); OLnk "b" (row [15; 15]%Q)]) ])] [] blank).
Proof. one_scenario many many_x. Qed.

(** test_storage, 398-455 *)
Definition storing : study := Eval vm_compute in study_of (T_Domain.build 4 1 "default"
  [ MNode "a"; MProduction "nuclear" (num 20) (jl [10; 10; 10; 0]%Z); MNode "b"; MConsumption "load" million (jl [20; 10; 0; 10]%Z);
    MStorage "cell" (num 30) (num 20) (num 20) (num 0) 15 (PJson (JNum 0.5)); MLink "a" "b" (num 1) (num 10) ]).
Definition storing_x (v : var) : Q :=
  match v with
  | VProd _ _ _ 3 => 0 | VProd _ _ _ _ => 10 | VLink _ _ _ 3 => 0 | VLink _ _ _ _ => 10
  | VCap _ _ _ 0 => 5 | VCap _ _ _ 1 => 5 | VCap _ _ _ 2 => 10 | VIn _ _ _ 2 => 10 | VOut _ _ _ 0 => 10 | VOut _ _ _ 3 => 10 | _ => 0
  end%Q.
Example test_storage : solves_to storing (Result [("default",
  [ ("a", ONode [] [OProd "nuclear" (row [10; 10; 10; 0]%Q)] [] [OLnk "b" (row [10; 10; 10; 0]%Q)]);
    ("b", ONode [OCons (row [20; 10; 0; 10]%Q) "load"] [] [OStor "cell" (row [5; 5; 10; 0]%Q) (row [0; 0; 10; 0]%Q) (row [10; 0; 0; 10]%Q)] []) ])] [] blank).
Proof. one_scenario storing storing_x. Qed.

(** test_multi_energies, 457-515 *)
Definition energies : study := Eval vm_compute in study_of (T_Domain.build 1 1 "elec"
  [ MNode "a"; MConsumption "load" million (num 10); MNetwork "gas"; MNode "b"; MProduction "central" (num 10) (num 50); MToConverter "conv" (PJson (JNum 0.8));
    MNetwork "coat"; MNode "c"; MProduction "central" (num 10) (num 50); MToConverter "conv" (PJson (JNum 0.5)); MConverter "conv" "elec" "a" (num 50) (num 0) ]).
Definition energies_x (v : var) : Q :=
  match v with VProd "gas" _ _ _ => 12.5 | VProd "coat" _ _ _ => 20 | VSrc _ "gas" _ _ => 12.5 | VSrc _ "coat" _ _ => 20 | VDest _ _ => 10 | _ => 0 end%Q.
Example test_multi_energies : solves_to energies (Result
  [ ("elec", [("a", ONode [OCons (row [10]%Q) "load"] [] [] [])]); ("gas", [("b", ONode [] [OProd "central" (row [12.5]%Q)] [] [])]);
    ("coat", [("c", ONode [] [OProd "central" (row [20]%Q)] [] [])]) ]
  [("conv", OConv "conv" [(("gas", "b"), row [12.5]%Q); (("coat", "c"), row [20]%Q)] (row [10]%Q))] blank).
Proof. one_scenario energies energies_x. Qed.

(** ** tests/optimizer/remote/test_optimizer.py *)
(** MockSchedulerServer, 21-58: a study posted at the expected address is answered with a job
    in the queue, the question about this job with the result. Anything else fails. *)
Definition zero : ndarray := ND [1] [0%Q].
Definition remote_expected : result := Result [("default", [("a", ONode [OCons zero "load"] [] [] [])])] [] blank.
Definition mock_server : server := fun tr =>
  match last tr (Get "" "" JNull) with
  | Post url token body =>
      if String.eqb url "http://localhost:6984" && String.eqb token "" then
        match snd (study_from_json body) with
        | Ok _ => Reply 200 (Some (JObj [("job", JNum 123); ("status", JStr "QUEUED"); ("progress", JNum 1)]))
        | Err _ => NoReply
        end
      else NoReply
  | Get url token (JNum q) =>
      if String.eqb url "http://localhost:6984" && String.eqb token "" && Qeq_bool q 123 then
        Reply 200 (Some (JObj [("job", JNum 123); ("status", JStr "TERMINATED"); ("result", result_to_json remote_expected)]))
      else NoReply
  | Get _ _ _ => NoReply
  end.
Definition remote_study : study := Eval vm_compute in study_of (T_Domain.build 1 1 "default" [MNode "a"; MConsumption "load" (num 0) (jl [0]%Z)]).
(** test_job_terminated, 86-96: two requests are sent; the result is read. *)
Example test_job_terminated : exists tr r, remote_solve 5 mock_server (RemoteOptimizer "http://localhost:6984" "") remote_study = (tr, Some (Ok r)) /\
  List.length tr = 2 /\ forall old swap, py_eq old swap (result_obj remote_expected) (result_obj r) = Ok true.
Proof. do 2 eexists. split; [vm_compute; reflexivity|]. split; [reflexivity|]. intros [] []; vm_compute; reflexivity. Qed.
Example test_check_code : check_code 404 = Err ValueError /\ check_code 403 = Err ValueError /\ check_code 500 = Err IOError.
Proof. repeat split. Qed.
