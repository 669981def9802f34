(** The tests of the repository, replayed on the model:
    tests/optimizer/lp/test_mapper.py and test_optimizer.py. Where a test makes a mock
    variable, the model has the variable of the place it is made for. *)
From Coq Require Import String Ascii List ZArith QArith Bool Arith.
From Verif Require Import Base Numeric Study Fluent Output Json LP T_Domain.
Import ListNotations.
Open Scope nat_scope.
Open Scope string_scope.
Open Scope list_scope.

Definition mat (l : list (list Q)) : pyval := PJson (JList (map (fun r => JList (map JNum r)) l)).
(** What a building step returns and the solver it leaves. *)
Definition made {A} (m : B A) : res A * solver := let (b, r) := m b_init in (r, b_solver b).
Definition on {A} (s : res study) (f : study -> A) : option A := match s with Ok s => Some (f s) | Err _ => None end.

(** ** test_mapper.py, TestInputMapper *)
Definition map_cons := T_Domain.build 2 2 "default"
  [MNode "a"; MConsumption "load" (mat [[0.01; 0.1]; [0.02; 0.2]]) (mat [[10; 1]; [20; 2]])]%Q.
Example test_in_consumption :
  on map_cons (fun s => made (get_node_var s "default" "a" 0 0)) =
    Some (Ok (LPNode [LPCons "load" 0.01 10 (VLol "default" "a" 0 0)] [] [] []), Solver [(VLol "default" "a" 0 0, (0, 10)%Q)] [] []) /\
  on map_cons (fun s => made (get_node_var s "default" "a" 1 1)) =
    Some (Ok (LPNode [LPCons "load" 0.2 2 (VLol "default" "a" 0 1)] [] [] []), Solver [(VLol "default" "a" 0 1, (0, 2)%Q)] [] []).
Proof. split; vm_compute; reflexivity. Qed.
Definition map_prod := T_Domain.build 2 2 "default"
  [MNode "a"; MProduction "nuclear" (mat [[0.12; 0.2]; [0.21; 0.02]]) (mat [[12; 2]; [21; 20]])]%Q.
Example test_in_production :
  on map_prod (fun s => made (get_node_var s "default" "a" 0 0)) =
    Some (Ok (LPNode [] [LPProd "nuclear" 0.12 12 (VProd "default" "a" 0 0)] [] []), Solver [(VProd "default" "a" 0 0, (0, 12)%Q)] [] []) /\
  on map_prod (fun s => made (get_node_var s "default" "a" 1 1)) =
    Some (Ok (LPNode [] [LPProd "nuclear" 0.02 20 (VProd "default" "a" 0 1)] [] []), Solver [(VProd "default" "a" 0 1, (0, 20)%Q)] [] []).
Proof. split; vm_compute; reflexivity. Qed.
Definition map_stor := T_Domain.build 2 2 "default"
  [MNode "a"; MStorage "cell" (num 10) (num 1) (num 1) (num 1) 2 (PJson (JNum 0.9))].
Definition cell_at (t : nat) : lpstor :=
  LPStor "cell" 10 (VCap "default" "a" 0 t) 1 (VIn "default" "a" 0 t) 1 (VOut "default" "a" 0 t) 1 2 0.9.
Definition cell_vars (t : nat) : list (var * (Q * Q)) :=
  [(VCap "default" "a" 0 t, (0, 10)%Q); (VIn "default" "a" 0 t, (0, 1)%Q); (VOut "default" "a" 0 t, (0, 1)%Q)].
Example test_in_storage :
  on map_stor (fun s => made (get_node_var s "default" "a" 0 0)) = Some (Ok (LPNode [] [] [cell_at 0] []), Solver (cell_vars 0) [] []) /\
  on map_stor (fun s => made (get_node_var s "default" "a" 1 1)) = Some (Ok (LPNode [] [] [cell_at 1] []), Solver (cell_vars 1) [] []).
Proof. split; vm_compute; reflexivity. Qed.
Definition map_link := T_Domain.build 2 2 "default"
  [MNode "a"; MNode "be"; MLink "a" "be" (mat [[0.01; 0.3]; [0.02; 0.03]]) (mat [[10; 3]; [20; 30]])]%Q.
Example test_in_links :
  on map_link (fun s => made (get_node_var s "default" "a" 0 0)) =
    Some (Ok (LPNode [] [] [] [LPLink "a" "be" 10 (VLink "default" "a" 0 0) 0.01]), Solver [(VLink "default" "a" 0 0, (0, 10)%Q)] [] []) /\
  on map_link (fun s => made (get_node_var s "default" "a" 1 1)) =
    Some (Ok (LPNode [] [] [] [LPLink "a" "be" 30 (VLink "default" "a" 0 1) 0.03]), Solver [(VLink "default" "a" 0 1, (0, 30)%Q)] [] []).
Proof. split; vm_compute; reflexivity. Qed.
Definition map_conv := T_Domain.build 1 1 "gas"
  [MNode "a"; MToConverter "conv" (PJson (JNum 0.5)); MNetwork "default"; MNode "b"; MConverter "conv" "default" "b" (num 100) (num 0)].
Example test_in_converter : exists c src_max,
  on map_conv (fun s => made (get_conv_var s "conv" 0 0)) =
    Some (Ok c, Solver [(VSrc "conv" "gas" "a" 0, (0%Q, src_max)); (VDest "conv" 0, (0, 100)%Q)] [] []) /\
  c = LPConv "conv" [(("gas", "a"), 0.5%Q)] [(("gas", "a"), VSrc "conv" "gas" "a" 0)] "default" "b" (VDest "conv" 0) 0 100 /\ (src_max == 200)%Q.
Proof. do 2 eexists. split; [vm_compute; reflexivity|]. split; reflexivity. Qed.

(** ** test_mapper.py, TestOutputMapper *)
Definition written (s : res study) (f : ostate -> res ostate) : res ostate := let* s := s in f (out_init s).
Definition two (a b c d : Q) : ndarray := ND [2; 2] [a; b; c; d].
Example test_out_consumption : exists q,
  written map_cons (fun o => let* o := set_node_var o "default" "a" 0 0 (ANode [(10, 5)%Q] [] [] []) in
                             set_node_var o "default" "a" 1 1 (ANode [(20, 5)%Q] [] [] [])) =
  Ok (OState [("default", [("a", ONode [OCons q "load"] [] [] [])])] []) /\ shape q = [2; 2] /\ Forall2 Qeq (data q) [5; 0; 0; 15]%Q.
Proof. eexists. split; [vm_compute; reflexivity|]. split; [reflexivity | repeat constructor]. Qed.
Example test_out_production :
  written map_prod (fun o => let* o := set_node_var o "default" "a" 0 0 (ANode [] [12%Q] [] []) in
                             set_node_var o "default" "a" 1 1 (ANode [] [112%Q] [] [])) =
  Ok (OState [("default", [("a", ONode [] [OProd "nuclear" (two 12 0 0 112)] [] [])])] []).
Proof. vm_compute. reflexivity. Qed.
Example test_out_storage :
  written map_stor (fun o => let* o := set_node_var o "default" "a" 0 0 (ANode [] [] [(5, 2, 4)%Q] []) in
                             set_node_var o "default" "a" 1 1 (ANode [] [] [(55, 22, 44)%Q] [])) =
  Ok (OState [("default", [("a", ONode [] [] [OStor "cell" (two 5 0 0 55) (two 2 0 0 22) (two 4 0 0 44)] [])])] []).
Proof. vm_compute. reflexivity. Qed.
Example test_out_link :
  written map_link (fun o => let* o := set_node_var o "default" "a" 0 0 (ANode [] [] [] [8%Q]) in
                             set_node_var o "default" "a" 1 1 (ANode [] [] [] [18%Q])) =
  Ok (OState [("default", [("a", ONode [] [] [] [OLnk "be" (two 8 0 0 18)]); ("be", ONode [] [] [] [])])] []).
Proof. vm_compute. reflexivity. Qed.
Example test_out_converter :
  written map_conv (fun o => set_converter_var o "conv" 0 0 (AConv [(["gas"; "a"], 200%Q)] 100)) =
  Ok (OState [("gas", [("a", ONode [] [] [] [])]); ("default", [("b", ONode [] [] [] [])])]
             [("conv", OConv "conv" [(("gas", "a"), ND [1; 1] [200%Q])] (ND [1; 1] [100%Q]))]).
Proof. vm_compute. reflexivity. Qed.

(** ** test_optimizer.py *)
Definition load := LPCons "load" 10 10 (VLol "default" "fr" 0 0).
Definition solar := LPProd "solar" 20 10 (VProd "default" "fr" 0 0).
Definition cell (t : nat) := LPStor "cell" 10 (VCap "default" "fr" 0 t) 1 (VIn "default" "fr" 0 t) 10 (VOut "default" "fr" 0 t) 1 2 1.2.
Definition to_be := LPLink "fr" "be" 10 (VLink "default" "fr" 0 0) 30.
Definition fr_node := LPNode [load] [solar] [cell 0] [to_be].
Definition conv := LPConv "conv" [(("gas", "a"), 0.5%Q)] [(("gas", "a"), VSrc "conv" "gas" "a" 0)] "default" "b" (VDest "conv" 0) 10 100.
(** TestObjectiveBuilder *)
Example test_objective_add_node :
  sv_obj (snd (made (obj_add_node fr_node))) =
  [(VLol "default" "fr" 0 0, 10); (VProd "default" "fr" 0 0, 20); (VCap "default" "fr" 0 0, 1); (VLink "default" "fr" 0 0, 30)]%Q.
Proof. reflexivity. Qed.
Example test_objective_add_converter : sv_obj (snd (made (obj_add_converter conv))) = [(VDest "conv" 0, 10%Q)].
Proof. reflexivity. Qed.
(** TestAdequacyBuilder: the constraints of the dictionary of the builder *)
Definition adequacy_of (b : bstate) (key : akey) : option constr :=
  match dget key (b_adq b) with Some h => nth_error (sv_cons (b_solver b)) h | None => None end.
Example test_adequacy_add_node :
  let b := fst ((adq_add_node "default" "fr" fr_node 0;; adq_add_node "default" "be" (LPNode [] [] [] []) 0;; adq_build) b_init) in
  (exists c, adequacy_of b (0, "default", "fr") = Some c /\ (k_lb c == 10)%Q /\ (k_ub c == 10)%Q /\
     k_coefs c = [(VLol "default" "fr" 0 0, 1); (VProd "default" "fr" 0 0, 1); (VIn "default" "fr" 0 0, -1); (VOut "default" "fr" 0 0, 1); (VLink "default" "fr" 0 0, -1)]%Q) /\
  adequacy_of b (0, "default", "be") = Some (Constr 0 0 [(VLink "default" "fr" 0 0, 1%Q)]).
Proof. cbn zeta. split; [eexists; split; [vm_compute; reflexivity | repeat split] | vm_compute; reflexivity]. Qed.
Example test_adequacy_add_converter :
  let blank := Constr 10 10 [] in
  let b := fst (adq_add_converter conv 0 (BState (Solver [] [blank; blank] []) [((0, "gas", "a"), 0); ((0, "default", "b"), 1)] [] [])) in
  adequacy_of b (0, "default", "b") = Some (Constr 10 10 [(VDest "conv" 0, 1%Q)]) /\
  adequacy_of b (0, "gas", "a") = Some (Constr 10 10 [(VSrc "conv" "gas" "a" 0, -1)%Q]).
Proof. split; reflexivity. Qed.
(** TestStorageBuilder *)
Example test_storage_t0 :
  let b := fst (stor_add_node "default" "fr" (LPNode [] [] [cell 0] []) 0 b_init) in
  sv_cons (b_solver b) = [Constr 2 2 [(VIn "default" "fr" 0 0, -1.2); (VOut "default" "fr" 0 0, 1); (VCap "default" "fr" 0 0, 1)]%Q] /\
  dget (0, "default", "fr", "cell") (b_cap b) = Some (VCap "default" "fr" 0 0).
Proof. split; reflexivity. Qed.
Example test_storage_later :
  let b := fst (stor_add_node "default" "fr" (LPNode [] [] [cell 1] []) 1
                  (BState (Solver [] [] []) [] [] [((0, "default", "fr", "cell"), VCap "default" "fr" 0 0)])) in
  sv_cons (b_solver b) = [Constr 0 0 [(VIn "default" "fr" 0 1, -1.2); (VOut "default" "fr" 0 1, 1); (VCap "default" "fr" 0 0, -1); (VCap "default" "fr" 0 1, 1)]%Q] /\
  dget (1, "default", "fr", "cell") (b_cap b) = Some (VCap "default" "fr" 0 1).
Proof. split; reflexivity. Qed.
(** TestConverterMixBuilder *)
Example test_mix : sv_cons (snd (made (mix_add_converter conv))) = [Constr 0 0 [(VSrc "conv" "gas" "a" 0, 0.5); (VDest "conv" 0, -1)]%Q].
Proof. reflexivity. Qed.
(** TestSolve.test_solve_batch: the mock solver answers with the upper bound of each
    variable. The mock mapper has a ratio of 0.5 and a source limited to 10; here both come
    from the study (ratio 1). *)
Definition highest (s : solver) (v : var) : Q := match dget v (sv_vars s) with Some b => snd b | None => 0 end.
Definition batch := T_Domain.build 1 1 "default"
  [ MNode "a"; MConsumption "load" (num 10) (num 10); MToConverter "conv" (num 1); MNetwork "gas"; MNode "b";
    MConverter "conv" "gas" "b" (num 10) (num 1) ].
Example test_solve_batch :
  on batch (fun s => solve_batch highest s 0) =
  Some (Ok [AStep [("default", [("a", ANode [(10, 10)%Q] [] [] [])]); ("gas", [("b", ANode [] [] [] [])])] [("conv", AConv [(["default"; "a"], 10%Q)] 10)]]).
Proof. vm_compute. reflexivity. Qed.
