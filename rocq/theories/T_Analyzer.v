(** The tests of the repository, replayed on the model: tests/analyzer/test_result.py. What
    [np.empty] leaves in a new table is arbitrary ([junk]), and so is the way the library
    writes arrays of one entry ([bcast]). *)
From Coq Require Import String Ascii List ZArith QArith Bool Arith Lia Lqa Permutation.
From Verif Require Import Base BaseFacts Numeric Study Fluent Output LP Analyzer SpecStudy SpecLP StudyFacts LPSat P_LP P_Opt T_Domain T_Solve.
Import ListNotations.
Open Scope nat_scope.
Open Scope string_scope.
Open Scope list_scope.

(** Columns of tables and frames, numbers compared as numbers. *)
Definition cell_is (c d : cell) : bool := match c, d with CNum p, CNum q => Qeq_bool p q | _, _ => cell_eqb c d end.
Definition col_is (tb : table) (cl : string * list cell) : bool := list_eqb cell_is (map (cell_of (fst cl)) (tb_rows tb)) (snd cl).
Definition table_is (tb : res table) (cols : list (string * list cell)) : bool :=
  match tb with
  | Ok tb => list_eqb String.eqb (tb_cols tb) (map fst cols) && forallb (col_is tb) cols
  | Err _ => false
  end.
(** The columns of an answer are given in another order by pandas: they are compared by name. *)
Definition frame_is (f : res (option frame)) (levels : list string) (keys : list (list cell)) (cols : list (string * list cell)) : bool :=
  match f with
  | Ok (Some f) => list_eqb String.eqb (fr_levels f) levels && list_eqb (list_eqb cell_is) (map fst (fr_rows f)) keys &&
      forallb (fun kr => Nat.eqb (List.length (snd kr)) (List.length cols)) (fr_rows f) &&
      forallb (fun cl => list_eqb cell_is (map (fun kr => cell_of (fst cl) (snd kr)) (fr_rows f)) (snd cl)) cols
  | _ => false
  end.
Definition ndarray_is (a : res ndarray) (sh : list nat) (l : list Q) : bool :=
  match a with Ok a => list_eqb Nat.eqb (shape a) sh && list_eqb Qeq_bool (data a) l | Err _ => false end.
Definition N (l : list Q) : list cell := map CNum l.
Definition Z' (l : list Z) : list cell := map CInt l.
Definition W (s : string) (n : nat) : list cell := repeat (CStr s) n.
Fixpoint times_n {A} (n : nat) (l : list A) : list A := match n with O => [] | S n => l ++ times_n n l end.

(** [agg.network(net).ax1(x1)...ax4(x4)] *)
Fixpoint asks (an : analyzer) (se : selector) (qs : list (axis * iarg)) : ST aheap (option frame) :=
  match qs with
  | [] => sret None
  | (a, x) :: qs => do r <- ask an se a x;
                    match r with ASelector se => asks an se qs | AFrame f => sret f end
  end.
Definition query (an : res analyzer) (net : iarg) (qs : list (axis * iarg)) : res (option frame) :=
  let* an := an in snd ((do se <- an_network net; asks an se qs) []).
Definition dflt : iarg := IOne (CStr "default").
Definition elements (s : study) (nd : string) := elements_inside s (Some nd) None.

(** ** TestIndex, TestIntIndex: 26-73 *)
Example test_no_parameters : exists i, new_index ANode INone = Ok i /\ ix_all i = true.
Proof. eexists. split; reflexivity. Qed.
Example test_on_element : exists i, new_index ANode (IOne (CStr "fr")) = Ok i /\ ix_all i = false /\ ix_index i = [CStr "fr"].
Proof. eexists. repeat split. Qed.
Example test_list : exists i, new_index ANode (IList [CStr "fr"; CStr "be"]) = Ok i /\ ix_all i = false /\ ix_index i = [CStr "fr"; CStr "be"].
Proof. eexists. repeat split. Qed.
Example test_filter : exists i, new_index ANode (IList [CStr "fr"; CStr "be"]) = Ok i /\
  map (fun w => ix_keeps i [("node", CStr w)]) ["it"; "fr"; "fr"; "be"; "de"; "it"; "be"] = [false; true; true; true; false; false; true].
Proof. eexists. split; reflexivity. Qed.
Example test_range : exists i, new_index ATime (ISlice (Some 2%Z) (Some 6%Z) None) = Ok i /\ ix_all i = false /\ ix_index i = Z' [2; 3; 4; 5]%Z.
Proof. eexists. repeat split. Qed.
Example test_int_list : exists i, new_index ATime (IList (Z' [2; 6]%Z)) = Ok i /\ ix_all i = false /\ ix_index i = Z' [2; 6]%Z.
Proof. eexists. repeat split. Qed.

(** The shape of the matrices of the tests: [[a, b, b], [b, a, a]] *)
Definition cross (a b : Q) : list Q := [a; b; b; b; a; a].
Definition out (a b : Q) : ndarray := ND [2; 3] (cross a b).
Definition qty (a b : Z) : pyval := jm [[a; b; b]; [b; a; a]]%Z.
Definition thousand : pyval := num 1000.
Definition ts (n : nat) : list cell := times_n n (Z' [0; 1; 2]%Z).
Definition scns (n : nat) : list cell := times_n n (Z' [0; 0; 0; 1; 1; 1]%Z).

(** ** TestConsumptionAnalyzer: 76-204 *)
Definition cs : study := Eval vm_compute in study_of (T_Domain.build 3 2 "default"
  [ MNode "a"; MConsumption "load" thousand (qty 120 12); MConsumption "car" thousand (qty 130 13); MNode "b"; MConsumption "load" thousand (qty 120 12) ]).
Definition cr : result := Result [("default",
  [ ("a", ONode [OCons (out 20 2) "load"; OCons (out 30 3) "car"] [] [] []); ("b", ONode [OCons (out 20 2) "load"] [] [] []) ])] [] blank.
Example test_build_consumption : forall bcast junk, table_is (build_consumption bcast junk cs cr)
  [ ("cost", N (repeat 1000 18)%Q); ("asked", N (cross 120 12 ++ cross 130 13 ++ cross 120 12)); ("given", N (cross 20 2 ++ cross 30 3 ++ cross 20 2));
    ("name", W "load" 6 ++ W "car" 6 ++ W "load" 6); ("node", W "a" 12 ++ W "b" 6); ("network", W "default" 18); ("t", ts 6); ("scn", scns 3) ] = true.
Proof. intros [] junk; vm_compute; reflexivity. Qed.
Example test_aggregate_cons : forall bcast junk,
  frame_is (query (new_analyzer bcast junk cs cr) dflt [(AScn, IOne (CInt 0)); (ANode, IOne (CStr "a")); (ACons, IOne (CStr "load")); (ATime, INone)])
    ["t"] [[CInt 0]; [CInt 1]; [CInt 2]] [("asked", N [120; 12; 12]%Q); ("cost", N [1000; 1000; 1000]%Q); ("given", N [20; 2; 2]%Q)] = true.
Proof. intros [] junk; vm_compute; reflexivity. Qed.
Example test_cons_elements : elements cs "a" = Ok [2; 0; 0; 0; 0; 0] /\ elements cs "b" = Ok [1; 0; 0; 0; 0; 0].
Proof. split; reflexivity. Qed.

(** ** TestProductionAnalyzer: 207-315 *)
Definition ps : study := Eval vm_compute in study_of (T_Domain.build 3 2 "default"
  [ MNode "a"; MProduction "prod" (num 10) (qty 130 13); MNode "b"; MProduction "prod" (num 20) (qty 110 11); MProduction "nuclear" (num 20) (qty 120 12) ]).
Definition pr : result := Result [("default",
  [ ("a", ONode [] [OProd "prod" (out 30 3)] [] []); ("b", ONode [] [OProd "prod" (out 10 1); OProd "nuclear" (out 20 2)] [] []) ])] [] blank.
Example test_build_production : forall bcast junk, table_is (build_production bcast junk ps pr)
  [ ("cost", N (repeat 10 6 ++ repeat 20 12)%Q); ("avail", N (cross 130 13 ++ cross 110 11 ++ cross 120 12)); ("used", N (cross 30 3 ++ cross 10 1 ++ cross 20 2));
    ("name", W "prod" 12 ++ W "nuclear" 6); ("node", W "a" 6 ++ W "b" 12); ("network", W "default" 18); ("t", ts 6); ("scn", scns 3) ] = true.
Proof. intros [] junk; vm_compute; reflexivity. Qed.
Example test_aggregate_prod : forall bcast junk,
  frame_is (query (new_analyzer bcast junk ps pr) dflt [(AScn, IOne (CInt 0)); (ANode, IList [CStr "a"; CStr "b"]); (AProd, IOne (CStr "prod")); (ATime, INone)])
    ["node"; "name"; "t"]
    [[CStr "a"; CStr "prod"; CInt 0]; [CStr "a"; CStr "prod"; CInt 1]; [CStr "a"; CStr "prod"; CInt 2];
     [CStr "b"; CStr "prod"; CInt 0]; [CStr "b"; CStr "prod"; CInt 1]; [CStr "b"; CStr "prod"; CInt 2]]
    [("avail", N [130; 13; 13; 110; 11; 11]%Q); ("cost", N [10; 10; 10; 20; 20; 20]%Q); ("used", N [30; 3; 3; 10; 1; 1]%Q)] = true.
Proof. intros [] junk; vm_compute; reflexivity. Qed.
Example test_prod_elements : elements ps "a" = Ok [0; 1; 0; 0; 0; 0] /\ elements ps "b" = Ok [0; 2; 0; 0; 0; 0].
Proof. split; reflexivity. Qed.

(** ** TestStorageAnalyzer: 318-393 *)
Definition ss : study := Eval vm_compute in study_of (T_Domain.build 3 2 "default"
  [ MNode "b"; MStorage "store" (num 100) (num 10) (num 20) (num 1) 0 eff99 ]).
Definition sr : result := Result [("default", [("b", ONode [] [] [OStor "store" (out 10 1) (out 30 3) (out 20 2)] [])])] [] blank.
Example test_build_storage : forall bcast junk, table_is (build_storage bcast junk ss sr)
  [ ("max_capacity", N (repeat 100 6)%Q); ("capacity", N (cross 10 1)); ("max_flow_in", N (repeat 10 6)%Q); ("flow_in", N (cross 30 3));
    ("max_flow_out", N (repeat 20 6)%Q); ("flow_out", N (cross 20 2)); ("cost", N (repeat 1 6)%Q); ("init_capacity", N (repeat 0 6)%Q);
    ("eff", N (repeat 0.99 6)%Q); ("name", W "store" 6); ("node", W "b" 6); ("network", W "default" 6); ("t", ts 2); ("scn", scns 1) ] = true.
Proof. intros [] junk; vm_compute; reflexivity. Qed.
Example test_aggregate_stor : forall bcast junk,
  frame_is (query (new_analyzer bcast junk ss sr) dflt [(AScn, IOne (CInt 0)); (ANode, INone); (AStor, IOne (CStr "store")); (ATime, INone)])
    ["node"; "name"; "t"] [[CStr "b"; CStr "store"; CInt 0]; [CStr "b"; CStr "store"; CInt 1]; [CStr "b"; CStr "store"; CInt 2]]
    [("capacity", N [10; 1; 1]%Q); ("cost", N [1; 1; 1]%Q); ("eff", N [0.99; 0.99; 0.99]%Q); ("flow_in", N [30; 3; 3]%Q); ("flow_out", N [20; 2; 2]%Q);
     ("init_capacity", N [0; 0; 0]%Q); ("max_capacity", N [100; 100; 100]%Q); ("max_flow_in", N [10; 10; 10]%Q); ("max_flow_out", N [20; 20; 20]%Q)] = true.
Proof. intros [] junk; vm_compute; reflexivity. Qed.
Example test_stor_elements : elements ss "b" = Ok [0; 0; 1; 0; 0; 0].
Proof. reflexivity. Qed.

(** ** TestLinkAnalyzer: 396-487 *)
Definition ls : study := Eval vm_compute in study_of (T_Domain.build 3 2 "default"
  [ MNode "a"; MNode "b"; MNode "c"; MLink "a" "b" (num 2) (qty 110 11); MLink "a" "c" (num 2) (qty 120 12) ]).
Definition lr : result := Result [("default",
  [ ("a", ONode [] [] [] [OLnk "b" (out 10 1); OLnk "c" (out 20 2)]); ("b", ONode [] [] [] []); ("c", ONode [] [] [] []) ])] [] blank.
Example test_build_link : forall bcast junk, table_is (build_link bcast junk ls lr)
  [ ("cost", N (repeat 2 12)%Q); ("avail", N (cross 110 11 ++ cross 120 12)); ("used", N (cross 10 1 ++ cross 20 2)); ("node", W "a" 12);
    ("dest", W "b" 6 ++ W "c" 6); ("network", W "default" 12); ("t", ts 4); ("scn", scns 2) ] = true.
Proof. intros [] junk; vm_compute; reflexivity. Qed.
Example test_aggregate_link : forall bcast junk,
  frame_is (query (new_analyzer bcast junk ls lr) dflt [(AScn, IOne (CInt 0)); (ANode, IOne (CStr "a")); (ALink, IList [CStr "b"; CStr "c"]); (ATime, INone)])
    ["dest"; "t"] [[CStr "b"; CInt 0]; [CStr "b"; CInt 1]; [CStr "b"; CInt 2]; [CStr "c"; CInt 0]; [CStr "c"; CInt 1]; [CStr "c"; CInt 2]]
    [("avail", N [110; 11; 11; 120; 12; 12]%Q); ("cost", N [2; 2; 2; 2; 2; 2]%Q); ("used", N [10; 1; 1; 20; 2; 2]%Q)] = true.
Proof. intros [] junk; vm_compute; reflexivity. Qed.
Example test_balance : forall bcast junk,
  ndarray_is (let* an := new_analyzer bcast junk ls lr in get_balance an "a" "default") [2; 3] (cross 30 3) = true /\
  ndarray_is (let* an := new_analyzer bcast junk ls lr in get_balance an "b" "default") [2; 3] (cross (-10) (-1)) = true.
Proof. intros [] junk; vm_compute; split; reflexivity. Qed.
Example test_link_elements : elements ls "a" = Ok [0; 0; 0; 2; 0; 0].
Proof. reflexivity. Qed.

(** ** TestConverterAnalyzer: 490-580. The maximum of a source is that of the converter
    divided by the ratio. *)
Definition vs : study := Eval vm_compute in study_of (T_Domain.build 3 2 "default"
  [ MNode "a"; MToConverter "conv" (num 2); MNetwork "elec"; MNode "a"; MConverter "conv" "elec" "a" (num 10) (num 1) ]).
Definition vr : result := Result [("default", [("a", ONode [] [] [] [])]); ("elec", [("a", ONode [] [] [] [])])]
  [("conv", OConv "conv" [(("default", "a"), out 10 1)] (out 20 2))] blank.
Definition dest_expected : list (string * list cell) :=
  [ ("name", W "conv" 6); ("network", W "elec" 6); ("node", W "a" 6); ("flow", N (cross 20 2)); ("cost", N (repeat 1 6)%Q); ("max", N (repeat 10 6)%Q);
    ("t", ts 2); ("scn", scns 1) ].
Definition src_expected : list (string * list cell) :=
  [ ("name", W "conv" 6); ("network", W "default" 6); ("node", W "a" 6); ("ratio", N (repeat 2 6)%Q); ("flow", N (cross 10 1)); ("max", N (repeat 5 6)%Q);
    ("t", ts 2); ("scn", scns 1) ].
Example test_build_dest_converter : forall bcast junk, table_is (build_dest_converter bcast junk vs vr) dest_expected = true.
Proof. intros [] junk; vm_compute; reflexivity. Qed.
Example test_build_src_converter : forall bcast junk, table_is (build_src_converter bcast junk vs vr) src_expected = true.
Proof. intros [] junk; vm_compute; reflexivity. Qed.
Example test_aggregate_to_conv : forall bcast junk,
  frame_is (query (new_analyzer bcast junk vs vr) dflt [(AScn, IOne (CInt 0)); (ANode, IOne (CStr "a")); (ASrcConv, IOne (CStr "conv")); (ATime, INone)])
    ["t"] [[CInt 0]; [CInt 1]; [CInt 2]] [("flow", N [10; 1; 1]%Q); ("max", N [5; 5; 5]%Q); ("ratio", N [2; 2; 2]%Q)] = true.
Proof. intros [] junk; vm_compute; reflexivity. Qed.
Example test_aggregate_from_conv : forall bcast junk,
  frame_is (query (new_analyzer bcast junk vs vr) (IOne (CStr "elec")) [(AScn, IOne (CInt 0)); (ANode, IOne (CStr "a")); (ADestConv, IOne (CStr "conv")); (ATime, INone)])
    ["t"] [[CInt 0]; [CInt 1]; [CInt 2]] [("cost", N [1; 1; 1]%Q); ("flow", N [20; 2; 2]%Q); ("max", N [10; 10; 10]%Q)] = true.
Proof. intros [] junk; vm_compute; reflexivity. Qed.
Example test_conv_elements : elements vs "a" = Ok [0; 0; 0; 0; 1; 0] /\ elements_inside vs (Some "a") (Some "elec") = Ok [0; 0; 0; 0; 0; 1].
Proof. split; reflexivity. Qed.

(** ** TestAnalyzer: 583-611. The study is solved, then analysed: the optimum is the only one
    ([solves_to]), and its analysis is the expected one. *)
Definition whole : study := Eval vm_compute in study_of (T_Domain.build 1 1 "default"
  [ MNode "a"; MConsumption "car" thousand (num 100); MProduction "prod" (num 10) (num 70);
    MNode "b"; MProduction "nuclear" (num 20) (num 70); MStorage "store" (num 100) (num 10) (num 20) (num (-1)) 0 eff99; MToConverter "conv" (num 2);
    MLink "b" "a" (num 2) (num 110); MNetwork "elec"; MNode "a"; MConsumption "load" thousand (num 20); MConverter "conv" "elec" "a" (num 10) (num 1) ]).
Definition whole_x (v : var) : Q :=
  match v with
  | VProd _ "a" _ _ => 70 | VProd _ "b" _ _ => 35 | VLink _ _ _ _ => 30 | VLol "elec" _ _ _ => 10 | VSrc _ _ _ _ => 5 | VDest _ _ => 10 | _ => 0
  end%Q.
Definition whole_r : result := Result
  [ ("default", [ ("a", ONode [OCons (row [100]%Q) "car"] [OProd "prod" (row [70]%Q)] [] []);
                  ("b", ONode [] [OProd "nuclear" (row [35]%Q)] [OStor "store" (row [0]%Q) (row [0]%Q) (row [0]%Q)] [OLnk "a" (row [30]%Q)]) ]);
    ("elec", [("a", ONode [OCons (row [10]%Q) "load"] [] [] [])]) ]
  [("conv", OConv "conv" [(("default", "b"), row [5]%Q)] (row [10]%Q))] blank.
Example whole_solved : solves_to whole whole_r.
Proof. one_scenario whole whole_x. Qed.
Definition at_whole {A} bcast junk (f : analyzer -> res A) : res A := let* an := new_analyzer bcast junk whole whole_r in f an.
Example test_cost : forall bcast junk,
  ndarray_is (at_whole bcast junk (fun an => get_cost an (Some "a") None)) [1; 1] [700%Q] = true /\
  ndarray_is (at_whole bcast junk (fun an => get_cost an (Some "b") None)) [1; 1] [760%Q] = true /\
  ndarray_is (at_whole bcast junk (fun an => get_cost an (Some "a") (Some "elec"))) [1; 1] [10010%Q] = true.
Proof. intros [] junk; vm_compute; repeat split. Qed.
Example test_rac : forall bcast junk,
  ndarray_is (at_whole bcast junk (fun an => get_rac an "default")) [1; 1] [35%Q] = true /\
  ndarray_is (at_whole bcast junk (fun an => get_rac an "elec")) [1; 1] [(-10)%Q] = true.
Proof. intros [] junk; vm_compute; repeat split. Qed.
