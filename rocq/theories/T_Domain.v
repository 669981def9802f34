(** The tests of the repository, replayed on the model:
    tests/optimizer/domain/test_numeric.py, test_input.py and test_output.py. *)
From Coq Require Import String Ascii List ZArith QArith Bool Arith.
From Verif Require Import Base Numeric Study Fluent Output Json Objects.
Import ListNotations.
Open Scope nat_scope.
Open Scope string_scope.
Open Scope list_scope.

Definition num (z : Z) : pyval := PJson (JNum (inject_Z z)).
Definition upto (n : nat) : list Q := map qnat (seq 0 n).

(** Method calls written one after the other, [study.network(...).node(...)...]: each on the
    object returned by the one before; the first exception ends the chain. *)
Fixpoint chain (w : world) (ms : list meth) : res study :=
  match ms with
  | [] => Ok (w_study w)
  | m :: ms => match step w (OnSel (List.length (w_handles w) - 1) m) with
               | (w', Ok _) => chain w' ms
               | (_, Err e) => Err e
               end
  end.
Definition build (h n : nat) (net : string) (ms : list meth) : res study :=
  match step (start h n None) (OnStudy_network net) with
  | (w, Ok _) => chain w ms
  | (_, Err e) => Err e
  end.

(** ** test_numeric.py:17-60, factory = NumericalValueFactory(5, 3) *)
Definition reads (x : pyval) (cells : list (Z * Z)) : list (res Q) :=
  map (fun ij => match create 5 3 x with Ok v => getitem v (fst ij) (snd ij) | Err e => Err e end) cells.
Definition cells : list (Z * Z) := [(2, 3); (3, 1); (1, 5)]%Z.
Example test_scalar : exists v, create 5 3 (num 42) = Ok v /\ v = Scalar 42 5 3 /\
  reads (num 42) cells = [Ok 42%Q; Err IndexError; Err IndexError] /\ nv_lt v 50 = true /\ nv_lt v 30 = false /\ flatten v = repeat 42%Q 15.
Proof. eexists. repeat split. Qed.
Example test_matrix : exists v, create 5 3 (PArr (ND [3; 5] (upto 15))) = Ok v /\ (exists a, v = Matrix a 5 3) /\
  reads (PArr (ND [3; 5] (upto 15))) cells = [Ok 13%Q; Err IndexError; Err IndexError] /\
  nv_lt v 16 = true /\ nv_lt v 10 = false /\ flatten v = upto 15.
Proof. eexists. split; [reflexivity|]. split; [eexists; reflexivity|]. repeat split. Qed.
Example test_row : exists v, create 5 3 (PArr (ND [5] (upto 5))) = Ok v /\ (exists a, v = Row a 5 3) /\
  reads (PArr (ND [5] (upto 5))) cells = [Ok 3%Q; Err IndexError; Err IndexError] /\ flatten v = upto 5 ++ upto 5 ++ upto 5.
Proof. eexists. split; [reflexivity|]. split; [eexists; reflexivity|]. repeat split. Qed.
Example test_column : exists v, create 5 3 (PArr (ND [3; 1] (upto 3))) = Ok v /\ (exists a, v = Column a 5 3) /\
  reads (PArr (ND [3; 1] (upto 3))) cells = [Ok 2%Q; Err IndexError; Err IndexError] /\
  flatten v = [0; 0; 0; 0; 0; 1; 1; 1; 1; 1; 2; 2; 2; 2; 2]%Q.
Proof. eexists. split; [reflexivity|]. split; [eexists; reflexivity|]. repeat split. Qed.

(** ** test_input.py *)
(** setUp, 21-54 *)
Definition setup : list meth :=
  [ MNode "a"; MConsumption "load" (num 20) (num 10); MProduction "nuclear" (num 20) (num 10); MToConverter "converter" (num 1);
    MNode "b"; MLink "b" "a" (num 20) (num 10);
    MNetwork "gas"; MNode "b"; MProduction "nuclear" (num 20) (num 10);
    MStorage "store" (num 100) (num 10) (num 10) (num 1) 4 (PJson (JNum (1 # 10)));
    MNode "a"; MConsumption "load" (num 20) (num 10); MLink "b" "a" (num 20) (num 10);
    MConverter "converter" "gas" "b" (num 10) (num 10) ].
Definition k (q : Q) : numval := Scalar q 1 1.
Definition found (net nd : string) (s : study) : option node :=
  match dget net (st_networks s) with Some ns => dget nd ns | None => None end.
(** test_create_study, 56-99 *)
Example test_create_study : exists s, build 1 1 "default" setup = Ok s /\
  let c := Cons "load" (k 20) (k 10) in let p := Prod "nuclear" (k 20) (k 10) in
  let t := Stor "store" (k 100) (k 10) (k 10) (k 1) 4 (k (1 # 10)) in let l := Lnk "a" (k 10) (k 20) in
  let v := Conv "converter" [(("default", "a"), k 1)] "gas" "b" (Some (k 10)) (Some (k 10)) in
  (exists n, found "default" "a" s = Some n /\ nth_error (n_cons n) 0 = Some c /\ nth_error (n_prods n) 0 = Some p) /\
  (exists n, found "default" "b" s = Some n /\ nth_error (n_links n) 0 = Some l) /\
  (exists n, found "gas" "a" s = Some n /\ nth_error (n_cons n) 0 = Some c) /\
  (exists n, found "gas" "b" s = Some n /\ nth_error (n_prods n) 0 = Some p /\ nth_error (n_stors n) 0 = Some t /\ nth_error (n_links n) 0 = Some l) /\
  dget "converter" (st_converters s) = Some v /\ st_horizon s = 1.
Proof. eexists. split; [vm_compute; reflexivity|]. repeat split; try (eexists; repeat split); reflexivity. Qed.

(** 101-265: chains that raise ValueError. The default arguments of storage are written out. *)
Definition fr (ms : list meth) : res study := build 1 1 "default" (MNode "fr" :: ms).
Definition store (capacity flow_in flow_out : Z) (init : Q) (eff : pyval) : meth :=
  MStorage "store" (num capacity) (num flow_in) (num flow_out) (num 0) init eff.
Definition eff99 : pyval := PJson (JNum (99 # 100)).
Example test_wrong_production_quantity : fr [MProduction "solar" (num 1) (num (-10))] = Err ValueError.
Proof. reflexivity. Qed.
Example test_wrong_production_name : fr [MProduction "solar" (num 1) (num (-10)); MProduction "solar" (num 1) (num (-10))] = Err ValueError.
Proof. reflexivity. Qed.
Example test_wrong_consumption_quantity : fr [MConsumption "load" (num 1) (num (-10))] = Err ValueError.
Proof. reflexivity. Qed.
Example test_wrong_storage_flow : fr [store 1 (-1) 1 0 eff99] = Err ValueError /\ fr [store 1 1 (-1) 0 eff99] = Err ValueError.
Proof. split; reflexivity. Qed.
Example test_wrong_storage_capacity : fr [store (-1) 1 1 0 eff99] = Err ValueError /\ fr [store 1 1 1 (-1) eff99] = Err ValueError.
Proof. split; reflexivity. Qed.
Example test_wrong_storage_eff : fr [store 1 1 1 0 (num (-1))] = Err ValueError.
Proof. reflexivity. Qed.
Example test_wrong_link_quantity : fr [MNode "be"; MLink "fr" "be" (num 10) (num (-10))] = Err ValueError.
Proof. reflexivity. Qed.
Example test_wrong_link_dest_not_node : fr [MNode "be"; MLink "fr" "it" (num 10) (num 10)] = Err ValueError.
Proof. reflexivity. Qed.
Example test_wrong_link_dest_not_unique : fr [MNode "be"; MLink "fr" "be" (num 10) (num 10); MLink "fr" "be" (num 10) (num 10)] = Err ValueError.
Proof. reflexivity. Qed.
Example test_wrong_converter_dest :
  build 1 1 "elec" [MNode "a"; MConverter "conv" "gas" "a" (num 1) (num 0)] = Err ValueError /\
  build 1 1 "gas" [MNode "a"; MConverter "conv" "gas" "b" (num 1) (num 0)] = Err ValueError.
Proof. split; reflexivity. Qed.
Example test_wrong_converter_src :
  build 1 1 "default" [MNode "a"; MToConverter "conv" (num 1); MToConverter "conv" (num 2); MConverter "conv" "" "" (num 1) (num 0)] = Err ValueError.
Proof. reflexivity. Qed.
(** test_serialization, 280-285 *)
Example test_serialization : exists s s', build 1 1 "default" setup = Ok s /\
  snd (study_from_json (study_to_json s)) = Ok s' /\ forall old swap, py_eq old swap (study_obj s) (study_obj s') = Ok true.
Proof. do 2 eexists. split; [vm_compute; reflexivity|]. split; [vm_compute; reflexivity|]. intros [] []; vm_compute; reflexivity. Qed.

(** ** test_output.py:13-46. The default benchmark has empty lists and zero times. *)
Definition one : ndarray := ND [1; 1] [1%Q].
Definition out : result := Result
  [("default", [("a", ONode [OCons one "load"] [OProd "prod" one] [OStor "cell" one one one] [OLnk "b" one])])]
  [("cell", OConv "conv" [(("elec", "b"), one)] one)] (Bench [] [] 0 0).
Example test_json : exists r, snd (result_from_json (result_to_json out)) = Ok r /\
  forall old swap, py_eq old swap (result_obj out) (result_obj r) = Ok true.
Proof. eexists. split; [vm_compute; reflexivity|]. intros [] []; vm_compute; reflexivity. Qed.
