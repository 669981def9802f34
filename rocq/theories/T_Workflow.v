(** The tests of the repository, replayed on the model: tests/workflow/test_pipeline.py,
    test_shuffler.py and test_integration.py. Both behaviours of pandas ([strict]) are tried,
    and any draws where nothing is drawn. *)
From Coq Require Import String Ascii List ZArith QArith Qround Bool Arith Lia.
From Verif Require Import Base Frame Pipeline Shuffler.
Import ListNotations.
Open Scope nat_scope.
Open Scope string_scope.
Open Scope list_scope.

Definition cell_is (c d : cell) : bool := match c, d with Some p, Some q => Qeq_bool p q | None, None => true | _, _ => false end.
Definition column_is (x y : (label * string) * list cell) : bool :=
  label_eqb (fst (fst x)) (fst (fst y)) && String.eqb (snd (fst x)) (snd (fst y)) && list_eqb cell_is (snd x) (snd y).
Definition columns (cols : list ((Z * string) * list Q)) : list ((label * string) * list cell) :=
  map (fun e => ((LInt (fst (fst e)), snd (fst e)), map Some (snd e))) cols.
Definition frame_is (f : frame) (cols : list ((Z * string) * list Q)) : bool :=
  list_eqb label_eqb (f_index f) (range (List.length (f_index f))) && list_eqb column_is (f_cols f) (columns cols).
(** [pd.DataFrame({name: values})] and [pd.DataFrame({(scn, name): values})] *)
Definition flat (cols : list (string * list Q)) : anyframe :=
  AFlat (SFrame (range (match cols with [] => 0 | nc :: _ => List.length (snd nc) end)) (map (fun nc => (fst nc, map Some (snd nc))) cols)).
Definition multi (cols : list ((Z * string) * list Q)) : anyframe :=
  AMulti (Frame (range (match cols with [] => 0 | nc :: _ => List.length (snd nc) end)) (columns cols)).

(** ** The stages: 31-69 of test_pipeline.py, and those of the module *)
Definition cells (g : Q -> Q) (f : frame) : frame := Frame (f_index f) (map (fun kc => (fst kc, map (option_map g) (snd kc))) (f_cols f)).
Definition user (g : frame -> frame) : body := BUser (fun f => (AMulti f, Ok (Some (AMulti (g f))))).
Definition Double : op := NewStage true [] [] (user (cells (fun q => q * 2)%Q)).
Definition Max9 : op := NewStage true [] [] (user (cells (fun q => if qlt 9 q then 9 else q)%Q)).
Definition map2c (g : Q -> Q -> Q) (c d : list cell) : list cell :=
  map (fun xy => match xy with (Some x, Some y) => Some (g x y) | _ => None end) (combine c d).
Definition Divide : op := NewStage false ["a"; "b"] ["d"; "r"] (BFocus (fun _ v =>
  match dget "a" (s_cols v), dget "b" (s_cols v) with
  | Some a, Some b =>
      let d := map2c (fun x y => inject_Z (Qfloor (x / y))) a b in
      let r := map2c Qminus a (map2c Qmult b d) in
      Ok (SFrame (s_index v) (filter (fun nc => negb (mem (fst nc) ["a"; "b"])) (dset "r" r (dset "d" d (s_cols v)))))
  | _, _ => Err KeyError
  end)).
Definition Inverse : op := NewStage false ["d"] ["d"; "-d"] (BFocus (fun _ v =>
  match dget "d" (s_cols v) with
  | Some d => Ok (SFrame (s_index v) (dset "-d" (map (option_map Qopp) d) (s_cols v)))
  | None => Err KeyError
  end)).
Definition Wrong : op := NewStage false ["e"] ["e"] (user (fun f => f)).
(** pipeline.py 401-412, 425-434, 472-478, 506-512, 542-547, 575-577 *)
Definition Clip (lower upper : option Q) : op := NewStage true [] [] (BClip lower upper).
Definition Rename (m : dict string string) : op := NewStage false (map fst m) (map snd m) (BRename m).
Definition Drop (names : list string) : op := NewStage false names [] BDrop.
Definition Fault loss occur dmin dmax : op := NewStage false ["quantity"] ["quantity"] (BFault loss occur dmin dmax).
Definition Repeat n : op := NewStage true [] [] (BRepeat n).
Definition ToShuffler (x : string) : op := Rename [(x, to_shuffler)].

(** The world after the stages are created (they are 0, 1, ...) and linked. *)
Definition none : world := World [] [] [] [].
Definition sum (sts : list op) : world * res nat :=
  let w := run none sts in
  match seq 0 (List.length sts) with a :: b :: rest => chain w a b rest | _ => (w, Err IndexError) end.
Definition pipeline (sts : list op) : world * res nat :=
  let w := run none sts in step (fst (step w (NewList (seq 0 (List.length sts))))) (NewPipeline 0).
Definition given (strict : bool) (d : nat -> label -> draw) (wp : world * res nat) (i : anyframe) : option frame :=
  match snd wp with
  | Err _ => None
  | Ok p => match pipeline_call strict (fst wp) p d [i] 0 with
            | (fh, Returned a) => match fget fh a with AMulti f => Some f | AFlat _ => None end
            | _ => None
            end
  end.
Definition gives strict d wp i cols : bool := match given strict d wp i with Some f => frame_is f cols | None => false end.
Definition ins (wp : world * res nat) : option (list string) :=
  match snd wp with Ok p => Some (lget (lists (fst wp)) (p_in (pl_plug (pipe_at (fst wp) p)))) | Err _ => None end.
Definition outs (wp : world * res nat) : option (list string) :=
  match snd wp with Ok p => Some (lget (lists (fst wp)) (p_out (pl_plug (pipe_at (fst wp) p)))) | Err _ => None end.
(** One stage called alone *)
Definition stage_gives strict d (st : op) (i : anyframe) cols : bool :=
  let w := run none [st] in
  match stage_call strict (lists w) (stage_at w 0) d 0 [i] 0 with
  | (fh, Returned a) => match fget fh a with AMulti f => frame_is f cols | AFlat _ => false end
  | _ => false
  end.
Ltac both := intros [] d; vm_compute; repeat split.

(** ** TestFreePlug 72-92, TestRestrictedPlug 95-140 *)
Example test_free_linkable : let '(h, a) := new_free [] in let '(h, b) := new_free h in linkable_to h a b = true.
Proof. reflexivity. Qed.
(** Plugs are equal when they are of the same kind and hold equal lists. *)
Definition plug_same (h : lheap) (p q : plug) : Prop := p_free p = p_free q /\ lget h (p_in p) = lget h (p_in q) /\ lget h (p_out p) = lget h (p_out q).
Example test_free_join_to_free : let '(h, a) := new_free [] in let '(h, b) := new_free h in let '(h, c) := plug_add h a b in plug_same h a c.
Proof. repeat split. Qed.
Example test_free_join_to_restricted : let '(h, a) := new_free [] in let '(h, b) := new_restricted h ["a"; "b"] ["c"; "d"] in
  let '(h, c) := plug_add h a b in plug_same h b c.
Proof. repeat split. Qed.
Example test_linkable_to_free : let '(h, a) := new_restricted [] ["a"] ["b"] in let '(h, b) := new_free h in linkable_to h a b = true.
Proof. reflexivity. Qed.
Example test_linkable_to_restricted_ok :
  let '(h, a) := new_restricted [] ["a"] ["b"; "c"; "d"] in let '(h, b) := new_restricted h ["b"; "c"] ["e"] in linkable_to h a b = true.
Proof. reflexivity. Qed.
Example test_linkable_to_restricted_wrong :
  let '(h, a) := new_restricted [] ["a"] ["b"; "c"; "d"] in let '(h, b) := new_restricted h ["b"; "c"; "f"] ["e"] in linkable_to h a b = false.
Proof. reflexivity. Qed.
Example test_join_to_free : let '(h, a) := new_restricted [] ["a"] ["b"] in let '(h, f) := new_free h in let '(h, b) := plug_add h a f in plug_same h a b.
Proof. repeat split. Qed.
Example test_join_to_restricted :
  let '(h, a) := new_restricted [] ["a"] ["b"; "c"; "d"] in let '(h, b) := new_restricted h ["b"; "c"] ["e"] in
  let '(h, c) := plug_add h a b in let '(h, e) := new_restricted h ["a"] ["e"; "d"] in plug_same h e c.
Proof. repeat split. Qed.

(** ** TestPipeline 143-241 *)
Example test_compute : forall strict d, gives strict d (pipeline [Double; Double]) (flat [("a", [1; 2; 3]%Q)]) [((0%Z, "a"), [4; 8; 12]%Q)] = true.
Proof. both. Qed.
Definition added : world * res nat :=
  let w := run none [Double; Double; Divide; NewList [0; 1]; NewPipeline 0] in step w (Add (OPipe 0) (OStage 2)).
Example test_add : forall strict d,
  gives strict d added (flat [("a", [1; 2; 3]%Q); ("b", [1; 2; 3]%Q)]) [((0%Z, "d"), [1; 1; 1]%Q); ((0%Z, "r"), [0; 0; 0]%Q)] = true /\
  slist_at (fst added) 0 = [0; 1; 2] /\ p_free (pl_plug (pipe_at (fst added) 0)) = false.
Proof. both. Qed.
Example test_link_free_to_free : forall strict d,
  gives strict d (sum [Double; Max9]) (flat [("a", [1; 2; 3]%Q); ("b", [4; 5; 6]%Q)]) [((0%Z, "a"), [2; 4; 6]%Q); ((0%Z, "b"), [8; 9; 9]%Q)] = true /\
  ins (sum [Double; Max9]) = Some [] /\ outs (sum [Double; Max9]) = Some [].
Proof. both. Qed.
Example test_link_free_to_restricted : forall strict d,
  gives strict d (sum [Double; Divide]) (flat [("a", [10; 20; 32]%Q); ("b", [4; 5; 6]%Q)]) [((0%Z, "d"), [2; 4; 5]%Q); ((0%Z, "r"), [4; 0; 4]%Q)] = true /\
  ins (sum [Double; Divide]) = Some ["a"; "b"] /\ outs (sum [Double; Divide]) = Some ["d"; "r"].
Proof. both. Qed.
Example test_link_restricted_to_free : forall strict d,
  gives strict d (sum [Divide; Double]) (flat [("a", [10; 20; 32]%Q); ("b", [4; 5; 6]%Q)]) [((0%Z, "d"), [4; 8; 10]%Q); ((0%Z, "r"), [4; 0; 4]%Q)] = true /\
  ins (sum [Divide; Double]) = Some ["a"; "b"] /\ outs (sum [Divide; Double]) = Some ["d"; "r"].
Proof. both. Qed.
Example test_link_restricted_to_restricted : forall strict d,
  gives strict d (sum [Divide; Inverse]) (flat [("a", [10; 20; 32]%Q); ("b", [4; 5; 6]%Q)])
    [((0%Z, "d"), [2; 4; 5]%Q); ((0%Z, "-d"), [-(2); -(4); -(5)]%Q); ((0%Z, "r"), [2; 0; 2]%Q)] = true /\
  ins (sum [Divide; Inverse]) = Some ["a"; "b"] /\ outs (sum [Divide; Inverse]) = Some ["d"; "-d"; "r"].
Proof. both. Qed.
Example test_wrong_link : snd (sum [Divide; Wrong]) = Err ValueError.
Proof. reflexivity. Qed.

(** ** TestStage 244-305 *)
Example test_stage_compute : forall strict d,
  stage_gives strict d Double
    (multi [((0%Z, "a"), [1; 2; 3]%Q); ((0%Z, "b"), [4; 5; 6]%Q); ((1%Z, "a"), [10; 20; 30]%Q); ((1%Z, "b"), [40; 50; 60]%Q)])
    [((0%Z, "a"), [2; 4; 6]%Q); ((0%Z, "b"), [8; 10; 12]%Q); ((1%Z, "a"), [20; 40; 60]%Q); ((1%Z, "b"), [80; 100; 120]%Q)] = true.
Proof. both. Qed.
Example test_wrong_compute : forall strict d, let w := run none [Inverse] in
  snd (stage_call strict (lists w) (stage_at w 0) d 0 [flat [("a", [1; 2; 3]%Q); ("b", [4; 5; 6]%Q)]] 0) = StageRefused 0.
Proof. both. Qed.
Example test_standardize_column : frame_is (standardize (flat [("a", [1; 2; 3]%Q)])) [((0%Z, "a"), [1; 2; 3]%Q)] = true.
Proof. reflexivity. Qed.
Example test_build_multi_index : build_multi_index [LInt 1; LInt 2; LInt 3] ["a"; "b"] =
  [(LInt 1, "a"); (LInt 1, "b"); (LInt 2, "a"); (LInt 2, "b"); (LInt 3, "a"); (LInt 3, "b")].
Proof. reflexivity. Qed.

(** ** TestFocusPipeline 308-334, TestClip, TestRename, TestDrop 337-383, TestRepeat 409-448 *)
Example test_focus_compute : forall strict d,
  stage_gives strict d Divide
    (multi [((0%Z, "b"), [1; 2; 3]%Q); ((0%Z, "a"), [4; 5; 6]%Q); ((1%Z, "b"), [10; 20; 30]%Q); ((1%Z, "a"), [40; 50; 60]%Q)])
    [((0%Z, "d"), [4; 2; 2]%Q); ((0%Z, "r"), [0; 1; 0]%Q); ((1%Z, "d"), [4; 2; 2]%Q); ((1%Z, "r"), [0; 10; 0]%Q)] = true.
Proof. both. Qed.
Definition ab : anyframe := flat [("a", [12; 54; 87; 12]%Q); ("b", [98; 23; 65; 4]%Q)].
Example test_clip : forall strict d,
  stage_gives strict d (Clip (Some 10%Q) (Some 50%Q)) ab [((0%Z, "a"), [12; 50; 50; 12]%Q); ((0%Z, "b"), [50; 23; 50; 10]%Q)] = true.
Proof. both. Qed.
Example test_rename : forall strict d,
  stage_gives strict d (Rename [("a", "alpha")]) ab [((0%Z, "alpha"), [12; 54; 87; 12]%Q); ((0%Z, "b"), [98; 23; 65; 4]%Q)] = true.
Proof. both. Qed.
Example test_drop : forall strict d, stage_gives strict d (Drop ["b"]) ab [((0%Z, "a"), [12; 54; 87; 12]%Q)] = true.
Proof. both. Qed.
Definition copies (n : nat) : list ((Z * string) * list Q) :=
  flat_map (fun i => [((Z.of_nat i, "a"), [12; 54; 87; 12]%Q); ((Z.of_nat i, "b"), [98; 23; 65; 4]%Q)]) (seq 0 n).
Example test_repeat : forall strict d,
  stage_gives strict d (Repeat 2) ab (copies 2) = true /\ stage_gives strict d (Repeat 2) (multi (copies 2)) (copies 4) = true.
Proof. both. Qed.
(** TestFault 386-406 measures how much is lost for one seed of numpy; here the draws are
    given: two outages of 2 and 3 hours lose 20 each, and may overlap. *)
Example test_fault : forall strict,
  stage_gives strict (fun _ => Draw [true; false; true; false; false; false] [1; 2]%Z [2; 3]%Z) (Fault 20%Q 0.001%Q 50 60)
    (flat [("quantity", repeat 100%Q 6)]) [((0%Z, "quantity"), [100; 80; 60; 80; 80; 100]%Q)] = true.
Proof. intros []; vm_compute; reflexivity. Qed.

(** ** test_integration.py, TestPipeline 24-50: 500 scenarios, here on six hours instead of
    a thousand, each with one outage long enough to go below the bound of [Clip]. *)
Definition four : list op := [Repeat 500; Rename [("data", "quantity")]; Fault 10%Q 0.1%Q 5 10; Clip (Some 80%Q) None].
Definition outages : nat -> label -> draw := fun _ _ => Draw [true; true; true; false; false; false] [0; 1; 2]%Z [5; 5; 9]%Z.
Definition the_frame : frame := Eval vm_compute in
  match given true outages (sum four) (flat [("data", repeat 100%Q 6)]) with Some f => f | None => Frame [] [] end.
Example test_pipeline : forall strict,
  (match given strict outages (sum four) (flat [("data", repeat 100%Q 6)]) with Some f => list_eqb (fun a b => list_eqb cell_is (snd a) (snd b)) (f_cols f) (f_cols the_frame) | None => false end) = true /\
  ins (sum four) = Some ["data"] /\ outs (sum four) = Some ["quantity"] /\
  forallb (fun kc => forallb (fun c => match c with Some q => qle 80 q | None => false end) (snd kc)) (f_cols the_frame) = true /\
  existsb (fun kc => existsb (fun c => negb (cell_is c (Some 100%Q))) (snd kc)) (f_cols the_frame) = true /\
  list_eqb label_eqb (get_scenarios the_frame) (range 500) = true /\ get_names the_frame = ["quantity"].
Proof. intros []; vm_compute; repeat split. Qed.

(** ** test_shuffler.py *)
(** range_sampler 18-21: 0, 1, ..., n-1 over and over *)
Definition range_sampler : sampler unit := fun g n nb => (g, Ok (map (fun i => Z.of_nat (i mod n)) (seq 0 nb))).
Definition q3 (a b c : Z) : list cell := [Some (inject_Z a); Some (inject_Z b); Some (inject_Z c)].
(** TestTimeline 42-64 *)
Example test_sample :
  sample range_sampler tt (Got [q3 0 1 2; q3 3 4 5; q3 6 7 8; q3 9 10 11; q3 12 13 14]) 7 =
  (tt, Got [q3 0 1 2; q3 3 4 5; q3 6 7 8; q3 9 10 11; q3 12 13 14; q3 0 1 2; q3 3 4 5]).
Proof. reflexivity. Qed.
(** TestTimelinePipeline 67-90: what is kept of the frame of the mocked pipeline *)
Example test_timeline_pipeline :
  shuffler_rows (multi [((0%Z, to_shuffler), [1; 2; 3]%Q); ((0%Z, "b"), [4; 5; 6]%Q); ((1%Z, to_shuffler), [10; 20; 30]%Q); ((1%Z, "b"), [40; 50; 60]%Q)]) =
  Got [q3 1 2 3; q3 10 20 30].
Proof. reflexivity. Qed.
(** TestShuffler 93-120 of test_shuffler.py and 53-72 of test_integration.py: any schedule of
    the two timelines. *)
Definition load_frame : anyframe := multi [((0%Z, "a"), [3; 4; 5]%Q); ((1%Z, "a"), [7; 8; 9]%Q)].
Definition shuffled (strict : bool) d groups : got (dict string (list (list cell))) :=
  let wp := sum [Repeat 2; ToShuffler "a"] in
  let st := srun (fst wp) [load_frame] [SData "solar" [q3 1 2 3; q3 5 6 7]; SPipe "load" 0 0] in
  shuffle strict (fst wp) (fst st) range_sampler tt d (snd st) 3 groups.
Example test_shuffle : forall strict d groups, In groups [[[0; 1]]; [[1; 0]]; [[0]; [1]]; [[1]; [0]]] ->
  shuffled strict d groups = Got [("solar", [q3 1 2 3; q3 5 6 7; q3 1 2 3]); ("load", [q3 3 4 5; q3 7 8 9; q3 3 4 5])].
Proof. intros [] d groups H; repeat destruct H as [<- | H]; try (vm_compute; reflexivity); contradiction. Qed.
