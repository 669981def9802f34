(** Properties C11-C14: JSON encoding and decoding. *)
From Coq Require Import String Ascii List ZArith QArith Bool Arith Lia.
From Verif Require Import Base BaseFacts Numeric Study Fluent Output Json SpecNumeric SpecStudy SpecJson
  NumericFacts StudyFacts FluentFacts JsonFacts.
Import ListNotations.
Open Scope nat_scope.
Open Scope string_scope.
Open Scope list_scope.

(** ** C12 *)

(** A pair of names is recovered from its text key exactly when the names do not
    interfere with the separator. *)
Theorem C12_keys_recovered_iff_plain : forall a b : string,
  key_of (join_cc (a, b)) = Ok (a, b) <-> ~ contains_cc a /\ ~ ends_colon a /\ ~ contains_cc b.
Proof.
  intros a b. change (~ contains_cc a /\ ~ ends_colon a /\ ~ contains_cc b) with (plain_key (a, b)).
  split.
  - intros H. apply key_of_join. unfold key_of in H. simpl fst; simpl snd.
    destruct (split_cc (join_cc (a, b))) as [|x [|y [|]]]; inversion H; subst; auto.
  - apply key_of_ok.
Qed.

(** Among such pairs, no two have the same text key. *)
Theorem C12_no_collision_partial : forall k k' : string * string,
  plain_key k -> plain_key k' -> k <> k' -> join_cc k <> join_cc k'.
Proof. intros k k' P P' N E. apply N. now apply join_cc_inj. Qed.

Lemma plain_dec k : has_cc (fst k) = false -> ends_c (fst k) = false -> has_cc (snd k) = false -> plain_key k.
Proof. intros A B C. unfold plain_key. rewrite !ncc, nec. auto. Qed.

Example C12_example : plain_key ("gas: north", "node:1:") /\ key_of "gas: north::node:1:" = Ok ("gas: north", "node:1:")
  /\ plain_key ("gas", ":b").
Proof. repeat split; try (now apply ncc); try (now apply nec); reflexivity. Qed.

(** Two different pairs with the same key, one of which is read back as the other. *)
Theorem C12_keys_recovered_refuted : exists k k' : string * string,
  k <> k' /\ join_cc k = join_cc k' /\ key_of (join_cc k) = Ok k'.
Proof. exists ("a:", "b"), ("a", ":b"). repeat split; [discriminate]. Qed.

(** ** C11 *)
Theorem C11_study_json_round_trip_partial : forall h n version cs,
  0 < h -> 0 < n -> plain_program cs ->
  let s := w_study (run (start h n version) cs) in
  complete_converters s ->
  snd (study_from_json (study_to_json s)) = Ok s.
Proof.
  intros h n version cs Hh Hn P s CC.
  assert (R : reachable (run (start h n version) cs)) by (exists h, n, version, cs; auto).
  pose proof (reachable_inv _ R) as I.
  pose proof (run_canon cs (start h n version) P (start_canon h n version)) as C.
  pose proof (run_dims h n version cs) as (D1 & D2 & D3).
  pose proof (study_rt s) as RT. unfold study_from_json.
  destruct (study_from_json_ (study_to_json s)) as [t r]. simpl in *. apply RT; auto.
  - apply I.
  - unfold s. rewrite D1. auto.
  - unfold s. rewrite D2. auto.
  - unfold s. rewrite D3. apply (new_study_version h n).
Qed.

Definition jn (z : Z) : json := JNum (inject_Z z).
(** Every element kind and every value shape, two scenarios of two hours. *)
Definition json_demo : list call :=
  [ OnStudy_network "elec";
    OnSel 0 (MNode "a");
    OnSel 1 (MConsumption "load" (PJson (jn 1000)) (PJson (JList [jn 10; jn 20])));
    OnSel 2 (MNode "b");
    OnSel 3 (MProduction "gas" (PJson (JList [JList [jn 30]; JList [jn 31]]))
                               (PJson (JList [JList [jn 1; jn 2]; JList [jn 3; jn 4]])));
    OnSel 4 (MStorage "bat" (PJson (jn 10)) (PArr (ND [2] [1%Q; 2%Q])) (PJson (jn 5)) (PJson (jn 0)) 2 (PJson (JNum (9#10))));
    OnSel 5 (MLink "b" "a" (PJson (jn 2)) (PJson (jn 40)));
    OnSel 5 (MToConverter "p2g" (PJson (JNum (1#2))));
    OnStudy_network "gas";
    OnSel 8 (MNode "c");
    OnSel 8 (MConverter "p2g" "gas" "c" (PJson (jn 9)) (PJson (JList [jn 1; jn 2]))) ].
Definition json_demo_study : study := Eval vm_compute in w_study (run (start 2 2 None) json_demo).

Lemma json_demo_plain : plain_program json_demo.
Proof.
  intros c x I J. assert (A : Forall plain_arg (flat_map call_args json_demo)).
  { repeat constructor; simpl; try discriminate; try reflexivity; intros; congruence. }
  rewrite Forall_forall in A. apply A. apply in_flat_map. eauto.
Qed.

Lemma json_demo_complete : complete_converters json_demo_study.
Proof.
  intros name v H. unfold conv_at in H. apply dget_In in H. simpl in H.
  destruct H as [H|[]]. inversion H; subst. simpl. repeat split; try discriminate;
    destruct H0 as [<-|[]]; simpl; try (now apply ncc); now apply nec.
Qed.

Example C11_example :
  plain_program json_demo /\ complete_converters (w_study (run (start 2 2 None) json_demo)) /\
  length (st_networks json_demo_study) = 2 /\ length (st_converters json_demo_study) = 1 /\
  snd (study_from_json (study_to_json json_demo_study)) = Ok json_demo_study.
Proof.
  split; [apply json_demo_plain|].
  assert (E : w_study (run (start 2 2 None) json_demo) = json_demo_study) by (vm_compute; reflexivity).
  split; [rewrite E; apply json_demo_complete|]. repeat split; vm_compute; reflexivity.
Qed.

(** A study with plain data whose converter draws on network "a:", node "b": the
    study read back is another one. *)
Theorem C11_study_json_round_trip_refuted : exists cs s s',
  plain_program cs /\ s = w_study (run (start 1 1 None) cs) /\
  (forall name v, conv_at s name = Some v -> v_cost v <> None /\ v_max v <> None) /\
  snd (study_from_json (study_to_json s)) = Ok s' /\ s' <> s.
Proof.
  exists [ OnStudy_network "a:"; OnSel 0 (MNode "b"); OnSel 1 (MToConverter "p" (PJson (jn 1)));
           OnSel 1 (MConverter "p" "a:" "b" (PJson (jn 9)) (PJson (jn 1))) ].
  eexists; eexists. split; [|split; [vm_compute; reflexivity|split; [|split; [vm_compute; reflexivity|]]]].
  - intros c x I J.
    assert (A : Forall plain_arg [PJson (jn 1); PJson (jn 9); PJson (jn 1)]).
    { repeat constructor; simpl; try discriminate; intros; congruence. }
    rewrite Forall_forall in A. apply A. simpl in I.
    destruct I as [<-|[<-|[<-|[<-|[]]]]]; simpl in J |- *; tauto.
  - intros name v H. apply dget_In in H. simpl in H. destruct H as [H|[]]. inversion H; subst.
    split; discriminate.
  - discriminate.
Qed.

(** A converter without destination is read back with a cost and a maximum of
    another kind. *)
Theorem C11_incomplete_converter_refuted : exists cs s s',
  plain_program cs /\ s = w_study (run (start 1 1 None) cs) /\
  snd (study_from_json (study_to_json s)) = Ok s' /\
  option_map v_cost (conv_at s "p") = Some None /\
  option_map v_cost (conv_at s' "p") = Some (Some (Scalar 0 1 1)).
Proof.
  exists [ OnStudy_network "n"; OnSel 0 (MNode "b"); OnSel 1 (MToConverter "p" (PJson (jn 1))) ].
  eexists; eexists. split; [|split; [vm_compute; reflexivity|split; [vm_compute; reflexivity|]]].
  - intros c x I J.
    assert (A : plain_arg (PJson (jn 1))) by (split; simpl; [intros; congruence | exact Logic.I]).
    simpl in I. destruct I as [<-|[<-|[<-|[]]]]; simpl in J; try tauto.
    destruct J as [<-|[]]. exact A.
  - split; vm_compute; reflexivity.
Qed.

(** ** C13 *)
Theorem C13_result_json_round_trip_partial : forall r, full_result r ->
  (forall name v k, In (name, v) (r_converters r) -> In k (dkeys (ov_src v)) -> plain_key k) ->
  snd (result_from_json (result_to_json r)) = Ok r.
Proof. intros r F P. now rewrite result_rt. Qed.

Definition ar (l : list Q) : ndarray := ND [1; List.length l] l.
Definition result_demo : result :=
  Result [("elec", [("a", ONode [OCons (ar [1; 2]%Q) "load"] [OProd "gas" (ar [3; 4]%Q)]
                               [OStor "bat" (ar [5; 6]%Q) (ar [7; 8]%Q) (ar [0; 0]%Q)] [OLnk "b" (ar [1; 1]%Q)]);
                    ("b", ONode [] [] [] [])])]
         [("p2g", OConv "p2g" [(("elec", "a"), ar [1; 2]%Q); (("elec", "b"), ar [3; 2]%Q)] (ar [9; 9]%Q))]
         (Bench [1%Q] [2%Q] 3 4).

Lemma result_demo_full : full_result result_demo.
Proof.
  assert (FA : forall x y, full_array (ar [x; y])).
  { intros. split; [reflexivity|]. repeat constructor. }
  constructor.
  - intros net ns nd n a [E|[]] I J. inversion E; subst. destruct I as [I|[I|[]]]; inversion I; subst; simpl in J.
    + repeat (destruct J as [<-|J]; auto). destruct J.
    + destruct J.
  - intros name v a [E|[]] J. inversion E; subst. simpl in J. repeat (destruct J as [<-|J]; auto). destruct J.
  - intros name v [E|[]]. inversion E; subst. simpl. repeat constructor; simpl; intuition congruence.
Qed.

Example C13_example : full_result result_demo /\
  (forall name v k, In (name, v) (r_converters result_demo) -> In k (dkeys (ov_src v)) -> plain_key k) /\
  snd (result_from_json (result_to_json result_demo)) = Ok result_demo.
Proof.
  split; [apply result_demo_full|]. split; [|vm_compute; reflexivity].
  intros name v k [E|[]] J. inversion E; subst. simpl in J.
  destruct J as [<-|[<-|[]]]; apply plain_dec; reflexivity.
Qed.

Theorem C13_result_json_round_trip_refuted : exists r r', full_result r /\
  snd (result_from_json (result_to_json r)) = Ok r' /\ r' <> r.
Proof.
  exists (Result [] [("p", OConv "p" [(("a:", "b"), ar [1%Q])] (ar [1%Q]))] (Bench [] [] 0 0)).
  eexists. split; [|split; [vm_compute; reflexivity | discriminate]].
  constructor.
  - intros net ns nd n a [].
  - intros name v a [E|[]] J. inversion E; subst. simpl in J.
    destruct J as [<-|[<-|[]]]; (split; [reflexivity|]; repeat constructor).
  - intros name v [E|[]]. inversion E; subst. simpl. repeat constructor; simpl; tauto.
Qed.

(** ** C14 *)

(** Reading a study leaves every tree unchanged, whether or not it can be read,
    so that reading again gives the same answer. *)
Theorem C14_study_tree_unchanged : forall j : json,
  let (j', r) := study_from_json j in j' = j /\ snd (study_from_json j') = r.
Proof.
  intros j. unfold study_from_json. destruct (study_from_json_ j) as [t r] eqn:E.
  split; auto. now rewrite E.
Qed.

Example C14_study_example : fst (study_from_json (study_to_json json_demo_study)) = study_to_json json_demo_study
  /\ fst (study_from_json_ (study_to_json json_demo_study)) <> study_to_json json_demo_study.
Proof. split; [vm_compute; reflexivity | vm_compute; discriminate]. Qed.

(** Reading a result does change the tree: for every result with at least one
    node, the tree cannot be read a second time. *)
Theorem C14_result_tree_consumed : forall r, full_result r ->
  (forall name v k, In (name, v) (r_converters r) -> In k (dkeys (ov_src v)) -> plain_key k) ->
  (exists net ns, In (net, ns) (r_networks r) /\ ns <> []) ->
  let (j', o) := result_from_json (result_to_json r) in
  o = Ok r /\ j' <> result_to_json r /\ snd (result_from_json j') = Err TypeError.
Proof.
  intros r F P NE. rewrite result_rt by auto. pose proof (result_second r NE) as S.
  repeat split; auto. intros E. rewrite E, result_rt in S by auto. discriminate.
Qed.

Theorem C14_decoding_refuted : exists j r j',
  result_from_json j = (j', Ok r) /\ j' <> j /\ snd (result_from_json j') = Err TypeError.
Proof.
  exists (result_to_json result_demo), result_demo. eexists.
  split; [vm_compute; reflexivity|]. split; [discriminate | vm_compute; reflexivity].
Qed.

Print Assumptions C11_study_json_round_trip_partial.
Print Assumptions C11_study_json_round_trip_refuted.
Print Assumptions C11_incomplete_converter_refuted.
Print Assumptions C12_keys_recovered_iff_plain.
Print Assumptions C12_no_collision_partial.
Print Assumptions C12_keys_recovered_refuted.
Print Assumptions C13_result_json_round_trip_partial.
Print Assumptions C13_result_json_round_trip_refuted.
Print Assumptions C14_study_tree_unchanged.
Print Assumptions C14_result_tree_consumed.
Print Assumptions C14_decoding_refuted.
