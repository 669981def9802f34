(** Property C109: the linear program of a study read from a text. *)
From Coq Require Import String List ZArith QArith Bool Arith Lia Lqa Permutation.
From Verif Require Import Base BaseFacts Numeric NumericFacts Study Fluent SpecStudy StudyFacts Output Json SpecJson SpecReach SpecRead JsonFacts P_Json
  LP SpecLP LPFacts LPBuild LPSat LPResult LPSolve LPReady LPWeak LPMore P_Read P_LP P_Opt P_Law P_Mean P_Reach SpecWhere P_Where.
Import ListNotations.
Open Scope nat_scope.
Open Scope string_scope.
Open Scope list_scope.

Lemma fits_readable s v : fits (st_horizon s) (st_nb_scn s) v -> SpecLP.readable s v.
Proof. intros F scn t S T. destruct (fits_read _ _ _ _ _ F S T) as (q & E). unfold value. now rewrite E. Qed.
Lemma read_laid s : SpecRead.readable s -> keys_once s -> joins_places s -> usable_converters s -> links_once s -> laid s.
Proof.
  intros RD KO JP UC LO. pose proof (fits_readable s) as FR. constructor.
  - apply (ko_networks _ KO).
  - intros net ns D. apply (ko_nodes _ KO net). now apply dget_In.
  - apply (ko_convs _ KO).
  - exact LO.
  - intros net nd n l N J. destruct (jp_links _ JP _ _ _ _ N J) as (m & E). unfold has_node. congruence.
  - intros name v V. apply (sv_once _ _ _ (rs_conv _ RD _ _ (dget_In _ _ _ V))).
  - intros name v net nd V J. unfold dkeys in J. apply in_map_iff in J as ([k q] & E & J). cbn in E. subst k. destruct (jp_sources _ JP _ _ _ _ _ V J) as (m & E). unfold has_node. congruence.
  - intros net nd n N. unfold node_at in N. destruct (dget net (st_networks s)) as [ns|] eqn:D; [| discriminate].
    pose proof (rs_node _ RD _ _ _ _ (dget_In _ _ _ D) (dget_In _ _ _ N)) as [S1 S2 S3 S4]. rewrite Forall_forall in S1, S2, S3, S4. constructor.
    + intros c J. destruct (S1 c J). auto.
    + intros c J. destruct (S2 c J). auto.
    + intros c J. destruct (S3 c J) as (? & ? & ? & ? & ?). auto 6.
    + intros c J. destruct (S4 c J). auto.
  - intros name v V. destruct (rs_conv _ RD _ _ (dget_In _ _ _ V)) as [(c & EC & FC) (m & EM & FM) _ SS]. rewrite Forall_forall in SS. destruct (UC name v V) as (_ & _ & NZ). constructor; eauto.
    + intros k q J. split; [apply FR; apply (SS _ J) | intros scn t S T; eapply NZ; eauto].
    + destruct (jp_dest _ JP _ _ V) as (x & E). unfold has_node. congruence.
Qed.

(** Whatever its names and signs: the points that satisfy the program of a study that was read are the dispatches
    that follow the laws, and their value is the cost. *)
Theorem C109_program : forall j s scn, snd (study_from_json j) = Ok s -> keys_once s -> joins_places s -> usable_converters s -> links_once s -> scn < st_nb_scn s -> 0 < st_horizon s ->
  (exists vs, build s scn = Ok (program_of s scn, vs)) /\
  (forall r, mirrors s r -> exists x, carries_answer s r scn x) /\
  (forall x, exists r, mirrors s r /\ carries_answer s r scn x) /\
  forall r x, mirrors s r -> carries_answer s r scn x ->
    (satisfies (program_of s scn) x <-> law_ok s r scn) /\ (objective (program_of s scn) x == total_cost s r scn)%Q.
Proof.
  intros j s scn RJ KO JP UC LO S H. assert (RD : SpecRead.readable s) by (apply C95_readable; eauto; lia).
  pose proof (read_laid s RD KO JP UC LO) as R.
  assert (B : exists vs, build s scn = Ok (program_of s scn, vs)).
  { destruct (build_ok s scn S R) as (p & B & _). eexists. unfold program_of. rewrite B. reflexivity. }
  split; auto. destruct B as (vs & B). split; [| split].
  - intros r M. exists (read_result s r scn). now apply read_carries.
  - intros x. exists (result_of s (fun _ => x)). split; [apply result_of_mirrors | apply (result_of_carries s (fun _ => x)); auto].
  - intros r x M CA. split.
    + rewrite (sat_iff s scn S R _ vs _ B). symmetry. now apply law_iff.
    + rewrite (objective_value s scn S R _ vs _ B). symmetry. now apply cost_eq.
Qed.

(** The solve of a study that was read is optimal exactly when its result follows the laws and no dispatch that does is cheaper. *)
Theorem C109_optimal : forall j answer s r scn, snd (study_from_json j) = Ok s -> keys_once s -> links_once s -> 0 < st_horizon s -> solved answer s r -> scn < st_nb_scn s ->
  (optimal_answer answer s scn <->
   law_ok s r scn /\ forall r', mirrors s r' -> law_ok s r' scn -> (total_cost s r scn <= total_cost s r' scn)%Q).
Proof.
  intros j answer s r scn RJ KO LO H SV S. assert (Hn : 0 < st_nb_scn s) by lia. destruct (C108_solved_places _ _ _ H Hn SV) as [JP UC].
  destruct SV as (sched & bench & P & E). destruct (C108_read_solved j s answer sched bench RJ KO H Hn P) as [_ X]. destruct (X r E) as [M CA]. specialize (CA scn S).
  destruct (C109_program j s scn RJ KO JP UC LO S H) as (_ & DX & XD & D). destruct (D _ _ M CA) as [DF DO]. unfold optimal_answer. split.
  - intros [F Best]. split; [now apply DF |]. intros r' M' L'. destruct (DX r' M') as (x' & CA').
    destruct (D _ _ M' CA') as [DF' DO']. apply DF' in L'. specialize (Best _ L'). rewrite DO, DO' in Best. exact Best.
  - intros [L Best]. split; [now apply DF |]. intros y F. destruct (XD y) as (r' & M' & CA'). destruct (D _ _ M' CA') as [DF' DO'].
    apply DF' in F. specialize (Best _ M' F). rewrite <- DO, <- DO' in Best. exact Best.
Qed.

(** Two loads and two productions of the same names, which the building methods refuse. *)
Definition namesake_tree : json :=
  JObj [("horizon", JNum 1); ("nb_scn", JNum 1); ("version", JNull); ("converters", JObj []);
        ("networks", JObj [("elec", JObj [("nodes", JObj
          [("a", JObj [("links", JList []); ("storages", JList []);
                       ("consumptions", JList [JObj [("quantity", JNum 10); ("cost", JNum 100)]; JObj [("quantity", JNum 5); ("cost", JNum 50)]]);
                       ("productions", JList [JObj [("cost", JNum 1); ("quantity", JNum 8)]; JObj [("cost", JNum 2); ("quantity", JNum 4)]])])])])])].
Definition namesake : study :=
  let k (x : Q) := Scalar x 1 1 in
  Study hadar_version [("elec", [("a", Node [Cons "" (k 100%Q) (k 10%Q); Cons "" (k 50%Q) (k 5%Q)] [Prod "in" (k 1%Q) (k 8%Q); Prod "in" (k 2%Q) (k 4%Q)] [] [])])] [] 1 1.
Definition namesake_answer : nat -> solver -> var -> Q := fun _ _ v => match v with VProd _ _ 0 _ => 8%Q | VProd _ _ _ _ => 4%Q | VLol _ _ 1 _ => 3%Q | _ => 0%Q end.
Definition namesake_result : result :=
  Result [("elec", [("a", ONode [OCons (ND [1; 1] [10%Q]) ""; OCons (ND [1; 1] [2%Q]) ""] [OProd "in" (ND [1; 1] [8%Q]); OProd "in" (ND [1; 1] [4%Q])] [] [])])] [] no_bench.
Lemma namesake_optimal : optimal_answer namesake_answer namesake 0.
Proof. best_tac (program_of namesake 0). Qed.
Example C109_optimal_example : snd (study_from_json namesake_tree) = Ok namesake /\ keys_once namesake /\ links_once namesake /\ ~ api_study namesake /\
  solved namesake_answer namesake namesake_result /\ law_ok namesake namesake_result 0 /\
  (forall r', mirrors namesake r' -> law_ok namesake r' 0 -> (166 <= total_cost namesake r' 0)%Q).
Proof.
  assert (E : snd (study_from_json namesake_tree) = Ok namesake) by (vm_compute; reflexivity).
  assert (KO : keys_once namesake).
  { constructor; cbn.
    - repeat constructor; intros [].
    - intros net ns [X|[]]. injection X as <- <-. cbn. repeat constructor; intros [].
    - constructor. }
  assert (LO : links_once namesake).
  { intros net nd n N. unfold node_at in N. cbn in N. destruct (String.eqb net "elec"); [| discriminate]. cbn in N. destruct (String.eqb nd "a"); [| discriminate]. injection N as <-. constructor. }
  assert (SO : solved namesake_answer namesake namesake_result) by (exists [0], no_bench; split; [reflexivity | vm_compute; reflexivity]).
  split; [exact E |]. split; [exact KO |]. split; [exact LO |]. split; [rewrite <- C94_decided; vm_compute; discriminate |]. split; [exact SO |].
  destruct (proj1 (C109_optimal _ _ _ _ 0 E KO LO Nat.lt_0_1 SO Nat.lt_0_1) namesake_optimal) as [L B]. split; [exact L |]. intros r' M' L'. specialize (B r' M' L').
  assert (Z : (total_cost namesake namesake_result 0 == 166)%Q) by (vm_compute; reflexivity). lra.
Qed.

(** Two links between the same nodes break the laws. *)
Theorem C109_twice_refuted : exists j answer s r, snd (study_from_json j) = Ok s /\ keys_once s /\ 0 < st_horizon s /\ solved answer s r /\ 0 < st_nb_scn s /\
  optimal_answer answer s 0 /\ ~ law_ok s r 0.
Proof.
  exists twin_tree, twin_answer, twin, twin_result. split; [vm_compute; reflexivity |]. split.
  { constructor; cbn.
    - repeat constructor; intros [].
    - intros net ns [X|[]]. injection X as <- <-. cbn. repeat constructor; cbn; intuition congruence.
    - constructor. }
  split; [exact Nat.lt_0_1 |]. split; [exists [0], no_bench; split; [reflexivity | vm_compute; reflexivity] |]. split; [exact Nat.lt_0_1 |]. split; [exact twin_optimal |].
  intros [_ _ B _ _]. specialize (B 0 "elec" "b" _ Nat.lt_0_1 eq_refl). vm_compute in B. discriminate B.
Qed.

Print Assumptions C109_program.
Print Assumptions C109_optimal.
Print Assumptions C109_twice_refuted.
