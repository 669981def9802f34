(** Property C110: the cheapest dispatch of a study read from a text, and its prices. *)
From Coq Require Import String List ZArith QArith Bool Arith Lia Lqa Permutation.
From Verif Require Import Base BaseFacts Numeric NumericFacts Study Fluent SpecStudy StudyFacts Output Json SpecJson SpecReach SpecRead JsonFacts P_Json
  LP SpecLP LPFacts LPBuild LPSat LPResult LPSolve LPReady LPWeak LPMore P_Read P_LP P_Opt P_Law P_Mean P_Reach SpecWhere P_Where P_ReadModel
  P_Optimum P_Prices P_Status.
Import ListNotations.
Open Scope nat_scope.
Open Scope string_scope.
Open Scope list_scope.

(** Whatever its names and signs, in each scenario a study that was read has a cheapest dispatch, or no dispatch follows the laws. *)
Theorem C110_cheapest_or_nothing : forall j s scn, snd (study_from_json j) = Ok s -> keys_once s -> joins_places s -> usable_converters s -> links_once s ->
  scn < st_nb_scn s -> 0 < st_horizon s ->
  (exists r, mirrors s r /\ law_ok s r scn /\ forall r', mirrors s r' -> law_ok s r' scn -> (total_cost s r scn <= total_cost s r' scn)%Q) \/
  (forall r, mirrors s r -> ~ law_ok s r scn).
Proof.
  intros j s scn RJ KO JP UC LO S H. assert (RD : SpecRead.readable s) by (apply C95_readable; eauto; lia).
  pose proof (read_laid s RD KO JP UC LO) as R. destruct (C109_program j s scn RJ KO JP UC LO S H) as (_ & DX & XD & D).
  destruct (laid_optimum_or_nothing s scn R S) as [(x & F & Best)|N].
  - left. destruct (XD x) as (r & M & CA). destruct (D r x M CA) as [DF DO]. exists r. split; [exact M |]. split; [now apply DF |].
    intros r' M' L'. destruct (DX r' M') as (x' & CA'). destruct (D r' x' M' CA') as [DF' DO']. apply DF' in L'. specialize (Best _ L'). now rewrite DO, DO' in Best.
  - right. intros r M L. destruct (DX r M) as (x & CA). apply (N x). now apply (D r x M CA).
Qed.

(** The solver can be such that the result is the cheapest in every scenario. *)
Theorem C110_solved_at_best : forall j s, snd (study_from_json j) = Ok s -> keys_once s -> joins_places s -> usable_converters s -> links_once s ->
  0 < st_nb_scn s -> 0 < st_horizon s -> (forall scn, scn < st_nb_scn s -> exists r, mirrors s r /\ law_ok s r scn) ->
  exists answer r, solved answer s r /\ forall scn, scn < st_nb_scn s -> optimal_answer answer s scn /\ law_ok s r scn /\
    forall r', mirrors s r' -> law_ok s r' scn -> (total_cost s r scn <= total_cost s r' scn)%Q.
Proof.
  intros j s RJ KO JP UC LO Hn H E. assert (RD : SpecRead.readable s) by (apply C95_readable; eauto).
  pose proof (read_laid s RD KO JP UC LO) as R. destruct (choose_all (fun scn x => optimal (program_of s scn) x) (fun _ => 0%Q) (st_nb_scn s)) as (x & X).
  { intros scn S. destruct (laid_optimum_or_nothing s scn R S) as [O|N]; auto. exfalso. destruct (E scn S) as (r & M & L).
    destruct (C109_program j s scn RJ KO JP UC LO S H) as (_ & DX & _ & D). destruct (DX r M) as (y & CA). apply (N y). now apply (D r y M CA). }
  destruct (C108_read_solved j s (fun scn _ => x scn) (seq 0 (st_nb_scn s)) no_bench RJ KO H Hn (Permutation_refl _)) as [IFF _].
  destruct (proj2 IFF (conj JP UC)) as (r & SV). assert (SO : solved (fun scn _ => x scn) s r) by (exists (seq 0 (st_nb_scn s)), no_bench; auto).
  exists (fun scn _ => x scn), r. split; [exact SO |]. intros scn S. assert (O : optimal_answer (fun scn _ => x scn) s scn) by (apply X; auto). split; [exact O |].
  now apply (C109_optimal j (fun scn _ => x scn) s r scn RJ KO LO H SO S).
Qed.

(** The result of a study that was read tells whether the solver met the program, and the prices tell whether it did so at best. *)
Theorem C110_result_tells : forall j answer s r scn, snd (study_from_json j) = Ok s -> keys_once s -> links_once s -> 0 < st_horizon s -> solved answer s r -> scn < st_nb_scn s ->
  (feasible_answer answer s scn <-> law_ok s r scn) /\
  (optimal_answer answer s scn <-> law_ok s r scn /\ exists price, equilibrium s r scn price).
Proof.
  intros j answer s r scn RJ KO LO H SV S. assert (Hn : 0 < st_nb_scn s) by lia. destruct (C108_solved_places _ _ _ H Hn SV) as [JP UC].
  assert (RD : SpecRead.readable s) by (apply C95_readable; eauto). pose proof (read_laid s RD KO JP UC LO) as R.
  destruct (SV) as (sched & bench & P & E). destruct (C108_read_solved j s answer sched bench RJ KO H Hn P) as [_ X]. destruct (X r E) as [M CA]. specialize (CA scn S).
  split.
  - destruct (C109_program j s scn RJ KO JP UC LO S H) as (_ & _ & _ & D). now destruct (D _ _ M CA).
  - rewrite (C109_optimal j answer s r scn RJ KO LO H SV S). split; intros [L B]; (split; [exact L |]); now apply (laid_cheapest_iff s r scn R S M L).
Qed.

(** With a diligent solver the result follows the laws in exactly the scenarios in which some dispatch does. *)
Theorem C110_each_scenario : forall j answer s r scn, snd (study_from_json j) = Ok s -> keys_once s -> links_once s -> 0 < st_horizon s -> solved answer s r -> scn < st_nb_scn s ->
  diligent answer s -> (law_ok s r scn <-> exists r', mirrors s r' /\ law_ok s r' scn).
Proof.
  intros j answer s r scn RJ KO LO H SV S G. assert (Hn : 0 < st_nb_scn s) by lia. destruct (C108_solved_places _ _ _ H Hn SV) as [JP UC].
  assert (RD : SpecRead.readable s) by (apply C95_readable; eauto). pose proof (read_laid s RD KO JP UC LO) as R.
  destruct (SV) as (sched & bench & P & E). destruct (C108_read_solved j s answer sched bench RJ KO H Hn P) as [_ X]. destruct (X r E) as [M _]. split; [eauto |].
  intros (r' & M' & L'). destruct (C109_program j s scn RJ KO JP UC LO S H) as (_ & DX & _ & D). destruct (DX r' M') as (y & CA').
  destruct (laid_optimum_or_nothing s scn R S) as [O|N].
  - apply (proj1 (C110_result_tells j answer s r scn RJ KO LO H SV S)). destruct (G scn S O) as [F _]. exact F.
  - destruct (N y). now apply (D r' y M' CA').
Qed.

(** Prices of one cheapest dispatch are prices of all. *)
Theorem C110_same_prices : forall j s r r' scn price, snd (study_from_json j) = Ok s -> keys_once s -> joins_places s -> usable_converters s -> links_once s ->
  scn < st_nb_scn s -> 0 < st_horizon s -> mirrors s r -> law_ok s r scn -> mirrors s r' -> law_ok s r' scn -> (total_cost s r' scn == total_cost s r scn)%Q ->
  equilibrium s r scn price -> equilibrium s r' scn price.
Proof.
  intros j s r r' scn price RJ KO JP UC LO S H M L M' L' E EQ. assert (RD : SpecRead.readable s) by (apply C95_readable; eauto; lia).
  apply (laid_same_prices s r); auto. now apply read_laid.
Qed.

(** Two loads and two productions of the same names: there are prices. *)
Lemma namesake_keys : keys_once namesake.
Proof.
  constructor; cbn.
  - repeat constructor; intros [].
  - intros net ns [X|[]]. injection X as <- <-. cbn. repeat constructor; intros [].
  - constructor.
Qed.
Lemma namesake_links : links_once namesake.
Proof.
  intros net nd n N. unfold node_at in N. cbn in N. destruct (String.eqb net "elec"); [| discriminate]. cbn in N. destruct (String.eqb nd "a"); [| discriminate]. injection N as <-. constructor.
Qed.
Example C110_prices_example : snd (study_from_json namesake_tree) = Ok namesake /\ ~ api_study namesake /\ solved namesake_answer namesake namesake_result /\
  exists price, equilibrium namesake namesake_result 0 price /\ (price 0%nat "elec" "a" == 50)%Q.
Proof.
  assert (E : snd (study_from_json namesake_tree) = Ok namesake) by (vm_compute; reflexivity).
  assert (SO : solved namesake_answer namesake namesake_result) by (exists [0], no_bench; split; [reflexivity | vm_compute; reflexivity]).
  split; [exact E |]. split; [rewrite <- C94_decided; vm_compute; discriminate |]. split; [exact SO |].
  destruct (proj1 (proj2 (C110_result_tells _ _ _ _ 0 E namesake_keys namesake_links Nat.lt_0_1 SO Nat.lt_0_1)) namesake_optimal) as [L (price & EQ)].
  exists price. split; [exact EQ |]. pose proof (eq_cons _ _ _ _ EQ 0 "elec" "a" _ _ 1 _ _ Nat.lt_0_1 eq_refl eq_refl eq_refl eq_refl) as B. unfold best, within in B.
  pose proof (B 0%Q) as B0. pose proof (B 5%Q) as B5. revert B0 B5. set (p := price 0%nat "elec" "a"). cbn. intros B0 B5.
  assert (H0 : ((50 - p) * 0 <= (50 - p) * 2)%Q) by (apply B0; lra). assert (H5 : ((50 - p) * 5 <= (50 - p) * 2)%Q) by (apply B5; lra). lra.
Qed.

(** A production of less than nothing, which the building methods refuse: it is read and solved, but no dispatch follows the laws. *)
Definition debt_tree : json :=
  JObj [("horizon", JNum 1); ("nb_scn", JNum 1); ("version", JNull); ("converters", JObj []);
        ("networks", JObj [("elec", JObj [("nodes", JObj
          [("a", JObj [("links", JList []); ("storages", JList []); ("consumptions", JList []);
                       ("productions", JList [JObj [("cost", JNum 1); ("quantity", JNum (-1))]])])])])])].
Definition debt : study := Study hadar_version [("elec", [("a", Node [] [Prod "in" (Scalar 1%Q 1 1) (Scalar (-1)%Q 1 1)] [] [])])] [] 1 1.
Definition debt_result : result := Result [("elec", [("a", ONode [] [OProd "in" (ND [1; 1] [0%Q])] [] [])])] [] no_bench.
Theorem C110_solvable_refuted : exists j s answer r, snd (study_from_json j) = Ok s /\ keys_once s /\ joins_places s /\ usable_converters s /\ links_once s /\
  solved answer s r /\ forall r', mirrors s r' -> ~ law_ok s r' 0.
Proof.
  exists debt_tree, debt, (fun _ _ _ => 0%Q), debt_result.
  assert (RJ : snd (study_from_json debt_tree) = Ok debt) by (vm_compute; reflexivity).
  assert (KO : keys_once debt).
  { constructor; cbn.
    - repeat constructor; intros [].
    - intros net ns [X|[]]. injection X as <- <-. cbn. repeat constructor; intros [].
    - constructor. }
  assert (LO : links_once debt).
  { intros net nd n N. unfold node_at in N. cbn in N. destruct (String.eqb net "elec"); [| discriminate]. cbn in N. destruct (String.eqb nd "a"); [| discriminate]. injection N as <-. constructor. }
  assert (SO : solved (fun _ _ _ => 0%Q) debt debt_result) by (exists [0], no_bench; split; [reflexivity | vm_compute; reflexivity]).
  destruct (C108_solved_places _ debt _ Nat.lt_0_1 Nat.lt_0_1 SO) as [JP UC].
  split; [exact RJ |]. split; [exact KO |]. split; [exact JP |]. split; [exact UC |]. split; [exact LO |]. split; [exact SO |].
  intros r' M L. destruct (C109_program _ debt 0 RJ KO JP UC LO Nat.lt_0_1 Nat.lt_0_1) as (_ & DX & _ & D). destruct (DX r' M) as (x & CA). apply (proj1 (D r' x M CA)) in L.
  destruct L as [B _]. specialize (B (VProd "elec" "a" 0 0) 0%Q (-1)%Q). destruct B as [B1 B2]; [vm_compute; auto 9 | lra].
Qed.

Print Assumptions C110_cheapest_or_nothing.
Print Assumptions C110_solved_at_best.
Print Assumptions C110_result_tells.
Print Assumptions C110_each_scenario.
Print Assumptions C110_same_prices.
Print Assumptions C110_solvable_refuted.
