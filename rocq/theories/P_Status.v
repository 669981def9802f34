(** C88: the status of the solver is not looked at (lp/optimizer.py:406-412), so a
    study without solution is answered like any other. *)
From Coq Require Import String Ascii List ZArith QArith Bool Arith Lia Lqa Permutation Sorted.
From Verif Require Import Base BaseFacts Numeric Study Fluent Output LP SpecStudy SpecLP StudyFacts LPBuild LPFacts LPSat LPResult LPReady LPSolve LPWeak LPMore LPPrice P_LP P_Opt P_Law P_Optimum.
Import ListNotations.
Open Scope nat_scope.
Open Scope string_scope.
Open Scope list_scope.

(** Some quantities meet every law of the program in this scenario. *)
Definition solvable (s : study) (scn : nat) : Prop := exists r, mirrors s r /\ law_ok s r scn.
(** The solver finds an optimum in the scenarios that have one; nothing is asked of
    it in the others. *)
Definition diligent (answer : nat -> solver -> var -> Q) (s : study) : Prop :=
  forall scn, scn < st_nb_scn s -> (exists x, optimal (program_of s scn) x) -> optimal_answer answer s scn.

Lemma solvable_program s scn : api_study s -> usable_converters s -> scn < st_nb_scn s ->
  (solvable s scn <-> exists x, satisfies (program_of s scn) x).
Proof.
  intros A U S. destruct (C15_program_exact s scn A U S) as (_ & DX & XD & D). split.
  - intros (r & M & L). destruct (DX r M) as (x & CA). exists x. now apply (D r x M CA).
  - intros (x & X). destruct (XD x) as (r & M & CA). exists r. split; auto. now apply (D r x M CA).
Qed.

(** The numbers of a result tell whether the solver met the program. *)
Theorem C88_result_tells : forall answer s r scn, api_study s -> plain_sources s -> solved answer s r -> scn < st_nb_scn s ->
  (feasible_answer answer s scn <-> law_ok s r scn).
Proof.
  intros answer s r scn A P SV S.
  assert (U : usable_converters s) by (destruct (api_facts s A) as (W & K & Hh & Hn); eapply solved_usable; eauto).
  destruct (solved_facts _ _ _ A P SV) as (_ & M & C). destruct (C scn S) as (_ & _ & CA).
  destruct (C15_program_exact s scn A U S) as (_ & _ & _ & D). now destruct (D _ _ M CA).
Qed.

(** With a diligent solver the result follows the laws exactly in the scenarios that
    can be solved: the others do not spoil them. *)
Theorem C88_each_scenario : forall answer s r scn, api_study s -> plain_sources s -> solved answer s r -> scn < st_nb_scn s ->
  diligent answer s -> (law_ok s r scn <-> solvable s scn).
Proof.
  intros answer s r scn A P SV S G.
  assert (U : usable_converters s) by (destruct (api_facts s A) as (W & K & Hh & Hn); eapply solved_usable; eauto).
  rewrite <- (C88_result_tells answer s r scn A P SV S). rewrite (solvable_program s scn A U S). split.
  - intros F. eexists. exact F.
  - intros (x & X). destruct (C81_optimum_or_nothing s scn A U S) as [O|N]; [| now destruct (N x)].
    destruct (G scn S O) as [F _]. exact F.
Qed.

(** A scenario without solution raises no error, whatever the solver answers: a whole
    result comes back, and it breaks the laws there. *)
Theorem C88_never_told : forall answer s sched bench scn, api_study s -> usable_converters s -> plain_sources s ->
  Permutation sched (seq 0 (st_nb_scn s)) -> scn < st_nb_scn s -> ~ solvable s scn ->
  exists r, solve_lp answer sched bench s = Ok r /\ mirrors s r /\ ~ law_ok s r scn.
Proof.
  intros answer s sched bench scn A U P SC S N.
  destruct (C29_solving_any_names_partial answer s sched bench A U P SC) as (r & E). exists r. split; auto.
  assert (SV : solved answer s r) by (exists sched, bench; auto). destruct (solved_facts _ _ _ A P SV) as (_ & M & _).
  split; auto. intros L. apply N. exists r. auto.
Qed.

(** Two scenarios; the tank starts with 10, gives at most 1, and holds 12 in the first
    scenario but 5 in the second. *)
Definition half_calls : list call :=
  [ OnStudy_network "net"; OnSel 0 (MNode "a"); OnSel 1 (MConsumption "load" (jn 1000) (jn 4));
    OnSel 2 (MStorage "tank" (PJson (JList [JList [JNum 12]; JList [JNum 5]])) (jn 1) (jn 1) (jn 0) 10%Q (jn 1)) ].
Definition half : study := Eval vm_compute in w_study (run (start 1 2 None) half_calls).
Lemma half_api : api_study half.
Proof. exists 1, 2, None, half_calls. split; [lia|]. split; [lia|]. split; [plain_tac | vm_compute; reflexivity]. Qed.
Lemma half_usable : usable_converters half. Proof. apply usableb_ok. vm_compute. reflexivity. Qed.
Lemma half_plain : plain_sources half. Proof. apply plainb_ok. vm_compute. reflexivity. Qed.
Definition half0 : solver := Eval vm_compute in program_of half 0.
Definition half1 : solver := Eval vm_compute in program_of half 1.
Lemma half_first : solvable half 0.
Proof.
  apply (solvable_program half 0 half_api half_usable ltac:(vm_compute; lia)).
  exists (fun v => match v with VLol _ _ _ _ => 4 | VCap _ _ _ _ => 10 | _ => 0 end%Q). apply satb_ok. vm_compute. reflexivity.
Qed.
Lemma half_second : ~ solvable half 1.
Proof.
  intros H. apply (solvable_program half 1 half_api half_usable ltac:(vm_compute; lia)) in H as (x & F).
  change (program_of half 1) with half1 in F. pose proof (satisfies_vars _ _ F) as V. pose proof (satisfies_cons _ _ F) as K.
  unfold half1 in V, K. cbn [sv_vars sv_cons] in V, K. open_forall V. open_forall K. lra.
Qed.

(** An insolvable study of non-negative data is answered with a result by every solver. *)
Theorem C88_told_refuted : exists s scn, api_study s /\ usable_converters s /\ plain_sources s /\ nonnegative s scn /\
  scn < st_nb_scn s /\ ~ solvable s scn /\
  forall answer sched bench, Permutation sched (seq 0 (st_nb_scn s)) ->
    exists r, solve_lp answer sched bench s = Ok r /\ ~ law_ok s r scn.
Proof.
  exists half, 1. split; [apply half_api|]. split; [apply half_usable|]. split; [apply half_plain|].
  split; [apply nonnegativeb_ok; vm_compute; reflexivity|]. split; [vm_compute; lia|]. split; [apply half_second|].
  intros answer sched bench P.
  destruct (C88_never_told answer half sched bench 1 half_api half_usable half_plain P ltac:(vm_compute; lia) half_second) as (r & E & _ & L). eauto.
Qed.

(** A solver diligent on this study: its first scenario is right, its second is not. *)
Example C88_example : exists answer r, solved answer half r /\ diligent answer half /\
  solvable half 0 /\ law_ok half r 0 /\ ~ solvable half 1 /\ ~ law_ok half r 1.
Proof.
  destruct (C81_optimum_or_nothing half 0 half_api half_usable ltac:(vm_compute; lia)) as [(x & O)|N].
  2: { exfalso. destruct half_first as (r & H). assert (X : solvable half 0) by (exists r; auto).
       apply (solvable_program half 0 half_api half_usable ltac:(vm_compute; lia)) in X as (x & X). exact (N x X). }
  destruct (C29_solving_any_names_partial (fun _ _ => x) half [0; 1] no_bench half_api half_usable half_plain (Permutation_refl _)) as (r & E).
  assert (SV : solved (fun _ _ => x) half r) by (exists [0; 1], no_bench; split; [apply Permutation_refl | auto]).
  destruct (solved_facts _ _ _ half_api half_plain SV) as (_ & M & _).
  exists (fun _ _ => x), r. split; auto. split.
  { intros [|[|k]] L X; [exact O | | vm_compute in L; lia]. exfalso. apply half_second.
    apply (solvable_program half 1 half_api half_usable ltac:(vm_compute; lia)). destruct X as (y & Y & _). eauto. }
  split; [apply half_first|]. split.
  - apply (C88_result_tells _ half r 0 half_api half_plain SV ltac:(vm_compute; lia)). exact (proj1 O).
  - split; [apply half_second|]. intros L. apply half_second. exists r. auto.
Qed.

Print Assumptions C88_result_tells.
Print Assumptions C88_each_scenario.
Print Assumptions C88_never_told.
Print Assumptions C88_told_refuted.
