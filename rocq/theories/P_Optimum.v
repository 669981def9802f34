(** C81: a study that can be satisfied has a cheapest dispatch. *)
From Coq Require Import String Ascii List ZArith QArith Bool Arith Lia Lqa Permutation Sorted.
From Verif Require Import Base BaseFacts Numeric Study Fluent Output LP SpecStudy SpecLP StudyFacts LPBuild LPFacts LPSat LPResult LPReady LPSolve LPWeak LPMore LPPrice P_LP P_Opt P_Law.
Import ListNotations.
Open Scope nat_scope.
Open Scope string_scope.
Open Scope list_scope.

(** ** Programs *)

Lemma laid_optimum_or_nothing : forall s scn, laid s -> scn < st_nb_scn s ->
  (exists x, optimal (program_of s scn) x) \/ (forall x, ~ satisfies (program_of s scn) x).
Proof.
  intros s scn R S. destruct (build_ok s scn S R) as (p & B & _).
  assert (E : program_of s scn = p) by (unfold program_of; now rewrite B). rewrite E.
  destruct (xok_or_not s scn S R) as [X|N].
  - left. destruct (xprices s scn S R X) as (x & price & XO & SU). exists x.
    assert (Y : xok s scn x /\ exists price, supports s scn price x) by eauto. apply (supports_iff s scn S R) in Y as [_ Best].
    split; [now apply (sat_iff s scn S R _ _ _ B) |]. intros y F. apply (sat_iff s scn S R _ _ _ B) in F.
    rewrite !(objective_value s scn S R _ _ _ B). auto.
  - right. intros x F. apply (N x). now apply (sat_iff s scn S R _ _ _ B) in F.
Qed.

(** The program of a scenario has an optimum or no solution at all: it is never
    unbounded, and its least value is always attained, by rational quantities. *)
Theorem C81_optimum_or_nothing : forall s scn, api_study s -> usable_converters s -> scn < st_nb_scn s ->
  (exists x, optimal (program_of s scn) x) \/ (forall x, ~ satisfies (program_of s scn) x).
Proof. intros s scn A U S. apply laid_optimum_or_nothing; auto. apply ready_laid. now apply api_ready. Qed.

(** ** Dispatches *)
Theorem C81_cheapest_dispatch : forall s scn, api_study s -> usable_converters s -> scn < st_nb_scn s ->
  (exists r, mirrors s r /\ law_ok s r scn) ->
  exists r, mirrors s r /\ law_ok s r scn /\ forall r', mirrors s r' -> law_ok s r' scn -> (total_cost s r scn <= total_cost s r' scn)%Q.
Proof.
  intros s scn A U S (r0 & M0 & L0). destruct (C15_program_exact s scn A U S) as (_ & DX & XD & D).
  destruct (C81_optimum_or_nothing s scn A U S) as [(x & F & Best)|N].
  - destruct (XD x) as (r & M & CA). destruct (D r x M CA) as [DF DO]. exists r. split; auto. split; [now apply DF |].
    intros r' M' L'. destruct (DX r' M') as (x' & CA'). destruct (D r' x' M' CA') as [DF' DO']. rewrite <- DO, <- DO'. apply Best. now apply DF'.
  - destruct (DX r0 M0) as (x0 & CA0). exfalso. apply (N x0). now apply (D r0 x0 M0 CA0).
Qed.

(** When nothing is negative and initial contents fit, there always is one. *)
Theorem C81_optimum_exists : forall s scn, api_study s -> usable_converters s -> scn < st_nb_scn s -> first_fits s scn -> room s scn ->
  exists x, optimal (program_of s scn) x.
Proof.
  intros s scn A U S F RM. destruct (C81_optimum_or_nothing s scn A U S) as [H|N]; auto. exfalso.
  apply (C21_exact_partial s scn A U S F) in RM as (x & X). exact (N x X).
Qed.

(** ** Solving *)
Lemma choose_all {A} (P : nat -> A -> Prop) (d : A) n : (forall i, i < n -> exists a, P i a) -> exists f, forall i, i < n -> P i (f i).
Proof.
  induction n as [| n IH]; intros H; [exists (fun _ => d); lia |].
  destruct IH as (f & F); [intros; apply H; lia |]. destruct (H n) as (a & PA); [lia |].
  exists (fun i => if Nat.eqb i n then a else f i). intros i L. destruct (Nat.eqb i n) eqn:E.
  - apply Nat.eqb_eq in E. now subst.
  - apply Nat.eqb_neq in E. apply F. lia.
Qed.
(** Every study each scenario of which can be satisfied has a solver that finds an
    optimum of each, and the result of solving with it is the cheapest in each. *)
Theorem C81_solved_at_best : forall s, api_study s -> usable_converters s -> plain_sources s ->
  (forall scn, scn < st_nb_scn s -> exists r, mirrors s r /\ law_ok s r scn) ->
  exists answer r, solved answer s r /\ forall scn, scn < st_nb_scn s -> optimal_answer answer s scn /\ law_ok s r scn /\
    forall r', mirrors s r' -> law_ok s r' scn -> (total_cost s r scn <= total_cost s r' scn)%Q.
Proof.
  intros s A U P H. destruct (choose_all (fun scn x => optimal (program_of s scn) x) (fun _ => 0%Q) (st_nb_scn s)) as (x & X).
  { intros scn S. destruct (C81_optimum_or_nothing s scn A U S) as [O|N]; auto. exfalso. destruct (H scn S) as (r & M & L).
    destruct (C15_program_exact s scn A U S) as (_ & DX & _ & D). destruct (DX r M) as (y & CA). apply (N y). now apply (D r y M CA). }
  destruct (C29_solving_any_names_partial (fun scn _ => x scn) s (seq 0 (st_nb_scn s)) no_bench A U P (Permutation_refl _)) as (r & SV).
  assert (SO : solved (fun scn _ => x scn) s r) by (exists (seq 0 (st_nb_scn s)), no_bench; auto).
  exists (fun scn _ => x scn), r. split; auto. intros scn S. assert (O : optimal_answer (fun scn _ => x scn) s scn) by (apply X; auto). split; auto.
  now apply (C20_cost_optimal_exact (fun scn _ => x scn) s r scn A P SO S).
Qed.

(** The study of two networks, a storage and a converter has an optimum; with a
    storage that starts above its capacity and cannot be emptied it has no solution. *)
Definition none_calls : list call :=
  [ OnStudy_network "net"; OnSel 0 (MNode "a"); OnSel 1 (MConsumption "load" (jn 1000) (jn 4)); OnSel 2 (MStorage "tank" (jn 5) (jn 1) (jn 1) (jn 0) 10%Q (jn 1)) ].
Definition none : study := Eval vm_compute in w_study (run (start 1 1 None) none_calls).
Lemma none_api : api_study none.
Proof. exists 1, 1, None, none_calls. split; [lia|]. split; [lia|]. split; [plain_tac | vm_compute; reflexivity]. Qed.
Example C81_example : (api_study mix /\ usable_converters mix /\ plain_sources mix /\ law_ok mix best_result 0 /\ optimal (program_of mix 0) best_x /\
    (total_cost mix best_result 0 == 395)%Q) /\
  (api_study none /\ usable_converters none /\ forall x, ~ satisfies (program_of none 0) x).
Proof.
  split.
  - split; [apply mix_api |]. split; [apply mix_usable |]. split; [apply mix_plain |]. split.
    + apply (C20_cost_optimal_exact best_answer mix best_result 0 mix_api mix_plain best_solved ltac:(vm_compute; lia)), best_optimal.
    + split; [apply best_optimal | vm_compute; reflexivity].
  - split; [apply none_api |]. split; [apply usableb_ok; vm_compute; reflexivity |]. intros x F. pose proof (satisfies_vars _ _ F) as V. pose proof (satisfies_cons _ _ F) as K.
    set (p := program_of none 0) in *. vm_compute in p. subst p. cbn [sv_vars sv_cons] in V, K. open_forall V. open_forall K. lra.
Qed.

Print Assumptions C81_optimum_or_nothing.
Print Assumptions C81_cheapest_dispatch.
Print Assumptions C81_optimum_exists.
Print Assumptions C81_solved_at_best.
