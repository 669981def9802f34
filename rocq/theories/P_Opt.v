(** Properties C20-C25: optimal results. *)
From Coq Require Import String List ZArith QArith Bool Arith Lia Lqa Permutation.
From Verif Require Import Base BaseFacts Numeric Study Fluent SpecStudy StudyFacts Output Json SpecJson JsonFacts P_Json
  LP SpecLP LPFacts LPBuild LPSat LPResult LPSolve LPReady LPOpt LPWeak LPMore P_LP.
Import ListNotations.
Open Scope nat_scope.
Open Scope string_scope.
Open Scope list_scope.

(** ** C20 Cost-optimal dispatch *)

(** No dispatch satisfying the documented model is cheaper than the result. *)
Theorem C20_cost_optimal_partial : forall answer s r scn,
  api_study s -> no_self_link s -> solved answer s r -> scn < st_nb_scn s -> optimal_answer answer s scn ->
  forall r', mirrors s r' -> dispatch_ok s r' scn -> (total_cost s r scn <= total_cost s r' scn)%Q.
Proof.
  intros answer s r scn A NS SV S [F Best] r' M' D'.
  destruct (solved_weak _ _ _ A SV) as (R & M & C). destruct (C scn S) as ((vs & B) & CA & _).
  pose proof (read_carries s r' scn R M') as CA'.
  assert (X' : xok s scn (read_result s r' scn)).
  { apply (dispatch_sat s r' R M' scn _ CA' NS S); auto. intros name v k q t V I T. right.
    apply (sat_iff s scn S R _ vs _ B) in F. destruct (xb_src _ _ _ (xo_bounds _ _ _ F) t name v k q T V I). lra. }
  apply (sat_iff s scn S R _ vs _ B) in X'. specialize (Best _ X').
  rewrite !(objective_value s scn S R _ vs _ B) in Best.
  rewrite (cost_eq s r' R M' scn _ CA'), (cost_eq s r R M scn _ CA). exact Best.
Qed.

(** The result is itself such a dispatch when each node has at most one storage
    and source names are plain: the minimum is attained. *)
Theorem C20_minimum_attained_partial : forall answer s r scn,
  api_study s -> no_self_link s -> one_storage s -> plain_sources s ->
  solved answer s r -> scn < st_nb_scn s -> optimal_answer answer s scn ->
  dispatch_ok s r scn /\
  forall r', mirrors s r' -> dispatch_ok s r' scn -> (total_cost s r scn <= total_cost s r' scn)%Q.
Proof.
  intros answer s r scn A NS One P SV S O. split; [|now apply (C20_cost_optimal_partial answer)].
  assert (F : feasible_answer answer s scn) by apply O. constructor.
  - now apply (C17_capacities_respected answer).
  - now apply (C16_nodal_balance_partial answer).
  - now apply (C18_storage_evolution_partial answer).
  - now apply (C19_converter_law_partial answer).
Qed.

(** An optimum of scenario 0 of the example: the plant fills the storage first. *)
Definition best_x (v : var) : Q :=
  match v with
  | VLink _ "b" _ _ | VProd _ "b" _ _ => 8
  | VIn _ _ _ O => 2
  | VCap _ _ _ O | VOut _ _ _ (S O) => 3
  | VSrc _ _ _ O | VProd _ "g" _ O => 8
  | VDest _ O => 4
  | VSrc _ _ _ (S O) | VProd _ "g" _ (S O) => 18
  | VDest _ (S O) => 9
  | _ => 0
  end%Q.
Definition best_answer (_ : nat) (_ : solver) : var -> Q := best_x.
(** The constraints of a concrete program as a list of inequalities. *)
Lemma satisfies_vars p x : satisfies p x -> Forall (fun vb => within (fst (snd vb)) (x (fst vb)) (snd (snd vb))) (sv_vars p).
Proof. intros [H _]. apply Forall_forall. intros [v [lo up]] I. now apply H. Qed.
Lemma satisfies_cons p x : satisfies p x -> Forall (fun k => within (k_lb k) (lin (k_coefs k) x) (k_ub k)) (sv_cons p).
Proof. intros [_ H]. apply Forall_forall. exact H. Qed.

Definition mix0 : solver := Eval vm_compute in program_of mix 0.
Ltac open_forall H :=
  lazymatch type of H with
  | Forall _ (_ :: _) => let A := fresh "I" in let B := fresh "B" in
      pose proof (Forall_inv H) as A; pose proof (Forall_inv_tail H) as B; clear H;
      unfold within in A; cbn in A; destruct A; open_forall B
  | _ => clear H
  end.
Lemma best_optimal : optimal_answer best_answer mix 0.
Proof.
  unfold optimal_answer, best_answer. change (program_of mix 0) with mix0. split.
  - apply satb_ok. vm_compute. reflexivity.
  - intros y F. pose proof (satisfies_vars _ _ F) as V. pose proof (satisfies_cons _ _ F) as K.
    unfold mix0 in V, K. cbn [sv_vars sv_cons] in V, K. open_forall V. open_forall K.
    assert (E : (objective mix0 best_x == 395)%Q) by (vm_compute; reflexivity). rewrite E. cbn. lra.
Qed.
Definition best_result : result := Eval vm_compute in
  match solve_lp best_answer [0; 1] no_bench mix with Ok r => r | Err _ => Result [] [] no_bench end.
Lemma best_solved : solved best_answer mix best_result.
Proof. exists [0; 1], no_bench. split; [reflexivity | vm_compute; reflexivity]. Qed.

(** The optimum, at 395, against the dispatch of [mix_result], at 3296. *)
Example C20_example : api_study mix /\ no_self_link mix /\ one_storage mix /\ plain_sources mix /\
  solved best_answer mix best_result /\ optimal_answer best_answer mix 0 /\
  (total_cost mix best_result 0 == 395)%Q /\
  mirrors mix mix_result /\ dispatch_ok mix mix_result 0 /\ (total_cost mix mix_result 0 == 3296)%Q.
Proof.
  split; [apply mix_api|]. split; [apply mix_no_self|]. split; [apply mix_one|]. split; [apply mix_plain|].
  split; [apply best_solved|]. split; [apply best_optimal|]. split; [vm_compute; reflexivity|].
  split; [apply (solved_facts _ _ _ mix_api mix_plain mix_solved)|].
  split; [apply C15_example | vm_compute; reflexivity].
Qed.

(** A link from a node to itself, paid for being used: the documented model can use
    it, the program forces it to zero. *)
Definition paid_calls : list call :=
  [ OnStudy_network "net"; OnSel 0 (MNode "a"); OnSel 1 (MLink "a" "a" (jn (-1)) (jn 1)) ].
Definition paid : study := Eval vm_compute in w_study (run (start 1 1 None) paid_calls).
Definition paid_answer (_ : nat) (_ : solver) : var -> Q := fun _ => 0%Q.
Definition paid_result : result := Eval vm_compute in
  match solve_lp paid_answer [0] no_bench paid with Ok r => r | Err _ => Result [] [] no_bench end.
Definition paid0 : solver := Eval vm_compute in program_of paid 0.
Theorem C20_cost_optimal_refuted : exists answer s r scn r',
  api_study s /\ one_storage s /\ plain_sources s /\ solved answer s r /\ scn < st_nb_scn s /\ optimal_answer answer s scn /\
  mirrors s r' /\ dispatch_ok s r' scn /\ (total_cost s r' scn < total_cost s r scn)%Q.
Proof.
  exists paid_answer, paid, paid_result, 0, (result_of paid (fun _ _ => 1%Q)).
  split. { exists 1, 1, None, paid_calls. split; [lia|]. split; [lia|]. split; [plain_tac | vm_compute; reflexivity]. }
  split; [apply one_storageb_ok; vm_compute; reflexivity|]. split; [apply plainb_ok; vm_compute; reflexivity|].
  split. { exists [0], no_bench. split; [reflexivity | vm_compute; reflexivity]. }
  split; [vm_compute; lia|]. split.
  { unfold optimal_answer, paid_answer. change (program_of paid 0) with paid0. split; [apply satb_ok; vm_compute; reflexivity|].
    intros y F. pose proof (satisfies_vars _ _ F) as V. pose proof (satisfies_cons _ _ F) as K.
    unfold paid0 in V, K. cbn [sv_vars sv_cons] in V, K. open_forall V. open_forall K. cbn. lra. }
  split; [apply result_of_mirrors|]. split; [|vm_compute; reflexivity]. constructor.
  - intros t T. assert (t = 0) by (vm_compute in T; lia). subst t. split.
    + intros net nd n rn N Rn. apply node_at_all in N. vm_compute in N. destruct N as [N|[]]; inversion N; subst.
      vm_compute in Rn. inversion Rn; subst. repeat split; repeat constructor; vm_compute; discriminate.
    + intros name v rv V. vm_compute in V. discriminate.
  - intros t net nd rn T Rn. assert (t = 0) by (vm_compute in T; lia). subst t.
    assert (E : net = "net" /\ nd = "a").
    { unfold rnode_at in Rn. destruct (dget net _) as [ns|] eqn:D in Rn; [|discriminate]. apply dget_In in D, Rn.
      vm_compute in D. destruct D as [D|[]]. inversion D; subst. destruct Rn as [Rn|[]]. inversion Rn; subst. auto. }
    destruct E; subst. vm_compute in Rn. inversion Rn; subst. vm_compute. reflexivity.
  - intros net nd n rn N Rn. apply node_at_all in N. vm_compute in N. destruct N as [N|[]]; inversion N; subst.
    vm_compute in Rn. inversion Rn; subst. constructor.
  - intros name v rv t V. vm_compute in V. discriminate.
Qed.

(** ** C21 A solution exists *)
Theorem C21_solution_exists_partial : forall s scn,
  api_study s -> usable_converters s -> positive_ratios s -> scn < st_nb_scn s -> nonnegative s scn -> init_fits s scn ->
  (exists vs, build s scn = Ok (program_of s scn, vs)) /\
  satisfies (program_of s scn) (shed_all s scn) /\
  (forall net nd n i c t, node_at s net nd = Some n -> nth_error (n_cons n) i = Some c -> t < st_horizon s ->
     (shed_all s scn (VLol net nd i t) == value (c_qty c) scn t)%Q).
Proof.
  intros s scn A U P S N F. pose proof (api_ready s A U) as R. destruct (build_ok s scn S R) as (p & B & _).
  assert (E : program_of s scn = p) by (unfold program_of; now rewrite B). rewrite E.
  split; [eauto|]. split; [apply (sat_iff s scn S R _ _ _ B); now apply shed_all_ok|].
  intros net nd n i c t E1 E2 T. cbn [shed_all]. rewrite E1, E2. reflexivity.
Qed.

Definition nonnegativeb (s : study) (scn : nat) : bool :=
  let ts := seq 0 (st_horizon s) in
  let pos v := forallb (fun t => Qle_bool 0 (value v scn t)) ts in
  forallb (fun k => forallb (fun c => pos (c_qty c)) (n_cons (snd k)) && forallb (fun c => pos (p_qty c)) (n_prods (snd k)) &&
                    forallb (fun c => pos (l_qty c)) (n_links (snd k)) &&
                    forallb (fun x => Qle_bool 0 (s_init x) && pos (s_capacity x) && pos (s_flow_in x) && pos (s_flow_out x))
                            (n_stors (snd k))) (all_nodes s) &&
  forallb (fun kv => forallb (fun t => Qle_bool 0 (ovalue (v_max (snd kv)) scn t)) ts) (st_converters s).
Lemma nonnegativeb_ok s scn : nonnegativeb s scn = true -> nonnegative s scn.
Proof.
  unfold nonnegativeb. intros H. apply andb_true_iff in H as [H1 H2].
  assert (P : forall v t, forallb (fun t => Qle_bool 0 (value v scn t)) (seq 0 (st_horizon s)) = true -> t < st_horizon s -> (0 <= value v scn t)%Q).
  { intros v t H T. rewrite forallb_forall in H. apply Qle_bool_iff, H, in_seq. lia. }
  assert (N : forall net nd n, node_at s net nd = Some n -> _) by (intros net nd n E; rewrite forallb_forall in H1; exact (H1 _ (node_at_all _ _ _ _ E))).
  constructor.
  - intros net nd n c t E I T. specialize (N _ _ _ E). cbn [snd] in N. repeat rewrite andb_true_iff in N. destruct N as (((N & _) & _) & _).
    rewrite forallb_forall in N. auto.
  - intros net nd n c t E I T. specialize (N _ _ _ E). cbn [snd] in N. repeat rewrite andb_true_iff in N. destruct N as (((_ & N) & _) & _).
    rewrite forallb_forall in N. auto.
  - intros net nd n c t E I T. specialize (N _ _ _ E). cbn [snd] in N. repeat rewrite andb_true_iff in N. destruct N as (((_ & _) & N) & _).
    rewrite forallb_forall in N. auto.
  - intros net nd n c t E I T. specialize (N _ _ _ E). cbn [snd] in N. repeat rewrite andb_true_iff in N. destruct N as (((_ & _) & _) & N).
    rewrite forallb_forall in N. specialize (N _ I). repeat rewrite andb_true_iff in N. destruct N as (((N1 & N2) & N3) & N4).
    repeat split; auto. now apply Qle_bool_iff.
  - intros name v t E T. rewrite forallb_forall in H2. specialize (H2 _ (conv_at_all _ _ _ E)). rewrite forallb_forall in H2.
    apply Qle_bool_iff. apply (H2 t). apply in_seq. lia.
Qed.
Definition init_fitsb (s : study) (scn : nat) : bool :=
  forallb (fun k => forallb (fun x => forallb (fun t => Qle_bool (s_init x) (value (s_capacity x) scn t)) (seq 0 (st_horizon s)))
                            (n_stors (snd k))) (all_nodes s).
Lemma init_fitsb_ok s scn : init_fitsb s scn = true -> init_fits s scn.
Proof.
  unfold init_fitsb. intros H net nd n x t E I T. rewrite forallb_forall in H. specialize (H _ (node_at_all _ _ _ _ E)).
  rewrite forallb_forall in H. specialize (H _ I). rewrite forallb_forall in H. apply Qle_bool_iff, H, in_seq. lia.
Qed.

Example C21_example : api_study mix /\ usable_converters mix /\ positive_ratios mix /\ nonnegative mix 1 /\ init_fits mix 1 /\
  (shed_all mix 1 (VLol "elec" "a" 0 1) == 7)%Q /\ (shed_all mix 1 (VCap "elec" "a" 0 1) == 2)%Q.
Proof.
  split; [apply mix_api|]. split; [apply mix_usable|]. split; [apply mix_positive|].
  split; [apply nonnegativeb_ok; vm_compute; reflexivity|]. split; [apply init_fitsb_ok; vm_compute; reflexivity|].
  split; vm_compute; reflexivity.
Qed.

(** A storage whose initial content exceeds its capacity, with no way out: nothing fits. *)
Definition full_calls : list call :=
  [ OnStudy_network "net"; OnSel 0 (MNode "a"); OnSel 1 (MStorage "cell" (jn 5) (jn 0) (jn 0) (jn 0) 10%Q (jn 1)) ].
Definition full : study := Eval vm_compute in w_study (run (start 1 1 None) full_calls).
Definition full0 : solver := Eval vm_compute in program_of full 0.
Theorem C21_solution_exists_refuted : exists s, api_study s /\ usable_converters s /\ positive_ratios s /\ 0 < st_nb_scn s /\
  nonnegative s 0 /\ forall x, ~ satisfies (program_of s 0) x.
Proof.
  exists full. split. { exists 1, 1, None, full_calls. split; [lia|]. split; [lia|]. split; [plain_tac | vm_compute; reflexivity]. }
  split; [apply usableb_ok; vm_compute; reflexivity|]. split; [apply positiveb_ok; vm_compute; reflexivity|]. split; [vm_compute; lia|].
  split; [apply nonnegativeb_ok; vm_compute; reflexivity|].
  intros x. change (program_of full 0) with full0. intros F. pose proof (satisfies_vars _ _ F) as V. pose proof (satisfies_cons _ _ F) as K.
  unfold full0 in V, K. cbn [sv_vars sv_cons] in V, K. open_forall V. open_forall K. lra.
Qed.

(** A negative ratio with a positive maximum: nothing fits either. *)
Theorem C21_solution_exists_refuted_by_negative_ratio : exists s, api_study s /\ usable_converters s /\ 0 < st_nb_scn s /\
  nonnegative s 0 /\ init_fits s 0 /\ forall x, ~ satisfies (program_of s 0) x.
Proof.
  exists back. split; [apply back_api|]. split; [apply back_usable|]. split; [vm_compute; lia|].
  split; [apply nonnegativeb_ok; vm_compute; reflexivity|]. split; [apply init_fitsb_ok; vm_compute; reflexivity|]. apply back_infeasible.
Qed.

(** ** C22 Merit order *)
Theorem C22_merit_order : forall answer s r scn,
  api_study s -> solved answer s r -> scn < st_nb_scn s -> optimal_answer answer s scn ->
  forall net nd n rn i j p q o o' t, node_at s net nd = Some n -> rnode_at r net nd = Some rn -> t < st_horizon s ->
    nth_error (n_prods n) i = Some p -> nth_error (on_prods rn) i = Some o ->
    nth_error (n_prods n) j = Some q -> nth_error (on_prods rn) j = Some o' ->
    (0 < entry (op_qty o) scn t)%Q -> (value (p_cost q) scn t < value (p_cost p) scn t)%Q ->
    (entry (op_qty o') scn t == value (p_qty q) scn t)%Q.
Proof.
  intros answer s r scn A SV S O net nd n rn i j p q o o' t N Rn T Ep Eo Eq Eo' Used Cheap.
  destruct (solved_weak _ _ _ A SV) as (R & M & C). destruct (C scn S) as ((vs & B) & CA & _).
  pose proof (ca_prods _ _ _ _ CA _ _ _ _ _ _ _ t T N Rn Ep Eo) as V1. cbn [x_read] in V1.
  pose proof (ca_prods _ _ _ _ CA _ _ _ _ _ _ _ t T N Rn Eq Eo') as V2. cbn [x_read] in V2.
  pose proof O as [F _]. apply (sat_iff s scn S R _ vs _ B) in F.
  destruct (xb_prods _ _ _ (xo_bounds _ _ _ F) t net nd n j q T N Eq) as [_ Up].
  destruct (Qlt_le_dec (answer scn (program_of s scn) (VProd net nd j t)) (value (p_qty q) scn t)) as [L|L]; [exfalso|lra].
  assert (D : VProd net nd j t <> VProd net nd i t) by (intros D; inversion D; subst; rewrite Ep in Eq; inversion Eq; subst; lra).
  pose proof (exchange s scn S R _ vs _ B O _ _ _ _ _ _
    (prod_var s scn S R _ vs B net nd n t N T j q Eq) (prod_var s scn S R _ vs B net nd n t N T i p Ep) D
    (local_neutral s net nd n t N _ _ (or_intror (ex_intro _ j (ex_intro _ q (conj eq_refl Eq))))
       (or_intror (ex_intro _ i (ex_intro _ p (conj eq_refl Ep))))) L ltac:(lra)) as X. lra.
Qed.

(** ** C23 No needless load shedding *)
Theorem C23_no_needless_shedding : forall answer s r scn,
  api_study s -> solved answer s r -> scn < st_nb_scn s -> optimal_answer answer s scn ->
  forall net nd n rn i j c q o o' t, node_at s net nd = Some n -> rnode_at r net nd = Some rn -> t < st_horizon s ->
    nth_error (n_cons n) i = Some c -> nth_error (on_cons rn) i = Some o ->
    nth_error (n_prods n) j = Some q -> nth_error (on_prods rn) j = Some o' ->
    (entry (oc_qty o) scn t < value (c_qty c) scn t)%Q -> (value (p_cost q) scn t < value (c_cost c) scn t)%Q ->
    (entry (op_qty o') scn t == value (p_qty q) scn t)%Q.
Proof.
  intros answer s r scn A SV S O net nd n rn i j c q o o' t N Rn T Ep Eo Eq Eo' Shed Cheap.
  destruct (solved_weak _ _ _ A SV) as (R & M & C). destruct (C scn S) as ((vs & B) & CA & _).
  pose proof (ca_cons _ _ _ _ CA _ _ _ _ _ _ _ t T N Rn Ep Eo) as V1. cbn [x_read] in V1.
  pose proof (ca_prods _ _ _ _ CA _ _ _ _ _ _ _ t T N Rn Eq Eo') as V2. cbn [x_read] in V2.
  pose proof O as [F _]. apply (sat_iff s scn S R _ vs _ B) in F.
  destruct (xb_prods _ _ _ (xo_bounds _ _ _ F) t net nd n j q T N Eq) as [_ Up].
  destruct (Qlt_le_dec (answer scn (program_of s scn) (VProd net nd j t)) (value (p_qty q) scn t)) as [L|L]; [exfalso|lra].
  assert (D : VProd net nd j t <> VLol net nd i t) by discriminate.
  pose proof (exchange s scn S R _ vs _ B O _ _ _ _ _ _
    (prod_var s scn S R _ vs B net nd n t N T j q Eq) (lol_var s scn S R _ vs B net nd n t N T i c Ep) D
    (local_neutral s net nd n t N _ _ (or_intror (ex_intro _ j (ex_intro _ q (conj eq_refl Eq))))
       (or_introl (ex_intro _ i (ex_intro _ c (conj eq_refl Ep))))) L ltac:(lra)) as X. lra.
Qed.

(** ** C24 Costliest load is served first *)
Theorem C24_costliest_load_first : forall answer s r scn,
  api_study s -> solved answer s r -> scn < st_nb_scn s -> optimal_answer answer s scn ->
  forall net nd n rn i j c d o o' t, node_at s net nd = Some n -> rnode_at r net nd = Some rn -> t < st_horizon s ->
    nth_error (n_cons n) i = Some c -> nth_error (on_cons rn) i = Some o ->
    nth_error (n_cons n) j = Some d -> nth_error (on_cons rn) j = Some o' ->
    (value (c_cost d) scn t < value (c_cost c) scn t)%Q ->
    (entry (oc_qty o) scn t == value (c_qty c) scn t)%Q \/ (entry (oc_qty o') scn t == 0)%Q.
Proof.
  intros answer s r scn A SV S O net nd n rn i j c d o o' t N Rn T Ep Eo Eq Eo' Cheap.
  destruct (solved_weak _ _ _ A SV) as (R & M & C). destruct (C scn S) as ((vs & B) & CA & _).
  pose proof (ca_cons _ _ _ _ CA _ _ _ _ _ _ _ t T N Rn Ep Eo) as V1. cbn [x_read] in V1.
  pose proof (ca_cons _ _ _ _ CA _ _ _ _ _ _ _ t T N Rn Eq Eo') as V2. cbn [x_read] in V2.
  pose proof O as [F _]. apply (sat_iff s scn S R _ vs _ B) in F.
  destruct (xb_cons _ _ _ (xo_bounds _ _ _ F) t net nd n i c T N Ep) as [Lo _].
  destruct (xb_cons _ _ _ (xo_bounds _ _ _ F) t net nd n j d T N Eq) as [_ Up].
  destruct (Qlt_le_dec 0 (answer scn (program_of s scn) (VLol net nd i t))) as [L1|L1]; [|left; lra].
  destruct (Qlt_le_dec (answer scn (program_of s scn) (VLol net nd j t)) (value (c_qty d) scn t)) as [L2|L2]; [exfalso|right; lra].
  assert (D : VLol net nd j t <> VLol net nd i t) by (intros D; inversion D; subst; rewrite Ep in Eq; inversion Eq; subst; lra).
  pose proof (exchange s scn S R _ vs _ B O _ _ _ _ _ _
    (lol_var s scn S R _ vs B net nd n t N T j d Eq) (lol_var s scn S R _ vs B net nd n t N T i c Ep) D
    (local_neutral s net nd n t N _ _ (or_introl (ex_intro _ j (ex_intro _ d (conj eq_refl Eq))))
       (or_introl (ex_intro _ i (ex_intro _ c (conj eq_refl Ep))))) L2 L1) as X. lra.
Qed.

(** ** C25 No loop flows on paid links *)
Theorem C25_no_loop_flows : forall answer s r scn,
  api_study s -> solved answer s r -> scn < st_nb_scn s -> optimal_answer answer s scn ->
  forall net a b na nb ra rb i j l m o o' t, t < st_horizon s -> a <> b ->
    node_at s net a = Some na -> rnode_at r net a = Some ra -> node_at s net b = Some nb -> rnode_at r net b = Some rb ->
    nth_error (n_links na) i = Some l -> nth_error (on_links ra) i = Some o -> l_dest l = b ->
    nth_error (n_links nb) j = Some m -> nth_error (on_links rb) j = Some o' -> l_dest m = a ->
    (0 < value (l_cost l) scn t + value (l_cost m) scn t)%Q ->
    (entry (ol_qty o) scn t == 0)%Q \/ (entry (ol_qty o') scn t == 0)%Q.
Proof.
  intros answer s r scn A SV S O net a b na nb ra rb i j l m o o' t T D Na Ra Nb Rb El Eo Dl Em Eo' Dm Cost.
  destruct (solved_weak _ _ _ A SV) as (R & M & C). destruct (C scn S) as ((vs & B) & CA & _).
  pose proof (ca_links _ _ _ _ CA _ _ _ _ _ _ _ t T Na Ra El Eo) as V1. cbn [x_read] in V1.
  pose proof (ca_links _ _ _ _ CA _ _ _ _ _ _ _ t T Nb Rb Em Eo') as V2. cbn [x_read] in V2.
  pose proof O as [F _]. apply (sat_iff s scn S R _ vs _ B) in F.
  destruct (xb_links _ _ _ (xo_bounds _ _ _ F) t net a na i l T Na El) as [Lo1 _].
  destruct (xb_links _ _ _ (xo_bounds _ _ _ F) t net b nb j m T Nb Em) as [Lo2 _].
  destruct (Qlt_le_dec 0 (answer scn (program_of s scn) (VLink net a i t))) as [L1|L1]; [|left; lra].
  destruct (Qlt_le_dec 0 (answer scn (program_of s scn) (VLink net b j t))) as [L2|L2]; [exfalso|right; lra].
  assert (X : VLink net a i t <> VLink net b j t) by (intros X; inversion X; contradiction).
  pose proof (withdraw s scn S R _ vs _ B O _ _ _ _ _ _
    (link_var s scn S R _ vs B net a na t Na T i l El) (link_var s scn S R _ vs B net b nb t Nb T j m Em) X
    (links_neutral s R net a b na nb i j l m t Na El Dl Nb Em Dm D) L1 L2). lra.
Qed.

(** Two loads, two productions, a neighbour and links both ways. *)
Definition duo_calls : list call :=
  [ OnStudy_network "net"; OnSel 0 (MNode "a");
    OnSel 1 (MConsumption "vital" (jn 1000) (jn 10)); OnSel 2 (MConsumption "comfort" (jn 500) (jn 10));
    OnSel 3 (MProduction "oil" (jn 20) (jn 7)); OnSel 4 (MProduction "coal" (jn 10) (jn 8));
    OnSel 5 (MNode "b"); OnSel 6 (MProduction "wind" (jn 5) (jn 6));
    OnSel 7 (MLink "b" "a" (jn 2) (jn 4)); OnSel 8 (MLink "a" "b" (jn (-1)) (jn 4)) ].
Definition duo : study := Eval vm_compute in w_study (run (start 1 1 None) duo_calls).
Definition duo_x (v : var) : Q :=
  match v with
  | VLol _ _ (S O) _ => 1
  | VProd _ "a" O _ => 7 | VProd _ "a" (S O) _ => 8
  | VProd _ "b" _ _ | VLink _ "b" _ _ => 4
  | _ => 0
  end%Q.
Definition duo_answer (_ : nat) (_ : solver) : var -> Q := duo_x.
Definition duo0 : solver := Eval vm_compute in program_of duo 0.
Lemma duo_api : api_study duo.
Proof. exists 1, 1, None, duo_calls. split; [lia|]. split; [lia|]. split; [plain_tac | vm_compute; reflexivity]. Qed.
Lemma duo_optimal : optimal_answer duo_answer duo 0.
Proof.
  unfold optimal_answer, duo_answer. change (program_of duo 0) with duo0. split.
  - apply satb_ok. vm_compute. reflexivity.
  - intros y F. pose proof (satisfies_vars _ _ F) as V. pose proof (satisfies_cons _ _ F) as K.
    unfold duo0 in V, K. cbn [sv_vars sv_cons] in V, K. open_forall V. open_forall K.
    assert (E : (objective duo0 duo_x == 748)%Q) by (vm_compute; reflexivity). rewrite E. cbn. lra.
Qed.
Definition duo_result : result := Eval vm_compute in
  match solve_lp duo_answer [0] no_bench duo with Ok r => r | Err _ => Result [] [] no_bench end.
Lemma duo_solved : solved duo_answer duo duo_result.
Proof. exists [0], no_bench. split; [reflexivity | vm_compute; reflexivity]. Qed.

(** Oil is used, cheaper coal is full; "comfort" is partly shed, both productions of
    the node are full and "vital" is served; the link to "a" is used, its opposite not. *)
Example C22_C25_example : api_study duo /\ solved duo_answer duo duo_result /\ optimal_answer duo_answer duo 0 /\
  exists n rn, node_at duo "net" "a" = Some n /\ rnode_at duo_result "net" "a" = Some rn /\
    map (fun o => entry (op_qty o) 0 0) (on_prods rn) = [7; 8]%Q /\
    map (fun p => value (p_cost p) 0 0) (n_prods n) = [20; 10]%Q /\
    map (fun c => value (c_cost c) 0 0) (n_cons n) = [1000; 500]%Q /\
    map (fun o => entry (oc_qty o) 0 0) (on_cons rn) = [10; 9]%Q /\
    map (fun o => entry (ol_qty o) 0 0) (on_links rn) = [0]%Q /\
  exists nb rb, node_at duo "net" "b" = Some nb /\ rnode_at duo_result "net" "b" = Some rb /\
    map (fun o => entry (ol_qty o) 0 0) (on_links rb) = [4]%Q.
Proof.
  split; [apply duo_api|]. split; [apply duo_solved|]. split; [apply duo_optimal|].
  do 2 eexists. do 7 (split; [vm_compute; reflexivity|]). do 2 eexists. repeat split; vm_compute; reflexivity.
Qed.

Print Assumptions C20_cost_optimal_partial.
Print Assumptions C20_minimum_attained_partial.
Print Assumptions C20_cost_optimal_refuted.
Print Assumptions C21_solution_exists_partial.
Print Assumptions C21_solution_exists_refuted.
Print Assumptions C21_solution_exists_refuted_by_negative_ratio.
Print Assumptions C22_merit_order.
Print Assumptions C23_no_needless_shedding.
Print Assumptions C24_costliest_load_first.
Print Assumptions C25_no_loop_flows.
