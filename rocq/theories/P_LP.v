(** Properties C15-C19 and C26-C29: the program of a study and the results of a solve. *)
From Coq Require Import String List ZArith QArith Bool Arith Lia Lqa Permutation.
From Verif Require Import Base BaseFacts Numeric Study Fluent SpecStudy StudyFacts Output Json SpecJson JsonFacts P_Json
  LP SpecLP LPFacts LPBuild LPSat LPResult LPSolve LPReady LPWeak LPMore.
Import ListNotations.
Open Scope nat_scope.
Open Scope string_scope.
Open Scope list_scope.

(** ** Checking concrete studies *)
Definition withinb (lo y up : Q) : bool := Qle_bool lo y && Qle_bool y up.
Definition satb (p : solver) (x : var -> Q) : bool :=
  forallb (fun vb => withinb (fst (snd vb)) (x (fst vb)) (snd (snd vb))) (sv_vars p) &&
  forallb (fun k => withinb (k_lb k) (lin (k_coefs k) x) (k_ub k)) (sv_cons p).
Lemma withinb_ok lo y up : withinb lo y up = true -> within lo y up.
Proof. unfold withinb. intros H. apply andb_true_iff in H as [A B]. split; now apply Qle_bool_iff. Qed.
Lemma satb_ok p x : satb p x = true -> satisfies p x.
Proof.
  unfold satb. intros H. apply andb_true_iff in H as [A B]. rewrite forallb_forall in A, B. constructor.
  - intros v lo up I. apply withinb_ok. exact (A _ I).
  - intros k I. apply withinb_ok. exact (B _ I).
Qed.

Definition all_nodes (s : study) : list (string * string * node) :=
  flat_map (fun kn => map (fun kd => (fst kn, fst kd, snd kd)) (snd kn)) (st_networks s).
Lemma node_at_all s net nd n : node_at s net nd = Some n -> In (net, nd, n) (all_nodes s).
Proof.
  unfold node_at, all_nodes. destruct (dget net (st_networks s)) as [ns|] eqn:E; [|discriminate]. intros F.
  apply dget_In in E, F. apply in_flat_map. exists (net, ns). split; auto. apply in_map_iff. exists (nd, n). auto.
Qed.
Lemma conv_at_all s name v : conv_at s name = Some v -> In (name, v) (st_converters s).
Proof. apply dget_In. Qed.

Definition no_self_linkb (s : study) : bool :=
  forallb (fun k => forallb (fun l => negb (String.eqb (l_dest l) (snd (fst k)))) (n_links (snd k))) (all_nodes s).
Lemma no_self_linkb_ok s : no_self_linkb s = true -> no_self_link s.
Proof.
  unfold no_self_linkb. rewrite forallb_forall. intros H net nd n l N I. apply node_at_all in N. specialize (H _ N).
  rewrite forallb_forall in H. specialize (H l I). cbn [fst snd] in H. apply negb_true_iff in H. now apply String.eqb_neq.
Qed.
Definition one_storageb (s : study) : bool := forallb (fun k => Nat.leb (length (n_stors (snd k))) 1) (all_nodes s).
Lemma one_storageb_ok s : one_storageb s = true -> one_storage s.
Proof.
  unfold one_storageb. rewrite forallb_forall. intros H net nd n N. apply node_at_all in N. specialize (H _ N). now apply Nat.leb_le.
Qed.
Definition ratiosb (f : Q -> bool) (s : study) : bool :=
  forallb (fun kv => forallb (fun kq => forallb (fun a => forallb (fun t => f (value (snd kq) a t)) (seq 0 (st_horizon s)))
    (seq 0 (st_nb_scn s))) (v_src (snd kv))) (st_converters s).
Lemma ratiosb_ok f s : ratiosb f s = true -> forall name v k q scn t,
  conv_at s name = Some v -> In (k, q) (v_src v) -> scn < st_nb_scn s -> t < st_horizon s -> f (value q scn t) = true.
Proof.
  unfold ratiosb. intros H name v k q scn t V I S T. rewrite forallb_forall in H. specialize (H _ (conv_at_all _ _ _ V)).
  rewrite forallb_forall in H. specialize (H _ I). rewrite forallb_forall in H. specialize (H scn ltac:(apply in_seq; lia)).
  rewrite forallb_forall in H. exact (H t ltac:(apply in_seq; lia)).
Qed.
Definition usableb (s : study) : bool :=
  forallb (fun kv => match v_cost (snd kv), v_max (snd kv) with Some _, Some _ => true | _, _ => false end) (st_converters s)
  && ratiosb (fun q => negb (Qeq_bool q 0)) s.
Lemma usableb_ok s : usableb s = true -> usable_converters s.
Proof.
  unfold usableb. intros H name v V. apply andb_true_iff in H as [A B]. rewrite forallb_forall in A. specialize (A _ (conv_at_all _ _ _ V)).
  cbn [snd] in A. repeat split; try (intros E; rewrite E in A; simpl in A; try discriminate; destruct (v_cost v); discriminate).
  intros k q scn t I S T E. pose proof (ratiosb_ok _ s B name v k q scn t V I S T) as R. cbv beta in R.
  rewrite (proj2 (Qeq_bool_iff _ _) E) in R. discriminate.
Qed.
Definition positiveb (s : study) : bool := ratiosb (fun q => negb (Qle_bool q 0)) s.
Lemma positiveb_ok s : positiveb s = true -> positive_ratios s.
Proof.
  intros B name v k q scn t V I S T. pose proof (ratiosb_ok _ s B name v k q scn t V I S T) as R. cbv beta in R.
  apply negb_true_iff in R. destruct (Qlt_le_dec 0 (value q scn t)) as [L|L]; auto. apply Qle_bool_iff in L. congruence.
Qed.
Definition plainb (s : study) : bool :=
  forallb (fun kv => forallb (fun k => negb (has_cc (fst k)) && negb (ends_c (fst k)) && negb (has_cc (snd k))) (dkeys (v_src (snd kv))))
          (st_converters s).
Lemma plainb_ok s : plainb s = true -> plain_sources s.
Proof.
  intros H name v k V I. unfold plainb in H. rewrite forallb_forall in H. specialize (H _ (conv_at_all _ _ _ V)).
  rewrite forallb_forall in H. specialize (H k I). apply andb_true_iff in H as [H C]. apply andb_true_iff in H as [A B].
  apply negb_true_iff in A, B, C. now apply plain_dec.
Qed.

(** ** Example studies *)
Definition jn (n : Z) : pyval := PJson (JNum (inject_Z n)).
Definition jl (l : list Z) : pyval := PJson (JList (map (fun n => JNum (inject_Z n)) l)).
Definition jm (l : list (list Z)) : pyval := PJson (JList (map (fun r => JList (map (fun n => JNum (inject_Z n)) r)) l)).

Ltac plain_tac := intros c x I J;
  match goal with I : In c ?p |- _ =>
    let A := fresh "A" in
    assert (A : Forall plain_arg (flat_map call_args p))
      by (repeat constructor; simpl; try discriminate; try reflexivity; intros; congruence);
    rewrite Forall_forall in A; apply A; apply in_flat_map; eauto
  end.

(** Two networks, two scenarios, two hours; a storage, two links, a converter. *)
Definition mix_calls : list call :=
  [ OnStudy_network "elec";
    OnSel 0 (MNode "a");
    OnSel 1 (MConsumption "load" (jn 1000) (jm [[10; 20]; [5; 7]]%Z));
    OnSel 2 (MStorage "cell" (jn 6) (jn 4) (jn 4) (jn 1) 2%Q (PJson (JNum (1 # 2))));
    OnSel 3 (MNode "b");
    OnSel 4 (MProduction "wind" (jn 3) (jl [12; 9]%Z));
    OnSel 5 (MLink "b" "a" (jn 2) (jn 8));
    OnSel 6 (MLink "a" "b" (jn 2) (jn 8));
    OnSel 7 (MNetwork "gas");
    OnSel 8 (MNode "g");
    OnSel 9 (MProduction "well" (jn 10) (jn 30));
    OnSel 10 (MToConverter "plant" (PJson (JNum (1 # 2))));
    OnSel 11 (MConverter "plant" "elec" "a" (jn 9) (jn 4)) ].
Definition mix : study := Eval vm_compute in w_study (run (start 2 2 None) mix_calls).
Lemma mix_api : api_study mix.
Proof. exists 2, 2, None, mix_calls. split; [lia|]. split; [lia|]. split; [plain_tac | vm_compute; reflexivity]. Qed.
Lemma mix_usable : usable_converters mix. Proof. apply usableb_ok. vm_compute. reflexivity. Qed.
Lemma mix_plain : plain_sources mix. Proof. apply plainb_ok. vm_compute. reflexivity. Qed.
Lemma mix_no_self : no_self_link mix. Proof. apply no_self_linkb_ok. vm_compute. reflexivity. Qed.
Lemma mix_one : one_storage mix. Proof. apply one_storageb_ok. vm_compute. reflexivity. Qed.
Lemma mix_positive : positive_ratios mix. Proof. apply positiveb_ok. vm_compute. reflexivity. Qed.

(** An answer: the wind serves what it can, then the plant, the storage empties. *)
Definition mix_x (scn : nat) (v : var) : Q :=
  match v, scn with
  | VLol _ _ _ 1, 0 => 3%Q
  | VLink _ "b" _ _, 0 => 8%Q
  | VProd _ "b" _ _, 0 => 8%Q
  | VOut _ _ _ 0, 0 => 2%Q
  | VSrc _ _ _ 1, 0 | VProd _ "g" _ 1, 0 => 18%Q
  | VDest _ 1, 0 => 9%Q
  | VLink _ "b" _ 0, _ | VProd _ "b" _ 0, _ => 7%Q
  | VIn _ _ _ 0, S _ => 2%Q
  | VCap _ _ _ _, S _ => 3%Q
  | VLink _ "b" _ 1, _ | VProd _ "b" _ 1, _ => 7%Q
  | _, _ => 0%Q
  end.
Definition mix_answer (scn : nat) (_ : solver) : var -> Q := mix_x scn.
Lemma mix_feasible scn : scn < 2 -> feasible_answer mix_answer mix scn.
Proof.
  intros S. unfold feasible_answer. apply satb_ok. destruct scn as [|[|]]; try lia; vm_compute; reflexivity.
Qed.
Definition no_bench : benchmark := Bench [] [] 0 0.
Definition mix_result : result := Eval vm_compute in
  match solve_lp mix_answer [1; 0] no_bench mix with Ok r => r | Err _ => Result [] [] no_bench end.
Lemma mix_solved : solved mix_answer mix mix_result.
Proof. exists [1; 0], no_bench. split; [apply perm_swap | vm_compute; reflexivity]. Qed.

(** ** C15 The linear program is the documented one *)

(** For studies without link from a node to itself, with at most one storage per
    node and positive ratios: every assignment is a dispatch and conversely, and
    an assignment satisfies the program exactly when its dispatch satisfies the
    documented model, the objective being the documented cost. *)
Theorem C15_program_is_documented_partial : forall s scn,
  api_study s -> usable_converters s -> no_self_link s -> one_storage s -> positive_ratios s -> scn < st_nb_scn s ->
  (exists vs, build s scn = Ok (program_of s scn, vs)) /\
  (forall r, mirrors s r -> exists x, carries_answer s r scn x) /\
  (forall x, exists r, mirrors s r /\ carries_answer s r scn x) /\
  forall r x, mirrors s r -> carries_answer s r scn x ->
    (satisfies (program_of s scn) x <-> dispatch_ok s r scn) /\
    (objective (program_of s scn) x == total_cost s r scn)%Q.
Proof.
  intros s scn A U NS One P S. pose proof (api_ready s A U) as R.
  assert (B : exists vs, build s scn = Ok (program_of s scn, vs)).
  { destruct (build_ok s scn S R) as (p & B & _). eexists. unfold program_of. rewrite B. reflexivity. }
  split; auto. destruct B as (vs & B). split; [|split].
  - intros r M. exists (read_result s r scn). solve [apply read_carries; auto].
  - intros x. exists (result_of s (fun _ => x)). split; [apply result_of_mirrors | now apply (result_of_carries s (fun _ => x))].
  - intros r x M C. split.
    + rewrite (sat_iff s scn S R _ vs x B). symmetry. apply (dispatch_iff s r R M scn x C); auto.
    + rewrite (objective_value s scn S R _ vs x B). symmetry. apply (cost_eq s r R M scn x C).
Qed.

(** The objective is the documented cost for every study that can be built. *)
Theorem C15_objective_is_documented : forall s scn r x,
  api_study s -> usable_converters s -> scn < st_nb_scn s -> mirrors s r -> carries_answer s r scn x ->
  (objective (program_of s scn) x == total_cost s r scn)%Q.
Proof.
  intros s scn r x A U S M C. pose proof (api_ready s A U) as R. destruct (build_ok s scn S R) as (p & B & _).
  unfold program_of. rewrite B. rewrite (objective_value s scn S R p _ x B). symmetry. apply (cost_eq s r R M scn x C).
Qed.

Example C15_example : api_study mix /\ usable_converters mix /\ no_self_link mix /\ one_storage mix /\ positive_ratios mix /\
  satisfies (program_of mix 0) (mix_x 0) /\ dispatch_ok mix mix_result 0 /\ (total_cost mix mix_result 0 == 3296)%Q /\
  length (sv_vars (program_of mix 0)) = 20 /\ length (sv_cons (program_of mix 0)) = 10.
Proof.
  pose proof (solved_facts _ _ _ mix_api mix_plain mix_solved) as (R & M & C).
  destruct (C 0 ltac:(vm_compute; lia)) as (vs & B & CA).
  destruct (C15_program_is_documented_partial mix 0 mix_api mix_usable mix_no_self mix_one mix_positive ltac:(vm_compute; lia)) as (_ & _ & _ & D).
  destruct (D _ _ M CA) as [D1 D2].
  split; [apply mix_api|]. split; [apply mix_usable|]. split; [apply mix_no_self|]. split; [apply mix_one|]. split; [apply mix_positive|].
  assert (F : satisfies (program_of mix 0) (mix_x 0)) by (apply (mix_feasible 0); lia).
  split; [exact F|]. split; [now apply D1|]. split; [vm_compute; reflexivity|]. split; vm_compute; reflexivity.
Qed.

(** A link from node "a" to itself creates energy: ten units of load are served by nothing. *)
Definition loop_calls : list call :=
  [ OnStudy_network "net"; OnSel 0 (MNode "a"); OnSel 1 (MConsumption "load" (jn 1000) (jn 10)); OnSel 2 (MLink "a" "a" (jn 1) (jn 10)) ].
Definition loop : study := Eval vm_compute in w_study (run (start 1 1 None) loop_calls).
Lemma loop_api : api_study loop.
Proof. exists 1, 1, None, loop_calls. split; [lia|]. split; [lia|]. split; [plain_tac | vm_compute; reflexivity]. Qed.
Definition loop_x (v : var) : Q := match v with VLink _ _ _ _ => 10 | _ => 0 end%Q.
Definition loop_answer (_ : nat) (_ : solver) : var -> Q := loop_x.
Definition loop_result : result := Eval vm_compute in
  match solve_lp loop_answer [0] no_bench loop with Ok r => r | Err _ => Result [] [] no_bench end.
Lemma loop_solved : solved loop_answer loop loop_result.
Proof. exists [0], no_bench. split; [reflexivity | vm_compute; reflexivity]. Qed.
Lemma loop_feasible : feasible_answer loop_answer loop 0.
Proof. apply satb_ok. vm_compute. reflexivity. Qed.
Lemma loop_unbalanced : ~ balanced loop loop_result 0.
Proof.
  intros H. specialize (H 0 "net" "a" _ ltac:(vm_compute; lia) eq_refl). vm_compute in H. discriminate.
Qed.
Lemma loop_plain : plain_sources loop. Proof. apply plainb_ok. vm_compute. reflexivity. Qed.
Lemma loop_usable : usable_converters loop. Proof. apply usableb_ok. vm_compute. reflexivity. Qed.

(** Of two storages of a node only the first is constrained. *)
Definition twin_calls : list call :=
  [ OnStudy_network "net"; OnSel 0 (MNode "a"); OnSel 1 (MConsumption "load" (jn 1000) (jn 10));
    OnSel 2 (MStorage "first" (jn 10) (jn 10) (jn 10) (jn 0) 0%Q (jn 1));
    OnSel 3 (MStorage "second" (jn 10) (jn 10) (jn 10) (jn 0) 0%Q (jn 1)) ].
Definition twin : study := Eval vm_compute in w_study (run (start 1 1 None) twin_calls).
Lemma twin_api : api_study twin.
Proof. exists 1, 1, None, twin_calls. split; [lia|]. split; [lia|]. split; [plain_tac | vm_compute; reflexivity]. Qed.
(** The second storage, empty, delivers ten units. *)
Definition twin_x (v : var) : Q := match v with VOut _ _ 1 _ => 10 | _ => 0 end%Q.
Definition twin_answer (_ : nat) (_ : solver) : var -> Q := twin_x.
Definition twin_result : result := Eval vm_compute in
  match solve_lp twin_answer [0] no_bench twin with Ok r => r | Err _ => Result [] [] no_bench end.
Lemma twin_solved : solved twin_answer twin twin_result.
Proof. exists [0], no_bench. split; [reflexivity | vm_compute; reflexivity]. Qed.
Lemma twin_feasible : feasible_answer twin_answer twin 0.
Proof. apply satb_ok. vm_compute. reflexivity. Qed.
Lemma twin_usable : usable_converters twin. Proof. apply usableb_ok. vm_compute. reflexivity. Qed.
Lemma twin_plain : plain_sources twin. Proof. apply plainb_ok. vm_compute. reflexivity. Qed.
Lemma twin_wrong : ~ storages_evolve twin twin_result 0.
Proof.
  intros H. specialize (H "net" "a" _ _ eq_refl eq_refl). inversion H as [|? ? ? ? _ H2]; subst. inversion H2 as [|? ? ? ? H3 _]; subst.
  specialize (H3 0 ltac:(vm_compute; lia)). vm_compute in H3. discriminate.
Qed.

(** A negative ratio: no source flow fits the bounds of the program, though an idle
    converter satisfies the documented model. *)
Definition back_calls : list call :=
  [ OnStudy_network "net"; OnSel 0 (MNode "a"); OnSel 1 (MToConverter "cv" (jn (-1)));
    OnSel 2 (MNode "b"); OnSel 3 (MConverter "cv" "net" "b" (jn 10) (jn 0)) ].
Definition back : study := Eval vm_compute in w_study (run (start 1 1 None) back_calls).
Lemma back_api : api_study back.
Proof. exists 1, 1, None, back_calls. split; [lia|]. split; [lia|]. split; [plain_tac | vm_compute; reflexivity]. Qed.
Lemma back_usable : usable_converters back. Proof. apply usableb_ok. vm_compute. reflexivity. Qed.
Lemma back_infeasible x : ~ satisfies (program_of back 0) x.
Proof.
  intros [V _]. specialize (V (VSrc "cv" "net" "a" 0) 0%Q (-10 # 1)%Q). destruct V as [A B].
  - vm_compute. auto.
  - lra.
Qed.

(** Three ways the program departs from the documented model. *)
Theorem C15_program_is_documented_refuted_by_self_link : exists s scn r x,
  api_study s /\ usable_converters s /\ one_storage s /\ positive_ratios s /\ scn < st_nb_scn s /\
  mirrors s r /\ carries_answer s r scn x /\ satisfies (program_of s scn) x /\ ~ dispatch_ok s r scn.
Proof.
  exists loop, 0, loop_result, loop_x. pose proof (solved_facts _ _ _ loop_api loop_plain loop_solved) as (R & M & C).
  destruct (C 0 ltac:(vm_compute; lia)) as (vs & B & CA).
  split; [apply loop_api|]. split; [apply loop_usable|]. split; [apply one_storageb_ok; vm_compute; reflexivity|].
  split; [apply positiveb_ok; vm_compute; reflexivity|]. split; [vm_compute; lia|]. split; auto. split; auto.
  split; [apply loop_feasible|]. intros [_ H _ _]. now apply loop_unbalanced.
Qed.

Theorem C15_program_is_documented_refuted_by_second_storage : exists s scn r x,
  api_study s /\ usable_converters s /\ no_self_link s /\ positive_ratios s /\ scn < st_nb_scn s /\
  mirrors s r /\ carries_answer s r scn x /\ satisfies (program_of s scn) x /\ ~ dispatch_ok s r scn.
Proof.
  exists twin, 0, twin_result, twin_x. pose proof (solved_facts _ _ _ twin_api twin_plain twin_solved) as (R & M & C).
  destruct (C 0 ltac:(vm_compute; lia)) as (vs & B & CA).
  split; [apply twin_api|]. split; [apply twin_usable|]. split; [apply no_self_linkb_ok; vm_compute; reflexivity|].
  split; [apply positiveb_ok; vm_compute; reflexivity|]. split; [vm_compute; lia|]. split; auto. split; auto.
  split; [apply twin_feasible|]. intros [_ _ H _]. now apply twin_wrong.
Qed.

Theorem C15_program_is_documented_refuted_by_negative_ratio : exists s scn r x,
  api_study s /\ usable_converters s /\ no_self_link s /\ one_storage s /\ scn < st_nb_scn s /\
  mirrors s r /\ carries_answer s r scn x /\ dispatch_ok s r scn /\ ~ satisfies (program_of s scn) x.
Proof.
  exists back, 0, (result_of back (fun _ _ => 0%Q)), (fun _ => 0%Q). pose proof (api_ready _ back_api back_usable) as R.
  pose proof (result_of_mirrors back (fun _ _ => 0%Q)) as M.
  assert (CA : carries_answer back (result_of back (fun _ _ => 0%Q)) 0 (fun _ => 0%Q))
    by (apply (result_of_carries back (fun _ _ => 0%Q)); vm_compute; lia).
  assert (NS : no_self_link back) by (apply no_self_linkb_ok; vm_compute; reflexivity).
  assert (One : one_storage back) by (apply one_storageb_ok; vm_compute; reflexivity).
  split; [apply back_api|]. split; [apply back_usable|]. split; auto. split; auto. split; [vm_compute; lia|].
  split; auto. split; auto. split; [|apply back_infeasible]. constructor.
  - intros t T. assert (t = 0) by (vm_compute in T; lia). subst t. split.
    + intros net nd n rn N Rn. apply node_at_all in N as N'. vm_compute in N'. destruct N' as [N'|[N'|[]]]; inversion N'; subst;
        vm_compute in Rn; inversion Rn; subst; repeat split; constructor.
    + intros name v rv V Rv. apply conv_at_all in V as V'. vm_compute in V'. destruct V' as [V'|[]]; inversion V'; subst.
      vm_compute in Rv. inversion Rv; subst. split; [split; vm_compute; discriminate|]. intros k a [I|[]]. inversion I; subst. vm_compute. discriminate.
  - apply (balanced_iff back _ R M 0 _ CA NS). intros t net nd n T N. assert (t = 0) by (vm_compute in T; lia). subst t.
    apply node_at_all in N as N'. vm_compute in N'. destruct N' as [N'|[N'|[]]]; inversion N'; subst; vm_compute; reflexivity.
  - apply (storages_iff back _ M 0 _ CA One). intros t net nd n T N. apply node_at_all in N. vm_compute in N.
    destruct N as [N|[N|[]]]; inversion N; subst; exact I.
  - apply (converters_iff back _ M 0 _ CA). intros t name v T V k q I. lra.
Qed.

(** ** C16 Nodal balance *)

(** The exact law: energy on a link from a node to itself is counted once more as
    coming in. *)
Theorem C16_nodal_balance_with_loops : forall answer s r scn,
  api_study s -> plain_sources s -> solved answer s r -> scn < st_nb_scn s -> feasible_answer answer s scn ->
  forall t net nd rn, t < st_horizon s -> rnode_at r net nd = Some rn ->
    (served scn rn t + exported scn rn t + stored scn rn t + sent r scn net nd t ==
     produced scn rn t + imported r scn net nd t + withdrawn scn rn t + received s r scn net nd t + looped scn nd rn t)%Q.
Proof.
  intros answer s r scn A P SV S F. destruct (solved_facts _ _ _ A P SV) as (R & M & C). destruct (C scn S) as (vs & B & CA).
  apply (sat_iff s scn S R _ vs _ B) in F. apply (loops_iff s r R M scn _ CA). apply F.
Qed.

Theorem C16_nodal_balance_partial : forall answer s r scn,
  api_study s -> plain_sources s -> no_self_link s -> solved answer s r -> scn < st_nb_scn s -> feasible_answer answer s scn ->
  balanced s r scn.
Proof.
  intros answer s r scn A P NS SV S F. destruct (solved_facts _ _ _ A P SV) as (R & M & C). destruct (C scn S) as (vs & B & CA).
  apply (sat_iff s scn S R _ vs _ B) in F. apply (balanced_iff s r R M scn _ CA NS). apply F.
Qed.

Example C16_example : api_study mix /\ plain_sources mix /\ no_self_link mix /\ solved mix_answer mix mix_result /\
  feasible_answer mix_answer mix 1 /\ exists rn, rnode_at mix_result "elec" "a" = Some rn /\
  (served 1 rn 0 == 5)%Q /\ (imported mix_result 1 "elec" "a" 0 == 7)%Q /\ (stored 1 rn 0 == 2)%Q.
Proof.
  split; [apply mix_api|]. split; [apply mix_plain|]. split; [apply mix_no_self|]. split; [apply mix_solved|].
  split; [apply mix_feasible; lia|]. eexists. split; [vm_compute; reflexivity|]. repeat split; vm_compute; reflexivity.
Qed.

Theorem C16_nodal_balance_refuted : exists answer s r scn,
  api_study s /\ plain_sources s /\ solved answer s r /\ scn < st_nb_scn s /\ feasible_answer answer s scn /\ ~ balanced s r scn.
Proof.
  exists loop_answer, loop, loop_result, 0. split; [apply loop_api|]. split; [apply loop_plain|]. split; [apply loop_solved|].
  split; [vm_compute; lia|]. split; [apply loop_feasible | apply loop_unbalanced].
Qed.

(** ** C17 Capacities are respected *)
Theorem C17_capacities_respected : forall answer s r scn,
  api_study s -> solved answer s r -> scn < st_nb_scn s -> feasible_answer answer s scn -> capacities_respected s r scn.
Proof.
  intros answer s r scn A SV S F. destruct (solved_weak _ _ _ A SV) as (R & M & C). destruct (C scn S) as ((vs & B) & CA & CS).
  apply (sat_iff s scn S R _ vs _ B) in F. pose proof (xo_bounds _ _ _ F) as XB.
  apply (capacities_but_src s r M scn _ CA (answer scn (program_of s scn))); auto.
  - intros v NV. now apply x_read_other.
  - intros t name v k q T V I. unfold vsrc. cbn [x_read read_result].
    destruct (rconv_at r name) as [rv|] eqn:RV; [|lra]. destruct (dget (fst k, snd k) (ov_src rv)) as [a|] eqn:D; [|lra].
    apply dget_In in D. rewrite (CS name v rv _ a V RV D t T).
    destruct (src_cell_cases (answer scn (program_of s scn)) name v scn t (fst k, snd k)) as [->|(k' & I' & ->)]; [lra|].
    unfold dkeys in I'. apply in_map_iff in I' as ([k2 q2] & E2 & I'). cbn [fst] in E2. subst k2.
    now destruct (xb_src _ _ _ XB t name v k' q2 T V I').
Qed.

Example C17_example : api_study mix /\ solved mix_answer mix mix_result /\ feasible_answer mix_answer mix 0 /\
  capacities_respected mix mix_result 0 /\
  exists rv, rconv_at mix_result "plant" = Some rv /\ (entry (ov_dest rv) 0 1 == 9)%Q /\
  exists rn o, rnode_at mix_result "elec" "b" = Some rn /\ nth_error (on_links rn) 0 = Some o /\ (entry (ol_qty o) 0 0 == 8)%Q.
Proof.
  assert (F : feasible_answer mix_answer mix 0) by (apply mix_feasible; lia).
  split; [apply mix_api|]. split; [apply mix_solved|]. split; [exact F|].
  split; [eapply C17_capacities_respected; [apply mix_api | apply mix_solved | vm_compute; lia | exact F]|].
  eexists. split; [vm_compute; reflexivity|]. split; [vm_compute; reflexivity|]. do 2 eexists. repeat split; vm_compute; reflexivity.
Qed.

(** ** C18 Storage evolution *)

(** The first storage of every node. *)
Theorem C18_first_storage_evolves : forall answer s r scn,
  api_study s -> solved answer s r -> scn < st_nb_scn s -> feasible_answer answer s scn ->
  forall net nd n rn x o, node_at s net nd = Some n -> rnode_at r net nd = Some rn ->
    nth_error (n_stors n) 0 = Some x -> nth_error (on_stors rn) 0 = Some o -> storage_evolves s scn x o.
Proof.
  intros answer s r scn A SV S F net nd n rn x o N Rn E1 E2.
  destruct (solved_weak _ _ _ A SV) as (R & M & C). destruct (C scn S) as ((vs & B) & CA & _).
  apply (sat_iff s scn S R _ vs _ B) in F. pose proof (xo_storage _ _ _ F) as XS.
  destruct (n_stors n) as [|y m] eqn:EN; [discriminate|]. inversion E1; subst y.
  destruct (on_stors rn) as [|p m'] eqn:ER; [discriminate|]. inversion E2; subst p.
  apply (xstorage_first s r scn _ CA net nd n rn x o m m' N Rn EN ER).
  intros t T. specialize (XS t net nd n T N). unfold xstorage in *. rewrite EN in *. cbn [x_read]. destruct t; exact XS.
Qed.

Theorem C18_storage_evolution_partial : forall answer s r scn,
  api_study s -> one_storage s -> solved answer s r -> scn < st_nb_scn s -> feasible_answer answer s scn ->
  storages_evolve s r scn.
Proof.
  intros answer s r scn A One SV S F net nd n rn N Rn.
  destruct (solved_weak _ _ _ A SV) as (R & M & C).
  destruct (mirror_node_l s r M net nd n N) as (rn' & Rn' & L). rewrite Rn in Rn'. inversion Rn'; subst rn'.
  pose proof (Forall2_len _ _ _ (nl_stors _ _ _ L)) as LE. specialize (One net nd n N).
  pose proof (fun x o => C18_first_storage_evolves answer s r scn A SV S F net nd n rn x o N Rn) as H.
  destruct (n_stors n) as [|x [|]], (on_stors rn) as [|o [|]]; simpl in *; try lia; constructor; auto.
Qed.

Example C18_example : api_study mix /\ one_storage mix /\ solved mix_answer mix mix_result /\ feasible_answer mix_answer mix 1 /\
  exists n rn x o, node_at mix "elec" "a" = Some n /\ rnode_at mix_result "elec" "a" = Some rn /\
    nth_error (n_stors n) 0 = Some x /\ nth_error (on_stors rn) 0 = Some o /\
    s_init x = 2%Q /\ (value (s_eff x) 1 0 == 1 # 2)%Q /\ (entry (os_flow_in o) 1 0 == 2)%Q /\ (entry (os_capacity o) 1 0 == 3)%Q.
Proof.
  split; [apply mix_api|]. split; [apply mix_one|]. split; [apply mix_solved|]. split; [apply mix_feasible; lia|].
  do 4 eexists. repeat split; vm_compute; reflexivity.
Qed.

Theorem C18_storage_evolution_refuted : exists answer s r scn,
  api_study s /\ plain_sources s /\ no_self_link s /\ solved answer s r /\ scn < st_nb_scn s /\ feasible_answer answer s scn /\
  ~ storages_evolve s r scn.
Proof.
  exists twin_answer, twin, twin_result, 0. split; [apply twin_api|]. split; [apply twin_plain|].
  split; [apply no_self_linkb_ok; vm_compute; reflexivity|]. split; [apply twin_solved|].
  split; [vm_compute; lia|]. split; [apply twin_feasible | apply twin_wrong].
Qed.

(** ** C19 Converter law *)
Theorem C19_converter_law_partial : forall answer s r scn,
  api_study s -> plain_sources s -> solved answer s r -> scn < st_nb_scn s -> feasible_answer answer s scn ->
  converters_convert s r scn.
Proof.
  intros answer s r scn A P SV S F. destruct (solved_facts _ _ _ A P SV) as (R & M & C). destruct (C scn S) as (vs & B & CA).
  apply (sat_iff s scn S R _ vs _ B) in F. apply (converters_iff s r M scn _ CA). apply F.
Qed.

Example C19_example : api_study mix /\ plain_sources mix /\ solved mix_answer mix mix_result /\ feasible_answer mix_answer mix 0 /\
  exists rv a, rconv_at mix_result "plant" = Some rv /\ ov_src rv = [(("gas", "g"), a)] /\
    (entry a 0 1 == 18)%Q /\ (entry (ov_dest rv) 0 1 == 9)%Q.
Proof.
  split; [apply mix_api|]. split; [apply mix_plain|]. split; [apply mix_solved|]. split; [apply mix_feasible; lia|].
  do 2 eexists. repeat split; vm_compute; reflexivity.
Qed.

(** Sources ("a:", "b") and ("a", ":b") have the same joined name "a:::b". *)
Definition clash_calls : list call :=
  [ OnStudy_network "a:"; OnSel 0 (MNode "b"); OnSel 1 (MProduction "p" (jn 1) (jn 10)); OnSel 2 (MToConverter "cv" (jn 1));
    OnSel 3 (MNetwork "a"); OnSel 4 (MNode ":b"); OnSel 5 (MProduction "p" (jn 1) (jn 10)); OnSel 6 (MToConverter "cv" (jn 1));
    OnSel 7 (MNode "c"); OnSel 8 (MConsumption "load" (jn 100) (jn 10));
    OnSel 9 (MConverter "cv" "a" "c" (jn 10) (jn 0)) ].
Definition clash : study := Eval vm_compute in w_study (run (start 1 1 None) clash_calls).
Lemma clash_api : api_study clash.
Proof. exists 1, 1, None, clash_calls. split; [lia|]. split; [lia|]. split; [plain_tac | vm_compute; reflexivity]. Qed.
Definition clash_x (v : var) : Q := match v with VLol _ _ _ _ => 0 | _ => 10 end%Q.
Definition clash_answer (_ : nat) (_ : solver) : var -> Q := clash_x.
Definition clash_result : result := Eval vm_compute in
  match solve_lp clash_answer [0] no_bench clash with Ok r => r | Err _ => Result [] [] no_bench end.
Lemma clash_solved : solved clash_answer clash clash_result.
Proof. exists [0], no_bench. split; [reflexivity | vm_compute; reflexivity]. Qed.
Lemma clash_feasible : feasible_answer clash_answer clash 0.
Proof. apply satb_ok. vm_compute. reflexivity. Qed.

Theorem C19_converter_law_refuted : exists answer s r scn,
  api_study s /\ solved answer s r /\ scn < st_nb_scn s /\ feasible_answer answer s scn /\ ~ converters_convert s r scn.
Proof.
  exists clash_answer, clash, clash_result, 0. split; [apply clash_api|]. split; [apply clash_solved|].
  split; [vm_compute; lia|]. split; [apply clash_feasible|].
  intros H. specialize (H "cv" _ _ 0 eq_refl eq_refl ltac:(vm_compute; lia)). inversion H as [|? ? ? ? H1 _]; subst.
  vm_compute in H1. discriminate.
Qed.

(** The balance of node "b" of network "a:" fails for the same reason. *)
Theorem C16_nodal_balance_refuted_by_names : exists answer s r scn,
  api_study s /\ no_self_link s /\ solved answer s r /\ scn < st_nb_scn s /\ feasible_answer answer s scn /\ ~ balanced s r scn.
Proof.
  exists clash_answer, clash, clash_result, 0. split; [apply clash_api|]. split; [apply no_self_linkb_ok; vm_compute; reflexivity|].
  split; [apply clash_solved|]. split; [vm_compute; lia|]. split; [apply clash_feasible|].
  intros H. specialize (H 0 "a:" "b" _ ltac:(vm_compute; lia) eq_refl). vm_compute in H. discriminate.
Qed.

(** ** C26 Scenario independence *)
Theorem C26_scenario_independence : forall answer s1 s2 r1 r2 scn,
  api_study s1 -> api_study s2 -> solved answer s1 r1 -> solved answer s2 r2 ->
  scn < st_nb_scn s1 -> scn < st_nb_scn s2 -> st_horizon s1 = st_horizon s2 -> agree (st_horizon s1) scn s1 s2 ->
  program_of s1 scn = program_of s2 scn /\ same_scenario (st_horizon s1) scn r1 r2.
Proof.
  intros answer s1 s2 r1 r2 scn A1 A2 V1 V2 S1 S2 H A.
  destruct (solved_weak _ _ _ A1 V1) as (R1 & M1 & C1). destruct (solved_weak _ _ _ A2 V2) as (R2 & M2 & C2).
  split; [now apply program_of_agree|]. destruct (C1 scn S1) as [_ D1], (C2 scn S2) as [_ D2].
  eapply (same_scenario_of s1 s2 scn H A R1 R2 S1 S2 answer); eauto.
Qed.

(** The same study with other loads in the other scenario. *)
Definition mix2_calls : list call :=
  map (fun c => match c with
                | OnSel i (MConsumption nm k _) => OnSel i (MConsumption nm k (jm [[1; 2]; [5; 7]]%Z))
                | _ => c end) mix_calls.
Definition mix2 : study := Eval vm_compute in w_study (run (start 2 2 None) mix2_calls).
Definition mix2_result : result := Eval vm_compute in
  match solve_lp mix_answer [0; 1] no_bench mix2 with Ok r => r | Err _ => Result [] [] no_bench end.

Example C26_example : api_study mix2 /\ solved mix_answer mix2 mix2_result /\ mix2 <> mix /\ agree 2 1 mix mix2 /\ ~ agree 2 0 mix mix2.
Proof.
  split. { exists 2, 2, None, mix2_calls. split; [lia|]. split; [lia|]. split; [unfold mix2_calls; plain_tac | vm_compute; reflexivity]. }
  split. { exists [0; 1], no_bench. split; [reflexivity | vm_compute; reflexivity]. }
  split; [discriminate|]. split.
  - constructor.
    + repeat constructor; intros t T; destruct t as [|[|]]; try lia; reflexivity.
    + repeat constructor; intros t T; destruct t as [|[|]]; try lia; reflexivity.
  - intros [H _]. inversion H as [|? ? ? ? [_ H1] _]; subst. inversion H1 as [|? ? ? ? [_ H2] _]; subst. destruct H2 as [H2 _ _ _].
    inversion H2 as [|? ? ? ? (_ & _ & H3) _]; subst. specialize (H3 0 ltac:(lia)). vm_compute in H3. discriminate.
Qed.

(** ** C27 The result mirrors the study *)

(** Everything but the flows at sources of converters, whatever the names. *)
Theorem C27_result_mirrors_study_partial : forall answer s r,
  api_study s -> plain_sources s -> solved answer s r ->
  mirrors s r /\ forall scn, scn < st_nb_scn s -> carries_answer s r scn (answer scn (program_of s scn)).
Proof.
  intros answer s r A P SV. destruct (solved_facts _ _ _ A P SV) as (R & M & C). split; auto. intros scn S. now destruct (C scn S) as (_ & _ & ?).
Qed.

Theorem C27_result_mirrors_study_any_names : forall answer s r, api_study s -> solved answer s r ->
  mirrors s r /\ forall scn, scn < st_nb_scn s -> exists x, carries_answer s r scn x /\
    forall v, (forall c net nd t, v <> VSrc c net nd t) -> x v = answer scn (program_of s scn) v.
Proof.
  intros answer s r A SV. destruct (solved_weak _ _ _ A SV) as (R & M & C). split; auto. intros scn S. destruct (C scn S) as (_ & CA & _).
  eexists. split; [exact CA|]. intros v H. symmetry. now apply x_read_other.
Qed.

(** The order in which workers complete does not matter, and every order is possible. *)
Theorem C27_any_completion_order : forall answer s sched1 sched2 bench,
  api_study s -> usable_converters s -> plain_sources s ->
  Permutation sched1 (seq 0 (st_nb_scn s)) -> Permutation sched2 (seq 0 (st_nb_scn s)) ->
  exists r, solve_lp answer sched1 bench s = Ok r /\ solve_lp answer sched2 bench s = Ok r.
Proof.
  intros answer s sched1 sched2 bench A U P P1 P2. pose proof (api_ready s A U) as R.
  destruct (solve_lp_ok s bench R P answer sched1 P1) as (r & E1 & _). exists r. split; auto.
  destruct (solve_lp_ok s bench R P answer sched2 P2) as (r2 & E2 & _).
  unfold solve_lp in *.
  destruct (pool_map_ok (fun scn => solve_batch (answer scn) s scn)
     (fun scn => map (step_answer (answer scn (program_of s scn))) (map (pstep s scn) (seq 0 (st_horizon s)))) (st_nb_scn s) sched1) as (l1 & F1 & H1); auto.
  { intros i Hi. unfold solve_batch, program_of. destruct (build_ok s i Hi R) as (p & -> & _). reflexivity. }
  destruct (pool_map_ok (fun scn => solve_batch (answer scn) s scn)
     (fun scn => map (step_answer (answer scn (program_of s scn))) (map (pstep s scn) (seq 0 (st_horizon s)))) (st_nb_scn s) sched2) as (l2 & F2 & H2); auto.
  { intros i Hi. unfold solve_batch, program_of. destruct (build_ok s i Hi R) as (p & -> & _). reflexivity. }
  rewrite F1 in E1. rewrite F2. cbn [rbind] in *.
  assert (X : forall l o, (forall i, In i l -> i < st_nb_scn s) -> foldM (write_scn s l1) l o = foldM (write_scn s l2) l o).
  { induction l as [|i l IH]; intros o H; auto. cbn [foldM]. unfold write_scn at 1 3, lnth. rewrite H1, H2 by (apply H; left; auto).
    cbn [rbind]. destruct (foldM (fun o t => write_step s i t _ o) (seq 0 (st_horizon s)) o); auto. cbn [rbind]. apply IH. intros j J. apply H. now right. }
  rewrite <- X; [exact E1|]. intros i I. apply in_seq in I. lia.
Qed.

Example C27_example : api_study mix /\ plain_sources mix /\ usable_converters mix /\ solved mix_answer mix mix_result /\
  Permutation [1; 0] (seq 0 (st_nb_scn mix)) /\ Permutation [0; 1] (seq 0 (st_nb_scn mix)) /\
  solve_lp mix_answer [0; 1] no_bench mix = solve_lp mix_answer [1; 0] no_bench mix /\
  map fst (r_networks mix_result) = ["elec"; "gas"].
Proof.
  split; [apply mix_api|]. split; [apply mix_plain|]. split; [apply mix_usable|]. split; [apply mix_solved|].
  split; [apply perm_swap|]. split; [reflexivity|]. split; vm_compute; reflexivity.
Qed.

Theorem C27_result_mirrors_study_refuted : exists answer s r scn,
  api_study s /\ solved answer s r /\ scn < st_nb_scn s /\ ~ carries_answer s r scn (answer scn (program_of s scn)).
Proof.
  exists clash_answer, clash, clash_result, 0. split; [apply clash_api|]. split; [apply clash_solved|]. split; [vm_compute; lia|].
  intros H. pose proof (ca_src _ _ _ _ H "cv" _ _ "a:" "b" _ 0 ltac:(vm_compute; lia) eq_refl eq_refl (or_introl eq_refl)) as E.
  vm_compute in E. discriminate.
Qed.

(** ** C28 Network energy conservation *)
Theorem C28_network_energy_with_loops : forall answer s r scn,
  api_study s -> plain_sources s -> solved answer s r -> scn < st_nb_scn s -> feasible_answer answer s scn ->
  forall t net rns, t < st_horizon s -> dget net (r_networks r) = Some rns ->
  (total (fun kr => produced scn (snd kr) t + withdrawn scn (snd kr) t + received s r scn net (fst kr) t) rns
   + total (fun kr => looped scn (fst kr) (snd kr) t) rns ==
   total (fun kr => served scn (snd kr) t + stored scn (snd kr) t + sent r scn net (fst kr) t) rns)%Q.
Proof.
  intros answer s r scn A P SV S F t net rns T D. destruct (solved_facts _ _ _ A P SV) as (R & M & _).
  apply (network_energy s r scn t net rns (rd_wf _ R) M D T). exact (C16_nodal_balance_with_loops answer s r scn A P SV S F).
Qed.

Theorem C28_network_energy_partial : forall answer s r scn,
  api_study s -> plain_sources s -> no_self_link s -> solved answer s r -> scn < st_nb_scn s -> feasible_answer answer s scn ->
  network_conserves s r scn.
Proof.
  intros answer s r scn A P NS SV S F t net rns T D.
  pose proof (C28_network_energy_with_loops answer s r scn A P SV S F t net rns T D) as E.
  destruct (solved_facts _ _ _ A P SV) as (R & M & _).
  assert (Z : (total (fun kr => looped scn (fst kr) (snd kr) t) rns == 0)%Q).
  { unfold total. apply qsum_map_zero. intros [nd rn] I. cbn [fst snd]. apply (no_loop s r M scn t net nd rn NS).
    unfold rnode_at. rewrite D. apply In_dget; auto. eapply rns_NoDup; eauto using rd_wf. }
  lra.
Qed.

Example C28_example : api_study mix /\ plain_sources mix /\ no_self_link mix /\ solved mix_answer mix mix_result /\ feasible_answer mix_answer mix 0 /\
  exists rns, dget "elec" (r_networks mix_result) = Some rns /\
    (total (fun kr => produced 0 (snd kr) 1 + withdrawn 0 (snd kr) 1 + received mix mix_result 0 "elec" (fst kr) 1) rns == 17)%Q.
Proof.
  split; [apply mix_api|]. split; [apply mix_plain|]. split; [apply mix_no_self|]. split; [apply mix_solved|].
  split; [apply mix_feasible; lia|]. eexists. split; [vm_compute; reflexivity|]. vm_compute. reflexivity.
Qed.

Theorem C28_network_energy_refuted : exists answer s r scn,
  api_study s /\ plain_sources s /\ solved answer s r /\ scn < st_nb_scn s /\ feasible_answer answer s scn /\ ~ network_conserves s r scn.
Proof.
  exists loop_answer, loop, loop_result, 0. split; [apply loop_api|]. split; [apply loop_plain|]. split; [apply loop_solved|].
  split; [vm_compute; lia|]. split; [apply loop_feasible|].
  intros H. specialize (H 0 "net" _ ltac:(vm_compute; lia) eq_refl). vm_compute in H. discriminate.
Qed.

(** ** C29 Solving does not depend on names *)
Theorem C29_solving_any_names_partial : forall answer s sched bench,
  api_study s -> usable_converters s -> plain_sources s -> Permutation sched (seq 0 (st_nb_scn s)) ->
  exists r, solve_lp answer sched bench s = Ok r.
Proof.
  intros answer s sched bench A U P SC. pose proof (api_ready s A U) as R.
  destruct (solve_lp_ok s bench R P answer sched SC) as (r & E & _). eauto.
Qed.

(** A study without converter is solved whatever its names. *)
Corollary C29_solving_without_converter : forall answer s sched bench,
  api_study s -> st_converters s = [] -> Permutation sched (seq 0 (st_nb_scn s)) ->
  exists r, solve_lp answer sched bench s = Ok r.
Proof.
  intros answer s sched bench A E SC. apply C29_solving_any_names_partial; auto.
  - intros name v V. unfold conv_at in V. rewrite E in V. discriminate.
  - intros name v k V. unfold conv_at in V. rewrite E in V. discriminate.
Qed.

(** Names with spaces, empty names, names alike. *)
Definition odd_calls : list call :=
  [ OnStudy_network ""; OnSel 0 (MNode ""); OnSel 1 (MConsumption "" (jn 1000) (jn 10));
    OnSel 2 (MNode "a b::c"); OnSel 3 (MProduction "" (jn 10) (jn 20)); OnSel 4 (MLink "a b::c" "" (jn 1) (jn 20)) ].
Definition odd : study := Eval vm_compute in w_study (run (start 1 1 None) odd_calls).
Example C29_example : api_study mix /\ usable_converters mix /\ plain_sources mix /\ Permutation [1; 0] (seq 0 (st_nb_scn mix)) /\
  api_study odd /\ st_converters odd = [] /\ map fst (st_networks odd) = [""].
Proof.
  split; [apply mix_api|]. split; [apply mix_usable|]. split; [apply mix_plain|]. split; [apply perm_swap|].
  split; [|split; reflexivity]. exists 1, 1, None, odd_calls. split; [lia|]. split; [lia|]. split; [plain_tac | vm_compute; reflexivity].
Qed.

(** A source node named "x::y": every solve raises KeyError. *)
Definition colon_calls : list call :=
  [ OnStudy_network "net"; OnSel 0 (MNode "x::y"); OnSel 1 (MToConverter "cv" (jn 1));
    OnSel 2 (MNode "b"); OnSel 3 (MConverter "cv" "net" "b" (jn 10) (jn 0)) ].
Definition colon : study := Eval vm_compute in w_study (run (start 1 1 None) colon_calls).
Theorem C29_solving_any_names_refuted : exists s, api_study s /\ usable_converters s /\
  forall answer sched bench, Permutation sched (seq 0 (st_nb_scn s)) -> solve_lp answer sched bench s = Err KeyError.
Proof.
  exists colon. split. { exists 1, 1, None, colon_calls. split; [lia|]. split; [lia|]. split; [plain_tac | vm_compute; reflexivity]. }
  split; [apply usableb_ok; vm_compute; reflexivity|].
  intros answer sched bench P. apply Permutation_sym, Permutation_length_1_inv in P. subst sched. vm_compute. reflexivity.
Qed.

Print Assumptions C15_program_is_documented_partial.
Print Assumptions C15_objective_is_documented.
Print Assumptions C15_program_is_documented_refuted_by_self_link.
Print Assumptions C15_program_is_documented_refuted_by_second_storage.
Print Assumptions C15_program_is_documented_refuted_by_negative_ratio.
Print Assumptions C16_nodal_balance_with_loops.
Print Assumptions C16_nodal_balance_partial.
Print Assumptions C16_nodal_balance_refuted.
Print Assumptions C17_capacities_respected.
Print Assumptions C18_first_storage_evolves.
Print Assumptions C18_storage_evolution_partial.
Print Assumptions C18_storage_evolution_refuted.
Print Assumptions C19_converter_law_partial.
Print Assumptions C19_converter_law_refuted.
Print Assumptions C16_nodal_balance_refuted_by_names.
Print Assumptions C26_scenario_independence.
Print Assumptions C27_result_mirrors_study_partial.
Print Assumptions C27_result_mirrors_study_any_names.
Print Assumptions C27_any_completion_order.
Print Assumptions C27_result_mirrors_study_refuted.
Print Assumptions C28_network_energy_with_loops.
Print Assumptions C28_network_energy_partial.
Print Assumptions C28_network_energy_refuted.
Print Assumptions C29_solving_any_names_partial.
Print Assumptions C29_solving_without_converter.
Print Assumptions C29_solving_any_names_refuted.
