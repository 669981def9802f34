(** C15 and C20 for every study: exactly what the linear program asks for. *)
From Coq Require Import String Ascii List ZArith QArith Bool Arith Lia Lqa Permutation Sorted.
From Verif Require Import Base BaseFacts Numeric Study Fluent Output LP SpecStudy SpecLP StudyFacts LPBuild LPFacts LPSat LPResult LPReady LPSolve LPWeak LPMore P_LP P_Opt.
Import ListNotations.
Open Scope nat_scope.
Open Scope string_scope.
Open Scope list_scope.

(** ** Specification: the documented model, but for three points *)

(** Energy on a link from a node to itself is counted once more as coming in. *)
Definition balanced_with_loops (s : study) (r : result) (scn : nat) : Prop := forall t net nd rn,
  t < st_horizon s -> rnode_at r net nd = Some rn ->
  (served scn rn t + exported scn rn t + stored scn rn t + sent r scn net nd t ==
   produced scn rn t + imported r scn net nd t + withdrawn scn rn t + received s r scn net nd t + looped scn nd rn t)%Q.
(** Only the first storage of a node follows its flows. *)
Definition first_storages_evolve (s : study) (r : result) (scn : nat) : Prop := forall net nd n rn x xs o os,
  node_at s net nd = Some n -> rnode_at r net nd = Some rn -> n_stors n = x :: xs -> on_stors rn = o :: os ->
  storage_evolves s scn x o.
(** A source flow is limited by the maximum divided by the ratio, whatever its sign. *)
Definition sources_limited (s : study) (r : result) (scn : nat) : Prop := forall name v rv t,
  conv_at s name = Some v -> rconv_at r name = Some rv -> t < st_horizon s ->
  Forall2 (fun (kr : string * string * numval) (ka : string * string * ndarray) =>
             (entry (snd ka) scn t <= ovalue (v_max v) scn t / value (snd kr) scn t)%Q) (v_src v) (ov_src rv).

Record law_ok (s : study) (r : result) (scn : nat) : Prop := {
  lw_capacities : capacities_respected s r scn;
  lw_sources : sources_limited s r scn;
  lw_balance : balanced_with_loops s r scn;
  lw_storages : first_storages_evolve s r scn;
  lw_converters : converters_convert s r scn
}.

(** ** Proofs *)
Lemma law_iff s r (R : laid s) (M : mirrors s r) scn x (C : carries_answer s r scn x) : scn < st_nb_scn s -> (law_ok s r scn <-> xok s scn x).
Proof.
  intros S. split.
  - intros [CR SL BL FS CC]. constructor.
    + apply (bounds_of_room s r R M scn x C S); auto. intros name v k q t V I T. right.
      destruct (mirror_conv_l s r M _ _ V) as (rv & Rv & _). specialize (SL name v rv t V Rv T).
      pose proof (conv_src_rel s r M scn x C t T name v rv V Rv) as F.
      apply In_nth_error in I as [i I]. destruct (Forall2_get _ _ _ _ _ SL I) as ([k' a] & J & LE). cbn [fst snd] in LE.
      destruct (CR t T) as [_ CV]. destruct (CV name v rv V Rv) as [_ SRC]. apply nth_error_In in J. specialize (SRC _ _ J). lra.
    + apply (loops_iff s r R M scn x C). exact BL.
    + intros t net nd n T N. destruct (mirror_node_l s r M _ _ _ N) as (rn & Rn & L). unfold xstorage. destruct (n_stors n) as [| y m] eqn:E; auto.
      pose proof (Forall2_len _ _ _ (nl_stors _ _ _ L)) as LE. rewrite E in LE. destruct (on_stors rn) as [| o m'] eqn:E'; [discriminate |].
      pose proof (proj1 (xstorage_first s r scn x C net nd n rn y o m m' N Rn E E') (FS net nd n rn y m o m' N Rn E E') t T) as X.
      unfold xstorage in X. now rewrite E in X.
    + apply (converters_iff s r M scn x C). exact CC.
  - intros [XB XA XS XM]. constructor.
    + apply (capacities_of_bounds s r M scn x C). exact XB.
    + intros name v rv t V Rv T. pose proof (conv_src_rel s r M scn x C t T name v rv V Rv) as F.
      apply Forall2_In in F. eapply Forall2_imp; [| exact F]. intros [k q] [k' a] (I & J & EK & EA). cbn [fst snd] in *.
      destruct (xb_src _ _ _ XB t name v k q T V I) as [_ U]. rewrite EA. exact U.
    + apply (loops_iff s r R M scn x C). exact XA.
    + intros net nd n rn y m o m' N Rn E E'. apply (xstorage_first s r scn x C net nd n rn y o m m' N Rn E E'). intros t T. apply XS; auto.
    + apply (converters_iff s r M scn x C). exact XM.
Qed.

(** ** C15 *)

(** For every study the API builds: every dispatch is a point of the program and
    every point a dispatch, the points that satisfy the program are the dispatches
    that follow these laws, and their value is the cost. *)
Theorem C15_program_exact : forall s scn, api_study s -> usable_converters s -> scn < st_nb_scn s ->
  (exists vs, build s scn = Ok (program_of s scn, vs)) /\
  (forall r, mirrors s r -> exists x, carries_answer s r scn x) /\
  (forall x, exists r, mirrors s r /\ carries_answer s r scn x) /\
  forall r x, mirrors s r -> carries_answer s r scn x ->
    (satisfies (program_of s scn) x <-> law_ok s r scn) /\ (objective (program_of s scn) x == total_cost s r scn)%Q.
Proof.
  intros s scn A U S. pose proof (api_ready s A U) as R.
  assert (B : exists vs, build s scn = Ok (program_of s scn, vs)).
  { destruct (build_ok s scn S R) as (p & B & _). eexists. unfold program_of. rewrite B. reflexivity. }
  split; auto. destruct B as (vs & B). split; [| split].
  - intros r M. exists (read_result s r scn). solve [apply read_carries; auto].
  - intros x. exists (result_of s (fun _ => x)). split; [apply result_of_mirrors | apply (result_of_carries s (fun _ => x)); auto].
  - intros r x M CA. split.
    + rewrite (sat_iff s scn S R _ vs _ B). symmetry. solve [apply law_iff; auto].
    + rewrite (objective_value s scn S R _ vs _ B). symmetry. solve [apply cost_eq; auto].
Qed.

Definition nothing_looped (s : study) (r : result) (scn : nat) : Prop := forall t net nd rn,
  t < st_horizon s -> rnode_at r net nd = Some rn -> (looped scn nd rn t == 0)%Q.

(** A dispatch the program accepts is a documented one exactly when no energy runs
    on a link from a node to itself and the other storages evolve too. *)
Theorem C15_when_documented : forall s r scn, law_ok s r scn ->
  (dispatch_ok s r scn <-> nothing_looped s r scn /\ storages_evolve s r scn).
Proof.
  intros s r scn [CR SL BL FS CC]. split.
  - intros [_ B E _]. split; auto. intros t net nd rn T N. specialize (BL t net nd rn T N). specialize (B t net nd rn T N). lra.
  - intros [NL E]. constructor; auto. intros t net nd rn T N. specialize (BL t net nd rn T N). specialize (NL t net nd rn T N). lra.
Qed.

(** A documented dispatch is refused exactly when energy runs on such a link or a
    source flow passes the maximum divided by its ratio. *)
Theorem C15_when_accepted : forall s r scn, mirrors s r -> dispatch_ok s r scn ->
  (law_ok s r scn <-> nothing_looped s r scn /\ sources_limited s r scn).
Proof.
  intros s r scn M [CR B E CC]. split.
  - intros [_ SL BL _ _]. split; auto. intros t net nd rn T N. specialize (BL t net nd rn T N). specialize (B t net nd rn T N). lra.
  - intros [NL SL]. constructor; auto.
    + intros t net nd rn T N. specialize (B t net nd rn T N). specialize (NL t net nd rn T N). lra.
    + intros net nd n rn x xs o os N Rn EX EO. specialize (E net nd n rn N Rn). rewrite EX, EO in E. now inversion E.
Qed.

(** The study with a link from a node to itself and the one with two storages: what
    the program accepts there, outside the documented model. *)
Example C15_exact_example :
  (api_study loop /\ usable_converters loop /\ mirrors loop loop_result /\ law_ok loop loop_result 0 /\
   ~ dispatch_ok loop loop_result 0) /\
  (api_study twin /\ usable_converters twin /\ mirrors twin twin_result /\ law_ok twin twin_result 0 /\
   nothing_looped twin twin_result 0 /\ ~ dispatch_ok twin twin_result 0).
Proof.
  split.
  - pose proof (solved_facts _ _ _ loop_api loop_plain loop_solved) as (R & M & C).
    destruct (C 0 ltac:(vm_compute; lia)) as (vs & B & CA).
    split; [apply loop_api |]. split; [apply loop_usable |]. split; auto. split.
    + destruct (C15_program_exact loop 0 loop_api loop_usable ltac:(vm_compute; lia)) as (_ & _ & _ & D).
      apply (D _ _ M CA). apply loop_feasible.
    + intros [_ H _ _]. now apply loop_unbalanced.
  - pose proof (solved_facts _ _ _ twin_api twin_plain twin_solved) as (R & M & C).
    destruct (C 0 ltac:(vm_compute; lia)) as (vs & B & CA).
    split; [apply twin_api |]. split; [apply twin_usable |]. split; auto.
    destruct (C15_program_exact twin 0 twin_api twin_usable ltac:(vm_compute; lia)) as (_ & _ & _ & D).
    assert (L : law_ok twin twin_result 0) by (apply (D _ _ M CA); apply twin_feasible).
    split; auto. split.
    + intros t net nd rn T N. pose proof (C16_nodal_balance_partial twin_answer twin twin_result 0 twin_api twin_plain
        ltac:(apply no_self_linkb_ok; vm_compute; reflexivity) twin_solved ltac:(vm_compute; lia) twin_feasible t net nd rn T N).
      pose proof (lw_balance _ _ _ L t net nd rn T N). lra.
    + intros [_ _ H _]. now apply twin_wrong.
Qed.

(** ** C20 *)

(** For every study with plain source names: the answer is optimal exactly when the
    result follows these laws and no other result that does is cheaper. *)
Theorem C20_cost_optimal_exact : forall answer s r scn,
  api_study s -> plain_sources s -> solved answer s r -> scn < st_nb_scn s ->
  (optimal_answer answer s scn <->
   law_ok s r scn /\ forall r', mirrors s r' -> law_ok s r' scn -> (total_cost s r scn <= total_cost s r' scn)%Q).
Proof.
  intros answer s r scn A P SV S. assert (U : usable_converters s) by (destruct (api_facts s A) as (W & K & Hh & Hn); eapply solved_usable; eauto).
  destruct (solved_facts _ _ _ A P SV) as (_ & M & C). destruct (C scn S) as (_ & _ & CA).
  destruct (C15_program_exact s scn A U S) as (_ & DX & XD & D). destruct (D _ _ M CA) as [DF DO]. unfold optimal_answer. split.
  - intros [F Best]. split; [now apply DF |]. intros r' M' L'. destruct (DX r' M') as (x' & CA').
    destruct (D _ _ M' CA') as [DF' DO']. apply DF' in L'. specialize (Best _ L'). rewrite DO, DO' in Best. exact Best.
  - intros [L Best]. split; [now apply DF |]. intros y F. destruct (XD y) as (r' & M' & CA'). destruct (D _ _ M' CA') as [DF' DO'].
    apply DF' in F. specialize (Best _ M' F). rewrite <- DO, <- DO' in Best. exact Best.
Qed.

(** Whatever the names: no result that follows these laws is cheaper than that of an
    optimal answer. *)
Theorem C20_never_beaten : forall answer s r scn,
  api_study s -> solved answer s r -> scn < st_nb_scn s -> optimal_answer answer s scn ->
  forall r', mirrors s r' -> law_ok s r' scn -> (total_cost s r scn <= total_cost s r' scn)%Q.
Proof.
  intros answer s r scn A SV S [F Best] r' M' L'. assert (U : usable_converters s) by (destruct (api_facts s A) as (W & K & Hh & Hn); eapply solved_usable; eauto).
  destruct (solved_weak _ _ _ A SV) as (R & M & C). destruct (C scn S) as ((vs & B) & CA & _).
  destruct (C15_program_exact s scn A U S) as (_ & DX & _ & D). destruct (DX r' M') as (x' & CA').
  destruct (D _ _ M' CA') as [DF' DO']. apply DF' in L'. specialize (Best _ L'). rewrite DO' in Best.
  rewrite (objective_value s scn S R _ vs _ B) in Best. rewrite (cost_eq s r R M scn _ CA). exact Best.
Qed.

(** In the study with a link from a node to itself the optimum serves ten units of
    load out of nothing, for the price of the link. *)
Definition loop0 : solver := Eval vm_compute in program_of loop 0.
Lemma loop_optimal : optimal_answer loop_answer loop 0.
Proof.
  unfold optimal_answer, loop_answer. change (program_of loop 0) with loop0. split.
  - apply satb_ok. vm_compute. reflexivity.
  - intros y F. pose proof (satisfies_vars _ _ F) as V. pose proof (satisfies_cons _ _ F) as K.
    unfold loop0 in V, K. cbn [sv_vars sv_cons] in V, K. open_forall V. open_forall K.
    assert (E : (objective loop0 loop_x == 10)%Q) by (vm_compute; reflexivity). rewrite E. cbn. lra.
Qed.
Example C20_exact_example : api_study loop /\ plain_sources loop /\ solved loop_answer loop loop_result /\
  optimal_answer loop_answer loop 0 /\ law_ok loop loop_result 0 /\ (total_cost loop loop_result 0 == 10)%Q /\
  exists r', mirrors loop r' /\ law_ok loop r' 0 /\ (total_cost loop r' 0 == 10000)%Q.
Proof.
  split; [apply loop_api |]. split; [apply loop_plain |]. split; [apply loop_solved |]. split; [apply loop_optimal |].
  split; [apply C15_exact_example |]. split; [vm_compute; reflexivity |].
  pose (x := fun v : var => match v with VLol _ _ _ _ => 10 | _ => 0 end%Q).
  exists (result_of loop (fun _ => x)). pose proof (result_of_mirrors loop (fun _ => x)) as M. split; auto. split; [| vm_compute; reflexivity].
  destruct (C15_program_exact loop 0 loop_api loop_usable ltac:(vm_compute; lia)) as (_ & _ & _ & D).
  apply (D _ x M); [apply (result_of_carries loop (fun _ => x)); vm_compute; lia |].
  apply satb_ok. vm_compute. reflexivity.
Qed.

(** ** C21 *)

(** No bound is negative; for the source of a converter the bound is the maximum
    divided by the ratio. *)
Record room (s : study) (scn : nat) : Prop := {
  rm_cons : forall net nd n c t, node_at s net nd = Some n -> In c (n_cons n) -> t < st_horizon s -> (0 <= value (c_qty c) scn t)%Q;
  rm_prods : forall net nd n c t, node_at s net nd = Some n -> In c (n_prods n) -> t < st_horizon s -> (0 <= value (p_qty c) scn t)%Q;
  rm_links : forall net nd n c t, node_at s net nd = Some n -> In c (n_links n) -> t < st_horizon s -> (0 <= value (l_qty c) scn t)%Q;
  rm_stors : forall net nd n x t, node_at s net nd = Some n -> In x (n_stors n) -> t < st_horizon s ->
    (0 <= value (s_capacity x) scn t /\ 0 <= value (s_flow_in x) scn t /\ 0 <= value (s_flow_out x) scn t)%Q;
  rm_dests : forall name v t, conv_at s name = Some v -> t < st_horizon s -> (0 <= ovalue (v_max v) scn t)%Q;
  rm_srcs : forall name v k q t, conv_at s name = Some v -> In (k, q) (v_src v) -> t < st_horizon s ->
    (0 <= ovalue (v_max v) scn t / value q scn t)%Q
}.
(** The initial content of the first storage of each node fits at all times. *)
Definition first_fits (s : study) (scn : nat) : Prop := forall net nd n x xs t,
  node_at s net nd = Some n -> n_stors n = x :: xs -> t < st_horizon s -> (0 <= s_init x <= value (s_capacity x) scn t)%Q.

(** Everything shed, the first storage of each node kept full, the others empty. *)
Definition shed_first (s : study) (scn : nat) (v : var) : Q :=
  match v with
  | VCap _ _ (S _) _ => 0%Q
  | _ => shed_all s scn v
  end.
Lemma shed_first_ok s scn : room s scn -> first_fits s scn -> xok s scn (shed_first s scn).
Proof.
  intros N F. constructor.
  - constructor.
    + intros t net nd n i c T E I. cbn [shed_first shed_all]. rewrite E, I. apply nth_error_In in I. pose proof (rm_cons _ _ N _ _ _ _ t E I T). split; lra.
    + intros t net nd n i c T E I. cbn [shed_first shed_all]. apply nth_error_In in I. pose proof (rm_prods _ _ N _ _ _ _ t E I T). split; lra.
    + intros t net nd n i c T E I. pose proof (nth_error_In _ _ I) as J. destruct (rm_stors _ _ N _ _ _ _ t E J T) as (? & ? & ?). cbn [shed_first shed_all].
      unfold within. destruct i as [| i]; [| repeat split; lra]. rewrite E, I. destruct (n_stors n) as [| y m] eqn:EN; [discriminate |]. cbn in I. inversion I; subst y.
      pose proof (F _ _ _ _ _ t E EN T). repeat split; lra.
    + intros t net nd n i c T E I. cbn [shed_first shed_all]. apply nth_error_In in I. pose proof (rm_links _ _ N _ _ _ _ t E I T). split; lra.
    + intros t name v k q T E I. cbn [shed_first shed_all vsrc]. pose proof (rm_srcs _ _ N _ _ _ _ t E I T). split; lra.
    + intros t name v T E. cbn [shed_first shed_all]. pose proof (rm_dests _ _ N _ _ t E T). split; lra.
  - intros t net nd n T E. unfold xbalance, xnode, ximport, xself. cbn [shed_first shed_all]. rewrite E.
    rewrite (sumi_ext _ (fun _ c => value (c_qty c) scn t)) by (intros j c J; rewrite J; reflexivity). rewrite (sumi_map (fun c => value (c_qty c) scn t)).
    rewrite (sumi_zero _ (n_prods n)) by (intros; reflexivity). rewrite (sumi_zero _ (n_stors n)) by (intros; lra).
    rewrite !(sumi_zero _ (n_links n)) by (intros j l _; try destruct (String.eqb (l_dest l) nd); reflexivity).
    rewrite (qsum_map_zero _ (nodes_in s net)) by (intros [nd2 n2] _; apply sumi_zero; intros j l _; destruct (String.eqb (l_dest l) nd); reflexivity).
    rewrite (qsum_map_zero _ (st_converters s)); [lra|]. intros [name v] _. unfold xconv. cbn [fst snd shed_first shed_all vsrc].
    rewrite (qsum_map_zero _ (v_src v)) by (intros kr _; destruct (pair_eqb (fst kr) (net, nd)); reflexivity).
    destruct (String.eqb (v_dnet v) net && String.eqb (v_dnode v) nd); lra.
  - intros t net nd n T E. unfold xstorage. destruct (n_stors n) as [|y m] eqn:EN; auto. cbn [shed_first shed_all]. rewrite E, EN. cbn [nth_error].
    destruct t; lra.
  - intros t name v T E k q I. cbn [shed_first shed_all vsrc]. lra.
Qed.

(** When these contents fit, the program has a solution exactly when no bound is
    negative. *)
Theorem C21_exact_partial : forall s scn, api_study s -> usable_converters s -> scn < st_nb_scn s -> first_fits s scn ->
  ((exists x, satisfies (program_of s scn) x) <-> room s scn).
Proof.
  intros s scn A U S F. pose proof (api_ready s A U) as R. destruct (build_ok s scn S R) as (p & B & _).
  assert (E : program_of s scn = p) by (unfold program_of; now rewrite B). rewrite E. split.
  - intros (x & X). apply (sat_iff s scn S R _ _ _ B) in X. destruct X as [[XC XP XS XL XR XD] _ _ _]. unfold within in *. constructor.
    + intros net nd n c t N I T. apply In_nth_error in I as [i I]. destruct (XC t net nd n i c T N I). lra.
    + intros net nd n c t N I T. apply In_nth_error in I as [i I]. destruct (XP t net nd n i c T N I). lra.
    + intros net nd n c t N I T. apply In_nth_error in I as [i I]. destruct (XL t net nd n i c T N I). lra.
    + intros net nd n y t N I T. apply In_nth_error in I as [i I]. destruct (XS t net nd n i y T N I) as (? & ? & ?). lra.
    + intros name v t V T. destruct (XD t name v T V). lra.
    + intros name v k q t V I T. destruct (XR t name v k q T V I). lra.
  - intros N. exists (shed_first s scn). apply (sat_iff s scn S R _ _ _ B). now apply shed_first_ok.
Qed.

(** Two storages of which the second starts above its capacity, and a converter with
    a negative ratio whose maximum is 0: both are accepted. *)
Definition odd_calls : list call :=
  [ OnStudy_network "net"; OnSel 0 (MNode "a"); OnSel 1 (MConsumption "load" (jn 1000) (jn 4));
    OnSel 2 (MStorage "one" (jn 5) (jn 1) (jn 1) (jn 0) 3%Q (jn 1)); OnSel 3 (MStorage "two" (jn 5) (jn 0) (jn 0) (jn 0) 10%Q (jn 1));
    OnSel 4 (MToConverter "cv" (jn (-1))); OnSel 5 (MNode "b"); OnSel 6 (MConverter "cv" "net" "b" (jn 0) (jn 0)) ].
Definition odd : study := Eval vm_compute in w_study (run (start 2 1 None) odd_calls).
Lemma odd_api : api_study odd.
Proof. exists 2, 1, None, odd_calls. split; [lia|]. split; [lia|]. split; [plain_tac | vm_compute; reflexivity]. Qed.
Example C21_exact_example : api_study odd /\ usable_converters odd /\ first_fits odd 0 /\ room odd 0 /\
  ~ init_fits odd 0 /\ ~ positive_ratios odd.
Proof.
  assert (U : usable_converters odd) by (apply usableb_ok; vm_compute; reflexivity).
  assert (F : first_fits odd 0).
  { intros net nd n x xs t N X T. apply node_at_all in N. vm_compute in N. destruct N as [N|[N|[]]]; inversion N; subst; cbn in X; [| discriminate].
    inversion X; subst. assert (Q : t = 0 \/ t = 1) by (vm_compute in T; lia). destruct Q as [->| ->]; split; vm_compute; discriminate. }
  split; [apply odd_api |]. split; auto. split; auto. split; [| split].
  - apply (C21_exact_partial odd 0 odd_api U ltac:(vm_compute; lia) F). exists (shed_first odd 0). apply satb_ok. vm_compute. reflexivity.
  - intros H. destruct (node_at odd "net" "a") as [n|] eqn:N; [| discriminate]. vm_compute in N. inversion N; subst.
    specialize (H "net" "a" _ _ 0 eq_refl (or_intror (or_introl eq_refl)) ltac:(vm_compute; lia)). vm_compute in H. apply H. reflexivity.
  - intros H. specialize (H "cv" _ ("net", "a") _ 0 0 eq_refl (or_introl eq_refl) ltac:(vm_compute; lia) ltac:(vm_compute; lia)). vm_compute in H. discriminate.
Qed.

Print Assumptions C15_program_exact.
Print Assumptions C15_when_documented.
Print Assumptions C15_when_accepted.
Print Assumptions C20_cost_optimal_exact.
Print Assumptions C20_never_beaten.
Print Assumptions C21_exact_partial.
