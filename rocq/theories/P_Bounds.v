(** Property C103: bounds on what a study costs. *)
From Coq Require Import String List ZArith QArith Bool Arith Lia Lqa Permutation.
From Verif Require Import Base BaseFacts Numeric Study Fluent SpecStudy StudyFacts Output Json SpecJson JsonFacts P_Json
  LP SpecLP LPFacts LPBuild LPSat LPResult LPSolve LPReady LPOpt LPWeak LPMore P_LP P_Opt P_Accept P_More P_Solvable P_Law P_Mean P_Gather SpecBounds.
Import ListNotations.
Open Scope nat_scope.
Open Scope string_scope.
Open Scope list_scope.

(** Cost of one time. *)
Definition tcost (s : study) (scn : nat) (x : var -> Q) (t : nat) : Q :=
  (qsum (map (fun kn => qsum (map (fun kd => ncost scn x t (fst kn) (fst kd) (snd kd)) (snd kn))) (st_networks s))
   + qsum (map (fun kv => ovalue (v_cost (snd kv)) scn t * x (VDest (fst kv) t)) (st_converters s)))%Q.
Lemma xcost_times s scn x : xcost s scn x = qsum (map (tcost s scn x) (seq 0 (st_horizon s))).
Proof. reflexivity. Qed.

Lemma sumi_nonneg {A} (f : nat -> A -> Q) l : (forall i a, nth_error l i = Some a -> (0 <= f i a)%Q) -> (0 <= sumi f l)%Q.
Proof.
  intros H. assert (Z : (sumi (fun _ (_ : A) => 0%Q) l == 0)%Q) by (apply sumi_zero; reflexivity). rewrite <- Z. now apply sumi_le.
Qed.
Lemma qsum_map_nonneg {A} (f : A -> Q) l : (forall a, In a l -> (0 <= f a)%Q) -> (0 <= qsum (map f l))%Q.
Proof. intros H. apply qsum_nonneg. intros q I. apply in_map_iff in I as (a & <- & I). auto. Qed.

Lemma plus_nonneg a b : (0 <= a -> 0 <= b -> 0 <= a + b)%Q.
Proof. lra. Qed.

(** Without a negative price no time brings money. *)
Lemma tcost_nonneg s scn k x t : ready s -> no_gift s scn k -> xbounds s scn x -> k <= t < st_horizon s -> (0 <= tcost s scn x t)%Q.
Proof.
  intros R [NC NP NS NL NV] [XC XP XS XL _ XD] T. assert (T' : t < st_horizon s) by lia. unfold within in *.
  assert (Hn : (0 <= qsum (map (fun kn : string * network => qsum (map (fun kd => ncost scn x t (fst kn) (fst kd) (snd kd)) (snd kn))) (st_networks s)))%Q).
  { apply qsum_map_nonneg. intros [net ns] I. apply qsum_map_nonneg. intros [nd n] J. cbn [fst snd]. pose proof (node_at_In s R net ns nd n I J) as N. unfold ncost.
    assert (0 <= sumi (fun i c => value (c_cost c) scn t * x (VLol net nd i t)) (n_cons n))%Q.
    { apply sumi_nonneg. intros i c C. apply Qmult_le_0_compat; [eapply NC; eauto; eapply nth_error_In, C | apply (XC t net nd n i c T' N C)]. }
    assert (0 <= sumi (fun i p => value (p_cost p) scn t * x (VProd net nd i t)) (n_prods n))%Q.
    { apply sumi_nonneg. intros i c C. apply Qmult_le_0_compat; [eapply NP; eauto; eapply nth_error_In, C | apply (XP t net nd n i c T' N C)]. }
    assert (0 <= sumi (fun i y => value (s_cost y) scn t * x (VCap net nd i t)) (n_stors n))%Q.
    { apply sumi_nonneg. intros i c C. apply Qmult_le_0_compat; [eapply NS; eauto; eapply nth_error_In, C | apply (XS t net nd n i c T' N C)]. }
    assert (0 <= sumi (fun i l => value (l_cost l) scn t * x (VLink net nd i t)) (n_links n))%Q.
    { apply sumi_nonneg. intros i c C. apply Qmult_le_0_compat; [eapply NL; eauto; eapply nth_error_In, C | apply (XL t net nd n i c T' N C)]. }
    repeat apply plus_nonneg; assumption. }
  assert (Hv : (0 <= qsum (map (fun kv => ovalue (v_cost (snd kv)) scn t * x (VDest (fst kv) t)) (st_converters s)))%Q).
  { apply qsum_map_nonneg. intros [name v] I. cbn [fst snd]. assert (V : conv_at s name = Some v) by (apply In_dget; auto; apply wf_convs, rd_wf, R).
    apply Qmult_le_0_compat; [eapply NV; eauto | apply (XD t name v T' V)]. }
  apply plus_nonneg; assumption.
Qed.

(** ** At least nothing *)
Theorem C103_at_least : forall answer s r scn, api_study s -> solved answer s r -> scn < st_nb_scn s ->
  feasible_answer answer s scn -> no_gift s scn 0 -> (0 <= total_cost s r scn)%Q.
Proof.
  intros answer s r scn Api SV K F NG. destruct (solved_weak _ _ _ Api SV) as (R & M & C). destruct (C scn K) as ((vs & B) & CA & _).
  rewrite (cost_eq s r R M scn _ CA). apply (sat_iff s scn K R _ vs _ B) in F. rewrite xcost_times. apply qsum_map_nonneg. intros t T.
  apply in_seq in T. apply (tcost_nonneg s scn 0 _ t R NG (xo_bounds _ _ _ F)). lia.
Qed.

(** ** At most the price of serving nothing *)
Lemma rest_zero {A} (f : A -> Q) (g : nat -> Q) m : (forall i, g (Datatypes.S i) = 0%Q) -> (qsum (mapi (fun i a => f a * g i) 1 m) == 0)%Q.
Proof.
  intros Z. generalize 0. induction m as [| a m IH]; intros k; cbn [mapi qsum fold_right]; [reflexivity |].
  fold (qsum (mapi (fun i a => f a * g i)%Q (Datatypes.S (Datatypes.S k)) m)). rewrite Z, IH. ring.
Qed.
Lemma idle_cost s scn : ready s -> (xcost s scn (shed_first s scn) == idle_price s scn)%Q.
Proof.
  intros R. rewrite xcost_times. unfold idle_price, total. apply qsum_map_ext. intros t _. unfold tcost.
  rewrite (qsum_map_zero _ (st_converters s)) by (intros kv _; cbn [shed_first shed_all]; ring). rewrite Qplus_0_r.
  apply qsum_map_ext. intros [net ns] I. apply qsum_map_ext. intros [nd n] J. cbn [fst snd]. pose proof (node_at_In s R net ns nd n I J) as N.
  unfold ncost.
  rewrite (sumi_zero _ (n_prods n)) by (intros; cbn [shed_first shed_all]; ring). rewrite (sumi_zero _ (n_links n)) by (intros; cbn [shed_first shed_all]; ring).
  rewrite (sumi_ext _ (fun _ c => value (c_cost c) scn t * value (c_qty c) scn t)%Q) by (intros i c E; cbn [shed_first shed_all]; rewrite N, E; reflexivity).
  rewrite (sumi_map (fun c => value (c_cost c) scn t * value (c_qty c) scn t)%Q).
  destruct (n_stors n) as [| y m] eqn:EN; [unfold sumi; cbn [mapi qsum fold_right]; ring |].
  assert (Z : (sumi (fun i y0 => value (s_cost y0) scn t * shed_first s scn (VCap net nd i t)) (y :: m) == value (s_cost y) scn t * s_init y)%Q).
  { unfold sumi. cbn [mapi]. change (qsum (?a :: ?l)) with (a + qsum l)%Q.
    pose proof (rest_zero (fun y0 => value (s_cost y0) scn t) (fun i => shed_first s scn (VCap net nd i t)) m (fun _ => eq_refl)) as Z. cbv beta in Z. rewrite Z.
    cbn [shed_first shed_all]. rewrite N, EN. cbn [nth_error]. ring. }
  rewrite Z. ring.
Qed.

Theorem C103_at_most : forall answer s r scn, api_study s -> solved answer s r -> scn < st_nb_scn s ->
  optimal_answer answer s scn -> first_fits s scn -> (total_cost s r scn <= idle_price s scn)%Q.
Proof.
  intros answer s r scn Api SV K [F Best] FF. pose proof (proj1 (C21_exact_partial s scn Api (solved_usable' _ _ _ Api SV) K FF) (ex_intro _ _ F)) as Rm.
  destruct (solved_weak _ _ _ Api SV) as (R & M & C). destruct (C scn K) as ((vs & B) & CA & _).
  pose proof (proj2 (sat_iff s scn K R _ vs _ B) (shed_first_ok s scn Rm FF)) as Z. specialize (Best _ Z).
  rewrite !(objective_value s scn K R _ vs _ B) in Best. rewrite (cost_eq s r R M scn _ CA). rewrite <- (idle_cost s scn R). exact Best.
Qed.

(** ** The first times cost no more than all of them *)
Lemma first_wf k s : study_wf s -> study_wf (first_times k s).
Proof.
  intros [A1 A2 A3 A4 A5]. constructor; auto.
  - intros net nd n N. destruct (A4 net nd n N). constructor; auto.
  - intros name v V. destruct (A5 name v V). constructor; auto.
Qed.
Lemma first_readable k s v : k <= st_horizon s -> readable s v -> readable (first_times k s) v.
Proof. intros K H scn t S T. cbn in S, T. apply H; lia. Qed.
Lemma first_ready k s : k <= st_horizon s -> ready s -> ready (first_times k s).
Proof.
  intros K [W N V]. pose proof (fun v => first_readable k s v K) as FR. constructor; [now apply first_wf | |].
  - intros net nd n E. destruct (N net nd n E) as [N1 N2 N3 N4]. constructor.
    + intros c I. destruct (N1 c I). auto.
    + intros c I. destruct (N2 c I). auto.
    + intros c I. destruct (N3 c I) as (? & ? & ? & ? & ?). repeat split; auto.
    + intros c I. destruct (N4 c I). auto.
  - intros name v E. destruct (V name v E) as [(c & V1 & V1') (m & V2 & V2') V3 V4]. constructor; eauto.
    intros q w I. destruct (V3 q w I) as [V5 V6]. split; auto. intros scn t S T. cbn in S, T. apply V6; lia.
Qed.
Lemma first_ok k s scn x : k <= st_horizon s -> xok s scn x -> xok (first_times k s) scn x.
Proof.
  intros K [[B1 B2 B3 B4 B5 B6] X2 X3 X4]. constructor; [constructor | ..]; cbn [st_horizon first_times].
  - intros t net nd n i c T. apply B1. lia.
  - intros t net nd n i c T. apply B2. lia.
  - intros t net nd n i c T. apply B3. lia.
  - intros t net nd n i c T. apply B4. lia.
  - intros t name v q w T. apply B5. lia.
  - intros t name v T. apply B6. lia.
  - intros t net nd n T. apply X2. lia.
  - intros t net nd n T. apply X3. lia.
  - intros t name v T. apply X4. lia.
Qed.
Lemma first_cost k s scn x : k <= st_horizon s -> ready s -> no_gift s scn k -> xok s scn x -> (xcost (first_times k s) scn x <= xcost s scn x)%Q.
Proof.
  intros K R NG X. rewrite !xcost_times. cbn [st_horizon first_times]. replace (st_horizon s) with (k + (st_horizon s - k)) by lia.
  rewrite seq_app, map_app, qsum_app. change (tcost (first_times k s) scn x) with (tcost s scn x).
  assert (Z : (0 <= qsum (map (tcost s scn x) (seq (0 + k) (st_horizon s - k))))%Q).
  { apply qsum_map_nonneg. intros t T. apply in_seq in T. apply (tcost_nonneg s scn k _ t R NG (xo_bounds _ _ _ X)). lia. }
  lra.
Qed.

Theorem C103_window : forall answer answer' s s' r r' k scn, api_study s -> api_study s' ->
  k <= st_horizon s -> offers_more (first_times k s) s' scn -> no_gift s scn k -> scn < st_nb_scn s -> scn < st_nb_scn s' ->
  solved answer s r -> solved answer' s' r' -> feasible_answer answer s scn -> optimal_answer answer' s' scn ->
  (total_cost s' r' scn <= total_cost s r scn)%Q.
Proof.
  intros answer answer' s s' r r' k scn Api Api' K OM NG S S' SV SV' F [F' Best].
  destruct (solved_weak _ _ _ Api SV) as (R & M & C). destruct (C scn S) as ((vs & B) & CA & _).
  destruct (solved_weak _ _ _ Api' SV') as (R' & M' & C'). destruct (C' scn S') as ((vs' & B') & CA' & _).
  rewrite (cost_eq s r R M scn _ CA), (cost_eq s' r' R' M' scn _ CA').
  destruct (api_facts s Api) as (W & _). destruct (api_facts s' Api') as (W' & _).
  apply (sat_iff s scn S R _ vs _ B) in F. pose proof (proj1 (sat_iff s' scn S' R' _ vs' _ B') F') as X'.
  pose proof (first_ok k s scn _ K F) as G. pose proof (first_ready k s K R) as Rk. pose proof (first_wf k s W) as Wk.
  pose proof (kept_ok (first_times k s) s' scn _ _ OM G X' Wk W') as Kp. apply (sat_iff s' scn S' R' _ vs' _ B') in Kp. specialize (Best _ Kp).
  rewrite !(objective_value s' scn S' R' _ vs' _ B') in Best. eapply Qle_trans; [exact Best |].
  eapply Qle_trans; [exact (kept_cost (first_times k s) s' scn _ OM G Rk Wk W') |]. exact (first_cost k s scn _ K R NG F).
Qed.

(** ** Examples *)
Definition day_calls (load : pyval) : list call :=
  [ OnStudy_network "net"; OnSel 0 (MNode "a"); OnSel 1 (MConsumption "load" (jn 100) load); OnSel 2 (MProduction "gas" (jn 10) (jn 3));
    OnSel 3 (MStorage "tank" (jn 5) (jn 5) (jn 5) (jn 1) 2%Q (jn 1)) ].
Definition day : study := Eval vm_compute in w_study (run (start 2 1 None) (day_calls (jl [4%Z; 6%Z]))).
Definition morning : study := Eval vm_compute in w_study (run (start 1 1 None) (day_calls (jl [4%Z]))).
Lemma day_api : api_study day.
Proof. exists 2, 1, None, (day_calls (jl [4%Z; 6%Z])). split; [lia|]. split; [lia|]. split; [plain_tac | vm_compute; reflexivity]. Qed.
Lemma morning_api : api_study morning.
Proof. exists 1, 1, None, (day_calls (jl [4%Z])). split; [lia|]. split; [lia|]. split; [plain_tac | vm_compute; reflexivity]. Qed.
Definition day_answer (_ : nat) (_ : solver) (v : var) : Q :=
  match v with VLol _ _ _ 1 => 2 | VProd _ _ _ _ => 3 | VOut _ _ _ _ => 1 | VCap _ _ _ 0 => 1 | _ => 0 end%Q.
Definition morning_answer (_ : nat) (_ : solver) (v : var) : Q := match v with VProd _ _ _ _ => 2 | VOut _ _ _ _ => 2 | _ => 0 end%Q.
Lemma day_optimal : optimal_answer day_answer day 0. Proof. best_tac (program_of day 0). Qed.
Lemma morning_optimal : optimal_answer morning_answer morning 0. Proof. best_tac (program_of morning 0). Qed.
Definition day_result : result := Eval vm_compute in
  match solve_lp day_answer [0] no_bench day with Ok r => r | Err _ => Result [] [] no_bench end.
Definition morning_result : result := Eval vm_compute in
  match solve_lp morning_answer [0] no_bench morning with Ok r => r | Err _ => Result [] [] no_bench end.

Example C103_example : api_study day /\ api_study morning /\ solved day_answer day day_result /\ solved morning_answer morning morning_result /\
  optimal_answer day_answer day 0 /\ optimal_answer morning_answer morning 0 /\ first_fits day 0 /\ no_gift day 0 0 /\ no_gift day 0 1 /\
  offers_more (first_times 1 day) morning 0 /\
  (total_cost morning morning_result 0 == 20)%Q /\ (total_cost day day_result 0 == 261)%Q /\ (idle_price day 0 == 1004)%Q.
Proof.
  split; [apply day_api |]. split; [apply morning_api |]. split. { exists [0], no_bench. split; [reflexivity | vm_compute; reflexivity]. }
  split. { exists [0], no_bench. split; [reflexivity | vm_compute; reflexivity]. }
  split; [apply day_optimal |]. split; [apply morning_optimal |].
  assert (One : forall net nd n, node_at day net nd = Some n -> node_at day "net" "a" = Some n).
  { intros net nd n E. unfold node_at, day, st_networks in E. cbn [dget] in E. destruct (eqb net "net"); [| discriminate]. cbn [dget] in E.
    destruct (eqb nd "a"); [| discriminate]. exact E. }
  assert (Two : forall t, t < st_horizon day -> t = 0 \/ t = 1) by (cbn; lia).
  assert (G : no_gift day 0 0).
  { constructor.
    - intros net nd n c t N I [_ T]. apply One in N. vm_compute in N. inversion N; subst n. cbn in I. destruct I as [<-|[]]. destruct (Two t T); subst t; vm_compute; discriminate.
    - intros net nd n c t N I [_ T]. apply One in N. vm_compute in N. inversion N; subst n. cbn in I. destruct I as [<-|[]]. destruct (Two t T); subst t; vm_compute; discriminate.
    - intros net nd n c t N I [_ T]. apply One in N. vm_compute in N. inversion N; subst n. cbn in I. destruct I as [<-|[]]. destruct (Two t T); subst t; vm_compute; discriminate.
    - intros net nd n c t N I [_ T]. apply One in N. vm_compute in N. inversion N; subst n. cbn in I. destruct I.
    - intros name v t V. vm_compute in V. discriminate. }
  split. { intros net nd n y ys t N I T. apply One in N. vm_compute in N. inversion N; subst n. cbn in I. inversion I; subst y. destruct (Two t T); subst t; split; vm_compute; discriminate. }
  split; [exact G |]. split. { destruct G as [G1 G2 G3 G4 G5]. constructor; intros; [eapply G1 | eapply G2 | eapply G3 | eapply G4 | eapply G5]; eauto; lia. }
  split.
  { constructor; [reflexivity | | exists [], []; split; [reflexivity | constructor]].
    unfold day, morning, first_times, st_networks, st_horizon. repeat first [constructor | split; [reflexivity |]]; cbn [fst snd n_cons n_prods n_stors n_links].
    all: try (intros t T; replace t with 0 by lia; vm_compute; first [reflexivity | discriminate]).
    - eexists _, []. rewrite app_nil_r. split; [reflexivity |]. constructor; [| constructor]. split; intros t T; replace t with 0 by lia; vm_compute; discriminate.
    - exists [], []. split; [reflexivity | constructor]. }
  split; [vm_compute; reflexivity |]. split; vm_compute; reflexivity.
Qed.

(** ** What fails without the hypotheses *)

(** The sign of a price is not checked: with one that is negative later, all times may cost
    less than nothing, and less than the first. *)
Definition gift_calls (price : pyval) : list call :=
  [ OnStudy_network "net"; OnSel 0 (MNode "a"); OnSel 1 (MConsumption "load" (jn 100) (jn 2)); OnSel 2 (MProduction "gas" price (jn 3)) ].
Definition gift : study := Eval vm_compute in w_study (run (start 2 1 None) (gift_calls (jl [1; -5]%Z))).
Definition before : study := Eval vm_compute in w_study (run (start 1 1 None) (gift_calls (jl [1]%Z))).
Lemma gift_api : api_study gift.
Proof. exists 2, 1, None, (gift_calls (jl [1; -5]%Z)). split; [lia|]. split; [lia|]. split; [plain_tac | vm_compute; reflexivity]. Qed.
Lemma before_api : api_study before.
Proof. exists 1, 1, None, (gift_calls (jl [1]%Z)). split; [lia|]. split; [lia|]. split; [plain_tac | vm_compute; reflexivity]. Qed.
Definition gift_answer (_ : nat) (_ : solver) (v : var) : Q := match v with VProd _ _ _ _ => 2 | _ => 0 end%Q.
Lemma gift_optimal : optimal_answer gift_answer gift 0. Proof. best_tac (program_of gift 0). Qed.
Lemma before_optimal : optimal_answer gift_answer before 0. Proof. best_tac (program_of before 0). Qed.
Definition gift_result : result := Eval vm_compute in
  match solve_lp gift_answer [0] no_bench gift with Ok r => r | Err _ => Result [] [] no_bench end.
Definition before_result : result := Eval vm_compute in
  match solve_lp gift_answer [0] no_bench before with Ok r => r | Err _ => Result [] [] no_bench end.
Theorem C103_gift_refuted : exists answer answer' s s' r r', api_study s /\ api_study s' /\ 1 <= st_horizon s /\ offers_more (first_times 1 s) s' 0 /\
  solved answer s r /\ solved answer' s' r' /\ optimal_answer answer s 0 /\ optimal_answer answer' s' 0 /\
  (total_cost s r 0 < 0)%Q /\ (total_cost s r 0 < total_cost s' r' 0)%Q.
Proof.
  exists gift_answer, gift_answer, gift, before, gift_result, before_result. split; [apply gift_api |]. split; [apply before_api |]. split; [vm_compute; lia |]. split.
  { constructor; [reflexivity | | exists [], []; split; [reflexivity | constructor]].
    unfold gift, before, first_times, st_networks, st_horizon. repeat first [constructor | split; [reflexivity |]]; cbn [fst snd n_cons n_prods n_stors n_links].
    all: try (intros t T; replace t with 0 by lia; vm_compute; first [reflexivity | discriminate]).
    - eexists _, []. rewrite app_nil_r. split; [reflexivity |]. constructor; [| constructor]. split; intros t T; replace t with 0 by lia; vm_compute; discriminate.
    - exists [], []. split; [reflexivity | constructor]. }
  split. { exists [0], no_bench. split; [reflexivity | vm_compute; reflexivity]. }
  split. { exists [0], no_bench. split; [reflexivity | vm_compute; reflexivity]. }
  split; [apply gift_optimal |]. split; [apply before_optimal |]. split; vm_compute; reflexivity.
Qed.

(** A content that does not fit must leave, even over a link that is dearer than the load. *)
Definition burst_calls : list call :=
  [ OnStudy_network "net"; OnSel 0 (MNode "a"); OnSel 1 (MStorage "tank" (jn 0) (jn 10) (jn 10) (jn 0) 10%Q (jn 1));
    OnSel 2 (MNode "b"); OnSel 3 (MConsumption "load" (jn 1) (jn 10)); OnSel 4 (MLink "a" "b" (jn 5) (jn 10)) ].
Definition burst : study := Eval vm_compute in w_study (run (start 1 1 None) burst_calls).
Lemma burst_api : api_study burst.
Proof. exists 1, 1, None, burst_calls. split; [lia|]. split; [lia|]. split; [plain_tac | vm_compute; reflexivity]. Qed.
Definition burst_answer (_ : nat) (_ : solver) (v : var) : Q := match v with VOut _ _ _ _ => 10 | VLink _ _ _ _ => 10 | _ => 0 end%Q.
Lemma burst_optimal : optimal_answer burst_answer burst 0. Proof. best_tac (program_of burst 0). Qed.
Definition burst_result : result := Eval vm_compute in
  match solve_lp burst_answer [0] no_bench burst with Ok r => r | Err _ => Result [] [] no_bench end.
Theorem C103_burst_refuted : exists answer s r, api_study s /\ solved answer s r /\ optimal_answer answer s 0 /\
  (idle_price s 0 == 10)%Q /\ (total_cost s r 0 == 50)%Q.
Proof.
  exists burst_answer, burst, burst_result. split; [apply burst_api |]. split. { exists [0], no_bench. split; [reflexivity | vm_compute; reflexivity]. }
  split; [apply burst_optimal |]. split; vm_compute; reflexivity.
Qed.

Print Assumptions C103_at_least.
Print Assumptions C103_at_most.
Print Assumptions C103_window.
Print Assumptions C103_gift_refuted.
Print Assumptions C103_burst_refuted.
