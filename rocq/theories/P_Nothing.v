(** Property C102, told by calls: telling a study elements of nothing changes nothing. *)
From Coq Require Import String List ZArith QArith Bool Arith Lia Lqa Permutation.
From Verif Require Import Base BaseFacts Numeric Study Fluent SpecStudy StudyFacts Output Json SpecJson JsonFacts P_Json
  LP SpecLP LPFacts LPBuild LPSat LPResult LPSolve LPReady LPOpt LPWeak LPMore P_LP P_Opt P_Accept P_More P_Solvable P_Law P_Mean SpecRename P_Rename SpecHollow P_Hollow.
Import ListNotations.
Open Scope nat_scope.
Open Scope string_scope.
Open Scope list_scope.

Lemma adds_refl {A} (P : A -> Prop) l : adds P l l.
Proof. exists []. split; [now rewrite app_nil_r | constructor]. Qed.
Lemma adds_one {A} (P : A -> Prop) l a : P a -> adds P l (l ++ [a]).
Proof. intros H. exists [a]. split; auto. Qed.
Lemma adds_trans {A} (P : A -> Prop) l m n : adds P l m -> adds P m n -> adds P l n.
Proof. intros (x & -> & F) (y & -> & G). exists (x ++ y). split; [now rewrite app_assoc | now apply Forall_app]. Qed.
Lemma node_adds_refl h scn n : node_adds h scn n n.
Proof. constructor; apply adds_refl. Qed.
Lemma node_adds_trans h scn a b c : node_adds h scn a b -> node_adds h scn b c -> node_adds h scn a c.
Proof. intros [A1 A2 A3 A4] [B1 B2 B3 B4]. constructor; eapply adds_trans; eauto. Qed.

Section Calls.
Variables (h n scn : nat).
(** Of horizon [h] and with [n] scenarios before and after, with only elements of nothing more. *)
Definition still (s s' : study) : Prop := st_horizon s = h -> st_nb_scn s = n -> adds_nothing s s' scn /\ st_nb_scn s' = n.
Lemma still_refl s : still s s.
Proof.
  intros _ N. split; auto. constructor; auto; [| apply adds_refl]. apply Forall2_same. intros a. split; auto. apply Forall2_same. intros b. split; auto. apply node_adds_refl.
Qed.
Lemma still_trans a b c : still a b -> still b c -> still a c.
Proof.
  intros H K S N. destruct (H S N) as [[H1 H2 H3] H4]. destruct K as [[K1 K2 K3] K4]; [congruence | exact H4 |]. rewrite H1 in K2, K3. split; auto. constructor; [congruence | |].
  - eapply Forall2_trans; [| exact H2 | exact K2]. intros x y z [E1 F1] [E2 F2]. split; [congruence |].
    eapply Forall2_trans; [| exact F1 | exact F2]. intros u v w [G1 N1] [G2 N2]. split; [congruence | eapply node_adds_trans; eauto].
  - eapply adds_trans; eauto.
Qed.

Lemma upd_still net nd f s s' r : (forall m, node_adds h scn m (f m)) -> upd_node net nd f s = (s', r) -> still s s'.
Proof.
  intros NA E S N. pose proof (upd_node_spec net nd f s) as U. destruct (node_at s net nd) as [m|].
  - destruct U as (ns & G1 & G2 & U). rewrite U in E. inversion E; subst s' r. split; [| exact N]. constructor; [reflexivity | | apply adds_refl].
    change (st_networks (set_networks s (dset net (dset nd (f m) ns) (st_networks s)))) with (dset net (dset nd (f m) ns) (st_networks s)). rewrite S.
    apply (Forall2_dset (fun m m' : network => Forall2 (fun c d : string * node => fst d = fst c /\ node_adds h scn (snd c) (snd d)) m m') _ _ ns).
    + intros a. apply Forall2_same. intros c. split; auto. apply node_adds_refl.
    + exact G1.
    + apply (Forall2_dset _ _ _ m); auto. apply node_adds_refl.
  - rewrite U in E. inversion E as [[E1 E2]]. subst s'. now apply still_refl.
Qed.

Definition safe {A} (m : ST study A) : Prop := forall s s' r, m s = (s', r) -> still s s'.
Lemma reads_safe {A B} (m : ST study A) (k : A -> ST study B) : reads m -> (forall a, safe (k a)) -> safe (sbind m k).
Proof.
  intros RM K s s' r E. pose proof (RM s) as M. unfold sbind in E. destruct (m s) as [s1 [a|e]]; cbn [fst] in M; subst s1; [eapply K; eauto |].
  inversion E; subst. apply still_refl.
Qed.
Lemma mk_safe {B} x (k : numval -> ST study B) : zero_told h n scn x -> (forall v, nil_at h scn v -> safe (k v)) -> safe (sbind (mk x) k).
Proof.
  intros Z K s s' r E S N. unfold sbind, mk in E. rewrite S, N in E. destruct (create h n x) as [v|e] eqn:C.
  - exact (K v (Z v C) s s' r E S N).
  - inversion E; subst s'. now apply still_refl.
Qed.

Ltac go := apply reads_safe; [auto with reads | intros ?].
Lemma add_consumption_safe net nd name c q : zero_told h n scn q -> safe (add_consumption net nd name c q).
Proof.
  intros Z. unfold add_consumption. do 2 go. apply mk_safe; auto. intros v V. do 2 go. intros s s' r. apply upd_still.
  intros m. constructor; cbn [push_cons n_cons n_prods n_stors n_links]; try apply adds_refl. now apply adds_one.
Qed.
Lemma add_production_safe net nd name c q : zero_told h n scn q -> safe (add_production net nd name c q).
Proof.
  intros Z. unfold add_production. do 2 go. apply mk_safe; auto. intros v V. do 2 go. intros s s' r. apply upd_still.
  intros m. constructor; cbn [push_prod n_cons n_prods n_stors n_links]; try apply adds_refl. now apply adds_one.
Qed.
Lemma add_link_safe net src dest c q : zero_told h n scn q -> safe (add_link net src dest c q).
Proof.
  intros Z. unfold add_link. do 5 go. apply mk_safe; auto. intros v V. do 2 go. intros s s' r. apply upd_still.
  intros m. constructor; cbn [push_link n_cons n_prods n_stors n_links]; try apply adds_refl. now apply adds_one.
Qed.
Lemma add_storage_safe net nd name ca fi fo c i e : zero_told h n scn ca -> zero_told h n scn fi -> zero_told h n scn fo -> (i == 0)%Q ->
  safe (add_storage net nd name ca fi fo c i e).
Proof.
  intros Z1 Z2 Z3 Z4. unfold add_storage. do 2 go. apply mk_safe; auto. intros v2 V2. apply mk_safe; auto. intros v3 V3. go. apply mk_safe; auto. intros v1 V1. do 4 go.
  intros s s' r. apply upd_still.
  intros m. constructor; cbn [push_stor n_cons n_prods n_stors n_links]; try apply adds_refl. apply adds_one. repeat split; auto.
Qed.

Definition fsafe {A} (m : ST fstate A) : Prop := forall fs fs' r, m fs = (fs', r) -> still (f_study fs) (f_study fs').
Lemma onstudy_safe {A} (m : ST study A) : safe m -> fsafe (onstudy m).
Proof. intros H fs fs' r E. unfold onstudy in E. destruct (m (f_study fs)) as [s' r'] eqn:M. inversion E; subst. cbn. eapply H; eauto. Qed.
Lemma freads_safe {A B} (m : ST fstate A) (k : A -> ST fstate B) : reads m -> (forall a, fsafe (k a)) -> fsafe (sbind m k).
Proof.
  intros RM K s s' r E. pose proof (RM s) as M. unfold sbind in E. destruct (m s) as [s1 [a|e]]; cbn [fst] in M; subst s1; [eapply K; eauto |].
  inversion E; subst. apply still_refl.
Qed.
Lemma ret_safe {A B} (m : ST fstate A) (b : B) : fsafe m -> fsafe (sbind m (fun _ => sret b)).
Proof. intros H fs fs' r E. unfold sbind in E. destruct (m fs) as [s1 [a|e]] eqn:M; apply H in M; inversion E; subst; auto. Qed.
Lemma push_safe w (m : ST fstate handle) : fsafe m -> still (w_study w) (w_study (fst (push_handle w (m (w_fs w))))).
Proof. intros H. destruct (m (w_fs w)) as [fs' [k|e]] eqn:E; cbn; apply (H _ _ _ E). Qed.
Lemma raise_safe {A} e : fsafe (@sraise fstate A e).
Proof. intros fs fs' r E. inversion E; subst. apply still_refl. Qed.

Lemma step_safe w c : tells_nothing h n scn c -> still (w_study w) (w_study (fst (step w c))).
Proof.
  intros T. destruct c as [| net src dest co q | | | i m]; try contradiction; cbn [step].
  - unfold no_handle, w_study. cbn [fst w_fs]. destruct (onstudy (add_link net src dest co q) (w_fs w)) as [fs' r] eqn:E.
    exact (onstudy_safe _ (add_link_safe net src dest co q T) _ _ _ E).
  - destruct (nth_error (w_handles w) i) as [hd|]; [| apply still_refl]. apply push_safe.
    assert (N2 : forall a (k : string -> string -> ST fstate handle), (forall x y, fsafe (k x y)) ->
      fsafe (do net <- key_network a; do nd <- key_node a; k net nd)).
    { intros a k K. apply freads_safe; [apply reads_key_network | intros x]. apply freads_safe; [apply reads_key_node | intros y]. apply K. }
    destruct m as [| | src dest co q | | name co q | name co q | name ca fi fo co ini e |]; try contradiction; destruct hd as [a|a]; cbn [fl_call]; try apply raise_safe.
    + apply freads_safe; [apply reads_key_network | intros net]. apply ret_safe, onstudy_safe, add_link_safe, T.
    + apply freads_safe; [apply reads_key_network | intros net]. apply ret_safe, onstudy_safe, add_link_safe, T.
    + apply N2. intros x y. apply ret_safe, onstudy_safe, add_consumption_safe, T.
    + apply N2. intros x y. apply ret_safe, onstudy_safe, add_production_safe, T.
    + destruct T as (T1 & T2 & T3 & T4). apply N2. intros x y. apply ret_safe, onstudy_safe, add_storage_safe; auto.
Qed.
Lemma run_safe cs : Forall (tells_nothing h n scn) cs -> forall w, still (w_study w) (w_study (run w cs)).
Proof.
  intros F. induction F as [|c cs T F IH]; intros w; cbn [run fold_left]; [apply still_refl |]. eapply still_trans; [apply step_safe, T | apply IH].
Qed.
End Calls.

(** Calls that tell elements of nothing, accepted or refused, leave a study with only elements of
    nothing more. *)
Theorem C102_calls : forall w cs scn, let s := w_study w in let s' := w_study (run w cs) in
  Forall (tells_nothing (st_horizon s) (st_nb_scn s) scn) cs -> adds_nothing s s' scn /\ st_nb_scn s' = st_nb_scn s.
Proof. intros w cs scn s s' F. apply (run_safe _ _ _ cs F); reflexivity. Qed.

(** Such calls, in any number, never change what the study costs. *)
Theorem C102_telling_nothing : forall w cs answer answer' r r' scn,
  let s := w_study w in let s' := w_study (run w cs) in
  api_study s -> api_study s' -> Forall (tells_nothing (st_horizon s) (st_nb_scn s) scn) cs -> scn < st_nb_scn s ->
  solved answer s r -> solved answer' s' r' -> optimal_answer answer s scn -> optimal_answer answer' s' scn ->
  (total_cost s r scn == total_cost s' r' scn)%Q.
Proof.
  intros w cs answer answer' r r' scn s s' A A' F S SV SV' O O'. destruct (C102_calls w cs scn F) as [AN N]. apply (C102_same_optimum answer answer'); auto.
  fold s s' in N. lia.
Qed.

(** ** A link, a consumption, a production and a storage of nothing, one refused *)
Definition idle_calls : list call :=
  [ OnSel 0 (MLink "a" "b" (jn 3) (jn 0)); OnSel 4 (MConsumption "ruin" (jn 9) (jl [0%Z])); OnSel 4 (MProduction "wind" (jn 1) (jn 0));
    OnSel 4 (MProduction "mill" (jn 5) (jn 0)); OnSel 4 (MStorage "hole" (jn 0) (jn 0) (jn 0) (jn 4) 0 (jn 1)) ].
Definition lean_world : world := Eval vm_compute in run (start 1 1 None) lean_calls.
Definition idle : study := Eval vm_compute in w_study (run lean_world idle_calls).
Lemma idle_api : api_study idle.
Proof. exists 1, 1, None, (lean_calls ++ idle_calls). split; [lia|]. split; [lia|]. split; [plain_tac | vm_compute; reflexivity]. Qed.
Lemma idle_optimal : optimal_answer lean_answer idle 0. Proof. best_tac (program_of idle 0). Qed.
Definition idle_result : result := Eval vm_compute in
  match solve_lp lean_answer [0] no_bench idle with Ok r => r | Err _ => Result [] [] no_bench end.
Example C102_idle_example : w_study lean_world = lean /\ w_study (run lean_world idle_calls) = idle /\ api_study lean /\ api_study idle /\
  Forall (tells_nothing (st_horizon lean) (st_nb_scn lean) 0) idle_calls /\
  solved lean_answer lean lean_result /\ solved lean_answer idle idle_result /\ optimal_answer lean_answer lean 0 /\ optimal_answer lean_answer idle 0 /\
  (exists n, node_at idle "net" "b" = Some n /\ map p_name (n_prods n) = ["wind"; "mill"] /\ map s_name (n_stors n) = ["hole"]) /\
  (total_cost lean lean_result 0 == 141)%Q /\ (total_cost idle idle_result 0 == 141)%Q.
Proof.
  split; [reflexivity |]. split; [reflexivity |]. split; [apply lean_api |]. split; [apply idle_api |]. split.
  { assert (Z : forall x, (exists v, create 1 1 x = Ok v /\ (value v 0%nat 0%nat == 0)%Q) -> zero_told 1 1 0 x).
    { intros x (v & C & V) v' C' t T. rewrite C in C'. inversion C'; subst v'. replace t with 0 by lia. exact V. }
    repeat constructor; apply Z; eexists; (split; [vm_compute; reflexivity | vm_compute; reflexivity]). }
  split. { exists [0], no_bench. split; [reflexivity | vm_compute; reflexivity]. }
  split. { exists [0], no_bench. split; [reflexivity | vm_compute; reflexivity]. }
  split; [apply lean_optimal |]. split; [apply idle_optimal |]. split; [eexists; split; [vm_compute; reflexivity | split; reflexivity] |]. split; vm_compute; reflexivity.
Qed.

Print Assumptions C102_calls.
Print Assumptions C102_telling_nothing.
