(** Properties C18 and C28, exactly: which storages evolve, and when a network conserves energy. *)
From Coq Require Import String List ZArith QArith Bool Arith Lia Lqa Permutation.
From Verif Require Import Base BaseFacts Numeric Study Fluent SpecStudy StudyFacts Output Json SpecJson JsonFacts P_Json
  LP SpecLP LPFacts LPBuild LPSat LPResult LPSolve LPReady LPOpt LPWeak LPMore P_LP P_Opt P_Accept P_Names P_Mean P_Rename.
Import ListNotations.
Open Scope nat_scope.
Open Scope string_scope.
Open Scope list_scope.

(** ** The content of a storage after the first of its node *)
Section Later.
Variables (s : study) (scn : nat).
Hypothesis Hscn : scn < st_nb_scn s.
Hypothesis Hs : ready s.
Variables (net nd : string) (n : node) (k : nat) (y : storage) (t : nat).
Hypothesis Hn : node_at s net nd = Some n.
Hypothesis Hy : nth_error (n_stors n) (S k) = Some y.
Hypothesis Ht : t < st_horizon s.

Definition refill (x : var -> Q) (q : Q) (v : var) : Q :=
  match v with
  | VCap net' nd' i t' => if Nat.eqb i (S k) && Nat.eqb t' t && String.eqb net' net && String.eqb nd' nd then q else x v
  | _ => x v
  end.
Lemma refill_same x q : refill x q (VCap net nd (S k) t) = q.
Proof. cbn [refill]. now rewrite !Nat.eqb_refl, !String.eqb_refl. Qed.
Lemma refill_ok x q : xok s scn x -> (0 <= q <= value (s_capacity y) scn t)%Q -> xok s scn (refill x q).
Proof.
  intros [[XC XP XS XL XR XD] XB XE XM] L. constructor; [constructor | | |]; auto.
  - intros t' net' nd' n' i z T N E. destruct (XS t' net' nd' n' i z T N E) as (C & I & O). split; [| split; auto]. cbn [refill].
    destruct (Nat.eqb i (S k) && Nat.eqb t' t && String.eqb net' net && String.eqb nd' nd) eqn:Q; auto.
    rewrite !andb_true_iff, !Nat.eqb_eq, !String.eqb_eq in Q. destruct Q as (((-> & ->) & ->) & ->). rewrite Hn in N. inversion N; subst n'.
    rewrite Hy in E. inversion E; subst z. exact L.
Qed.
Lemma stor_obj p vs : build s scn = Ok (p, vs) -> In (VCap net nd (S k) t, value (s_cost y) scn t) (sv_obj p).
Proof.
  intros B. destruct (vars_p s scn Hscn Hs p vs B) as [_ O]. rewrite O. unfold program, gapp, gop. cbn [g_vars g_obj]. rewrite !app_nil_r.
  rewrite (over_proj s scn g_obj) by auto. apply (over_In s scn Hscn Hs). exists t. split; auto. left. exists net, nd, n. split; auto. cbn [g_obj node_inc].
  unfold node_obj. cbn [pnode ln_stors]. rewrite !in_app_iff. right. right. left. rewrite map_mapi. apply In_mapi. exists (S k), y. auto.
Qed.
Lemma refill_objective p vs x q : build s scn = Ok (p, vs) ->
  (objective p (refill x q) == objective p x + value (s_cost y) scn t * (q - x (VCap net nd (S k) t)))%Q.
Proof.
  intros B. pose proof (stor_obj p vs B) as J. destruct (vars_p s scn Hscn Hs p vs B) as [_ O].
  assert (ND : NoDup (map fst (sv_obj p))) by (rewrite O; solve [apply obj_NoDup; auto]).
  unfold objective. pose proof (lin_unit _ _ _ ND J) as LU.
  assert (E : (lin (sv_obj p) (refill x q) == lin (sv_obj p) (pert x (q - x (VCap net nd (S k) t)) (unit1 (VCap net nd (S k) t))))%Q).
  { unfold lin. apply qsum_map_ext. intros [v c] _. cbn [fst snd]. unfold pert. destruct (eqb v (VCap net nd (S k) t)) eqn:Q.
    - apply eqb_eq in Q. subst v. rewrite refill_same, unit1_same. lra.
    - apply eqb_neq in Q. rewrite (unit1_other _ _ Q). replace (refill x q v) with (x v); [lra |]. destruct v; auto. cbn [refill].
      destruct (Nat.eqb i (S k) && Nat.eqb t0 t && String.eqb net0 net && String.eqb nd0 nd) eqn:Z; auto. exfalso. apply Q.
      rewrite !andb_true_iff, !Nat.eqb_eq, !String.eqb_eq in Z. destruct Z as (((-> & ->) & ->) & ->). reflexivity. }
  rewrite E, lin_pert, LU. lra.
Qed.
End Later.

Definition with_answer (answer : nat -> solver -> var -> Q) (scn : nat) (x : var -> Q) (scn' : nat) (p : solver) : var -> Q :=
  if Nat.eqb scn' scn then x else answer scn' p.
Lemma solved_any answer answer' s r : api_study s -> solved answer s r -> exists r', solved answer' s r'.
Proof.
  intros A (sched & bench & P & E).
  assert (H : exists r, solve_lp answer sched bench s = Ok r) by eauto. apply (C29_solved_iff answer s sched bench A P) in H.
  apply (C29_solved_iff answer' s sched bench A P) in H as (r' & E'). exists r', sched, bench. auto.
Qed.

(** ** C18 *)
(** A storage that can hold something at some time evolves as documented in the results of all
    answers that meet the program exactly when it is the first of its node. *)
Theorem C18_exact : forall s scn net nd n i y, api_study s -> scn < st_nb_scn s -> node_at s net nd = Some n -> nth_error (n_stors n) i = Some y ->
  (exists t, t < st_horizon s /\ (0 < value (s_capacity y) scn t)%Q) ->
  (exists answer r, solved answer s r /\ feasible_answer answer s scn) ->
  ((forall answer r rn o, solved answer s r -> feasible_answer answer s scn ->
     rnode_at r net nd = Some rn -> nth_error (on_stors rn) i = Some o -> storage_evolves s scn y o) <-> i = 0).
Proof.
  intros s scn net nd n i y A S N Y (t & T & Pos) (answer & r & SV & F). split.
  2: { intros -> answer' r' rn o SV' F' Rn O. exact (C18_first_storage_evolves answer' s r' scn A SV' S F' net nd n rn y o N Rn Y O). }
  intros All. destruct i as [|k]; auto. exfalso.
  destruct (solved_weak _ _ _ A SV) as (R & M & C). destruct (C scn S) as ((vs & B) & CA & _).
  destruct (mirror_node_l s r M net nd n N) as (rn & Rn & L).
  destruct (nth_error (on_stors rn) (Datatypes.S k)) as [o|] eqn:O.
  2: { apply nth_error_None in O. pose proof (Forall2_len _ _ _ (nl_stors _ _ _ L)) as LE. assert (Datatypes.S k < length (n_stors n)) by (apply nth_error_Some; congruence). lia. }
  pose proof (All answer r rn o SV F Rn O t T) as Law.
  pose proof F as X. unfold feasible_answer in X. set (x := answer scn (program_of s scn)) in *. apply (sat_iff s scn S R _ vs _ B) in X.
  pose proof (proj1 (xb_stors _ _ _ (xo_bounds _ _ _ X) t net nd n _ y T N Y)) as Bd. unfold within in Bd.
  pose (q := if Qeq_bool (x (VCap net nd (Datatypes.S k) t)) 0 then value (s_capacity y) scn t else 0%Q).
  assert (Lq : (0 <= q <= value (s_capacity y) scn t)%Q) by (unfold q; destruct (Qeq_bool _ 0); lra).
  assert (Nq : ~ (q == x (VCap net nd (Datatypes.S k) t))%Q).
  { unfold q. destruct (Qeq_bool (x (VCap net nd (Datatypes.S k) t)) 0) eqn:E; [apply Qeq_bool_iff in E; lra |]. apply Qeq_bool_neq in E. intros H. apply E. now symmetry. }
  pose proof (refill_ok s scn net nd n k y t N Y x q X Lq) as X1. set (x1 := refill net nd k t x q) in *.
  pose (answer1 := with_answer answer scn x1). destruct (solved_any answer answer1 s r A SV) as (r1 & SV1).
  assert (F1 : feasible_answer answer1 s scn).
  { unfold feasible_answer, answer1, with_answer. rewrite Nat.eqb_refl. now apply (sat_iff s scn S R _ vs _ B). }
  destruct (solved_weak _ _ _ A SV1) as (_ & M1 & C1). destruct (C1 scn S) as (_ & CA1 & _).
  destruct (mirror_node_l s r1 M1 net nd n N) as (rn1 & Rn1 & L1).
  destruct (nth_error (on_stors rn1) (Datatypes.S k)) as [o1|] eqn:O1.
  2: { apply nth_error_None in O1. pose proof (Forall2_len _ _ _ (nl_stors _ _ _ L1)) as LE. assert (Datatypes.S k < length (n_stors n)) by (apply nth_error_Some; congruence). lia. }
  pose proof (All answer1 r1 rn1 o1 SV1 F1 Rn1 O1 t T) as Law1.
  assert (V : forall t', t' < st_horizon s -> (entry (os_capacity o) scn t' == x (VCap net nd (Datatypes.S k) t'))%Q /\
    (entry (os_flow_in o) scn t' == x (VIn net nd (Datatypes.S k) t'))%Q /\ (entry (os_flow_out o) scn t' == x (VOut net nd (Datatypes.S k) t'))%Q).
  { intros t' T'. exact (ca_stors _ _ _ _ CA net nd n rn _ y o t' T' N Rn Y O). }
  assert (V1 : forall t', t' < st_horizon s -> (entry (os_capacity o1) scn t' == x1 (VCap net nd (Datatypes.S k) t'))%Q /\
    (entry (os_flow_in o1) scn t' == x1 (VIn net nd (Datatypes.S k) t'))%Q /\ (entry (os_flow_out o1) scn t' == x1 (VOut net nd (Datatypes.S k) t'))%Q).
  { intros t' T'. pose proof (ca_stors _ _ _ _ CA1 net nd n rn1 _ y o1 t' T' N Rn1 Y O1) as H. cbn [x_read] in H. unfold answer1, with_answer in H.
    rewrite Nat.eqb_refl in H. exact H. }
  destruct (V t T) as (Va & Vb & Vc). destruct (V1 t T) as (Wa & Wb & Wc). unfold x1 in Wa at 1. rewrite refill_same in Wa.
  assert (Ein : (entry (os_flow_in o1) scn t == entry (os_flow_in o) scn t)%Q) by (rewrite Wb, Vb; reflexivity).
  assert (Eout : (entry (os_flow_out o1) scn t == entry (os_flow_out o) scn t)%Q) by (rewrite Wc, Vc; reflexivity).
  assert (Ebefore : (match t with O => s_init y | Datatypes.S t' => entry (os_capacity o1) scn t' end == match t with O => s_init y | Datatypes.S t' => entry (os_capacity o) scn t' end)%Q).
  { destruct t as [|t']; [reflexivity |]. destruct (V t' ltac:(lia)) as (Va' & _). destruct (V1 t' ltac:(lia)) as (Wa' & _). rewrite Va', Wa'. unfold x1. cbn [refill].
    replace (Nat.eqb t' (Datatypes.S t')) with false by (symmetry; apply Nat.eqb_neq; lia). rewrite andb_false_r. reflexivity. }
  rewrite Ein, Eout, Ebefore, <- Law in Law1. apply Nq. rewrite <- Va, <- Wa. exact Law1.
Qed.

(** In an optimum what a later storage is told to hold is no content at all: nothing where holding
    costs something, all it can hold where that is paid for. *)
Theorem C18_later_optimal : forall answer s r scn, api_study s -> solved answer s r -> scn < st_nb_scn s -> optimal_answer answer s scn ->
  forall net nd n rn i y o t, node_at s net nd = Some n -> rnode_at r net nd = Some rn -> 0 < i ->
    nth_error (n_stors n) i = Some y -> nth_error (on_stors rn) i = Some o -> t < st_horizon s ->
    ((0 < value (s_cost y) scn t)%Q -> (entry (os_capacity o) scn t == 0)%Q) /\
    ((value (s_cost y) scn t < 0)%Q -> (entry (os_capacity o) scn t == value (s_capacity y) scn t)%Q).
Proof.
  intros answer s r scn A SV S [F Best] net nd n rn i y o t N Rn Pi Y O T. destruct i as [|k]; [lia |].
  destruct (solved_weak _ _ _ A SV) as (R & M & C). destruct (C scn S) as ((vs & B) & CA & _).
  destruct (ca_stors _ _ _ _ CA net nd n rn _ y o t T N Rn Y O) as (Va & _). cbn [x_read] in Va. rewrite Va.
  set (x := answer scn (program_of s scn)) in *. apply (sat_iff s scn S R _ vs _ B) in F.
  destruct (proj1 (xb_stors _ _ _ (xo_bounds _ _ _ F) t net nd n _ y T N Y)) as [Lo Up].
  assert (K : forall q, (0 <= q <= value (s_capacity y) scn t)%Q -> (0 <= value (s_cost y) scn t * (q - x (VCap net nd (Datatypes.S k) t)))%Q).
  { intros q Lq. pose proof (refill_ok s scn net nd n k y t N Y x q F Lq) as X1. apply (sat_iff s scn S R _ vs _ B) in X1. specialize (Best _ X1).
    rewrite (refill_objective s scn S R net nd n k y t N Y T _ vs x q B) in Best. lra. }
  split; intros Sg.
  - pose proof (K 0%Q ltac:(lra)). nra.
  - pose proof (K (value (s_capacity y) scn t) ltac:(lra)). nra.
Qed.

(** The two storages of [told] and the results of [again]: the second and third hold nothing, and give. *)
Example C18_exact_example : api_study told /\ solved told_answer told told_result /\ optimal_answer told_answer told 0 /\ feasible_answer told_answer told 0 /\
  exists n rn y o, node_at told "net" "a" = Some n /\ rnode_at told_result "net" "a" = Some rn /\
    nth_error (n_stors n) 2 = Some y /\ nth_error (on_stors rn) 2 = Some o /\ (0 < value (s_cost y) 0 0)%Q /\ (0 < value (s_capacity y) 0 0)%Q /\
    (entry (os_capacity o) 0 0 == 0)%Q /\ (entry (os_flow_out o) 0 0 == 2)%Q /\ ~ storage_evolves told 0 y o.
Proof.
  split; [apply told_api |]. split. { exists [0], no_bench. split; [reflexivity | vm_compute; reflexivity]. }
  split; [apply told_optimal |]. split; [apply told_optimal |]. do 4 eexists. split; [reflexivity |]. split; [reflexivity |]. split; [reflexivity |]. split; [reflexivity |].
  split; [vm_compute; reflexivity |]. split; [vm_compute; reflexivity |]. split; [vm_compute; reflexivity |]. split; [vm_compute; reflexivity |].
  intros H. specialize (H 0 ltac:(vm_compute; lia)). vm_compute in H. discriminate.
Qed.

(** ** C28 *)
Lemma total_nonneg {A} (f : A -> Q) l : (forall a, In a l -> (0 <= f a)%Q) -> (0 <= total f l)%Q.
Proof. intros H. unfold total. apply qsum_nonneg. intros q J. apply in_map_iff in J as (a & <- & J). auto. Qed.
Lemma total_zero_iff {A} (f : A -> Q) l : (forall a, In a l -> (0 <= f a)%Q) -> ((total f l == 0)%Q <-> forall a, In a l -> (f a == 0)%Q).
Proof.
  intros H. split.
  - intros Z. unfold total in Z. induction l as [|b l IH]; intros a J; [destruct J |]. cbn [map qsum fold_right] in Z. fold (qsum (map f l)) in Z.
    assert (P : (0 <= total f l)%Q) by (apply total_nonneg; intros; apply H; cbn; auto). unfold total in P. pose proof (H b (or_introl eq_refl)).
    destruct J as [<-|J]; [lra |]. apply IH; auto; [intros; apply H; cbn; auto | lra].
  - intros Z. unfold total. apply qsum_map_zero. auto.
Qed.

(** A network conserves energy exactly when no energy goes over links from a node to itself. *)
Theorem C28_exact : forall answer s r scn,
  api_study s -> plain_sources s -> solved answer s r -> scn < st_nb_scn s -> feasible_answer answer s scn ->
  (network_conserves s r scn <-> forall net nd rn o t, rnode_at r net nd = Some rn -> In o (on_links rn) -> ol_dest o = nd -> t < st_horizon s ->
     (entry (ol_qty o) scn t == 0)%Q).
Proof.
  intros answer s r scn A P SV S F. destruct (solved_facts _ _ _ A P SV) as (R & M & C). destruct (C scn S) as (vs & B & CA).
  pose proof F as X. unfold feasible_answer in X. apply (sat_iff s scn S R _ vs _ B) in X.
  assert (NN : forall net nd rn o t, rnode_at r net nd = Some rn -> In o (on_links rn) -> t < st_horizon s -> (0 <= entry (ol_qty o) scn t)%Q).
  { intros net nd rn o t Rn J T. pose proof (mirror_node s r M net nd) as L. rewrite Rn in L. destruct (node_at s net nd) as [n|] eqn:N; [| contradiction].
    apply In_nth_error in J as (i & J). pose proof (Forall2_len _ _ _ (nl_links _ _ _ L)) as LE.
    destruct (nth_error (n_links n) i) as [l|] eqn:E. 2: { apply nth_error_None in E. assert (i < length (on_links rn)) by (apply nth_error_Some; congruence). lia. }
    rewrite (ca_links _ _ _ _ CA net nd n rn i l o t T N Rn E J). apply (xb_links _ _ _ (xo_bounds _ _ _ X) t net nd n i l T N E). }
  assert (LZ : forall net rns t, dget net (r_networks r) = Some rns -> t < st_horizon s ->
    ((total (fun kr => looped scn (fst kr) (snd kr) t) rns == 0)%Q <->
     forall nd rn o, rnode_at r net nd = Some rn -> In o (on_links rn) -> ol_dest o = nd -> (entry (ol_qty o) scn t == 0)%Q)).
  { intros net rns t D T. assert (ND : NoDup (dkeys rns)) by (eapply rns_NoDup; eauto using rd_wf).
    assert (AT : forall nd rn, In (nd, rn) rns -> rnode_at r net nd = Some rn) by (intros nd rn J; unfold rnode_at; rewrite D; now apply In_dget).
    assert (LN : forall nd rn, In (nd, rn) rns -> forall o, In o (on_links rn) -> (0 <= if String.eqb (ol_dest o) nd then entry (ol_qty o) scn t else 0)%Q).
    { intros nd rn J o K. destruct (String.eqb (ol_dest o) nd); [eapply NN; eauto | lra]. }
    rewrite total_zero_iff by (intros [nd rn] J; cbn [fst snd]; unfold looped; apply total_nonneg; eauto). split.
    - intros H nd rn o Rn K E. assert (J : In (nd, rn) rns) by (unfold rnode_at in Rn; rewrite D in Rn; now apply dget_In).
      specialize (H (nd, rn) J). cbn [fst snd] in H. unfold looped in H. apply (proj1 (total_zero_iff _ _ (LN nd rn J))) with (a := o) in H; auto.
      rewrite E, String.eqb_refl in H. exact H.
    - intros H [nd rn] J. cbn [fst snd]. unfold looped. apply (total_zero_iff _ _ (LN nd rn J)). intros o K. destruct (String.eqb (ol_dest o) nd) eqn:E; [| reflexivity].
      apply String.eqb_eq in E. eapply H; eauto. }
  pose proof (C28_network_energy_with_loops answer s r scn A P SV S F) as W. split.
  - intros NC net nd rn o t Rn J E T. pose proof Rn as D. unfold rnode_at in D. destruct (dget net (r_networks r)) as [rns|] eqn:D'; [| discriminate].
    apply (proj1 (LZ net rns t D' T)) with nd rn; auto. specialize (W t net rns T D'). specialize (NC t net rns T D'). lra.
  - intros H t net rns T D. specialize (W t net rns T D). assert (Z : (total (fun kr => looped scn (fst kr) (snd kr) t) rns == 0)%Q); [| lra].
    apply (LZ net rns t D T). intros nd rn o Rn J E. eapply H; eauto.
Qed.

Example C28_exact_example : api_study loop /\ plain_sources loop /\ solved loop_answer loop loop_result /\ feasible_answer loop_answer loop 0 /\
  exists nd rn o, rnode_at loop_result "net" nd = Some rn /\ In o (on_links rn) /\ ol_dest o = nd /\ ~ (entry (ol_qty o) 0 0 == 0)%Q.
Proof.
  split; [apply loop_api |]. split; [apply loop_plain |]. split; [apply loop_solved |]. split; [apply loop_feasible |].
  exists "a". do 2 eexists. split; [vm_compute; reflexivity |]. split; [left; reflexivity |]. split; [reflexivity |]. vm_compute. discriminate.
Qed.

Print Assumptions C18_exact.
Print Assumptions C18_later_optimal.
Print Assumptions C28_exact.
