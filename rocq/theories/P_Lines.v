(** C38 exactly: what every call of a program of queries sees, however often selectors are
    used. *)
From Coq Require Import String List ZArith QArith Bool Arith Lia Lqa Permutation Sorted.
From Verif Require Import Base BaseFacts Numeric Study Fluent Output LP SpecStudy SpecLP LPSat LPResult P_LP Analyzer SpecAnalyzer
  AnalyzerFacts P_Tables QueryFacts P_Query P_Reuse.
Import ListNotations.
Open Scope nat_scope.
Open Scope string_scope.
Open Scope list_scope.

(** ** Specification *)

(** The index an ask adds to a selector made for the indexes [l]: none if refused. *)
Definition accepted_ask (l : list index) (a : axis) (x : iarg) : list index :=
  if existsb (axis_eqb a) (offered l) then match new_index a x with Ok i => [i] | Err _ => [] end else [].
(** All the indexes the calls [cs] add through selector [j], made for [l]. *)
Definition asked_through (l : list index) (j : nat) (cs : list qcall) : list index :=
  flat_map (fun c => match c with QAsk k a x => if Nat.eqb k j then accepted_ask l a x else [] | QNetwork _ => [] end) cs.

(** The line of a call: the indexes its answer is made for. It is the line of the selector
    used, all that was asked through this selector before, and what is asked now. *)
Definition next_line (acc : list (list index)) (done : list qcall) (c : qcall) : list index :=
  match c with
  | QNetwork x => match new_index ANetwork x with Ok i => [i] | Err _ => [] end
  | QAsk j a x => nth j acc [] ++ asked_through (nth j acc []) j done ++ accepted_ask (nth j acc []) a x
  end.
Definition add_line (st : list (list index) * list qcall) (c : qcall) : list (list index) * list qcall :=
  (fst st ++ [next_line (fst st) (snd st) c], snd st ++ [c]).
Definition lines (cs : list qcall) : list (list index) := fst (fold_left add_line cs ([], [])).

(** What call [k] sees. *)
Definition is_methods (r : res seen) : bool := match r with Ok (SMethods _) => true | _ => false end.
Definition on_line (an : analyzer) (l : list index) : res seen :=
  if Nat.eqb (List.length l) 5 then let* f := an_filter an l in Ok (SData f) else Ok (SMethods (offered l)).
Definition sees (an : analyzer) (acc : list (list index)) (sn : list (res seen)) (done : list qcall) (c : qcall) : res seen :=
  match c with
  | QNetwork x => let* i := new_index ANetwork x in Ok (SMethods (offered [i]))
  | QAsk j a x =>
      if is_methods (nth j sn (Err AttributeError)) && existsb (axis_eqb a) (offered (nth j acc []))
      then let* _ := new_index a x in on_line an (next_line acc done c)
      else Err AttributeError
  end.

(** A call whose line holds nothing but the arguments of its own query. *)
Inductive clean (cs : list qcall) : nat -> Prop :=
| clean_network k x : nth_error cs k = Some (QNetwork x) -> clean cs k
| clean_ask k j a x : nth_error cs k = Some (QAsk j a x) -> clean cs j ->
    asked_through (nth j (lines cs) []) j (firstn k cs) = [] -> clean cs k.

(** ** Proofs *)
Lemma nth_error_app_some {A} (l m : list A) k x : nth_error l k = Some x -> nth_error (l ++ m) k = Some x.
Proof. intros H. rewrite nth_error_app1; auto. apply nth_error_Some. congruence. Qed.
Lemma add_lines_done cs : forall st, snd (fold_left add_line cs st) = snd st ++ cs.
Proof.
  induction cs as [|c cs IH]; intros st; cbn [fold_left]; [now rewrite app_nil_r|]. rewrite IH. cbn. now rewrite <- app_assoc.
Qed.
Lemma lines_snoc cs c : lines (cs ++ [c]) = lines cs ++ [next_line (lines cs) cs c].
Proof.
  unfold lines. rewrite fold_left_app. cbn [fold_left]. unfold add_line at 1. cbn [fst]. rewrite add_lines_done. reflexivity.
Qed.
Lemma lines_length cs : List.length (lines cs) = List.length cs.
Proof. induction cs as [|c cs IH] using rev_ind; auto. now rewrite lines_snoc, !app_length, IH. Qed.
Lemma asked_snoc l j cs c : asked_through l j (cs ++ [c]) =
  asked_through l j cs ++ match c with QAsk k a x => if Nat.eqb k j then accepted_ask l a x else [] | QNetwork _ => [] end.
Proof. unfold asked_through. rewrite flat_map_app. cbn [flat_map]. now rewrite app_nil_r. Qed.

Record own_lists (an : analyzer) (cs : list qcall) (h : aheap) (os : list outcome) : Prop := {
  ow_length : List.length os = List.length cs;
  ow_sel : forall k se, nth_error os k = Some (Ok (ASelector se)) ->
    se_axes se = offered (nth k (lines cs) []) /\
    nth_error h (se_list se) = Some (nth k (lines cs) [] ++ asked_through (nth k (lines cs) []) k cs);
  ow_apart : forall k k' se se', nth_error os k = Some (Ok (ASelector se)) -> nth_error os k' = Some (Ok (ASelector se')) ->
    se_list se = se_list se' -> k = k'
}.

Lemma asked_none l j cs : (forall k a x, In (QAsk k a x) cs -> k <> j) -> asked_through l j cs = [].
Proof.
  induction cs as [|c cs IH]; intros H; [reflexivity|]. unfold asked_through in *. cbn [flat_map]. rewrite IH by (intros k a x I'; apply (H k a x); now right).
  destruct c as [x|k a x]; auto. destruct (Nat.eqb_spec k j) as [->|]; auto. exfalso. now apply (H j a x (or_introl eq_refl)).
Qed.
Lemma wf_receiver cs k a x : wf_calls cs -> In (QAsk k a x) cs -> k < List.length cs.
Proof. intros W I'. apply In_nth_error in I' as (n & E). pose proof (W n k a x E). assert (n < List.length cs) by (apply nth_error_Some; congruence). lia. Qed.

Lemma own_snoc an cs h os c h' o : own_lists an cs h os -> wf_calls cs -> 
  match c with QAsk j _ _ => j < List.length cs | _ => True end ->
  (forall k se, nth_error os k = Some (Ok (ASelector se)) ->
     nth_error h' (se_list se) = Some (nth k (lines cs) [] ++ asked_through (nth k (lines cs) []) k (cs ++ [c]))) ->
  (forall se, o = Ok (ASelector se) -> se_axes se = offered (next_line (lines cs) cs c) /\
     nth_error h' (se_list se) = Some (next_line (lines cs) cs c) /\ List.length h <= se_list se) ->
  own_lists an (cs ++ [c]) h' (os ++ [o]).
Proof.
  intros [L S A] W Wc Old So. constructor.
  - now rewrite !app_length, L.
  - intros k se H. rewrite lines_snoc. apply nth_snoc_inv in H as [[Lk H]|[Lk Ho]].
    + rewrite app_nth1 by (rewrite lines_length; lia). split; [now apply S | now apply Old].
    + rewrite Lk, L, <- (lines_length cs), nth_middle. destruct (So se Ho) as (B & C & _). split; auto.
      rewrite asked_none, app_nil_r; auto. intros j a x I'. apply in_app_iff in I' as [I'|[->|[]]].
      * apply (wf_receiver _ _ _ _ W) in I'. rewrite lines_length. lia.
      * rewrite lines_length. lia.
  - intros k k' se se' H1 H2 E.
    assert (G : forall k0 se0, nth_error os k0 = Some (Ok (ASelector se0)) -> se_list se0 < List.length h).
    { intros k0 se0 H. destruct (S _ _ H) as (_ & X). apply nth_error_Some. congruence. }
    apply nth_snoc_inv in H1 as [[L1 H1]|[L1 H1]]; apply nth_snoc_inv in H2 as [[L2 H2]|[L2 H2]].
    + eauto.
    + destruct (So _ H2) as (_ & _ & X). specialize (G _ _ H1). lia.
    + destruct (So _ H1) as (_ & _ & X). specialize (G _ _ H2). lia.
    + congruence.
Qed.

Lemma own_run an cs : wf_calls cs ->
  let '(h, os) := qrun an cs in own_lists an cs h os /\
  forall k c o, nth_error cs k = Some c -> nth_error os k = Some o ->
    view o = sees an (lines (firstn k cs)) (map view (firstn k os)) (firstn k cs) c.
Proof.
  induction cs as [|c cs IH] using rev_ind; intros W.
  { split; [constructor; cbn; auto; intros [|k]; cbn; congruence | intros [|k]; cbn; congruence]. }
  apply wf_snoc in W as [W Wc]. specialize (IH W). rewrite qrun_snoc. destruct (qrun an cs) as [h os]. destruct IH as (OW & SE).
  pose proof (ow_length _ _ _ _ OW) as Lo.
  assert (Last : forall o, view o = sees an (lines cs) (map view os) cs c ->
     forall k c0 o0, nth_error (cs ++ [c]) k = Some c0 -> nth_error (os ++ [o]) k = Some o0 ->
       view o0 = sees an (lines (firstn k (cs ++ [c]))) (map view (firstn k (os ++ [o]))) (firstn k (cs ++ [c])) c0).
  { intros o Vo k c0 o0 H1 H2. apply nth_snoc_inv in H1 as [[L1 H1]|[L1 <-]]; apply nth_snoc_inv in H2 as [[L2 H2]|[L2 <-]]; try lia.
    - rewrite !firstn_app. replace (k - List.length cs) with 0 by lia. replace (k - List.length os) with 0 by lia. cbn [firstn]. rewrite !app_nil_r. eauto.
    - rewrite L1 at 1 3. rewrite L2. rewrite !firstn_app, !firstn_all, !Nat.sub_diag. cbn [firstn]. rewrite !app_nil_r. exact Vo. }
  assert (OldSame : forall h', (forall k se, nth_error os k = Some (Ok (ASelector se)) -> nth_error h' (se_list se) = nth_error h (se_list se)) ->
     (forall k, asked_through (nth k (lines cs) []) k (cs ++ [c]) = asked_through (nth k (lines cs) []) k cs \/ (forall se, nth_error os k <> Some (Ok (ASelector se)))) ->
     forall k se, nth_error os k = Some (Ok (ASelector se)) ->
     nth_error h' (se_list se) = Some (nth k (lines cs) [] ++ asked_through (nth k (lines cs) []) k (cs ++ [c]))).
  { intros h' G1 G2 k se H. rewrite (G1 _ _ H). destruct (G2 k) as [->|G2']; [now apply (ow_sel _ _ _ _ OW) | exfalso; exact (G2' _ H)]. }
  destruct c as [x|j a x].
  - cbn [qstep]. unfold an_network, sbind, slift, new_selector, sret. destruct (new_index ANetwork x) as [i|e] eqn:E; cbn.
    + split; [|apply Last; cbn [sees]; rewrite E; reflexivity].
      eapply own_snoc; eauto.
      * apply OldSame; [|intros k; left; rewrite asked_snoc; apply app_nil_r].
        intros k se H. destruct (ow_sel _ _ _ _ OW _ _ H) as (_ & X). rewrite X. apply nth_error_app_some. exact X.
      * intros se [= <-]. cbn [next_line se_axes se_list]. rewrite E. split; auto. split; auto. rewrite nth_error_app2, Nat.sub_diag by lia. reflexivity.
    + split; [|apply Last; cbn [sees]; rewrite E; reflexivity].
      eapply own_snoc; eauto; [|discriminate]. apply OldSame; auto. intros k; left; rewrite asked_snoc; apply app_nil_r.
  - cbn [qstep]. destruct (nth_error os j) as [oj|] eqn:Oj; [|apply nth_error_None in Oj; lia].
    assert (Nv : nth j (map view os) (Err AttributeError) = view oj).
    { rewrite (nth_indep _ _ (view (Err AttributeError))) by (rewrite map_length; lia). rewrite map_nth. f_equal. now apply nth_error_nth. }
    assert (Refused : (forall se, oj <> Ok (ASelector se)) -> own_lists an (cs ++ [QAsk j a x]) h (os ++ [Err AttributeError]) /\
       forall k c0 o0, nth_error (cs ++ [QAsk j a x]) k = Some c0 -> nth_error (os ++ [Err AttributeError]) k = Some o0 ->
       view o0 = sees an (lines (firstn k (cs ++ [QAsk j a x]))) (map view (firstn k (os ++ [Err AttributeError]))) (firstn k (cs ++ [QAsk j a x])) c0).
    { intros N. split.
      - eapply own_snoc; eauto; [|discriminate]. apply OldSame; auto. intros k. destruct (Nat.eq_dec k j) as [->|D].
        + right. intros se X. rewrite Oj in X. injection X as X. exact (N se X).
        + left. rewrite asked_snoc. replace (Nat.eqb j k) with false by (symmetry; apply Nat.eqb_neq; lia). apply app_nil_r.
      - apply Last. cbn [sees]. rewrite Nv. destruct oj as [[f|se]|e]; try reflexivity. exfalso. exact (N se eq_refl). }
    destruct oj as [[f|se]|e]; try (apply Refused; discriminate). clear Refused.
    destruct (ow_sel _ _ _ _ OW _ _ Oj) as (Ax & Hl).
    set (l := nth j (lines cs) []) in *.
    unfold ask, sbind, sguard, slift. rewrite Ax.
    destruct (existsb (axis_eqb a) (offered l)) eqn:X; cbn [negb].
    2:{ cbn. split; [|apply Last; cbn [sees]; rewrite Nv; cbn [view is_methods andb]; fold l; rewrite X; reflexivity].
        eapply own_snoc; eauto; [|discriminate]. apply OldSame; auto. intros k. left. rewrite asked_snoc. destruct (Nat.eqb_spec j k) as [<-|]; [|apply app_nil_r].
        fold l. unfold accepted_ask. rewrite X. apply app_nil_r. }
    unfold sret at 1. destruct (new_index a x) as [i|e] eqn:E; cbn [fst snd].
    2:{ cbn. split; [|apply Last; cbn [sees]; rewrite Nv; cbn [view is_methods andb]; fold l; rewrite X, E; reflexivity].
        eapply own_snoc; eauto; [|discriminate]. apply OldSame; auto. intros k. left. rewrite asked_snoc. destruct (Nat.eqb_spec j k) as [<-|]; [|apply app_nil_r].
        fold l. unfold accepted_ask. rewrite X, E. apply app_nil_r. }
    rewrite (nth_error_nth _ _ _ Hl).
    assert (NL : (l ++ asked_through l j cs) ++ [i] = next_line (lines cs) cs (QAsk j a x)).
    { cbn [next_line]. fold l. unfold accepted_ask. rewrite X, E. now rewrite <- app_assoc. }
    rewrite NL. set (l' := next_line (lines cs) cs (QAsk j a x)) in *.
    assert (Old : forall k se', nth_error os k = Some (Ok (ASelector se')) ->
       nth_error (upd_nth (se_list se) (fun _ => l') h) (se_list se') = Some (nth k (lines cs) [] ++ asked_through (nth k (lines cs) []) k (cs ++ [QAsk j a x]))).
    { intros k se' H. rewrite nth_error_upd_nth, asked_snoc. destruct (Nat.eqb_spec (se_list se) (se_list se')) as [D|D].
      - assert (j = k) by (exact (ow_apart _ _ _ _ OW _ _ _ _ Oj H D)). subst k. rewrite Nat.eqb_refl, <- D, Hl. cbn [option_map].
        fold l. unfold accepted_ask. rewrite X, E, app_assoc. now rewrite NL.
      - destruct (ow_sel _ _ _ _ OW _ _ H) as (_ & ->). destruct (Nat.eqb_spec j k) as [->|]; [|now rewrite app_nil_r].
        exfalso. apply D. rewrite Oj in H. now injection H as ->. }
    assert (Sn : sees an (lines cs) (map view os) cs (QAsk j a x) = on_line an l').
    { cbn [sees]. rewrite Nv. cbn [view is_methods andb]. fold l. rewrite X, E. reflexivity. }
    destruct (Nat.eqb (List.length l') 5) eqn:F.
    + split; [eapply own_snoc; eauto; intros se'; destruct (an_filter an l'); discriminate|]. apply Last. rewrite Sn. unfold on_line. rewrite F.
      destruct (an_filter an l'); reflexivity.
    + unfold new_selector, sret. cbn. split; [|apply Last; rewrite Sn; unfold on_line; now rewrite F].
      eapply own_snoc; eauto.
      * intros k se' H. apply nth_error_app_some. now apply Old.
      * intros se' [= <-]. cbn [se_axes se_list]. rewrite length_upd_nth. split; auto. split; [|lia]. rewrite nth_error_app2 by (rewrite length_upd_nth; lia). rewrite length_upd_nth, Nat.sub_diag. reflexivity.
Qed.

(** What each call of any program sees, told without the lists that selectors share with
    nobody but themselves. *)
Theorem C38_exact : forall an cs k c o, wf_calls cs -> nth_error cs k = Some c -> nth_error (snd (qrun an cs)) k = Some o ->
  view o = sees an (lines (firstn k cs)) (map view (firstn k (snd (qrun an cs)))) (firstn k cs) c.
Proof. intros an cs k c o W C O. pose proof (own_run an cs W) as H. destruct (qrun an cs) as [h os]. now apply H. Qed.

Lemma lines_firstn cs : forall k, firstn k (lines cs) = lines (firstn k cs).
Proof.
  induction cs as [|c cs IH] using rev_ind; intros k; [now destruct k|]. rewrite lines_snoc, !firstn_app, lines_length.
  destruct (Nat.le_gt_cases k (List.length cs)) as [L|L].
  - replace (k - List.length cs) with 0 by lia. cbn [firstn]. now rewrite !app_nil_r.
  - rewrite !firstn_all2 by (rewrite ?lines_length; cbn; lia). now rewrite lines_snoc.
Qed.
Lemma line_eq cs k c : nth_error cs k = Some c -> nth k (lines cs) [] = next_line (lines (firstn k cs)) (firstn k cs) c.
Proof.
  intros H. apply nth_error_split in H as (p & q & -> & <-).
  assert (F : firstn (List.length p) (p ++ c :: q) = p) by (rewrite firstn_app, firstn_all, Nat.sub_diag; apply app_nil_r).
  rewrite F. assert (G : firstn (S (List.length p)) (p ++ c :: q) = p ++ [c]).
  { rewrite firstn_app, firstn_all2 by lia. replace (S (List.length p) - List.length p) with 1 by lia. reflexivity. }
  pose proof (lines_firstn (p ++ c :: q) (S (List.length p))) as E. rewrite G, lines_snoc in E.
  assert (N : nth_error (firstn (S (List.length p)) (lines (p ++ c :: q))) (List.length p) = Some (next_line (lines p) p c)).
  { rewrite E, nth_error_app2 by (rewrite lines_length; lia). rewrite lines_length, Nat.sub_diag. reflexivity. }
  apply nth_error_nth. rewrite <- N. symmetry.
  assert (NF : forall {A} (l : list A) n m, n < m -> nth_error (firstn m l) n = nth_error l n).
  { clear. intros A l. induction l as [|y l IH]; intros [|n] [|m] L; cbn; auto; try lia. apply IH. lia. }
  apply NF. lia.
Qed.

Lemma nth_firstn_lines cs j k : j < k -> k <= List.length cs -> nth j (lines (firstn k cs)) [] = nth j (lines cs) [].
Proof.
  intros L L'. rewrite <- lines_firstn. rewrite <- (firstn_skipn k (lines cs)) at 2. rewrite app_nth1; auto. rewrite firstn_length, lines_length. lia.
Qed.

Lemma indexes_snoc q ax ixs : indexes_of q = Ok ixs -> indexes_of (q ++ [ax]) = let* i := new_index (fst ax) (snd ax) in Ok (ixs ++ [i]).
Proof.
  unfold indexes_of. revert ixs. induction q as [|b q IH]; intros ixs; cbn [mapM app].
  - intros [= <-]. cbn. destruct (new_index (fst ax) (snd ax)); reflexivity.
  - destruct (new_index (fst b) (snd b)) as [i|]; cbn [rbind]; [|discriminate]. destruct (mapM _ q) as [r|] eqn:E; cbn [rbind]; [|discriminate].
    intros [= <-]. rewrite (IH r eq_refl). destruct (new_index (fst ax) (snd ax)); reflexivity.
Qed.

Lemma chain_eq cs k c : wf_calls cs -> nth_error cs k = Some c ->
  nth k (chains cs) [] = match c with QNetwork x => [(ANetwork, x)] | QAsk j a x => nth j (chains cs) [] ++ [(a, x)] end.
Proof.
  revert k c. induction cs as [|b cs IH] using rev_ind; intros k c W H; [now destruct k|].
  apply wf_snoc in W as [W Wc]. rewrite chains_snoc. apply nth_snoc_inv in H as [[L H]|[-> <-]].
  - rewrite app_nth1 by (rewrite chains_length; lia). rewrite (IH _ _ W H). destruct c as [x|j a x]; auto.
    rewrite app_nth1; auto. rewrite chains_length. pose proof (W _ _ _ _ H). lia.
  - rewrite <- (chains_length cs), nth_middle. destruct b as [x|j a x]; auto. rewrite app_nth1; auto. rewrite chains_length. lia.
Qed.

Lemma run_length an cs : wf_calls cs -> List.length (snd (qrun an cs)) = List.length cs.
Proof. intros W. pose proof (own_run an cs W) as H. destruct (qrun an cs) as [h os]. destruct H as (H & _). apply (ow_length _ _ _ _ H). Qed.

(** What an answered call on a selector is. *)
Lemma answered an cs k j a x o : wf_calls cs -> nth_error cs k = Some (QAsk j a x) -> nth_error (snd (qrun an cs)) k = Some o ->
  (exists r, view o = Ok r) -> exists oj i, nth_error (snd (qrun an cs)) j = Some oj /\ (exists r, view oj = Ok r) /\ j < k /\ new_index a x = Ok i /\
    nth k (lines cs) [] = nth j (lines cs) [] ++ asked_through (nth j (lines cs) []) j (firstn k cs) ++ [i].
Proof.
  intros W H O (r & V). pose proof (W _ _ _ _ H) as L. assert (Lk : k < List.length cs) by (apply nth_error_Some; congruence).
  rewrite (C38_exact _ _ _ _ _ W H O) in V. cbn [sees] in V.
  destruct (nth_error (snd (qrun an cs)) j) as [oj|] eqn:Oj.
  2:{ apply nth_error_None in Oj. rewrite (run_length _ _ W) in Oj. lia. }
  assert (Nv : nth j (map view (firstn k (snd (qrun an cs)))) (Err AttributeError) = view oj).
  { rewrite (nth_indep _ _ (view (Err AttributeError))) by (rewrite map_length, firstn_length, (run_length _ _ W); lia). rewrite map_nth. f_equal.
    apply nth_error_nth. rewrite <- Oj. rewrite <- (firstn_skipn k (snd (qrun an cs))) at 2. rewrite nth_error_app1; auto. rewrite firstn_length, (run_length _ _ W). lia. }
  rewrite Nv in V. rewrite (nth_firstn_lines cs j k) in V by lia.
  destruct (is_methods (view oj)) eqn:M; cbn [andb] in V; [|discriminate V].
  destruct (existsb (axis_eqb a) (offered (nth j (lines cs) []))) eqn:X; [|discriminate V].
  destruct (new_index a x) as [i|e] eqn:E; [|discriminate V].
  exists oj, i. split; auto. split; [destruct (view oj) as [s|]; [eauto | discriminate M]|]. split; auto. split; auto.
  rewrite (line_eq _ _ _ H). cbn [next_line]. rewrite (nth_firstn_lines cs j k) by lia. unfold accepted_ask. now rewrite X, E.
Qed.

(** A call that is answered is made for the arguments of its own query, and for no others,
    exactly if nothing was asked before through the selectors of its query. *)
Theorem C38_clean_exact : forall an cs k o, wf_calls cs -> nth_error (snd (qrun an cs)) k = Some o -> (exists r, view o = Ok r) ->
  (indexes_of (nth k (chains cs) []) = Ok (nth k (lines cs) []) <-> clean cs k).
Proof.
  intros an cs k o W O V.
  assert (G : (exists ixs, indexes_of (nth k (chains cs) []) = Ok ixs /\ List.length ixs <= List.length (nth k (lines cs) [])) /\
     (indexes_of (nth k (chains cs) []) = Ok (nth k (lines cs) []) <-> clean cs k)); [|apply G].
  revert o O V. induction k as [k IH] using lt_wf_ind. intros o O V.
  assert (Lk : k < List.length cs) by (rewrite <- (run_length an cs W); apply nth_error_Some; congruence).
  destruct (nth_error cs k) as [c|] eqn:C; [|apply nth_error_None in C; lia].
  rewrite (chain_eq _ _ _ W C). destruct c as [x|j a x].
  - rewrite (line_eq _ _ _ C). cbn [next_line]. destruct V as (r & V). rewrite (C38_exact _ _ _ _ _ W C O) in V. cbn [sees] in V.
    destruct (new_index ANetwork x) as [i|e] eqn:E; [|discriminate V]. unfold indexes_of. cbn. rewrite E. cbn.
    split; [exists [i]; split; auto|]. split; auto. intros _. econstructor; eauto.
  - destruct (answered _ _ _ _ _ _ _ W C O V) as (oj & i & Oj & Vj & L & E & Ln).
    destruct (IH j L oj Oj Vj) as ((ixs & I1 & I2) & I3). rewrite (indexes_snoc _ _ _ I1). cbn [fst snd]. rewrite E. cbn [rbind]. rewrite Ln. split.
    + exists (ixs ++ [i]). split; auto. rewrite !app_length. cbn. lia.
    + split.
      * intros H. injection H as H. rewrite app_assoc in H. apply app_inj_tail in H as (H & _).
        assert (Z : asked_through (nth j (lines cs) []) j (firstn k cs) = []).
        { apply length_zero_iff_nil. pose proof (f_equal (@List.length index) H) as HL. rewrite app_length in HL. lia. }
        eapply clean_ask; eauto. apply I3. rewrite I1. rewrite Z, app_nil_r in H. now rewrite H.
      * intros Cl. inversion Cl as [k' x' C' | k' j' a' x' C' Cj Z]; subst; rewrite C in C'; [discriminate C'|]. injection C' as <- <- <-.
        rewrite Z. cbn [app]. apply I3 in Cj. rewrite I1 in Cj. now injection Cj as ->.
Qed.

(** The data given are those of the line. *)
Theorem C38_data_exact : forall an cs k o f, wf_calls cs -> nth_error (snd (qrun an cs)) k = Some o -> view o = Ok (SData f) ->
  List.length (nth k (lines cs) []) = 5 /\ an_filter an (nth k (lines cs) []) = Ok f.
Proof.
  intros an cs k o f W O V.
  assert (Lk : k < List.length cs) by (rewrite <- (run_length an cs W); apply nth_error_Some; congruence).
  destruct (nth_error cs k) as [c|] eqn:C; [|apply nth_error_None in C; lia].
  pose proof V as V0. rewrite (C38_exact _ _ _ _ _ W C O) in V0. rewrite (line_eq _ _ _ C). destruct c as [x|j a x]; cbn [sees] in V0.
  - destruct (new_index ANetwork x); discriminate V0.
  - destruct (_ && _); [|discriminate V0]. destruct (new_index a x) as [i|]; [|discriminate V0]. cbn [rbind] in V0. unfold on_line in V0.
    destruct (Nat.eqb_spec (List.length (next_line (lines (firstn k cs)) (firstn k cs) (QAsk j a x))) 5) as [E|]; [|discriminate V0].
    split; auto. destruct (an_filter an _) as [g|]; [|discriminate V0]. now injection V0 as ->.
Qed.

(** The program [reuse]: its fifth call is clean and gives data; its sixth, the second
    through the same selector, is made for six indexes. *)
Example C38_exact_example : wf_calls reuse /\ clean reuse 4 /\ ~ clean reuse 5 /\
  (exists o f, nth_error (snd (qrun mix_an reuse)) 4 = Some o /\ view o = Ok (SData f)) /\
  List.length (nth 4 (lines reuse) []) = 5 /\ List.length (nth 5 (lines reuse) []) = 6.
Proof.
  split; [intros k j a x H; do 6 (destruct k as [|k]; [vm_compute in H; try discriminate H; injection H as <- _ _; lia|]); now destruct k|].
  split; [|split; [|split; [eexists; eexists; split; vm_compute; reflexivity | split; reflexivity]]].
  - eapply (clean_ask _ 4 3); [reflexivity| |reflexivity]. eapply (clean_ask _ 3 2); [reflexivity| |reflexivity].
    eapply (clean_ask _ 2 1); [reflexivity| |reflexivity]. eapply (clean_ask _ 1 0); [reflexivity| |reflexivity]. eapply clean_network. reflexivity.
  - intros Cl. inversion Cl as [k x C | k j a x C Cj Z]; cbn in C; [discriminate C|]. injection C as <- <- <-. vm_compute in Z. discriminate Z.
Qed.

Print Assumptions C38_exact.
Print Assumptions C38_clean_exact.
Print Assumptions C38_data_exact.
