(** Reuse of partial queries, slices, and examples of queries: C36 to C39. *)
From Coq Require Import String List ZArith QArith Bool Arith Lia Lqa Permutation Sorted.
From Verif Require Import Base BaseFacts Numeric Study Fluent Output LP SpecStudy SpecLP LPSat LPResult P_LP Analyzer SpecAnalyzer
  AnalyzerFacts P_Tables QueryFacts P_Query.
Import ListNotations.
Open Scope nat_scope.
Open Scope string_scope.
Open Scope list_scope.

Lemma NoDup_app_left {A} (l m : list A) : NoDup (l ++ m) -> NoDup l.
Proof.
  induction l as [|x l IH]; cbn; intros N; [constructor|]. inversion N; subst. constructor; auto.
  intros I. apply H1. apply in_or_app; auto.
Qed.
Lemma combine_snoc_app {A B} (l l' : list A) (m m' : list B) : List.length l = List.length m ->
  combine (l ++ l') (m ++ m') = combine l m ++ combine l' m'.
Proof. revert m. induction l as [|x l IH]; intros [|y m] E; cbn in *; try discriminate; auto. f_equal. apply IH. lia. Qed.

(** ** C38 *)

(** A query without its selectors: the list of indexes collected, or the data. *)
Inductive pure_answer := PData (f : option frame) | PList (l : list index).
Definition pure_step (an : analyzer) (r : res pure_answer) (ax : axis * iarg) : res pure_answer :=
  match r with
  | Ok (PList l) =>
      if existsb (axis_eqb (fst ax)) (offered l)
      then let* i := new_index (fst ax) (snd ax) in
           if Nat.eqb (List.length (l ++ [i])) 5 then let* f := an_filter an (l ++ [i]) in Ok (PData f) else Ok (PList (l ++ [i]))
      else Err AttributeError
  | _ => Err AttributeError
  end.
Definition pure_run (an : analyzer) (q : query) : res pure_answer :=
  match q with
  | [] => Err AttributeError
  | ax :: rest => fold_left (pure_step an) rest (let* i := new_index ANetwork (snd ax) in Ok (PList [i]))
  end.
Definition pure_view (r : res pure_answer) : res seen :=
  match r with
  | Ok (PData f) => Ok (SData f)
  | Ok (PList l) => Ok (SMethods (offered l))
  | Err e => Err e
  end.

Lemma pure_run_snoc an q ax : q <> [] -> pure_run an (q ++ [ax]) = pure_step an (pure_run an q) ax.
Proof. destruct q as [|b q]; [congruence|]. intros _. cbn [app pure_run]. now rewrite fold_left_app. Qed.

Lemma qrun_snoc an cs c : qrun an (cs ++ [c]) = qstep an (qrun an cs) c.
Proof. unfold qrun. now rewrite fold_left_app. Qed.
Lemma chains_snoc cs c : chains (cs ++ [c]) =
  chains cs ++ [match c with QNetwork x => [(ANetwork, x)] | QAsk j a x => nth j (chains cs) [] ++ [(a, x)] end].
Proof. unfold chains. now rewrite fold_left_app. Qed.
Lemma chains_length cs : List.length (chains cs) = List.length cs.
Proof. induction cs as [|c cs IH] using rev_ind; auto. now rewrite chains_snoc, !app_length, IH. Qed.
Lemma wf_snoc cs c : wf_calls (cs ++ [c]) <-> wf_calls cs /\ match c with QAsk j _ _ => j < List.length cs | _ => True end.
Proof.
  unfold wf_calls. split.
  - intros W. split.
    + intros k j a x H. apply (W k j a x). rewrite nth_error_app1; auto. apply nth_error_Some. congruence.
    + destruct c as [|j a x]; auto. apply (W (List.length cs) j a x). now rewrite nth_error_app2, Nat.sub_diag by lia.
  - intros [W C] k j a x H. destruct (Nat.lt_ge_cases k (List.length cs)) as [L|L].
    + rewrite nth_error_app1 in H by auto. eauto.
    + rewrite nth_error_app2 in H by auto. destruct (k - List.length cs) as [|m] eqn:D; [|now destruct m].
      injection H as ->. lia.
Qed.
Lemma receivers_snoc cs c : receivers (cs ++ [c]) = receivers cs ++ match c with QAsk k _ _ => [k] | _ => [] end.
Proof. unfold receivers. rewrite flat_map_app. simpl. now rewrite app_nil_r. Qed.

(** Selectors in the history of a program whose receivers are distinct. *)
Record history (an : analyzer) (cs : list qcall) (h : aheap) (os : list outcome) : Prop := {
  hi_length : List.length os = List.length cs;
  hi_chain : forall k ch, nth_error (chains cs) k = Some ch -> ch <> [];
  hi_view : forall k o ch, nth_error os k = Some o -> nth_error (chains cs) k = Some ch -> view o = pure_view (pure_run an ch);
  hi_sel : forall k se ch, nth_error os k = Some (Ok (ASelector se)) -> nth_error (chains cs) k = Some ch ->
    se_list se < List.length h /\ exists l, pure_run an ch = Ok (PList l) /\ se_axes se = offered l /\
      (~ In k (receivers cs) -> nth_error h (se_list se) = Some l);
  hi_apart : forall k k' se se', nth_error os k = Some (Ok (ASelector se)) -> nth_error os k' = Some (Ok (ASelector se')) ->
    se_list se = se_list se' -> k = k'
}.

Lemma nth_snoc_inv {A} (l : list A) x k y : nth_error (l ++ [x]) k = Some y ->
  (k < List.length l /\ nth_error l k = Some y) \/ (k = List.length l /\ x = y).
Proof.
  intros H. destruct (Nat.lt_ge_cases k (List.length l)) as [L|L].
  - rewrite nth_error_app1 in H by auto. auto.
  - rewrite nth_error_app2 in H by auto. destruct (k - List.length l) as [|m] eqn:D; [|now destruct m].
    injection H as ->. right. split; [lia|auto].
Qed.

(** A call that leaves the lists of the other selectors alone. *)
Lemma history_snoc an cs h os c h' o ch : history an cs h os ->
  ch = match c with QNetwork x => [(ANetwork, x)] | QAsk j a x => nth j (chains cs) [] ++ [(a, x)] end ->
  List.length h <= List.length h' ->
  (forall k se, nth_error os k = Some (Ok (ASelector se)) -> ~ In k (receivers (cs ++ [c])) -> nth_error h' (se_list se) = nth_error h (se_list se)) ->
  view o = pure_view (pure_run an ch) ->
  (forall se, o = Ok (ASelector se) -> se_list se = List.length h /\ List.length h < List.length h' /\
     exists l, pure_run an ch = Ok (PList l) /\ se_axes se = offered l /\ nth_error h' (se_list se) = Some l) ->
  history an (cs ++ [c]) h' (os ++ [o]).
Proof.
  intros [L C V S A] Ech Lh Old Vo So. constructor.
  - now rewrite !app_length, L.
  - intros k q. rewrite chains_snoc, <- Ech. intros H. apply nth_snoc_inv in H as [[_ H]|[_ <-]]; [eauto|].
    rewrite Ech. destruct c; [discriminate|]. intros X. now apply app_eq_nil in X.
  - intros k o' q. rewrite chains_snoc, <- Ech. intros H1 H2. apply nth_snoc_inv in H1 as [[L1 H1]|[L1 <-]];
      apply nth_snoc_inv in H2 as [[L2 H2]|[L2 <-]]; rewrite ?chains_length in *; try lia; eauto.
  - intros k se q. rewrite chains_snoc, <- Ech. intros H1 H2. apply nth_snoc_inv in H1 as [[L1 H1]|[L1 ->]];
      apply nth_snoc_inv in H2 as [[L2 H2]|[L2 <-]]; rewrite ?chains_length in *; try lia.
    + destruct (S k se q H1 H2) as (B & l & P & O & N). split; [lia|]. exists l. split; auto. split; auto.
      intros NI. rewrite (Old k se H1 NI). apply N. intros X. apply NI. rewrite receivers_snoc. apply in_or_app; auto.
    + destruct (So se eq_refl) as (E & B & l & P & O & N). split; [lia|]. exists l. auto.
  - intros k k' se se' H1 H2 E. apply nth_snoc_inv in H1 as [[L1 H1]|[L1 H1]]; apply nth_snoc_inv in H2 as [[L2 H2]|[L2 H2]].
    + eauto.
    + exfalso. destruct (So se' H2) as (E' & _). rewrite L in L1.
      destruct (nth_error (chains cs) k) as [q|] eqn:Q; [|apply nth_error_None in Q; rewrite chains_length in Q; lia].
      destruct (S k se q H1 Q) as (B & _). lia.
    + exfalso. destruct (So se H1) as (E' & _). rewrite L in L2.
      destruct (nth_error (chains cs) k') as [q|] eqn:Q; [|apply nth_error_None in Q; rewrite chains_length in Q; lia].
      destruct (S k' se' q H2 Q) as (B & _). lia.
    + lia.
Qed.

Lemma history_run an cs : wf_calls cs -> NoDup (receivers cs) ->
  let '(h, os) := qrun an cs in history an cs h os.
Proof.
  induction cs as [|c cs IH] using rev_ind; intros W N.
  - constructor; simpl; auto; intros [|k]; simpl; congruence.
  - apply wf_snoc in W as [W Wc]. rewrite receivers_snoc in N.
    assert (N' : NoDup (receivers cs)) by (exact (NoDup_app_left _ _ N)).
    specialize (IH W N'). rewrite qrun_snoc. destruct (qrun an cs) as [h os]. destruct c as [x|j a x].
    + cbn [qstep]. unfold an_network, sbind, slift, new_selector, sret. destruct (new_index ANetwork x) as [i|e] eqn:E; cbn.
      * eapply history_snoc; [exact IH | reflexivity | rewrite app_length; lia | | cbn; rewrite E; reflexivity |].
        -- intros k se H NI. destruct (nth_error (chains cs) k) as [q|] eqn:Q.
           ++ destruct (hi_sel _ _ _ _ IH k se q H Q) as (B & _). now rewrite nth_error_app1.
           ++ apply nth_error_None in Q. rewrite chains_length, <- (hi_length _ _ _ _ IH) in Q. apply nth_error_None in Q. congruence.
        -- intros se [= <-]. cbn. split; auto. rewrite app_length. cbn. split; [lia|]. exists [i]. rewrite E. cbn. split; auto. split; auto.
           rewrite nth_error_app2, Nat.sub_diag by lia. reflexivity.
      * eapply history_snoc; [exact IH | reflexivity | lia | auto | cbn; rewrite E; reflexivity | discriminate].
    + cbn [qstep]. assert (Lc : j < List.length (chains cs)) by (now rewrite chains_length).
      destruct (nth_error (chains cs) j) as [q|] eqn:Q; [|apply nth_error_None in Q; lia].
      assert (Eq : nth j (chains cs) [] = q) by (now apply nth_error_nth).
      assert (Nq : q <> []) by (eapply hi_chain; eauto).
      assert (Nj : ~ In j (receivers cs)).
      { intros X. apply (NoDup_remove_2 _ _ _ N). rewrite app_nil_r. exact X. }
      assert (Run : pure_run an (nth j (chains cs) [] ++ [(a, x)]) = pure_step an (pure_run an q) (a, x)) by (rewrite Eq; now apply pure_run_snoc).
      destruct (nth_error os j) as [oj|] eqn:Oj; [|apply nth_error_None in Oj; rewrite (hi_length _ _ _ _ IH) in Oj; lia].
      pose proof (hi_view _ _ _ _ IH j oj q Oj Q) as Vj.
      destruct oj as [[f|se]|e].
      * eapply history_snoc; [exact IH | reflexivity | lia | auto | | discriminate]. rewrite Run.
        destruct (pure_run an q) as [[f'|l]|e']; cbn in Vj; try discriminate; reflexivity.
      * destruct (hi_sel _ _ _ _ IH j se q Oj Q) as (B & l & P & O & Hl). specialize (Hl Nj).
        assert (Enth : nth (se_list se) h [] = l) by (now apply nth_error_nth).
        unfold ask, sbind, sguard, slift. rewrite P in Run. cbn [pure_step fst snd] in Run. rewrite O.
        destruct (existsb (axis_eqb a) (offered l)) eqn:X; cbn [negb].
        2:{ cbn. eapply history_snoc; [exact IH | reflexivity | lia | auto | rewrite Run; reflexivity | discriminate]. }
        cbn [fst snd]. unfold sret at 1. destruct (new_index a x) as [i|e] eqn:E; cbn [fst snd].
        2:{ cbn in Run. eapply history_snoc; [exact IH | reflexivity | lia | auto | rewrite Run; reflexivity | discriminate]. }
        cbn [rbind] in Run. rewrite Enth.
        assert (Old : forall k se', nth_error os k = Some (Ok (ASelector se')) -> ~ In k (receivers (cs ++ [QAsk j a x])) -> 
           nth_error (upd_nth (se_list se) (fun _ => l ++ [i]) h) (se_list se') = nth_error h (se_list se')).
        { intros k se' H NI. rewrite nth_error_upd_nth. destruct (Nat.eqb_spec (se_list se) (se_list se')) as [D|D]; auto.
          exfalso. apply NI. rewrite receivers_snoc. apply in_or_app. right. left. exact (hi_apart _ _ _ _ IH j k se se' Oj H D). }
        destruct (Nat.eqb (List.length (l ++ [i])) 5) eqn:F.
        -- eapply history_snoc; [exact IH | reflexivity | rewrite length_upd_nth; lia | exact Old | |].
           ++ rewrite Run. destruct (an_filter an (l ++ [i])); reflexivity.
           ++ intros se'. destruct (an_filter an (l ++ [i])); discriminate.
        -- unfold new_selector, sret. cbn. eapply history_snoc; [exact IH | reflexivity | rewrite app_length, length_upd_nth; lia | | rewrite Run; reflexivity |].
           ++ intros k se' H NI. rewrite nth_error_app1; [now apply Old with k|]. rewrite length_upd_nth.
              destruct (nth_error (chains cs) k) as [q'|] eqn:Q'.
              ** now destruct (hi_sel _ _ _ _ IH k se' q' H Q') as (B' & _).
              ** apply nth_error_None in Q'. rewrite chains_length, <- (hi_length _ _ _ _ IH) in Q'. apply nth_error_None in Q'. congruence.
           ++ intros se' [= <-]. cbn. rewrite length_upd_nth. split; auto. rewrite app_length, length_upd_nth. cbn. split; [lia|].
              exists (l ++ [i]). split; auto. split; auto. rewrite nth_error_app2 by (rewrite length_upd_nth; lia). now rewrite length_upd_nth, Nat.sub_diag.
      * eapply history_snoc; [exact IH | reflexivity | lia | auto | | discriminate]. rewrite Run.
        destruct (pure_run an q) as [[f'|l]|e']; cbn in Vj; try discriminate; reflexivity.
Qed.

(** The program that writes one query. *)
Lemma straight_snoc q ax : q <> [] -> straight (q ++ [ax]) = straight q ++ [QAsk (List.length q - 1) (fst ax) (snd ax)].
Proof.
  destruct q as [|[a x] q]; [congruence|]. intros _. cbn [app straight List.length]. f_equal.
  rewrite app_length. cbn [List.length]. rewrite Nat.add_1_r, seq_S. cbn [Nat.sub Nat.add].
  rewrite combine_snoc_app by apply seq_length. rewrite map_app. cbn. now rewrite Nat.sub_0_r.
Qed.

Lemma straight_facts q : q <> [] -> (forall ax rest, q = ax :: rest -> fst ax = ANetwork) ->
  List.length (straight q) = List.length q /\ wf_calls (straight q) /\
  (forall k, In k (receivers (straight q)) -> S k < List.length q) /\ NoDup (receivers (straight q)) /\
  nth_error (chains (straight q)) (List.length q - 1) = Some q.
Proof.
  induction q as [|ax q IH] using rev_ind; intros N H; [congruence|].
  destruct q as [|b q].
  - cbn. destruct ax as [a x]. specialize (H (a, x) [] eq_refl). cbn in H. subst a. split; auto. split.
    + intros [|[|k]] j a y E; cbn in E; discriminate.
    + split; [intros k []|]. split; [constructor|reflexivity].
  - destruct IH as (L & W & R & ND & C); [discriminate | intros c rest E; injection E as <- <-; exact (H b (q ++ [ax]) eq_refl) |].
    rewrite straight_snoc by discriminate. set (p := b :: q) in *. assert (0 < List.length p) by (cbn; lia).
    rewrite !app_length. cbn [List.length]. split; [lia|]. split; [|split; [|split]].
    + apply wf_snoc. split; auto. rewrite L. lia.
    + intros k I. rewrite receivers_snoc in I. apply in_app_iff in I as [I|[<-|[]]]; [apply R in I|]; lia.
    + rewrite receivers_snoc. apply NoDup_app_disj; auto; [repeat constructor; intros []|]. intros k I [<-|[]]. apply R in I. lia.
    + rewrite chains_snoc. replace (List.length p + 1 - 1) with (List.length (chains (straight p))) by (rewrite chains_length; lia).
      rewrite nth_error_app2, Nat.sub_diag by lia. cbn [nth_error]. rewrite (nth_error_nth _ _ _ C). now destruct ax.
Qed.

Lemma chain_network cs : wf_calls cs -> forall k q, nth_error (chains cs) k = Some q -> q <> [] /\ forall ax rest, q = ax :: rest -> fst ax = ANetwork.
Proof.
  induction cs as [|c cs IH] using rev_ind; intros W k q H; [now destruct k|].
  apply wf_snoc in W as [W Wc]. rewrite chains_snoc in H. apply nth_snoc_inv in H as [[_ H]|[_ <-]]; [eauto|].
  destruct c as [x|j a x].
  - split; [discriminate|]. intros ax rest E. injection E as <- <-. reflexivity.
  - destruct (nth_error (chains cs) j) as [p|] eqn:P; [|apply nth_error_None in P; rewrite chains_length in P; lia].
    rewrite (nth_error_nth _ _ _ P). destruct (IH W j p P) as [N H]. split.
    + intros E. now apply app_eq_nil in E.
    + intros ax rest E. destruct p as [|b p]; [congruence|]. cbn in E. injection E as -> _. eauto.
Qed.

(** Partial: no selector is completed twice. Then, however the calls of the program are
    interleaved, each one sees the same as the query that it completes written alone. *)
Theorem C38_interleaved_queries_partial an cs k o q : wf_calls cs -> NoDup (receivers cs) ->
  nth_error (snd (qrun an cs)) k = Some o -> nth_error (chains cs) k = Some q ->
  exists o', written_alone an q = Some o' /\ view o = view o'.
Proof.
  intros W N O C. pose proof (history_run an cs W N) as H. destruct (qrun an cs) as [h os]. cbn [snd] in O.
  rewrite (hi_view _ _ _ _ H k o q O C). destruct (chain_network cs W k q C) as [Nq Net].
  destruct (straight_facts q Nq Net) as (L & W' & _ & N' & C'). pose proof (history_run an (straight q) W' N') as H'.
  unfold written_alone. destruct (qrun an (straight q)) as [h' os'] eqn:E. cbn [snd].
  destruct (nth_error os' (List.length q - 1)) as [o'|] eqn:O'.
  - exists o'. split; auto. symmetry. exact (hi_view _ _ _ _ H' _ _ _ O' C').
  - exfalso. apply nth_error_None in O'. rewrite (hi_length _ _ _ _ H'), L in O'. destruct q; [congruence|]. cbn in O'. lia.
Qed.

(** Written through the fluent interface, a query filters the indexes of its arguments, so that
    C36 and C37 apply to it. *)
Lemma axis_eqb_spec a b : axis_eqb a b = true <-> a = b.
Proof. destruct a, b; simpl; split; congruence. Qed.
Lemma check_index_In ixs a : check_index ixs a = true <-> In a (map ix_axis ixs).
Proof.
  unfold check_index. rewrite existsb_exists, in_map_iff. split; intros (i & A & B); exists i.
  - apply axis_eqb_spec in B. auto.
  - split; auto. now apply axis_eqb_spec.
Qed.
Lemma new_index_axis a x i : new_index a x = Ok i -> ix_axis i = a.
Proof.
  destruct x as [|c|l|l|st en d]; cbn; intros E; try (injection E as <-; reflexivity).
  destruct a; try discriminate; destruct st, en; try discriminate;
    destruct (py_range _ _ _); try discriminate; injection E as <-; reflexivity.
Qed.
Definition is_kind (el : axis) : Prop := In el [ACons; AProd; ALink; AStor; ASrcConv; ADestConv].
Lemma table_kind an el tb : table_of an el = Some tb -> is_kind el.
Proof. destruct el; intros H; try discriminate H; vm_compute; tauto. Qed.

Lemma offered_next el ixs a : is_kind el -> (forall b, In b (map ix_axis ixs) -> In b [ANetwork; ANode; el; AScn; ATime]) ->
  In a [ANode; el; AScn; ATime] -> ~ In a (map ix_axis ixs) -> existsb (axis_eqb a) (offered ixs) = true.
Proof.
  intros K Sub I N. assert (Ca : check_index ixs a = false) by (destruct (check_index ixs a) eqn:E; auto; now apply check_index_In in E).
  apply existsb_exists. exists a. split; [|now apply axis_eqb_spec]. unfold offered. rewrite !in_app_iff.
  destruct I as [<-|[<-|[<-|[<-|[]]]]].
  - right; left. rewrite Ca. now left.
  - left. destruct (existsb (check_index ixs) element_axes) eqn:E; [|exact K].
    exfalso. apply existsb_exists in E as (b & Kb & Cb). apply check_index_In in Cb. pose proof (Sub b Cb) as J.
    destruct J as [<-|[<-|[<-|[<-|[<-|[]]]]]]; try contradiction; vm_compute in Kb; repeat (destruct Kb as [Kb|Kb]; [discriminate Kb|]); destruct Kb.
  - right; right; right. rewrite Ca. now left.
  - right; right; left. rewrite Ca. now left.
Qed.

Lemma pure_run_filter an el x rest ixs : is_kind el -> whole el ((ANetwork, x) :: rest) ->
  indexes_of ((ANetwork, x) :: rest) = Ok ixs ->
  pure_run an ((ANetwork, x) :: rest) = let* f := an_filter an ixs in Ok (PData f).
Proof.
  intros K Wh E. unfold indexes_of in E. cbn [mapM fst snd] in E. destruct (new_index ANetwork x) as [i0|] eqn:E0; [|discriminate].
  cbn [rbind] in E. destruct (mapM _ rest) as [irest|] eqn:Er; [|discriminate]. cbn [rbind] in E. injection E as <-.
  cbn [pure_run snd]. rewrite E0. cbn [rbind].
  assert (N : NoDup (map fst ((ANetwork, x) :: rest))).
  { apply (Permutation_NoDup (Permutation_sym Wh)). clear - K. 
    repeat constructor; simpl; intros H; repeat (destruct H as [H|H]); subst; try discriminate; try contradiction; vm_compute in K;
    repeat (destruct K as [K|K]; [discriminate K|]); destruct K. }
  assert (L : List.length rest = 4) by (apply Permutation_length in Wh; rewrite map_length in Wh; cbn in Wh; lia).
  assert (Sub : forall a, In a (map fst rest) -> In a [ANode; el; AScn; ATime]).
  { intros a I. assert (J : In a (map fst ((ANetwork, x) :: rest))) by (right; auto). apply (Permutation_in _ Wh) in J as [<-|J]; auto.
    cbn in N. inversion N; contradiction. }
  apply new_index_axis in E0.
  assert (G : forall pre, ix_axis i0 = ANetwork -> (forall b, In b (map ix_axis pre) -> In b [ANode; el; AScn; ATime]) ->
     NoDup (map ix_axis pre ++ map fst rest) -> List.length pre + List.length rest = 4 -> rest <> [] ->
     fold_left (pure_step an) rest (Ok (PList (i0 :: pre))) = let* f := an_filter an (i0 :: pre ++ irest) in Ok (PData f)).
  { clear N L Wh. revert irest Er Sub. induction rest as [|[a y] rest IH]; intros irest Er Sub pre E0' P N L NE; [congruence|].
    cbn [mapM fst snd] in Er. destruct (new_index a y) as [i|] eqn:Ei; [|discriminate]. cbn [rbind] in Er.
    destruct (mapM _ rest) as [ir|] eqn:Er'; [|discriminate]. cbn [rbind] in Er. injection Er as <-.
    cbn [fold_left]. assert (St : pure_step an (Ok (PList (i0 :: pre))) (a, y) =
      if Nat.eqb (List.length ((i0 :: pre) ++ [i])) 5 then let* f := an_filter an ((i0 :: pre) ++ [i]) in Ok (PData f) else Ok (PList ((i0 :: pre) ++ [i]))).
    { cbn [pure_step fst snd]. rewrite (offered_next el), Ei; auto.
      - cbn [map]. intros b [<-|I]; [rewrite E0'; left; auto | right; auto].
      - apply Sub. left; auto.
      - cbn [map]. rewrite E0'. intros [X|X].
        + specialize (Sub a (or_introl eq_refl)). rewrite <- X in Sub. destruct Sub as [S0|[S0|[S0|[S0|[]]]]]; try discriminate. subst el.
          vm_compute in K. repeat (destruct K as [K|K]; [discriminate K|]). destruct K.
        + cbn in N. apply NoDup_remove_2 in N. apply N. apply in_or_app; auto. }
    rewrite St. replace ((i0 :: pre) ++ [i]) with (i0 :: (pre ++ [i])) by reflexivity.
    destruct rest as [|c rest].
    - cbn in Er'. injection Er' as <-. cbn [List.length] in *. rewrite app_length. cbn [List.length].
      replace (Nat.eqb (S (List.length pre + 1)) 5) with true by (symmetry; apply Nat.eqb_eq; lia). reflexivity.
    - replace (Nat.eqb (List.length (i0 :: pre ++ [i])) 5) with false
        by (symmetry; apply Nat.eqb_neq; cbn [List.length] in *; rewrite app_length; cbn [List.length]; lia).
      pose proof (new_index_axis _ _ _ Ei) as Ai.
      rewrite (IH ir eq_refl); auto.
      + now rewrite <- app_assoc.
      + intros b I. apply Sub. now right.
      + intros b I. rewrite map_app in I. apply in_app_iff in I as [I|[<-|[]]]; auto. rewrite Ai. apply Sub. now left.
      + rewrite map_app. cbn [map]. rewrite Ai, <- app_assoc. exact N.
      + rewrite app_length. cbn [List.length] in *. lia.
      + discriminate. }
  specialize (G [] E0). cbn [app map] in G. apply G; auto.
  - intros b [].
  - cbn in N. now inversion N.
  - destruct rest; [cbn in L; lia | discriminate].
Qed.

Theorem C36_fluent_query an el tb x rest ixs : table_of an el = Some tb -> whole el ((ANetwork, x) :: rest) ->
  indexes_of ((ANetwork, x) :: rest) = Ok ixs ->
  exists o, written_alone an ((ANetwork, x) :: rest) = Some o /\ view o = let* f := an_filter an ixs in Ok (SData f).
Proof.
  intros T Wh E. pose proof (pure_run_filter an el x rest ixs (table_kind _ _ _ T) Wh E) as P. set (q := (ANetwork, x) :: rest) in *.
  destruct (straight_facts q) as (L & W & _ & N & C); [discriminate | intros ax r H; injection H as <- _; reflexivity |].
  pose proof (history_run an (straight q) W N) as H. unfold written_alone. destruct (qrun an (straight q)) as [h os]. cbn [snd].
  destruct (nth_error os (List.length q - 1)) as [o|] eqn:O.
  - exists o. split; auto. rewrite (hi_view _ _ _ _ H _ _ _ O C), P. destruct (an_filter an ixs); reflexivity.
  - exfalso. apply nth_error_None in O. rewrite (hi_length _ _ _ _ H), L in O. cbn in O. lia.
Qed.

(** A selector one axis before the end answers once: what the second completion returns is
    another selector, whatever the choices. *)
Theorem C38_second_completion an se h l a x y i j : nth_error h (se_list se) = Some l -> List.length l = 4 ->
  In a (se_axes se) -> new_index a x = Ok i -> new_index a y = Ok j ->
  let '(h1, o1) := ask an se a x h in
  let '(h2, o2) := ask an se a y h1 in
  view o1 = (let* f := an_filter an (l ++ [i]) in Ok (SData f)) /\
  exists se', o2 = Ok (ASelector se') /\ nth_error h2 (se_list se') = Some (l ++ [i; j]).
Proof.
  intros H L I Ei Ej. unfold ask, sbind, sguard, slift.
  assert (X : existsb (axis_eqb a) (se_axes se) = true) by (apply existsb_exists; exists a; split; auto; now apply axis_eqb_spec).
  rewrite X, Ei, Ej. cbn [negb]. unfold sret at 1. rewrite (nth_error_nth _ _ _ H), app_length, L. cbn [List.length Nat.add Nat.eqb].
  unfold sret at 1. assert (H1 : nth_error (upd_nth (se_list se) (fun _ => l ++ [i]) h) (se_list se) = Some (l ++ [i])).
  { rewrite nth_error_upd_nth, Nat.eqb_refl, H. reflexivity. }
  rewrite (nth_error_nth _ _ _ H1), !app_length, L. cbn [List.length Nat.add Nat.eqb]. unfold new_selector, sret.
  split; [destruct (an_filter an (l ++ [i])); reflexivity|]. eexists. split; [reflexivity|]. cbn [se_list].
  rewrite nth_error_app2, Nat.sub_diag by lia. cbn. now rewrite <- app_assoc.
Qed.

(** ** C39 *)

(** Partial: both ends are given (and the step, if any, is positive). *)
Theorem C39_slices_partial a b e : a = ATime \/ a = AScn ->
  exists i, new_index a (ISlice (Some b) (Some e) None) = Ok i /\
    forall r z, cell_of (axis_column a) r = CInt z -> (ix_keeps i r = true <-> (b <= z < e)%Z).
Proof.
  intros Ha. set (x := ISlice (Some b) (Some e) None).
  assert (G : closed x /\ match x with ISlice _ _ _ => a = ATime \/ a = AScn | _ => True end) by (split; [exact Logic.I | exact Ha]).
  destruct (new_index_ok a x G) as (i & E & O). exists i. split; auto. intros r z Z.
  rewrite (xo_keeps _ _ _ O r) by (rewrite Z; exact Logic.I). rewrite Z. unfold x. cbn [selects].
  split.
  - intros (k & n & [= <-] & P & -> & Q). lia.
  - intros [P Q]. exists z, (z - b)%Z. split; auto. split; [lia|]. split; [lia|auto].
Qed.

(** A slice without start selects nothing, one without stop fails, whatever the rest. *)
Theorem C39_open_slices a : a = ATime \/ a = AScn ->
  (forall stop, exists i, new_index a (ISlice None stop None) = Ok i /\ forall r, ix_keeps i r = false) /\
  (forall start step, new_index a (ISlice (Some start) None step) = Err TypeError).
Proof. intros [->| ->]; (split; [intros stop; eexists; split; [reflexivity | intros r; reflexivity] | reflexivity]). Qed.

(** With a step: up to the stop, or down to it; a step of 0 is refused. Without start the
    slice goes from 0 to -1, whatever its stop: it selects 0 if its step is negative. *)
Lemma py_range_down a b d : (d < 0)%Z -> exists l, py_range a b d = Ok l /\
  (forall i, In i l <-> exists k, (0 <= k)%Z /\ i = (a + k * d)%Z /\ (b < i)%Z).
Proof.
  intros D. unfold py_range. destruct (Z.eqb_spec d 0); [lia|]. destruct (Z.ltb_spec 0 d); [lia|].
  eexists. split; [reflexivity|]. intros i. rewrite in_map_iff. replace (a - b - d - 1)%Z with (a - b + - d - 1)%Z by lia. split.
  - intros (k & <- & I). apply in_seq in I. exists (Z.of_nat k). split; [lia|]. split; auto.
    assert (Z.of_nat k < (a - b + - d - 1) / - d)%Z by lia. apply range_count in H0; lia.
  - intros (k & K & -> & L). exists (Z.to_nat k). rewrite Z2Nat.id by auto. split; auto. apply in_seq.
    assert (k < (a - b + - d - 1) / - d)%Z by (apply range_count; lia). lia.
Qed.
Lemma slice_cells a l r z : cell_of (axis_column a) r = CInt z -> ix_keeps (Index a false (map CInt l)) r = true <-> In z l.
Proof.
  intros Z. unfold ix_keeps, ix_column. cbn [ix_all ix_index ix_axis]. rewrite Z, mem_In, in_map_iff. split; [intros (y & [= ->] & I); exact I | intros I; eauto].
Qed.
Theorem C39_steps a : a = ATime \/ a = AScn ->
  (forall b e d, d <> 0%Z -> exists i, new_index a (ISlice (Some b) (Some e) (Some d)) = Ok i /\
     forall r z, cell_of (axis_column a) r = CInt z ->
       (ix_keeps i r = true <-> exists k, (0 <= k)%Z /\ z = (b + k * d)%Z /\ (if Z.ltb 0 d then z < e else e < z)%Z)) /\
  (forall stop d, d <> 0%Z -> exists i, new_index a (ISlice None stop (Some d)) = Ok i /\
     forall r z, cell_of (axis_column a) r = CInt z -> (ix_keeps i r = true <-> (d < 0)%Z /\ z = 0%Z)) /\
  (forall b e, new_index a (ISlice (Some b) (Some e) (Some 0%Z)) = Err ValueError /\ new_index a (ISlice None (Some e) (Some 0%Z)) = Err ValueError).
Proof.
  intros Ha. assert (R : forall b e d, d <> 0%Z -> exists l, py_range b e d = Ok l /\
    forall z, In z l <-> exists k, (0 <= k)%Z /\ z = (b + k * d)%Z /\ (if Z.ltb 0 d then z < e else e < z)%Z).
  { intros b e d N. destruct (Z.ltb_spec 0 d) as [D|D].
    - destruct (py_range_up b e d D) as (l & E & I & _). eauto.
    - apply py_range_down. lia. }
  split; [| split].
  - intros b e d N. destruct (R b e d N) as (l & E & I). exists (Index a false (map CInt l)). split.
    + unfold new_index. rewrite E. destruct Ha as [-> | ->]; reflexivity.
    + intros r z Z. rewrite (slice_cells a l r z Z). apply I.
  - intros stop d N. destruct (R 0%Z (-1)%Z d N) as (l & E & I). exists (Index a false (map CInt l)). split.
    + unfold new_index. rewrite E. destruct Ha as [-> | ->]; reflexivity.
    + intros r z Z. rewrite (slice_cells a l r z Z), I. destruct (Z.ltb_spec 0 d) as [D|D].
      * split; [intros (k & K & -> & L); nia | lia].
      * split; [intros (k & K & -> & L); split; [lia | nia] | intros [_ ->]; exists 0%Z; lia].
  - intros b e. destruct Ha as [-> | ->]; split; reflexivity.
Qed.

(** ** Examples and counterexamples *)
Definition no_analyzer : analyzer :=
  Analyzer mix mix_result (Table [] []) (Table [] []) (Table [] []) (Table [] []) (Table [] []) (Table [] []).
Definition mix_an : analyzer := Eval vm_compute in
  match new_analyzer true no_junk mix mix_result with Ok an => an | Err _ => no_analyzer end.
Lemma mix_an_new : new_analyzer true no_junk mix mix_result = Ok mix_an. Proof. vm_compute. reflexivity. Qed.
Lemma mix_keyed : keyed ACons (an_cons mix_an) /\ keyed AProd (an_prod mix_an) /\ keyed ALink (an_link mix_an) /\ keyed AStor (an_stor mix_an).
Proof.
  destruct (C36_tables_have_unique_keys true no_junk mix mix_result mix_an mix_api mix_mirrors mix_an_new) as (A & B & C & D).
  repeat split; try apply A; try apply B; try apply C; apply D; vm_compute; lia.
Qed.

Definition str (s : string) : iarg := IOne (CStr s).
Definition int (z : Z) : iarg := IOne (CInt z).
(** network('elec').scn(slice(0, 2)).node('a').time([1]).consumption() and the same with other
    axes first. *)
Definition ask_load : query :=
  [(ANetwork, str "elec"); (AScn, ISlice (Some 0%Z) (Some 2%Z) None); (ANode, str "a"); (ATime, IList [CInt 1]); (ACons, INone)].
Definition ask_load' : query :=
  [(ANetwork, str "elec"); (ACons, INone); (ATime, IList [CInt 1]); (ANode, str "a"); (AScn, ISlice (Some 0%Z) (Some 2%Z) None)].
Definition answer (an : analyzer) (q : query) : res (option frame) := let* ixs := indexes_of q in an_filter an ixs.

Ltac accepted_tac := let I := fresh in intros ? ? I; simpl in I; repeat (destruct I as [I|I]; [injection I as <- <-; split; simpl; auto; fail|]); destruct I.
Ltac perm_tac := unfold whole; simpl; apply NoDup_Permutation;
  [repeat constructor; simpl; intuition discriminate | repeat constructor; simpl; intuition discriminate | intros []; simpl; intuition congruence].

Lemma ask_load_whole : whole ACons ask_load. Proof. perm_tac. Qed.
Lemma ask_load_accepted : accepted ask_load. Proof. accepted_tac. Qed.
Lemma str_not_void s : ~ void (str s). Proof. intros V. exact (V (CStr s) eq_refl). Qed.

Example C36_example : table_of mix_an ACons = Some (an_cons mix_an) /\ keyed ACons (an_cons mix_an) /\ whole ACons ask_load /\ accepted ask_load /\
  (exists a x, In (a, x) ask_load /\ several x) /\ (forall a x rest, ask_load = (a, x) :: rest -> ~ void x) /\
  exists f, answer mix_an ask_load = Ok (Some f) /\ fr_levels f = ["scn"; "node"; "t"; "name"] /\
    map fst (fr_rows f) = [[CInt 0; CStr "a"; CInt 1; CStr "load"]; [CInt 1; CStr "a"; CInt 1; CStr "load"]] /\
    map (fun l => dget "asked" (snd l)) (fr_rows f) = [Some (CNum 20); Some (CNum 7)].
Proof.
  split; [reflexivity|]. split; [apply mix_keyed|]. split; [apply ask_load_whole|]. split; [apply ask_load_accepted|].
  split; [exists ACons, INone; split; [simpl; tauto | exact Logic.I]|].
  split; [intros a x rest E; injection E as <- <- _; apply str_not_void|].
  eexists. split; [vm_compute; reflexivity|]. repeat split; vm_compute; reflexivity.
Qed.

(** Without a scenario: refused. Without an element: no answer. *)
Definition ask_no_scn : query := [(ANetwork, str "elec"); (ANode, str "a"); (ATime, IList [CInt 1]); (ACons, INone)].
Definition ask_no_kind : query := [(ANetwork, str "elec"); (ANode, str "a"); (ATime, IList [CInt 1]); (AScn, INone)].
Example C36_axes_example : accepted ask_no_scn /\ answer mix_an ask_no_scn = Err ValueError /\
  accepted ask_no_kind /\ answer mix_an ask_no_kind = Ok None.
Proof.
  split; [accepted_tac|]. split; [vm_compute; reflexivity|]. split; [accepted_tac|]. vm_compute; reflexivity.
Qed.

(** All five axes given: the row exists and the query fails. *)
Definition ask_one : query := [(ANetwork, str "elec"); (ANode, str "a"); (ACons, str "load"); (AScn, int 0); (ATime, int 1)].
Theorem C36_full_query_refuted : exists s r an q row, api_study s /\ mirrors s r /\ new_analyzer true no_junk s r = Ok an /\
  whole ACons q /\ accepted q /\ In row (tb_rows (an_cons an)) /\ matches q row /\ answer an q = Err IndexError.
Proof.
  exists mix, mix_result, mix_an, ask_one.
  eexists. split; [apply mix_api|]. split; [apply mix_mirrors|]. split; [apply mix_an_new|]. split; [perm_tac|]. split; [accepted_tac|].
  split; [|split; [|vm_compute; reflexivity]]; swap 1 2.
  - instantiate (1 := nth 1 (tb_rows (an_cons mix_an)) []). intros a x I. simpl in I.
    repeat (destruct I as [I|I]; [injection I as <- <-; vm_compute; reflexivity|]). destruct I.
  - apply nth_In. vm_compute. lia.
Qed.

Example C37_example : whole ACons ask_load /\ accepted ask_load /\ Permutation ask_load ask_load' /\ ask_load <> ask_load' /\
  (forall a x, In (a, x) ask_load -> ~ void x) /\
  exists f, answer mix_an ask_load' = Ok (Some f) /\ fr_levels f = ["name"; "t"; "node"; "scn"] /\ List.length (fr_rows f) = 2.
Proof.
  split; [apply ask_load_whole|]. split; [apply ask_load_accepted|]. split; [|split; [discriminate|split]].
  - unfold ask_load, ask_load'. apply perm_skip.
    match goal with |- Permutation [?a; ?b; ?c; ?d] [?d; ?c; ?b; ?a] => exact (Permutation_rev [a; b; c; d]) end.
  - intros a x I V. simpl in I. repeat (destruct I as [I|I]; [injection I as <- <-|]); [| | | | |destruct I].
    + exact (V (CStr "elec") eq_refl).
    + apply (V (CInt 0)). simpl. exists 0%Z, 0%Z. repeat split; lia.
    + exact (V (CStr "a") eq_refl).
    + exact (V (CInt 1) (or_introl eq_refl)).
    + exact (V CNaN Logic.I).
  - eexists. split; [vm_compute; reflexivity|]. split; vm_compute; reflexivity.
Qed.

(** Empty selections: an error when the axis comes first, an empty table otherwise. *)
Definition ask_none : query := [(ANetwork, ITuple []); (ANode, INone); (ACons, INone); (AScn, INone); (ATime, INone)].
Definition ask_none' : query := [(ANode, INone); (ANetwork, ITuple []); (ACons, INone); (AScn, INone); (ATime, INone)].
Theorem C37_axis_order_refuted : exists an q q' f, whole ACons q /\ accepted q /\ Permutation q q' /\ keyed ACons (an_cons an) /\
  answer an q = Err IndexError /\ answer an q' = Ok (Some f) /\ fr_rows f = [].
Proof.
  exists mix_an, ask_none, ask_none'. eexists. split; [perm_tac|]. split; [accepted_tac|]. split; [apply perm_swap|]. split; [apply mix_keyed|].
  split; [vm_compute; reflexivity|]. split; vm_compute; reflexivity.
Qed.

(** Two queries interleaved: sel = network('elec'); tmp = network('gas'); sel = sel.node('a'); ... *)
Definition two_queries : list qcall :=
  [QNetwork (str "elec"); QNetwork (str "gas"); QAsk 0 ANode (str "a"); QAsk 1 AProd INone; QAsk 3 AScn (int 0);
   QAsk 2 ACons INone; QAsk 4 ATime INone; QAsk 5 ATime (int 1); QAsk 6 ATime INone; QAsk 7 AScn INone].
Example C38_example : wf_calls two_queries /\ NoDup (receivers two_queries) /\
  nth_error (chains two_queries) 9 = Some [(ANetwork, str "elec"); (ANode, str "a"); (ACons, INone); (ATime, int 1); (AScn, INone)] /\
  (exists o f, nth_error (snd (qrun mix_an two_queries)) 9 = Some o /\ view o = Ok (SData (Some f)) /\ List.length (fr_rows f) = 2).
Proof.
  split; [|split; [|split]].
  - intros k j a x H. do 10 (destruct k as [|k]; [vm_compute in H; try discriminate H; injection H as <- _ _; lia|]). now destruct k.
  - repeat constructor; simpl; intuition discriminate.
  - reflexivity.
  - eexists. eexists. split; [vm_compute; reflexivity|]. split; reflexivity.
Qed.

(** The same selector completed twice. *)
Definition reuse : list qcall :=
  [QNetwork (str "elec"); QAsk 0 ANode (str "a"); QAsk 1 ACons INone; QAsk 2 ATime INone; QAsk 3 AScn (int 0); QAsk 3 AScn (int 1)].
Theorem C38_reuse_refuted : exists an cs k o o' q f axes, wf_calls cs /\ nth_error (snd (qrun an cs)) k = Some o /\
  nth_error (chains cs) k = Some q /\ written_alone an q = Some o' /\ view o' = Ok (SData (Some f)) /\ fr_rows f <> [] /\ view o = Ok (SMethods axes).
Proof.
  exists mix_an, reuse, 5. do 5 eexists. split; [|split; [vm_compute; reflexivity|split; [reflexivity|split; [vm_compute; reflexivity|]]]].
  - intros k j a x H. do 6 (destruct k as [|k]; [vm_compute in H; try discriminate H; injection H as <- _ _; lia|]). now destruct k.
  - split; [reflexivity|]. split; [discriminate|reflexivity].
Qed.

Example C39_example : answer mix_an [(ANetwork, str "elec"); (ANode, str "b"); (AProd, INone); (ATime, ISlice (Some 1%Z) (Some 2%Z) None); (AScn, int 1)] =
  Ok (Some (Frame ["name"; "t"; "scn"]
    [([CStr "wind"; CInt 1; CInt 1], [("cost", CNum 3); ("avail", CNum 9); ("used", CNum 7)])])).
Proof. vm_compute. reflexivity. Qed.

(** From 1 down to 0, on a table with times 0 and 1. *)
Example C39_steps_example : exists f, answer mix_an [(ANetwork, str "elec"); (ANode, str "b"); (AProd, INone); (ATime, ISlice (Some 1%Z) (Some (-1)%Z) (Some (-1)%Z)); (AScn, int 1)] = Ok (Some f) /\
  map fst (fr_rows f) = [[CStr "wind"; CInt 0; CInt 1]; [CStr "wind"; CInt 1; CInt 1]].
Proof. eexists. split; vm_compute; reflexivity. Qed.

(** [:2] selects nothing and [0:] fails, on a table with times 0 and 1. *)
Definition ask_times (start stop : option Z) : query :=
  [(ANetwork, str "elec"); (ANode, str "b"); (AProd, INone); (ATime, ISlice start stop None); (AScn, int 0)].
Theorem C39_open_slices_refuted : exists an f,
  keyed AProd (an_prod an) /\ (exists r, In r (tb_rows (an_prod an)) /\ matches (ask_times None (Some 2%Z)) r /\ matches (ask_times (Some 0%Z) None) r) /\
  answer an (ask_times None (Some 2%Z)) = Ok (Some f) /\ fr_rows f = [] /\
  answer an (ask_times (Some 0%Z) None) = Err TypeError.
Proof.
  exists mix_an. eexists. split; [apply mix_keyed|]. split; [|split; [vm_compute; reflexivity|split; vm_compute; reflexivity]].
  exists (nth 0 (tb_rows (an_prod mix_an)) []). split; [apply nth_In; vm_compute; lia|].
  split; intros a x I; simpl in I; repeat (destruct I as [I|I]; [injection I as <- <-|]);
    try destruct I; try (vm_compute; reflexivity); try exact Logic.I; exists 0%Z, 0%Z; repeat split; vm_compute; auto; discriminate.
Qed.

Print Assumptions C36_query_answers_partial.
Print Assumptions C36_query_answers_sound.
Print Assumptions C36_fluent_query.
Print Assumptions C36_tables_have_unique_keys.
Print Assumptions C36_full_query_refuted.
Print Assumptions C37_axis_order_partial.
Print Assumptions C37_axis_order_refuted.
Print Assumptions C38_interleaved_queries_partial.
Print Assumptions C38_second_completion.
Print Assumptions C38_reuse_refuted.
Print Assumptions C39_slices_partial.
Print Assumptions C39_open_slices.
Print Assumptions C39_steps.
Print Assumptions C39_open_slices_refuted.
