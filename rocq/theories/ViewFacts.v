(** Facts on the queries made by the views. *)
From Coq Require Import String Ascii List ZArith QArith Bool Arith Lia Lqa Permutation Sorted.
From Verif Require Import Base BaseFacts Numeric Study Fluent Output LP SpecStudy SpecLP StudyFacts LPReady Analyzer SpecAnalyzer
  AnalyzerFacts P_Tables P_Exact QueryFacts P_Query P_Reuse SumFacts P_Totals P_Cost Viewer.
Import ListNotations.
Open Scope nat_scope.
Open Scope string_scope.
Open Scope list_scope.

(** ** Order *)
Lemma sorted_unique {A} (R : A -> A -> Prop) : (forall x, ~ R x x) -> (forall x y, R x y -> R y x -> False) ->
  forall l m, StronglySorted R l -> StronglySorted R m -> (forall x, In x l <-> In x m) -> l = m.
Proof.
  intros Irr As. induction l as [|x l IH]; intros m L M H.
  - destruct m as [|y m]; auto. destruct (proj2 (H y) (or_introl eq_refl)).
  - destruct m as [|y m]; [destruct (proj1 (H x) (or_introl eq_refl))|]. inversion L as [|? ? L' FL]; inversion M as [|? ? M' FM]; subst.
    rewrite Forall_forall in FL, FM.
    assert (E : x = y).
    { destruct (proj1 (H x) (or_introl eq_refl)) as [E|I]; auto. destruct (proj2 (H y) (or_introl eq_refl)) as [E|J]; auto.
      exfalso. exact (As x y (FL y J) (FM x I)). }
    subst y. f_equal. apply IH; auto. intros z. split; intros I.
    + destruct (proj1 (H z) (or_intror I)) as [<-|J]; auto. exfalso. exact (Irr x (FL x I)).
    + destruct (proj2 (H z) (or_intror I)) as [<-|J]; auto. exfalso. exact (Irr x (FM x I)).
Qed.

Lemma string_compare_refl s : String.compare s s = Eq.
Proof. destruct (String.compare s s) eqn:E; auto; pose proof (String.compare_antisym s s) as X; rewrite E in X; discriminate X. Qed.
Lemma label_lt_irr a : ~ label_lt a a.
Proof. destruct a; simpl; try tauto; [lia|]. rewrite string_compare_refl. discriminate. Qed.
Lemma label_lt_asym a b : label_lt a b -> label_lt b a -> False.
Proof.
  destruct a, b; simpl; try tauto; [lia|]. intros H K. rewrite String.compare_antisym, K in H. discriminate.
Qed.
Lemma before_irr k : ~ before k k.
Proof. induction k as [|a k IH]; simpl; auto. intros [H|[_ H]]; [exact (label_lt_irr a H) | auto]. Qed.
Lemma before_asym : forall k l, before k l -> before l k -> False.
Proof.
  induction k as [|a k IH]; intros [|b l]; simpl; try tauto. intros [H|[-> H]] [K|[E K]].
  - exact (label_lt_asym a b H K).
  - subst. exact (label_lt_irr _ H).
  - exact (label_lt_irr _ K).
  - exact (IH l H K).
Qed.
Lemma before_app p k l : before k l -> before (p ++ k) (p ++ l).
Proof. induction p; simpl; auto. Qed.

(** ** Dropping the levels of single values *)
Definition one_index (ac : axis * cell) : index := Index (fst ac) false [snd ac].
Definition ones (pre : list (axis * cell)) : query := map (fun ac => (fst ac, IOne (snd ac))) pre.

Lemma remove_prefix a post : forall pre levels lines, lines <> [] -> (forall l, In l lines -> exists k, fst l = map snd pre ++ k) ->
  remove_useless (Frame levels lines) (map one_index pre ++ Index a true [] :: post) =
  Ok (Frame (skipn (List.length pre) levels) (map (fun l => (skipn (List.length pre) (fst l), snd l)) lines)).
Proof.
  induction pre as [|[b c] pre IH]; intros levels lines NE H.
  - cbn. f_equal. f_equal. rewrite <- (map_id lines) at 1. apply map_ext. intros []. reflexivity.
  - cbn [map app remove_useless one_index fst snd is_alone ix_all ix_index negb andb List.length Nat.leb].
    assert (I : in_index c (Frame levels lines) = true).
    { destruct lines as [|l lines]; [congruence|]. destruct (H l (or_introl eq_refl)) as (k & E). unfold in_index. cbn [fr_rows existsb].
      rewrite E. cbn [map app snd]. now rewrite eqb_refl. }
    rewrite I.
    assert (L : frame_loc c (Frame levels lines) = Frame (tl levels) (map (fun l => (tl (fst l), snd l)) lines)).
    { unfold frame_loc. cbn [fr_levels fr_rows]. f_equal. clear - H. induction lines as [|l lines IH]; auto. cbn [flat_map map].
      destruct (H l (or_introl eq_refl)) as (k & E). rewrite E. cbn [map app snd tl]. rewrite eqb_refl. cbn [app]. f_equal.
      apply IH. intros x I. apply H. now right. }
    rewrite L, IH.
    + f_equal. f_equal; [destruct levels; [now rewrite !skipn_nil | reflexivity]|]. rewrite map_map. apply map_ext_in. intros l J. cbn [fst snd].
      destruct (H l J) as (k & E). rewrite E. reflexivity.
    + destruct lines; [congruence | discriminate].
    + intros l J. apply in_map_iff in J as (x & <- & J). destruct (H x J) as (k & E). exists k. cbn [fst]. now rewrite E.
Qed.

Lemma indexes_of_ones a post : forall pre ixs, indexes_of (ones pre ++ (a, INone) :: post) = Ok ixs ->
  exists rest, ixs = map one_index pre ++ Index a true [] :: rest.
Proof.
  unfold indexes_of. induction pre as [|[b c] pre IH]; intros ixs H; cbn [ones map app mapM fst snd] in H.
  - cbn in H. destruct (mapM _ post) as [rest|]; [|discriminate]. cbn in H. injection H as <-. exists rest. reflexivity.
  - cbn [new_index rbind] in H. fold (ones pre) in H. destruct (mapM _ (ones pre ++ _)) as [ixs'|] eqn:E; [|discriminate]. cbn [rbind] in H. injection H as <-.
    destruct (IH ixs' eq_refl) as (rest & ->). exists rest. reflexivity.
Qed.

(** ** The frame of a query *)
Definition norm (q : Q) : Q := (qsum [q] / qnat 1)%Q.
Lemma norm_eq q : (norm q == q)%Q.
Proof. unfold norm, qnat. simpl. field. Qed.
Lemma mean_norm q : mean [CNum q] = CNum (norm q). Proof. reflexivity. Qed.

Lemma line_value names cols c r : In c cols -> ~ In c names -> dget c (snd (line names cols r)) = Some (mean [cell_of c r]).
Proof.
  intros Ic Nc. cbn [line snd]. unfold values_of.
  assert (J : In c (filter (fun c => negb (mem c names)) cols)).
  { apply filter_In. split; auto. apply negb_true_iff. destruct (mem c names) eqn:M; auto. apply mem_In in M. tauto. }
  revert J. generalize (filter (fun c => negb (mem c names)) cols). induction l as [|d l IH]; [destruct 1|]. cbn [map dget]. intros [->|J].
  - now rewrite eqb_refl.
  - destruct (eqb c d) eqn:E; [apply eqb_eq in E; now subst | auto].
Qed.


(** Rows without a scenario, or that do not match, are in no answer. *)
Definition apart (q : query) (r : trow) : Prop := cell_of "scn" r = CNaN \/ ~ matches q r.
Lemma index_in q a x ixs : indexes_of q = Ok ixs -> In (a, x) q -> exists i, In i ixs /\ new_index a x = Ok i.
Proof.
  intros E Z. unfold indexes_of in E. revert ixs E. induction q as [|[b y] q IH]; [destruct Z|]. intros ixs E. cbn [mapM fst snd] in E.
  destruct (new_index b y) as [i|] eqn:Ei; [|discriminate]. cbn [rbind] in E. destruct (mapM _ q) as [is|] eqn:Es; [|discriminate].
  cbn [rbind] in E. injection E as <-. destruct Z as [Z|Z].
  - injection Z as -> ->. exists i. simpl. auto.
  - destruct (IH Z is eq_refl) as (j & A & B). exists j. simpl. auto.
Qed.
Lemma drop_surplus el q ixs cols rows surplus : whole el q -> indexes_of q = Ok ixs -> (forall r, In r surplus -> apart q r) ->
  (forall a x, In (a, x) q -> x = INone \/ exists c, x = IOne c /\ (a = AScn -> exists z, c = CInt z)) ->
  pivot ixs (Table cols (rows ++ surplus)) = pivot ixs (Table cols rows).
Proof.
  intros Wh E J Ar. unfold pivot. cbn [tb_cols tb_rows]. rewrite filter_app.
  replace (filter (fun r => forallb (fun i => ix_keeps i r) ixs) surplus) with (@nil trow); [now rewrite app_nil_r|].
  assert (Z : In AScn (map fst q)) by (apply (Permutation_in _ (Permutation_sym Wh)); simpl; tauto).
  apply in_map_iff in Z as ([b x] & Eb & Ix). cbn [fst] in Eb. subst b. destruct (index_in q AScn x ixs E Ix) as (i & Ii & Ei).
  assert (K : forall r, In r surplus -> forallb (fun i => ix_keeps i r) ixs = false).
  { intros r Ir. destruct (J r Ir) as [H|H].
    - apply (forallb_false _ ixs i Ii). destruct (Ar _ _ Ix) as [->|(c & -> & Hc)]; [|destruct (Hc eq_refl) as (z & ->)]; cbn in Ei; injection Ei as <-;
        unfold ix_keeps, ix_column; cbn [ix_all ix_axis ix_index axis_column]; rewrite H; reflexivity.
    - destruct (forallb _ ixs) eqn:F; auto. exfalso. apply H. intros a y Iy. destruct (index_in q a y ixs E Iy) as (k & Ik & Ek).
      rewrite forallb_forall in F. specialize (F k Ik). destruct (Ar _ _ Iy) as [->|(c & -> & _)]; [exact Logic.I|]. cbn in Ek. injection Ek as <-.
      unfold ix_keeps, ix_column in F. cbn [ix_all ix_axis ix_index] in F. apply mem_In in F as [F|[]]. symmetry. exact F. }
  symmetry. clear - K. induction surplus as [|r l IH]; auto. cbn [filter]. rewrite (K r) by (simpl; auto).
  apply IH. intros; apply K; simpl; auto.
Qed.

Section Rows.
  Variables (an : analyzer) (el : axis) (tb0 tb : table) (pre : list (axis * cell)) (a : axis) (post : query).
  Let rest := (a, INone) :: post.
  Let q := ones pre ++ rest.
  Let k r := key_of (query_names rest) r.
  Hypotheses (Tb : table_of an el = Some tb0) (Same : forall ixs, indexes_of q = Ok ixs -> pivot ixs tb0 = pivot ixs tb)
    (Ky : keyed el tb) (Wh : whole el q) (Ac : accepted q).

  Lemma key_split r : matches q r -> key_of (query_names q) r = map snd pre ++ k r.
  Proof.
    intros I. unfold k, q, query_names. rewrite map_app. unfold key_of. rewrite map_app. f_equal.
    unfold ones. rewrite !map_map. apply map_ext_in. intros [b c] J. cbn [fst snd]. apply (I b (IOne c)). unfold q. apply in_or_app. left.
    unfold ones. apply in_map_iff. exists (b, c). auto.
  Qed.

  Theorem frame_some : (exists r, In r (tb_rows tb) /\ matches q r) -> exists ixs target, indexes_of q = Ok ixs /\
    an_filter an ixs = Ok (Some (Frame (query_names rest) (map (fun r => (k r, snd (line (query_names q) (tb_cols tb) r))) target))) /\
    (forall r, In r target <-> In r (tb_rows tb) /\ matches q r) /\ StronglySorted (fun r r' => before (k r) (k r')) target.
  Proof.
    intros (r0 & I0 & M0). destruct (indexes_ok q Ac) as (ixs & E & O). exists ixs.
    rewrite (filter_table an el tb0 q ixs Tb Wh O), (Same ixs E), (pivot_eq el tb q ixs Ky Wh O).
    destruct (row_lines el tb q ixs Ky Wh O) as (F' & P & El & S). exists F'. split; auto.
    assert (IN : forall r, In r F' <-> In r (tb_rows tb) /\ matches q r).
    { intros r. rewrite <- (F_In el tb q ixs Ky Wh O). split; apply Permutation_in; auto. now apply Permutation_sym. }
    assert (X : pivot_table (query_names q) (Table (tb_cols tb) (filter (fun r => forallb (fun i => ix_keeps i r) ixs) (tb_rows tb))) =
       Frame (query_names q) (map (line (query_names q) (tb_cols tb)) F')).
    { rewrite <- El. reflexivity. }
    split; [|split; auto].
    - rewrite X. destruct (indexes_of_ones a post pre ixs E) as (ri & Ei). rewrite Ei. rewrite remove_prefix.
      + cbn [rbind]. do 3 f_equal.
        * unfold q, query_names. rewrite map_app, skipn_app. unfold ones. rewrite skipn_all2 by (rewrite !map_length; lia). cbn [app].
          rewrite !map_length, Nat.sub_diag. reflexivity.
        * rewrite map_map. apply map_ext_in. intros r I. cbn [line fst]. rewrite key_split by (apply IN; auto).
          rewrite skipn_app, skipn_all2 by (rewrite map_length; lia). rewrite map_length, Nat.sub_diag. reflexivity.
      + assert (J : In r0 F') by (apply IN; auto). destruct F'; [destruct J | discriminate].
      + intros l I. apply in_map_iff in I as (r & <- & I). cbn [line fst]. rewrite key_split by (apply IN; auto). eauto.
    - assert (Y : forall l, (forall r, In r l -> matches q r) -> StronglySorted before (map (key_of (query_names q)) l) ->
        StronglySorted (fun r r' => before (k r) (k r')) l).
      { induction l as [|r l IH]; intros I St; [constructor|]. cbn [map] in St. inversion St as [|? ? S' B]; subst.
        constructor; [apply IH; auto; intros; apply I; now right|]. apply Forall_forall. intros x J. rewrite Forall_forall in B.
        specialize (B (key_of (query_names q) x) (in_map _ _ _ J)). rewrite !key_split in B by (apply I; simpl; auto).
        clear - B. induction pre as [|y p IH]; auto. cbn [map app before] in B. destruct B as [B|[_ B]]; [destruct (label_lt_irr _ B) | auto]. }
      apply Y; auto. intros r I. now apply IN.
  Qed.

  Theorem frame_rows target : target <> [] -> (forall r, In r target <-> In r (tb_rows tb) /\ matches q r) ->
    StronglySorted (fun r r' => before (k r) (k r')) target -> exists ixs, indexes_of q = Ok ixs /\
    an_filter an ixs = Ok (Some (Frame (query_names rest) (map (fun r => (k r, snd (line (query_names q) (tb_cols tb) r))) target))).
  Proof.
    intros NE IN St. destruct frame_some as (ixs & T & E & Fr & IN' & St').
    - destruct target as [|r l]; [congruence|]. exists r. apply IN. now left.
    - exists ixs. split; auto. rewrite Fr. replace target with T; auto. apply (sorted_unique (fun r r' => before (k r) (k r'))); auto.
      + intros x. apply before_irr.
      + intros x y. apply before_asym.
      + intros x. now rewrite IN, IN'.
  Qed.
End Rows.

Lemma column_lines {R} names cols col lv (key : R -> list cell) (row : R -> trow) target : In col cols -> ~ In col names ->
  column col (Frame lv (map (fun r => (key r, snd (line names cols (row r)))) target)) = Ok (map (fun r => mean [cell_of col (row r)]) target).
Proof.
  intros I N. unfold column. cbn [fr_rows]. induction target as [|r l IH]; auto. cbn [map mapM snd]. rewrite (line_value names cols col (row r) I N). cbn [rbind].
  now rewrite IH.
Qed.

(** ** Fetching *)
Lemma pure_err an l e : fold_left (pure_step an) l (Err e) <> Err e -> exists e', fold_left (pure_step an) l (Err e) = Err e'.
Proof. revert e. induction l as [|a l IH]; intros e H; cbn in *; [congruence|]. destruct (fold_left (pure_step an) l (Err AttributeError)) eqn:X; eauto.
  destruct (IH AttributeError) as (e' & E); congruence. Qed.
Lemma pure_err_data an l e f : fold_left (pure_step an) l (Err e) <> Ok (PData f).
Proof. intros H. destruct (pure_err an l e) as (e' & E); [rewrite H; discriminate | congruence]. Qed.

Lemma asks_pure an f : forall l h se ixs, nth_error h (se_list se) = Some ixs -> se_axes se = offered ixs ->
  fold_left (pure_step an) l (Ok (PList ixs)) = Ok (PData f) -> snd (asks an (ASelector se) l h) = Ok (AFrame f).
Proof.
  induction l as [|[ax x] l IH]; intros h se ixs N O H; [discriminate|]. cbn [fold_left] in H. unfold pure_step at 2 in H. cbn [fst snd] in H.
  cbn [asks]. unfold sbind at 1. unfold ask, sguard. rewrite O. destruct (existsb (axis_eqb ax) (offered ixs)); [|destruct (pure_err_data an l _ _ H)].
  cbn [negb]. unfold sbind at 1. cbn [sret]. unfold sbind at 1, slift. destruct (new_index ax x) as [i|]; [|destruct (pure_err_data an l _ _ H)]. cbn [rbind] in H.
  unfold sret at 1. rewrite (nth_error_nth h (se_list se) [] N). destruct (Nat.eqb (List.length (ixs ++ [i])) 5).
  - destruct (an_filter an (ixs ++ [i])) as [g|]; [|destruct (pure_err_data an l _ _ H)]. cbn [rbind] in *.
    destruct l as [|y l]; [injection H as ->; reflexivity|]. cbn [fold_left pure_step] in H. destruct (pure_err_data an l _ _ H).
  - unfold sbind, new_selector, sret. cbn [fst snd]. eapply (IH _ _ (ixs ++ [i])); [|reflexivity|exact H]. cbn [se_list]. 
    rewrite nth_error_app2 by lia. now rewrite Nat.sub_diag.
Qed.

Lemma fetch_eq an el x l ixs f : is_kind el -> whole el ((ANetwork, x) :: l) -> indexes_of ((ANetwork, x) :: l) = Ok ixs ->
  an_filter an ixs = Ok (Some f) -> fetch an x l = Ok f.
Proof.
  intros K Wh E F. pose proof (pure_run_filter an el x l ixs K Wh E) as P. rewrite F in P. cbn [rbind pure_run snd] in P.
  unfold fetch. unfold sbind, an_network, slift, sbind. destruct (new_index ANetwork x) as [i|]; [|destruct (pure_err_data an l _ _ P)].
  unfold sret, new_selector. cbn [app List.length]. cbn [rbind] in P.
  pose proof (asks_pure an (Some f) l [[i]] (Selector 0 (offered [i])) [i] eq_refl eq_refl P) as X.
  destruct (asks an (ASelector (Selector 0 (offered [i]))) l [[i]]) as [h' o]. cbn [snd] in X. now rewrite X.
Qed.

(** ** The elements of one kind *)
Record shelf {X} (an : analyzer) (el : axis) (n h : nat) (els : list X) (row : X -> nat -> nat -> trow) (knet knode kname : X -> string)
    (cols : list string) (sur : list trow) : Prop := {
  sh_table : table_of an el = Some (Table cols (blocks n h row els ++ sur));
  sh_keyed : els <> [] -> keyed el (Table cols (blocks n h row els));
  sh_keys : forall x scn t, key_of ["network"; "node"; axis_column el; "scn"; "t"] (row x scn t) =
    [CStr (knet x); CStr (knode x); CStr (kname x); CInt (Z.of_nat scn); CInt (Z.of_nat t)]
}.

Lemma NoDup_flat_shared {A B} (f : A -> list B) l x y z : NoDup (flat_map f l) -> In x l -> In y l -> In z (f x) -> In z (f y) -> x = y.
Proof.
  induction l as [|a l IH]; cbn; [tauto|]. intros N Ix Iy Zx Zy.
  assert (D : forall u v, In u (f a) -> In v l -> ~ In u (f v)).
  { intros u v Iu Iv J. clear - N Iu Iv J. induction (f a) as [|b m IHm]; [destruct Iu|]. cbn in N. inversion N as [|? ? NI N']; subst. destruct Iu as [->|Iu]; auto.
    apply NI. apply in_or_app. right. apply in_flat_map. eauto. }
  assert (N' : NoDup (flat_map f l)). { clear - N. induction (f a) as [|b m IHm]; auto. cbn in N. inversion N; auto. }
  destruct Ix as [->|Ix], Iy as [->|Iy]; auto; exfalso; eapply D; eauto.
Qed.

Section Shelf.
  Variables (X : Type) (an : analyzer) (el : axis) (n h : nat) (els : list X) (row : X -> nat -> nat -> trow) (knet knode kname : X -> string) (cols : list string) (sur : list trow).
  Hypotheses (Sh : shelf an el n h els row knet knode kname cols sur) (Pn : 0 < n) (Ph : 0 < h).

  Definition five := ["network"; "node"; axis_column el; "scn"; "t"].
  Lemma sh_kind : is_kind el.
  Proof. pose proof (sh_table _ _ _ _ _ _ _ _ _ _ _ Sh) as T. exact (table_kind _ _ _ T). Qed.
  Lemma cell_net x scn t : cell_of "network" (row x scn t) = CStr (knet x).
  Proof. pose proof (sh_keys _ _ _ _ _ _ _ _ _ _ _ Sh x scn t) as E. unfold key_of in E. cbn [map] in E. congruence. Qed.
  Lemma cell_node x scn t : cell_of "node" (row x scn t) = CStr (knode x).
  Proof. pose proof (sh_keys _ _ _ _ _ _ _ _ _ _ _ Sh x scn t) as E. unfold key_of in E. cbn [map] in E. congruence. Qed.
  Lemma cell_name x scn t : cell_of (axis_column el) (row x scn t) = CStr (kname x).
  Proof. pose proof (sh_keys _ _ _ _ _ _ _ _ _ _ _ Sh x scn t) as E. unfold key_of in E. cbn [map] in E. congruence. Qed.
  Lemma cell_scn x scn t : cell_of "scn" (row x scn t) = CInt (Z.of_nat scn).
  Proof. pose proof (sh_keys _ _ _ _ _ _ _ _ _ _ _ Sh x scn t) as E. unfold key_of in E. cbn [map] in E. congruence. Qed.
  Lemma cell_t x scn t : cell_of "t" (row x scn t) = CInt (Z.of_nat t).
  Proof. pose proof (sh_keys _ _ _ _ _ _ _ _ _ _ _ Sh x scn t) as E. unfold key_of in E. cbn [map] in E. congruence. Qed.

  Lemma same_element x y : In x els -> In y els -> knet x = knet y -> knode x = knode y -> kname x = kname y -> x = y.
  Proof.
    intros Ix Iy E1 E2 E3. assert (NE : els <> []) by (intros ->; destruct Ix). pose proof (ky_unique _ _ (sh_keyed _ _ _ _ _ _ _ _ _ _ _ Sh NE)) as N. cbn [tb_rows] in N.
    unfold blocks in N. rewrite map_flat_map in N.
    apply (NoDup_flat_shared _ els x y [CStr (knet x); CStr (knode x); CStr (kname x); CInt (Z.of_nat 0); CInt (Z.of_nat 0)] N Ix Iy).
    - rewrite <- (sh_keys _ _ _ _ _ _ _ _ _ _ _ Sh x 0 0). apply in_map, grid_In. exists 0, 0. auto.
    - rewrite E1, E2, E3. rewrite <- (sh_keys _ _ _ _ _ _ _ _ _ _ _ Sh y 0 0). apply in_map, grid_In. exists 0, 0. auto.
  Qed.

  Lemma blocks_In r : In r (blocks n h row els) <-> exists x scn t, In x els /\ scn < n /\ t < h /\ r = row x scn t.
  Proof.
    unfold blocks. rewrite in_flat_map. split.
    - intros (x & I & J). apply grid_In in J as (scn & t & A & B & ->). eauto 8.
    - intros (x & scn & t & I & A & B & ->). exists x. split; auto. apply grid_In. eauto.
  Qed.

  (** Answers to queries that start by values of some axes and leave the next one open. *)
  Definition lines_of (q rest : query) (target : list trow) : list (list cell * trow) :=
    map (fun r => (key_of (query_names rest) r, snd (line (query_names q) cols r))) target.

  Variables (pre : list (axis * cell)) (a : axis) (post : query) (net0 : string) (l : query).
  Let x0 : iarg := str net0.
  Let rest := (a, INone) :: post.
  Let q := ones pre ++ rest.
  Hypotheses (Q : q = (ANetwork, x0) :: l) (Wh : whole el q)
    (Post : forall b y, In (b, y) post -> y = INone) (Pre : forall c, In (AScn, c) pre -> exists z, c = CInt z)
    (Clean : forall r, In r sur -> apart q r).

  Lemma q_arg b y : In (b, y) q -> y = INone \/ (exists c, y = IOne c /\ (b = AScn -> exists z, c = CInt z)).
  Proof.
    intros I. unfold q, rest in I. apply in_app_iff in I as [I|[I|I]].
    - unfold ones in I. apply in_map_iff in I as ([b' c] & E & I). cbn [fst snd] in E. injection E as -> <-. right. exists c. split; auto. intros ->. eauto.
    - injection I as <- <-. auto.
    - left. eapply Post; eauto.
  Qed.
  Lemma q_accepted : accepted q.
  Proof. intros b y I. destruct (q_arg b y I) as [->|(c & -> & _)]; split; simpl; auto. Qed.
  Lemma q_same ixs : indexes_of q = Ok ixs ->
    pivot ixs (Table cols (blocks n h row els ++ sur)) = pivot ixs (Table cols (blocks n h row els)).
  Proof. intros E. apply (drop_surplus el q); auto. apply q_arg. Qed.

  Theorem fetch_some : (exists x scn t, In x els /\ scn < n /\ t < h /\ matches q (row x scn t)) -> exists target,
    fetch an x0 l = Ok (Frame (query_names rest) (lines_of q rest target)) /\
    (forall r, In r target <-> (exists x scn t, In x els /\ scn < n /\ t < h /\ r = row x scn t) /\ matches q r) /\
    StronglySorted (fun r r' => before (key_of (query_names rest) r) (key_of (query_names rest) r')) target.
  Proof.
    intros (x & scn & t & Ix & Ls & Lt & Mx). pose proof (sh_table _ _ _ _ _ _ _ _ _ _ _ Sh) as T.
    assert (NE : els <> []) by (intros ->; destruct Ix).
    destruct (frame_some an el _ (Table cols (blocks n h row els)) pre a post T) as (ixs & target & E & Fr & IN & St).
    - intros ixs E. now apply q_same.
    - now apply (sh_keyed _ _ _ _ _ _ _ _ _ _ _ Sh).
    - exact Wh.
    - apply q_accepted.
    - exists (row x scn t). split; auto. cbn [tb_rows]. apply blocks_In. eauto 8.
    - exists target. cbn [tb_rows tb_cols] in *. split; [|split; auto].
      + fold rest in Fr, E. fold q in Fr, E. rewrite Q in E. apply (fetch_eq an el x0 l ixs _ sh_kind); auto. now rewrite <- Q.
      + intros r. rewrite IN, blocks_In. reflexivity.
  Qed.

  Theorem fetch_rows target : target <> [] ->
    (forall r, In r target <-> (exists x scn t, In x els /\ scn < n /\ t < h /\ r = row x scn t) /\ matches q r) ->
    StronglySorted (fun r r' => before (key_of (query_names rest) r) (key_of (query_names rest) r')) target ->
    fetch an x0 l = Ok (Frame (query_names rest) (lines_of q rest target)).
  Proof.
    intros NE IN St. destruct fetch_some as (T & F & IN' & St').
    - destruct target as [|r m]; [congruence|]. destruct (proj1 (IN r) (or_introl eq_refl)) as ((x & scn & t & A & B & C & ->) & M). eauto 8.
    - rewrite F. do 2 f_equal. f_equal. apply (sorted_unique (fun r r' => before (key_of (query_names rest) r) (key_of (query_names rest) r'))); auto.
      + intros x. apply before_irr.
      + intros x y. apply before_asym.
      + intros x. now rewrite IN, IN'.
  Qed.
End Shelf.

(** ** Series of one element *)
Lemma whole_series el : forall a b c d e : iarg, whole el [(ANetwork, a); (ANode, b); (el, c); (AScn, d); (ATime, e)].
Proof. intros. unfold whole. cbn. reflexivity. Qed.
Lemma whole_series' el : forall a b c d e : iarg, whole el [(ANetwork, a); (ANode, b); (el, c); (ATime, e); (AScn, d)].
Proof. intros. unfold whole. cbn. repeat apply perm_skip. apply perm_swap. Qed.

(** Rows without a scenario or of another element. *)
Definition strange (el : axis) (k : list cell) (r : trow) : Prop := cell_of "scn" r = CNaN \/ key_of ["network"; "node"; axis_column el] r <> k.
Lemma strange_apart el a b c q r : strange el [a; b; c] r -> In (ANetwork, IOne a) q -> In (ANode, IOne b) q -> In (el, IOne c) q -> apart q r.
Proof.
  intros [H|H] I1 I2 I3; [now left | right]. intros Mt. apply H. unfold key_of. cbn [map].
  assert (E1 := Mt _ _ I1). assert (E2 := Mt _ _ I2). assert (E3 := Mt _ _ I3). cbn [selects axis_column] in *. now rewrite E1, E2, E3.
Qed.

Section Series.
  Variables (X : Type) (an : analyzer) (el : axis) (n h : nat) (els : list X) (row : X -> nat -> nat -> trow) (knet knode kname : X -> string) (cols : list string) (sur : list trow).
  Hypotheses (Sh : shelf an el n h els row knet knode kname cols sur) (Pn : 0 < n) (Ph : 0 < h).
  Variable (x : X).
  Hypotheses (Ix : In x els) (Cl : forall r, In r sur -> strange el [CStr (knet x); CStr (knode x); CStr (kname x)] r).

  Lemma here_matches y : In y els -> (CStr (knet y) = CStr (knet x) /\ CStr (knode y) = CStr (knode x) /\ CStr (kname y) = CStr (kname x)) <-> y = x.
  Proof.
    intros Iy. split; [|intros ->; auto]. intros (A & B & C). injection A as A. injection B as B. injection C as C.
    eapply (same_element X an el n h els row knet knode kname cols sur Sh); eauto.
  Qed.

  Definition names_st := ["network"; "node"; axis_column el; "scn"; "t"].
  Definition names_ts := ["network"; "node"; axis_column el; "t"; "scn"].

  Ltac cells := repeat first [rewrite (cell_net X an el n h els row knet knode kname cols sur Sh) in * |
    rewrite (cell_node X an el n h els row knet knode kname cols sur Sh) in * | rewrite (cell_name X an el n h els row knet knode kname cols sur Sh) in * |
    rewrite (cell_scn X an el n h els row knet knode kname cols sur Sh) in * | rewrite (cell_t X an el n h els row knet knode kname cols sur Sh) in *].

  (** One scenario. *)
  Lemma fetch_scn scn : scn < n ->
    fetch an (str (knet x)) [(ANode, str (knode x)); (el, str (kname x)); (AScn, int (Z.of_nat scn)); (ATime, INone)] =
    Ok (Frame ["t"] (map (fun t => ([CInt (Z.of_nat t)], snd (line names_st cols (row x scn t)))) (seq 0 h))).
  Proof.
    intros Ls.
    pose proof (fetch_rows X an el n h els row knet knode kname cols sur Sh
      [(ANetwork, CStr (knet x)); (ANode, CStr (knode x)); (el, CStr (kname x)); (AScn, CInt (Z.of_nat scn))] ATime [] (knet x)
      [(ANode, str (knode x)); (el, str (kname x)); (AScn, int (Z.of_nat scn)); (ATime, INone)] eq_refl (whole_series el _ _ _ _ _)) as G.
    specialize (G (fun b y (I : In (b, y) []) => match I with end)).
    rewrite (G) with (target := map (row x scn) (seq 0 h)).
    - unfold lines_of. rewrite map_map. do 2 f_equal. apply map_ext. intros t. cbn [query_names map fst axis_column key_of]. cells. reflexivity.
    - intros c I. assert (E : c = CInt (Z.of_nat scn)).
      { simpl in I. repeat (destruct I as [I|I]; [try discriminate I; try (injection I; congruence)|]); [|destruct I].
        exfalso. injection I as E _. pose proof (sh_kind X an el n h els row knet knode kname cols sur Sh) as K. rewrite E in K.
        vm_compute in K. repeat (destruct K as [K|K]; [discriminate K|]). destruct K. }
      eauto.
    - intros r Ir. apply (strange_apart el _ _ _ _ _ (Cl r Ir)); simpl; tauto.
    - destruct h; [lia | discriminate].
    - intros r. rewrite in_map_iff. split.
      + intros (t & <- & I). apply in_seq in I. split; [exists x, scn, t; repeat split; auto; lia|].
        intros b y J. simpl in J. repeat (destruct J as [J|J]; [injection J as <- <-; cbn [selects axis_column]; cells; auto|]). destruct J.
      + intros ((y & s' & t & Iy & Ls' & Lt & ->) & Mt).
        assert (E1 := Mt ANetwork _ (or_introl eq_refl)). assert (E2 := Mt ANode _ (or_intror (or_introl eq_refl))).
        assert (E3 := Mt el _ (or_intror (or_intror (or_introl eq_refl)))).
        assert (E4 := Mt AScn _ (or_intror (or_intror (or_intror (or_introl eq_refl))))). cbn [selects axis_column] in *. cells.
        assert (y = x) by (apply (here_matches y Iy); auto). subst y. injection E4 as E4. apply Nat2Z.inj in E4. subst s'.
        exists t. split; auto. apply in_seq. lia.
    - apply sorted_seq. intros i j L1 L2. cbn [query_names map fst axis_column key_of]. cells. cbn [before label_lt]. left. lia.
  Qed.

  (** One time. *)
  Lemma fetch_t t : t < h ->
    fetch an (str (knet x)) [(ANode, str (knode x)); (el, str (kname x)); (ATime, int (Z.of_nat t)); (AScn, INone)] =
    Ok (Frame ["scn"] (map (fun scn => ([CInt (Z.of_nat scn)], snd (line names_ts cols (row x scn t)))) (seq 0 n))).
  Proof.
    intros Lt.
    pose proof (fetch_rows X an el n h els row knet knode kname cols sur Sh
      [(ANetwork, CStr (knet x)); (ANode, CStr (knode x)); (el, CStr (kname x)); (ATime, CInt (Z.of_nat t))] AScn [] (knet x)
      [(ANode, str (knode x)); (el, str (kname x)); (ATime, int (Z.of_nat t)); (AScn, INone)] eq_refl (whole_series' el _ _ _ _ _)) as G.
    specialize (G (fun b y (I : In (b, y) []) => match I with end)).
    rewrite (G) with (target := map (fun scn => row x scn t) (seq 0 n)).
    - unfold lines_of. rewrite map_map. do 2 f_equal. apply map_ext. intros s'. cbn [query_names map fst axis_column key_of]. cells. reflexivity.
    - intros c I. exfalso. simpl in I. repeat (destruct I as [I|I]; [try discriminate I|]); [|destruct I].
      injection I as E _. pose proof (sh_kind X an el n h els row knet knode kname cols sur Sh) as K. rewrite E in K.
      vm_compute in K. repeat (destruct K as [K|K]; [discriminate K|]). destruct K.
    - intros r Ir. apply (strange_apart el _ _ _ _ _ (Cl r Ir)); simpl; tauto.
    - destruct n; [lia | discriminate].
    - intros r. rewrite in_map_iff. split.
      + intros (s' & <- & I). apply in_seq in I. split; [exists x, s', t; repeat split; auto; lia|].
        intros b y J. simpl in J. repeat (destruct J as [J|J]; [injection J as <- <-; cbn [selects axis_column]; cells; auto|]). destruct J.
      + intros ((y & s' & t' & Iy & Ls' & Lt' & ->) & Mt).
        assert (E1 := Mt ANetwork _ (or_introl eq_refl)). assert (E2 := Mt ANode _ (or_intror (or_introl eq_refl))).
        assert (E3 := Mt el _ (or_intror (or_intror (or_introl eq_refl)))).
        assert (E4 := Mt ATime _ (or_intror (or_intror (or_intror (or_introl eq_refl))))). cbn [selects axis_column] in *. cells.
        assert (y = x) by (apply (here_matches y Iy); auto). subst y. injection E4 as E4. apply Nat2Z.inj in E4. subst t'.
        exists s'. split; auto. apply in_seq. lia.
    - apply sorted_seq. intros i j L1 L2. cbn [query_names map fst axis_column key_of]. cells. cbn [before label_lt]. left. lia.
  Qed.

  (** All scenarios and times, in both orders. *)
  Lemma fetch_all :
    fetch an (str (knet x)) [(ANode, str (knode x)); (el, str (kname x)); (AScn, INone); (ATime, INone)] =
    Ok (Frame ["scn"; "t"] (grid n h (fun scn t => ([CInt (Z.of_nat scn); CInt (Z.of_nat t)], snd (line names_st cols (row x scn t)))))).
  Proof.
    pose proof (fetch_rows X an el n h els row knet knode kname cols sur Sh
      [(ANetwork, CStr (knet x)); (ANode, CStr (knode x)); (el, CStr (kname x))] AScn [(ATime, INone)] (knet x)
      [(ANode, str (knode x)); (el, str (kname x)); (AScn, INone); (ATime, INone)] eq_refl (whole_series el _ _ _ _ _)) as G.
    rewrite (G) with (target := grid n h (row x)).
    - unfold lines_of. rewrite map_grid. do 2 f_equal. apply grid_ext. intros s' t' _ _. cbn [query_names map fst axis_column key_of]. cells. reflexivity.
    - intros b y [I|[]]. now injection I.
    - intros c I. exfalso. simpl in I. repeat (destruct I as [I|I]; [try discriminate I|]); [|destruct I].
      injection I as E _. pose proof (sh_kind X an el n h els row knet knode kname cols sur Sh) as K. rewrite E in K.
      vm_compute in K. repeat (destruct K as [K|K]; [discriminate K|]). destruct K.
    - intros r Ir. apply (strange_apart el _ _ _ _ _ (Cl r Ir)); simpl; tauto.
    - intros E. assert (L := grid_length n h (row x)). rewrite E in L. cbn in L. nia.
    - intros r. rewrite grid_In. split.
      + intros (s' & t' & A & B & ->). split; [exists x, s', t'; auto|].
        intros b y J. simpl in J. repeat (destruct J as [J|J]; [injection J as <- <-; cbn [selects axis_column]; cells; auto|]). destruct J.
      + intros ((y & s' & t' & Iy & Ls' & Lt' & ->) & Mt).
        assert (E1 := Mt ANetwork _ (or_introl eq_refl)). assert (E2 := Mt ANode _ (or_intror (or_introl eq_refl))).
        assert (E3 := Mt el _ (or_intror (or_intror (or_introl eq_refl)))). cbn [selects axis_column] in *. cells.
        assert (y = x) by (apply (here_matches y Iy); auto). subst y. eauto.
    - apply sorted_grid. intros a b a' b' _ _ _ _ L. cbn [query_names map fst axis_column key_of]. cells. cbn [before label_lt].
      destruct L as [L|[-> L]]; [left; lia | right; split; auto; left; lia].
  Qed.
  Lemma fetch_all' :
    fetch an (str (knet x)) [(ANode, str (knode x)); (el, str (kname x)); (ATime, INone); (AScn, INone)] =
    Ok (Frame ["t"; "scn"] (grid h n (fun t scn => ([CInt (Z.of_nat t); CInt (Z.of_nat scn)], snd (line names_ts cols (row x scn t)))))).
  Proof.
    pose proof (fetch_rows X an el n h els row knet knode kname cols sur Sh
      [(ANetwork, CStr (knet x)); (ANode, CStr (knode x)); (el, CStr (kname x))] ATime [(AScn, INone)] (knet x)
      [(ANode, str (knode x)); (el, str (kname x)); (ATime, INone); (AScn, INone)] eq_refl (whole_series' el _ _ _ _ _)) as G.
    rewrite (G) with (target := grid h n (fun t scn => row x scn t)).
    - unfold lines_of. rewrite map_grid. do 2 f_equal. apply grid_ext. intros s' t' _ _. cbn [query_names map fst axis_column key_of]. cells. reflexivity.
    - intros b y [I|[]]. now injection I.
    - intros c I. exfalso. simpl in I. repeat (destruct I as [I|I]; [try discriminate I|]); [|destruct I].
      injection I as E _. pose proof (sh_kind X an el n h els row knet knode kname cols sur Sh) as K. rewrite E in K.
      vm_compute in K. repeat (destruct K as [K|K]; [discriminate K|]). destruct K.
    - intros r Ir. apply (strange_apart el _ _ _ _ _ (Cl r Ir)); simpl; tauto.
    - intros E. assert (L := grid_length h n (fun t scn => row x scn t)). rewrite E in L. cbn in L. nia.
    - intros r. rewrite grid_In. split.
      + intros (t' & s' & A & B & ->). split; [exists x, s', t'; auto|].
        intros b y J. simpl in J. repeat (destruct J as [J|J]; [injection J as <- <-; cbn [selects axis_column]; cells; auto|]). destruct J.
      + intros ((y & s' & t' & Iy & Ls' & Lt' & ->) & Mt).
        assert (E1 := Mt ANetwork _ (or_introl eq_refl)). assert (E2 := Mt ANode _ (or_intror (or_introl eq_refl))).
        assert (E3 := Mt el _ (or_intror (or_intror (or_introl eq_refl)))). cbn [selects axis_column] in *. cells.
        assert (y = x) by (apply (here_matches y Iy); auto). subst y. eauto.
    - apply sorted_grid. intros a b a' b' _ _ _ _ L. cbn [query_names map fst axis_column key_of]. cells. cbn [before label_lt].
      destruct L as [L|[-> L]]; [left; lia | right; split; auto; left; lia].
  Qed.
End Series.

(** ** The shelves of an analyzer *)
Section Shelves.
  Variables (s : study) (r : result) (bcast : bool) (junk : nat -> string -> nat -> cell) (an : analyzer).
  Hypotheses (Api : api_study s) (M : mirrors s r) (New : new_analyzer bcast junk s r = Ok an).
  Local Notation h := (st_horizon s).
  Local Notation n := (st_nb_scn s).
  Let W : study_wf s := proj1 (api_facts s Api).

  Definition enet {E F} (x : string * string * E * F) : string := fst (fst (fst x)).
  Definition enode {E F} (x : string * string * E * F) : string := snd (fst (fst x)).
  Definition ename {E F} (name : E -> string) (x : string * string * E * F) : string := name (snd (fst x)).

  Definition cons_cols := ["cost"; "asked"; "given"; "name"; "node"; "network"; "t"; "scn"].
  Definition prod_cols := ["cost"; "avail"; "used"; "name"; "node"; "network"; "t"; "scn"].
  Definition link_cols := ["cost"; "avail"; "used"; "node"; "dest"; "network"; "t"; "scn"].
  Definition stor_cols := ["max_capacity"; "capacity"; "max_flow_in"; "flow_in"; "max_flow_out"; "flow_out"; "cost";
      "init_capacity"; "eff"; "name"; "node"; "network"; "t"; "scn"].

  Lemma dims_pos : 0 < n /\ 0 < h.
  Proof. clear W. pose proof (api_facts s Api) as (X1 & X2 & A & B). auto. Qed.

  Lemma shelf_cons : shelf an ACons n h (cons_of s r) (erow cons_row) enet enode (ename c_name) cons_cols [].
  Proof.
    destruct (analyzer_tables s r bcast junk an Api M New) as (_ & _ & E & _). destruct (C36_tables_have_unique_keys bcast junk s r an Api M New) as (K & _).
    rewrite blocks_eq in E. constructor.
    - cbn [table_of]. rewrite E, app_nil_r. reflexivity.
    - intros _. now rewrite E in K.
    - reflexivity.
  Qed.
  Lemma shelf_prod : shelf an AProd n h (prods_of s r) (erow prod_row) enet enode (ename p_name) prod_cols [].
  Proof.
    destruct (analyzer_tables s r bcast junk an Api M New) as (_ & _ & _ & E & _). destruct (C36_tables_have_unique_keys bcast junk s r an Api M New) as (_ & K & _).
    rewrite blocks_eq in E. constructor.
    - cbn [table_of]. rewrite E, app_nil_r. reflexivity.
    - intros _. now rewrite E in K.
    - reflexivity.
  Qed.
  Lemma shelf_link : shelf an ALink n h (links_of s r) (erow link_row) enet enode (ename l_dest) link_cols [].
  Proof.
    destruct (analyzer_tables s r bcast junk an Api M New) as (_ & _ & _ & _ & E & _). destruct (C36_tables_have_unique_keys bcast junk s r an Api M New) as (_ & _ & K & _).
    rewrite blocks_eq in E. constructor.
    - cbn [table_of]. rewrite E, app_nil_r. reflexivity.
    - intros _. now rewrite E in K.
    - reflexivity.
  Qed.
  Lemma stor_keyed x : keyed AStor (Table stor_cols (blocks n h (erow stor_row) [x])).
  Proof.
    constructor; cbn [tb_cols tb_rows].
    - intros z I. simpl in I. simpl. tauto.
    - intros rw c I J. unfold blocks in I. apply in_flat_map in I as (y & _ & I). apply grid_In in I as (a & b & _ & _ & ->).
      simpl in J. repeat (destruct J as [<-|J]; [exact Logic.I|]). destruct J.
    - unfold blocks. rewrite map_flat_map. erewrite flat_map_ext_in.
      2:{ intros e _. rewrite map_grid. reflexivity. }
      apply (NoDup_blocks _ (fun x : string * string * storage * ostorage => [CStr (enet x); CStr (enode x); CStr (ename s_name x)])); [|reflexivity].
      cbn [map]. constructor; [intros [] | constructor].
    - intros rw c I J N. unfold blocks in I. apply in_flat_map in I as (y & _ & I). apply grid_In in I as (a & b & _ & _ & ->).
      simpl in J. repeat (destruct J as [<-|J]; [first [exact Logic.I | exfalso; apply N; simpl; tauto]|]). destruct J.
    - intros rw I. unfold blocks in I. apply in_flat_map in I as (y & _ & I). apply grid_In in I as (a & b & _ & _ & ->).
      exists "cost". eexists. split; [simpl; tauto|]. split; [simpl; intros H; repeat (destruct H as [H|H]; [discriminate H|]); destruct H | reflexivity].
  Qed.

  (** Only the last storage is in the table, followed by rows that nothing wrote. *)
  Definition kept {A} (l : list A) : list A := match rev l with x :: _ => [x] | [] => [] end.
  Lemma kept_last {A} (l : list A) x : kept (l ++ [x]) = [x].
  Proof. unfold kept. now rewrite rev_app_distr. Qed.
  Lemma kept_In {A} (l : list A) x : In x (kept l) -> In x l.
  Proof. unfold kept. destruct (rev l) as [|y m] eqn:R; [intros []|]. intros [<-|[]]. apply in_rev. rewrite R. now left. Qed.
  Lemma kept_all {A} (l : list A) : List.length l <= 1 -> kept l = l.
  Proof. destruct l as [|x [|y l]]; simpl; intros L; auto. lia. Qed.
  Definition stor_surplus : list trow :=
    map (fun k => map (fun c => (c, junk 2 c k)) stor_cols) (seq (n * h) (n * h * (List.length (stors_of s r) - 1))).
  Lemma shelf_stor : shelf an AStor n h (kept (stors_of s r)) (erow stor_row) enet enode (ename s_name) stor_cols stor_surplus.
  Proof.
    destruct (analyzer_tables s r bcast junk an Api M New) as (_ & _ & _ & _ & _ & E & _). unfold stor_surplus.
    destruct (stors_of s r) as [|[[[net nd] e] o] els _] eqn:EL using rev_ind.
    - rewrite (build_storage_eq s r bcast junk Api M) in E by (rewrite EL; simpl; lia). rewrite EL in E. injection E as E. constructor.
      + cbn [table_of]. rewrite <- E. cbn [List.length Nat.sub]. rewrite Nat.mul_0_r. reflexivity.
      + intros NE. now destruct NE.
      + reflexivity.
    - rewrite (build_storage_last s r bcast junk Api M els net nd e o EL) in E. injection E as E. rewrite kept_last. constructor.
      + cbn [table_of]. rewrite <- E. do 3 f_equal.
        * unfold blocks. cbn [flat_map]. now rewrite app_nil_r.
        * rewrite app_length. cbn [List.length]. rewrite Nat.add_sub. reflexivity.
      + intros _. apply stor_keyed.
      + reflexivity.
  Qed.

  Definition dnet (x : string * converter * oconverter) := v_dnet (snd (fst x)).
  Definition dnode (x : string * converter * oconverter) := v_dnode (snd (fst x)).
  Definition dname (x : string * converter * oconverter) := v_name (snd (fst x)).
  Definition drow (x : string * converter * oconverter) := dest_row (snd (fst x)) (snd x).
  Lemma shelf_dest : complete s -> List.length (st_converters s) <= count_sources s -> convs_of s r <> [] ->
    exists sur, shelf an ADestConv n h (convs_of s r) drow dnet dnode dname cols8 sur /\ forall rw, In rw sur -> cell_of "scn" rw = CNaN.
  Proof.
    intros Co Le NE. destruct (analyzer_tables s r bcast junk an Api M New) as (_ & _ & _ & _ & _ & _ & E).
    destruct (build_dest_eq s r bcast junk Api M Co Le) as (cols & B & Bc).
    rewrite E in B. injection B as B. rewrite (Bc NE) in B. eexists. split; [constructor|].
    - cbn [table_of]. rewrite B. reflexivity.
    - intros _. apply (dest_keyed s r Api M NE).
    - reflexivity.
    - intros x I. apply in_map_iff in I as (k & <- & _). reflexivity.
  Qed.

  (** A source of a converter. *)
  Definition sources_of : list (string * converter * oconverter * (string * string * numval * ndarray)) :=
    flat_map (fun x => map (fun ka => (x, ka)) (srcs_of x)) (convs_of s r).
  Definition srow (y : string * converter * oconverter * (string * string * numval * ndarray)) :=
    src_row (snd (fst (fst y))) (fst (fst (fst (snd y)))) (snd (fst (fst (snd y)))) (snd (fst (snd y))) (snd (snd y)).
  Definition snet (y : string * converter * oconverter * (string * string * numval * ndarray)) := fst (fst (fst (snd y))).
  Definition snode (y : string * converter * oconverter * (string * string * numval * ndarray)) := snd (fst (fst (snd y))).
  Definition sname (y : string * converter * oconverter * (string * string * numval * ndarray)) := v_name (snd (fst (fst y))).

  Lemma src_tables : build_src_converter bcast junk s r = Ok (an_src an).
  Proof.
    unfold new_analyzer in New. destruct (build_consumption bcast junk s r) as [x1|]; [|discriminate]. cbn [rbind] in New.
    destruct (build_production bcast junk s r) as [x2|]; [|discriminate]. cbn [rbind] in New.
    destruct (build_storage bcast junk s r) as [x3|]; [|discriminate]. cbn [rbind] in New.
    destruct (build_link bcast junk s r) as [x4|]; [|discriminate]. cbn [rbind] in New.
    destruct (build_src_converter bcast junk s r) as [v|]; [|discriminate]. cbn [rbind] in New.
    destruct (build_dest_converter bcast junk s r) as [d|]; [|discriminate]. cbn [rbind] in New. injection New as <-. reflexivity.
  Qed.

  (** The sources whose rows are right. *)
  Definition right (x : string * converter * oconverter) : bool := Nat.eqb n 1 || Nat.leb (nsrc x) 1.
  Definition right_sources : list (string * converter * oconverter * (string * string * numval * ndarray)) :=
    flat_map (fun x => map (fun ka => (x, ka)) (srcs_of x)) (filter right (convs_of s r)).
  Lemma right_In x ka : In (x, ka) right_sources <-> In (x, ka) sources_of /\ right x = true.
  Proof.
    unfold right_sources, sources_of. rewrite !in_flat_map. split.
    - intros (y & I & J). apply filter_In in I as [I R]. assert (y = x) by (apply in_map_iff in J as (? & X & _); congruence). subst y. eauto.
    - intros ((y & I & J) & R). assert (y = x) by (apply in_map_iff in J as (? & X & _); congruence). subst y.
      exists x. split; auto. now apply filter_In.
  Qed.
  Lemma blocks_sources l : flat_map (sblock s) l = blocks n h srow (flat_map (fun x => map (fun ka => (x, ka)) (srcs_of x)) l).
  Proof.
    unfold blocks. induction l as [|x l IH]; auto. cbn [flat_map]. rewrite IH, flat_map_app. f_equal.
    unfold sblock. generalize (srcs_of x). induction l0 as [|ka m IHm]; auto. cbn [flat_map map]. now rewrite IHm.
  Qed.
  Lemma right_block x : conv_facts s r x -> right x = true -> ublock s x = sblock s x.
  Proof.
    intros X R. apply (ublock_same s r x X). intros i scn Li Ls. unfold right in R. apply orb_true_iff in R as [R|R].
    - apply Nat.eqb_eq in R. assert (scn = 0) by lia. subst scn. rewrite Nat.add_0_r, R, Nat.mul_1_r. now apply Nat.div_small.
    - apply Nat.leb_le in R. assert (i = 0) by lia. assert (E1 : nsrc x = 1) by lia. subst i. rewrite E1. cbn [Nat.mul Nat.add]. apply Nat.div_1_r.
  Qed.
  Lemma NoDup_flat_filter {A B} (f : A -> list B) p l : NoDup (flat_map f l) -> NoDup (flat_map f (filter p l)).
  Proof.
    induction l as [|x l IH]; auto. cbn [flat_map filter]. intros N.
    assert (N1 : NoDup (flat_map f l) /\ NoDup (f x) /\ forall z, In z (f x) -> ~ In z (flat_map f l)).
    { clear IH. induction (f x) as [|a m IHm]; [split; [auto|split; [constructor | intros z []]]|]. cbn in N. inversion N as [|? ? NI N']; subst.
      destruct (IHm N') as (H1 & H2 & H3). split; auto. split.
      - constructor; auto. intros I. apply NI. apply in_or_app. auto.
      - intros z [<-|I]; auto. intros I. apply NI. apply in_or_app. auto. }
    destruct N1 as (N1 & N2 & N3). destruct (p x); auto. cbn [flat_map].
    assert (D : forall z, In z (f x) -> ~ In z (flat_map f (filter p l))).
    { intros z I J. apply (N3 z I). apply in_flat_map in J as (y & Iy & J). apply filter_In in Iy as [Iy _]. apply in_flat_map. eauto. }
    specialize (IH N1). clear - N2 D IH. induction N2 as [|a m NI N2 IHm]; auto. cbn. constructor.
    - intros I. apply in_app_or in I as [I|I]; auto. apply (D a); simpl; auto.
    - apply IHm. intros z I. apply D. now right.
  Qed.

  (** Rows of a converter with two sources, in more than one scenario. *)
  Definition wrong_row (rw : trow) : Prop := exists x ka, In x (convs_of s r) /\ right x = false /\ In ka (srcs_of x) /\
    cell_of "network" rw = CStr (fst (fst (fst ka))) /\ cell_of "node" rw = CStr (snd (fst (fst ka))) /\ cell_of "name" rw = CStr (dname x).
  Lemma wrong_rows x rw : In x (convs_of s r) -> conv_facts s r x -> right x = false -> In rw (ublock s x) -> wrong_row rw.
  Proof.
    intros Ix X R I. apply (ublock_In s r) in I as (i & net & nd & q & a & scn & t & N & _ & _ & ->); auto. apply nth_error_In in N.
    exists x, (net, nd, q, a). repeat (split; [now auto|]). reflexivity.
  Qed.

  Lemma shelf_src : complete s -> sources_fit (source_counts s) -> convs_of s r <> [] ->
    exists sur, shelf an ASrcConv n h right_sources srow snet snode sname scols8 sur /\ forall rw, In rw sur -> wrong_row rw.
  Proof.
    intros Co Fit NE. pose proof src_tables as E. destruct (build_src_fits s r bcast junk Api M Co Fit) as (cols & B & Bc).
    rewrite E in B. injection B as B. rewrite (Bc NE) in B. clear E Bc cols. destruct (faithful_sources s r Api M) as (_ & _ & U).
    destruct (convs_facts s r Api M) as [F _]. rewrite Forall_forall in F.
    assert (T : exists sur, flat_map (ublock s) (convs_of s r) = flat_map (sblock s) (filter right (convs_of s r)) ++ sur /\ forall rw, In rw sur -> wrong_row rw).
    { destruct (Nat.eqb n 1) eqn:N1.
      - exists []. split; [|intros ? []]. rewrite app_nil_r. assert (R : forall x, right x = true) by (intros x; unfold right; now rewrite N1).
        replace (filter right (convs_of s r)) with (convs_of s r); [|symmetry; clear - R; induction (convs_of s r) as [|x l IH]; auto; cbn; rewrite R; congruence].
        apply flat_map_ext_in. intros x I. now apply right_block; auto.
      - apply (fit_iff s r Api M) in Fit as [L|(xs & x & ys & Ex & L & L2 & L0)].
        + exists []. split; [|intros ? []]. rewrite app_nil_r.
          assert (R : forall x, In x (convs_of s r) -> right x = true) by (intros x I; unfold right; rewrite Forall_forall in L; apply orb_true_iff; right; apply Nat.leb_le; auto).
          replace (filter right (convs_of s r)) with (convs_of s r); [|symmetry; clear - R; induction (convs_of s r) as [|x l IH]; auto; cbn; rewrite R by (simpl; auto); f_equal; apply IH; intros; apply R; simpl; auto].
          apply flat_map_ext_in. intros x I. apply right_block; auto.
        + exists (ublock s x).
          assert (Rx : right x = false) by (unfold right; now rewrite N1, L2). split; [|intros rw I; apply (wrong_rows x); auto; [rewrite Ex; apply in_or_app; simpl; auto | apply F; rewrite Ex; apply in_or_app; simpl; auto]].
          rewrite Ex in *. assert (Z : flat_map (ublock s) ys = []).
          { clear - L0. induction L0 as [|y l Y _ IH]; auto. cbn [flat_map]. rewrite IH. unfold ublock. now rewrite Y. }
          assert (Z' : flat_map (sblock s) (filter right ys) = []).
          { clear - L0 F. assert (F' : forall y, In y ys -> conv_facts s r y) by (intros y I; apply F; apply in_or_app; simpl; auto). clear F.
            induction L0 as [|y l Y _ IH]; auto. cbn [filter]. assert (Q : sblock s y = []).
            { unfold sblock. pose proof (srcs_length s r y (F' y (or_introl eq_refl))) as SL. rewrite Y in SL. now destruct (srcs_of y). }
            destruct (right y); cbn [flat_map]; rewrite ?Q; apply IH; intros; apply F'; simpl; auto. }
          rewrite filter_app. cbn [filter]. rewrite Rx, !flat_map_app. cbn [flat_map]. rewrite Z, Z', !app_nil_r. f_equal.
          assert (F1 : forall y, In y xs -> conv_facts s r y) by (intros y I; apply F; apply in_or_app; auto). clear - F1 L.
          induction L as [|y l Y L IH]; auto. cbn [filter flat_map]. assert (R : right y = true) by (unfold right; apply orb_true_iff; right; now apply Nat.leb_le).
          rewrite R. cbn [flat_map]. rewrite (right_block y), IH; auto; [intros; apply F1; simpl; auto | apply F1; simpl; auto]. }
    destruct T as (sur & T & Ts). rewrite T in B. exists sur. split; auto.
    assert (U' : NoDup (map (key_of ["network"; "node"; "name"; "scn"; "t"]) (blocks n h srow right_sources))).
    { unfold right_sources. rewrite <- blocks_sources. rewrite map_flat_map in *. now apply NoDup_flat_filter. }
    rewrite blocks_sources in B. fold right_sources in B. constructor.
    - cbn [table_of]. now rewrite B.
    - intros _. constructor; cbn [tb_cols tb_rows].
      + intros z I. simpl in I. unfold scols8. simpl. tauto.
      + intros rw c I J. unfold blocks in I. apply in_flat_map in I as (x & _ & I). apply grid_In in I as (a & b & _ & _ & ->).
        simpl in J. repeat (destruct J as [<-|J]; [exact Logic.I|]). destruct J.
      + exact U'.
      + intros rw c I J N. unfold blocks in I. apply in_flat_map in I as (x & _ & I). apply grid_In in I as (a & b & _ & _ & ->).
        unfold scols8 in J. simpl in J. repeat (destruct J as [<-|J]; [first [exact Logic.I | exfalso; apply N; simpl; tauto | idtac]|]); [|destruct J].
        unfold srow, src_row, cell_of. cbn. destruct (Qeq_bool _ 0); exact Logic.I.
      + intros rw I. unfold blocks in I. apply in_flat_map in I as (x & _ & I). apply grid_In in I as (a & b & _ & _ & ->).
        exists "flow". eexists. split; [unfold scols8; simpl; tauto|]. split; [simpl; intros H; repeat (destruct H as [H|H]; [discriminate H|]); destruct H | reflexivity].
    - reflexivity.
  Qed.
End Shelves.
