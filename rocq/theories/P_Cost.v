(** Property C41: costs. *)
From Coq Require Import String List ZArith QArith Bool Arith Lia Lqa Permutation Sorted.
From Verif Require Import Base BaseFacts Numeric Study Fluent Output LP SpecStudy SpecLP StudyFacts LPFacts LPSat LPResult LPReady LPWeak LPMore P_LP
  Analyzer SpecAnalyzer AnalyzerFacts P_Tables P_Exact QueryFacts P_Query P_Reuse SumFacts SpecTotals P_Totals.
Import ListNotations.
Open Scope nat_scope.
Open Scope string_scope.
Open Scope list_scope.

(** ** The queries of costs *)
Definition arg (x : option string) : iarg := match x with Some k => IOne (CStr k) | None => INone end.
Definition cost_q (nd net : option string) (a : axis) : query := [(ANetwork, arg net); (ANode, arg nd); (AScn, INone); (ATime, INone); (a, INone)].

Lemma cost_query_eq an nd net a : is_kind a -> exists ixs, indexes_of (cost_q nd net a) = Ok ixs /\ cost_query an nd net a = an_filter an ixs.
Proof.
  intros K. destruct nd as [d|], net as [k|]; destruct a; try solve [exfalso; vm_compute in K; repeat (destruct K as [K|K]; [discriminate K|]); destruct K];
    (eexists; split; [reflexivity|]; unfold cost_query; cbn -[an_filter]; destruct (an_filter an _); reflexivity).
Qed.

Lemma remove_useless_prefix pre i post : is_alone i = false -> forall f f', remove_useless f (pre ++ i :: post) = Ok f' ->
  exists k, k <= List.length pre /\ fr_levels f' = skipn k (fr_levels f).
Proof.
  intros A. induction pre as [|j pre IH]; intros f f' H; cbn in H.
  - rewrite A in H. injection H as <-. exists 0. auto.
  - destruct (is_alone j).
    + destruct (ix_index j) as [|x l]; [discriminate|]. destruct (in_index x f).
      * destruct (IH _ _ H) as (k & L & E). exists (S k). cbn. split; [lia|]. rewrite E. cbn [frame_loc fr_levels]. now destruct (fr_levels f); [destruct k|].
      * injection H as <-. exists 0. cbn. split; [lia|auto].
    + injection H as <-. exists 0. cbn. split; [lia|auto].
Qed.

Lemma cost_q_whole nd net el : whole el (cost_q nd net el).
Proof. unfold whole. cbn. repeat apply perm_skip. apply (Permutation_app_comm [AScn; ATime] [el]). Qed.
Lemma cost_q_accepted nd net el : accepted (cost_q nd net el).
Proof.
  intros a x I. unfold cost_q in I. simpl in I. repeat (destruct I as [I|I]; [injection I as <- <-; try (split; simpl; auto; fail); destruct net, nd; split; simpl; auto|]). destruct I.
Qed.


Section Query.
  Variables (tb : table) (nd net : option string) (el : axis) (ixs : list index).
  Hypotheses (Ky : keyed el tb) (El : is_kind el) (Ix : indexes_of (cost_q nd net el) = Ok ixs).

  (** The frame returned: lines of the rows of the table that match, in some order. *)
  Lemma cost_frame : exists f rows, pivot ixs tb = Ok f /\
    Permutation rows (filter (fun r => (match net with Some k => eqb (cell_of "network" r) (CStr k) | None => true end) &&
                                       (match nd with Some k => eqb (cell_of "node" r) (CStr k) | None => true end)) (tb_rows tb)) /\
    exists i j, level_pos "scn" (fr_levels f) = Ok i /\ level_pos "t" (fr_levels f) = Ok j /\
    Forall2 (fun r l => [nth i (fst l) CNaN; nth j (fst l) CNaN] = key_of st r /\
       forall c, In c (tb_cols tb) -> ~ In c (query_names (cost_q nd net el)) -> exists v, dget c (snd l) = Some v /\ same_cell v (cell_of c r)) rows (fr_rows f).
  Proof.
    pose proof (cost_q_whole nd net el) as Wh. pose proof (cost_q_accepted nd net el) as Ac.
    destruct (indexes_ok (cost_q nd net el) Ac) as (ixs' & E & O). rewrite Ix in E. injection E as <-.
    assert (Sv : exists a x, In (a, x) (cost_q nd net el) /\ several x) by (exists AScn, INone; split; [simpl; tauto | exact Logic.I]).
    assert (NV : forall a x rest, cost_q nd net el = (a, x) :: rest -> ~ void x).
    { intros a x rest Eq V. injection Eq as <- <- _. destruct net as [k|]; [exact (V (CStr k) eq_refl) | exact (V CNaN Logic.I)]. }
    destruct (pivot_total el tb (cost_q nd net el) ixs Ky Wh O Sv NV) as (f & P).
    pose proof (pivot_answers el tb (cost_q nd net el) ixs Ky Wh O f P) as (dropped & rows & Lv & ND & Hr & Ca & _).
    exists f, rows. split; auto. split.
    - apply NoDup_Permutation; auto.
      + apply NoDup_filter. pose proof (ky_unique _ _ Ky) as U. now apply NoDup_map_inv in U.
      + intros r. rewrite Hr, filter_In. apply and_iff_compat_l. unfold matches. split.
        * intros H. apply andb_true_iff. split.
          -- destruct net as [k|] eqn:En; auto. apply eqb_eq. apply (H ANetwork (IOne (CStr k))). simpl. auto.
          -- destruct nd as [k|] eqn:En; auto. apply eqb_eq. apply (H ANode (IOne (CStr k))). simpl. auto.
        * intros H a x I. apply andb_true_iff in H as [H1 H2]. simpl in I. repeat (destruct I as [I|I]; [injection I as <- <-|]); try exact Logic.I; [| |destruct I].
          -- destruct net; [apply eqb_eq in H1; exact H1 | exact Logic.I].
          -- destruct nd; [apply eqb_eq in H2; exact H2 | exact Logic.I].
    - assert (D : exists k, k <= 2 /\ List.length dropped = k).
      { unfold indexes_of, cost_q in Ix. cbn [mapM fst snd] in Ix.
        destruct (new_index ANetwork (arg net)) as [i1|]; [|discriminate]. cbn [rbind] in Ix. destruct (new_index ANode (arg nd)) as [i2|]; [|discriminate]. cbn [rbind] in Ix.
        cbn in Ix. injection Ix as <-. unfold pivot in P. destruct (forallb _ _); [|discriminate].
        apply (remove_useless_prefix [i1; i2]) in P as (k & Lk & Ek); [|reflexivity]. cbn [List.length] in Lk. exists k. split; auto.
        rewrite Lv in Ek. cbn [pivot_table fr_levels map] in Ek. apply (f_equal (@List.length string)) in Ek. rewrite !skipn_length in Ek. cbn [List.length map query_names cost_q] in Ek. lia. }
      destruct D as (k & Lk & Dk). rewrite Lv, Dk.
      assert (Q : query_names (cost_q nd net el) = ["network"; "node"; "scn"; "t"; axis_column el]) by reflexivity. rewrite Q.
      exists (2 - k), (3 - k). assert (LP : level_pos "scn" (skipn k ["network"; "node"; "scn"; "t"; axis_column el]) = Ok (2 - k) /\
         level_pos "t" (skipn k ["network"; "node"; "scn"; "t"; axis_column el]) = Ok (3 - k)) by (destruct k as [|[|[|]]]; [split; reflexivity..|lia]).
      destruct LP as [-> ->]. split; auto. split; auto. clear - Ca Dk Lk Q. revert Ca. generalize (fr_rows f). induction rows as [|r rows IH]; intros [|l ls] Ca; inversion Ca as [|? ? ? ? [K V] Ca']; subst; constructor; auto.
      destruct l as [lk lr]. cbn [fst snd] in *. split; [|now rewrite Q in V]. rewrite Q in K. unfold key_of in K. cbn [map] in K.
      destruct dropped as [|d1 [|d2 [|]]]; cbn [List.length] in *; try lia; cbn [app] in K.
      + rewrite K. reflexivity.
      + injection K as _ K. rewrite K. reflexivity.
      + injection K as _ _ K. rewrite K. reflexivity.
  Qed.
End Query.

(** ** One kind of cost *)
Lemma on_grid_perm n h rows rows' : Permutation rows rows' -> on_grid n h rows' -> on_grid n h rows.
Proof.
  intros P [H1 H2]. split.
  - intros r I. apply H1. exact (Permutation_in _ P I).
  - intros a b La Lb. destruct (H2 a b La Lb) as (r & I & K). exists r. split; auto. exact (Permutation_in _ (Permutation_sym P) I).
Qed.
Lemma on_grid_F2 n h rows rows' : Forall2 (fun r r' => key_of st r = key_of st r') rows rows' -> on_grid n h rows' -> on_grid n h rows.
Proof.
  intros F [H1 H2].
  assert (X : forall r, In r rows -> exists r', In r' rows' /\ key_of st r = key_of st r').
  { clear - F. induction F as [|x y l m E _ IH]; intros r []; [subst; exists y; simpl; auto|]. destruct (IH r H) as (r' & I & K). exists r'. simpl. auto. }
  assert (Y : forall r', In r' rows' -> exists r, In r rows /\ key_of st r = key_of st r').
  { clear - F. induction F as [|x y l m E _ IH]; intros r []; [subst; exists x; simpl; auto|]. destruct (IH r H) as (r' & I & K). exists r'. simpl. auto. }
  split.
  - intros r I. destruct (X r I) as (r' & I' & K). destruct (H1 r' I') as (a & b & La & Lb & E). exists a, b. repeat split; auto. congruence.
  - intros a b La Lb. destruct (H2 a b La Lb) as (r' & I' & E). destruct (Y r' I') as (r & I & K). exists r. split; auto. congruence.
Qed.

Definition inside (nd net : option string) (k d : string) : bool :=
  (match net with Some x => String.eqb k x | None => true end) && (match nd with Some x => String.eqb d x | None => true end).

(** What a cost needs of the lines of a frame: that they agree with the rows. *)
Definition agree (cols : list string) (names : list string) (l r : trow) : Prop :=
  forall c, In c cols -> ~ In c names -> exists v, dget c l = Some v /\ same_cell v (cell_of c r).

Section Add.
  Context {A : Type}.
  Variables (an : analyzer) (s : study) (nd net : option string) (el : axis) (tb tb' : table) (row : A -> nat -> nat -> trow) (els : list A)
            (where_ : A -> string * string) (f : trow -> cell) (val : A -> nat -> nat -> Q) (count : nat).
  Local Notation h := (st_horizon s).
  Local Notation n := (st_nb_scn s).
  Hypotheses (Es : an_study an = s) (El : is_kind el) (T : table_of an el = Some tb') (Ky : keyed el tb)
    (Same : forall ixs, indexes_of (cost_q nd net el) = Ok ixs -> pivot ixs tb' = pivot ixs tb)
    (Rows : tb_rows tb = blocks n h row els)
    (Keys : forall x scn t, key_of st (row x scn t) = gkey scn t)
    (Net : forall x scn t, cell_of "network" (row x scn t) = CStr (fst (where_ x)))
    (Nd : forall x scn t, cell_of "node" (row x scn t) = CStr (snd (where_ x)))
    (Fun : forall l r, agree (tb_cols tb) (query_names (cost_q nd net el)) l r -> same_cell (f l) (f r))
    (Val : forall x scn t, f (row x scn t) = CNum (val x scn t))
    (Count : count <> 0 <-> exists x, In x els /\ inside nd net (fst (where_ x)) (snd (where_ x)) = true).

  Definition here (x : A) : bool := inside nd net (fst (where_ x)) (snd (where_ x)).

  Lemma add_cost_blocks g : exists g', add_cost an nd net count el f (garr n h g) = Ok (garr n h g') /\
    forall scn t, scn < n -> t < h -> (g' scn t == g scn t + qsum (map (fun x => if here x then val x scn t else 0) els))%Q.
  Proof.
    unfold add_cost. destruct (Nat.eqb_spec count 0) as [Z|NZ].
    - exists g. split; auto. intros scn t _ _. rewrite qsum_zero_all; [lra|]. intros x I. destruct (here x) eqn:H; [|reflexivity]. exfalso.
      apply (proj2 Count); auto. exists x. auto.
    - destruct (proj1 Count NZ) as (x0 & I0 & H0).
      destruct (cost_query_eq an nd net el El) as (ixs & Ix & ->).
      destruct (indexes_ok (cost_q nd net el) (cost_q_accepted nd net el)) as (ixs' & E & O). rewrite Ix in E. injection E as <-.
      rewrite (filter_table an el tb' (cost_q nd net el) ixs T (cost_q_whole nd net el) O).
      destruct (cost_frame tb nd net el ixs Ky Ix) as (fr & rows & P & Pm & i & j & Li & Lj & F2). rewrite (Same ixs Ix), P. cbn [rbind].
      unfold level_sums. rewrite Li, Lj. cbn [rbind]. rewrite Es.
      set (lines := map (fun l : list cell * trow => [("scn", nth i (fst l) CNaN); ("t", nth j (fst l) CNaN); ("v", f (snd l))]) (fr_rows fr)).
      set (aug := fun r : trow => ("v", f r) :: r).
      assert (Kaug : forall r, key_of st (aug r) = key_of st r) by reflexivity.
      assert (FL : Forall2 (fun l r => key_of st l = key_of st r /\ same_cell (cell_of "v" l) (cell_of "v" r)) lines (map aug rows)).
      { unfold lines. clear - F2 Fun. induction F2 as [|r l rs ls [K V] _ IH]; [constructor|]. cbn [map]. constructor; auto. split.
        - transitivity [nth i (fst l) CNaN; nth j (fst l) CNaN]; [reflexivity | exact K].
        - change (same_cell (f (snd l)) (f r)). apply Fun. exact V. }
      assert (EF : filter (fun r => (match net with Some k => eqb (cell_of "network" r) (CStr k) | None => true end) &&
                                       (match nd with Some k => eqb (cell_of "node" r) (CStr k) | None => true end)) (tb_rows tb) = blocks n h row (filter here els)).
      { rewrite Rows. apply filter_blocks. intros x scn t _. rewrite Net, Nd. unfold here, inside. destruct net, nd; reflexivity. }
      rewrite EF in Pm.
      assert (EA : map aug (blocks n h row (filter here els)) = blocks n h (fun x scn t => aug (row x scn t)) (filter here els)).
      { unfold blocks. rewrite map_flat_map. apply flat_map_ext. intros x. apply map_grid. }
      assert (Pa : Permutation (map aug rows) (blocks n h (fun x scn t => aug (row x scn t)) (filter here els))) by (rewrite <- EA; now apply Permutation_map).
      assert (NE : filter here els <> []). { intros X. assert (J : In x0 (filter here els)) by (apply filter_In; auto). rewrite X in J. exact J. }
      assert (G : on_grid n h lines).
      { apply (on_grid_F2 n h lines (map aug rows)).
        - clear - FL. induction FL as [|x y l m [K _] _ IH]; constructor; auto.
        - apply (on_grid_perm _ _ _ _ Pa). apply blocks_on_grid; auto. }
      fold st. rewrite (pivot_sum_grid n h "v" lines G). rewrite reshape2_grid. cbn [rbind]. rewrite nd_op_garr. eexists. split; [reflexivity|].
      intros scn t L1 L2. cbn beta. apply Qplus_comp; [reflexivity|].
      rewrite (tally_Forall2 "v" "v" lines (map aug rows) scn t FL), (tally_perm "v" _ _ scn t Pa).
      rewrite (tally_blocks n h (fun x scn t => aug (row x scn t)) Keys "v" val) by (auto; intros x _; apply Val). apply qsum_filter.
  Qed.
End Add.

(** ** Elements counted *)
Lemma counts_fun P s a b : counts P s a -> counts P s b -> a = b.
Proof.
  intros (l & N & <- & H) (m & N' & <- & H'). apply Nat.le_antisymm; apply NoDup_incl_length; auto; intros x I; [apply H', H | apply H, H']; auto.
Qed.
Lemma node_counts_fun s k d a b : node_counts s k d a -> node_counts s k d b -> a = b.
Proof.
  intros (n & i & o & N & I & O & ->) (n' & i' & o' & N' & I' & O' & ->). rewrite N in N'. injection N' as <-.
  now rewrite (counts_fun _ _ _ _ I I'), (counts_fun _ _ _ _ O O').
Qed.
Lemma list_sum_pos l : list_sum l <> 0 <-> exists x, In x l /\ x <> 0.
Proof.
  induction l as [|a l IH]; simpl; [split; [lia | intros (x & [] & _)]|]. split.
  - intros H. destruct (Nat.eq_dec a 0) as [->|]; [|exists a; auto]. destruct (proj1 IH) as (x & I & X); [exact H|]. exists x. auto.
  - intros (x & [->|I] & X); [lia|]. assert (list_sum l <> 0) by (apply IH; eauto). unfold list_sum in *. lia.
Qed.
Lemma nth_sum_counts sizes i : i < 6 -> nth i (sum_counts sizes) 0 = list_sum (map (fun size => nth i size 0) sizes).
Proof. intros L. do 6 (destruct i as [|i]; [reflexivity|]). lia. Qed.
Lemma Forall2_In_r {A B} (P : A -> B -> Prop) l m y : Forall2 P l m -> In y m -> exists x, In x l /\ P x y.
Proof. induction 1 as [|a b l m H _ IH]; intros []; [subst; exists a; simpl; auto|]. destruct IH as (x & I & X); auto. exists x. simpl. auto. Qed.
Lemma Forall2_In_l {A B} (P : A -> B -> Prop) l m x : Forall2 P l m -> In x l -> exists y, In y m /\ P x y.
Proof. induction 1 as [|a b l m H _ IH]; intros []; [subst; exists b; simpl; auto|]. destruct IH as (y & I & X); auto. exists y. simpl. auto. Qed.

(** What may be asked: a node; a network with a name; the whole study if all networks have one. *)
Inductive askable (s : study) : option string -> option string -> Prop :=
| ask_node net nd : has_node s net nd -> askable s (Some nd) (Some net)
| ask_network net : net <> "" -> In net (dkeys (st_networks s)) -> askable s None (Some net)
| ask_study : ~ In "" (dkeys (st_networks s)) -> askable s None None.

Lemma counted s nd net : api_study s -> askable s nd net -> exists e, elements_inside s nd net = Ok e /\
  forall i, i < 6 -> nth i e 0 <> 0 <-> exists k d size, inside nd net k d = true /\ node_counts s k d size /\ nth i size 0 <> 0.
Proof.
  intros Api. destruct (C43_counts_partial s Api) as (C1 & C2 & C3 & _). pose proof (api_facts s Api) as (W & _).
  assert (NET : forall net, net <> "" -> In net (dkeys (st_networks s)) -> exists e, elements_inside s None (Some net) = Ok e /\
    forall i, i < 6 -> nth i e 0 <> 0 <-> exists k d size, inside None (Some net) k d = true /\ node_counts s k d size /\ nth i size 0 <> 0).
  { intros k NE I. apply In_keys_dget in I as (ns & D). destruct (C2 k ns NE D) as (sizes & F & E). exists (sum_counts sizes). split; auto.
    intros i L. rewrite nth_sum_counts by auto. rewrite list_sum_pos. split.
    - intros (x & I & X). apply in_map_iff in I as (size & <- & I). destruct (Forall2_In_r _ _ _ _ F I) as (d & _ & N). exists k, d, size. split; auto.
      unfold inside. now rewrite String.eqb_refl.
    - intros (k' & d & size & In' & N & X). unfold inside in In'. rewrite andb_true_r in In'. apply String.eqb_eq in In'. subst k'.
      assert (J : In d (dkeys ns)). { destruct N as (n & _ & _ & N & _). unfold node_at in N. rewrite D in N. eapply dget_In_keys; eauto. }
      destruct (Forall2_In_l _ _ _ _ F J) as (size' & I' & N'). exists (nth i size 0). split; auto. apply in_map_iff. exists size'. split; auto.
      now rewrite (node_counts_fun _ _ _ _ _ N N'). }
  intros [k d H|k NE I|NE].
  - unfold has_node in H. destruct (node_at s k d) as [n|] eqn:N; [|congruence]. destruct (C1 k d n N) as (size & E & C). exists size. split; auto.
    intros i L. split.
    + intros X. exists k, d, size. split; auto. unfold inside. now rewrite !String.eqb_refl.
    + intros (k' & d' & size' & In' & C' & X). unfold inside in In'. apply andb_true_iff in In' as [A B]. apply String.eqb_eq in A, B. subst. now rewrite (node_counts_fun _ _ _ _ _ C C').
  - now apply NET.
  - destruct (C3 NE) as (sizes & F & E). exists (sum_counts sizes). split; auto. intros i L. rewrite nth_sum_counts by auto. rewrite list_sum_pos. split.
    + intros (x & I & X). apply in_map_iff in I as (size & <- & I). destruct (Forall2_In_r _ _ _ _ F I) as (k & J & Ek).
      destruct (NET k) as (e & E' & H); auto; [intros ->; auto|]. rewrite Ek in E'. injection E' as <-. destruct (proj1 (H i L) X) as (k' & d & sz & _ & N & X'). exists k', d, sz. auto.
    + intros (k & d & size & _ & N & X).
      assert (J : In k (dkeys (st_networks s))). { destruct N as (n & _ & _ & N & _). unfold node_at in N. destruct (dget k (st_networks s)) eqn:D; [eapply dget_In_keys; eauto | discriminate]. }
      destruct (Forall2_In_l _ _ _ _ F J) as (sz & I & Ek). destruct (NET k) as (e & E' & H); auto; [intros ->; auto|]. rewrite Ek in E'. injection E' as <-.
      exists (nth i sz 0). split; [apply in_map_iff; eauto|]. apply (H i L). exists k, d, size. split; auto. unfold inside. now rewrite String.eqb_refl.
Qed.

Lemma elements_counted {E F} (gets : node -> list E) (getr : onode -> list F) s r nd net : api_study s -> mirrors s r ->
  (forall n rn, node_like s n rn -> List.length (gets n) = List.length (getr rn)) ->
  (exists x, In x (elements gets getr s r) /\ inside nd net (fst (fst (fst x))) (snd (fst (fst x))) = true) <->
  (exists k d n, inside nd net k d = true /\ node_at s k d = Some n /\ List.length (gets n) <> 0).
Proof.
  intros Api M L. pose proof (api_facts s Api) as (W & _). split.
  - intros ([[[k d] e] o] & I & H). apply (is_element_In gets getr s r W M) in I as (n & rn & i & N & _ & X & _). exists k, d, n. split; auto. split; auto.
    destruct (gets n); [destruct i; discriminate | simpl; lia].
  - intros (k & d & n & H & N & X).
    destruct (rnode_at r k d) as [rn|] eqn:R.
    2:{ exfalso. unfold node_at, rnode_at in *. destruct (dget k (st_networks s)) as [ns|] eqn:D; [|discriminate].
        destruct (nets_get s r Api M k ns D) as (rns & E' & F2 & _). rewrite E' in R. pose proof (Forall2_dget (fun _ n rn => node_like s n rn) _ _ d F2) as Y. now rewrite N, R in Y. }
    pose proof (L n rn (mirror_like s r M _ _ _ _ N R)) as LL. destruct (gets n) as [|e es] eqn:Ge; [simpl in X; lia|]. destruct (getr rn) as [|o os] eqn:Go; [discriminate|].
    exists (k, d, e, o). split; auto. apply (is_element_In gets getr s r W M). exists n, rn, 0. rewrite Ge, Go. auto.
Qed.

(** ** All costs *)
(** A cost of some element: its network, its node, its value. *)
Definition item := (string * string * (nat -> nat -> Q))%type.
Definition cons_value (x : string * string * consumption * oconsumption) (scn t : nat) : Q :=
  ((value (c_qty (snd (fst x))) scn t - entry (oc_qty (snd x)) scn t) * value (c_cost (snd (fst x))) scn t)%Q.
Definition prod_value (x : string * string * production * oproduction) (scn t : nat) : Q :=
  (entry (op_qty (snd x)) scn t * value (p_cost (snd (fst x))) scn t)%Q.
Definition stor_value (x : string * string * storage * ostorage) (scn t : nat) : Q :=
  (entry (os_capacity (snd x)) scn t * value (s_cost (snd (fst x))) scn t)%Q.
Definition link_value (x : string * string * link * olink) (scn t : nat) : Q :=
  (entry (ol_qty (snd x)) scn t * value (l_cost (snd (fst x))) scn t)%Q.
Definition conv_value (x : string * converter * oconverter) (scn t : nat) : Q :=
  (entry (ov_dest (snd x)) scn t * ovalue (v_cost (snd (fst x))) scn t)%Q.
Definition items_of {E F} (val : string * string * E * F -> nat -> nat -> Q) (els : list (string * string * E * F)) : list item :=
  map (fun x => (fst (fst x), val x)) els.
Definition conv_items (els : list (string * converter * oconverter)) : list item :=
  map (fun x => (v_dnet (snd (fst x)), v_dnode (snd (fst x)), conv_value x)) els.
Definition items (s : study) (r : result) : list item :=
  items_of cons_value (cons_of s r) ++ items_of prod_value (prods_of s r) ++ items_of stor_value (stors_of s r) ++
  items_of link_value (links_of s r) ++ conv_items (convs_of s r).
Definition cost_of (nd net : option string) (l : list item) (scn t : nat) : Q :=
  qsum (map (fun i : item => if inside nd net (fst (fst i)) (snd (fst i)) then snd i scn t else 0%Q) l).

Lemma cost_of_app nd net a b scn t : (cost_of nd net (a ++ b) scn t == cost_of nd net a scn t + cost_of nd net b scn t)%Q.
Proof. unfold cost_of. rewrite map_app. apply qsum_app. Qed.

Lemma forallb_false {A} (p : A -> bool) l x : In x l -> p x = false -> forallb p l = false.
Proof. intros I P. destruct (forallb p l) eqn:F; auto. rewrite forallb_forall in F. rewrite (F x I) in P. discriminate. Qed.

Lemma pivot_junk nd net el ixs cols rows surplus : indexes_of (cost_q nd net el) = Ok ixs -> (forall x, In x surplus -> cell_of "scn" x = CNaN) ->
  pivot ixs (Table cols (rows ++ surplus)) = pivot ixs (Table cols rows).
Proof.
  intros Ix J. unfold pivot. cbn [tb_cols tb_rows]. rewrite filter_app.
  replace (filter (fun r => forallb (fun i => ix_keeps i r) ixs) surplus) with (@nil trow); [now rewrite app_nil_r|].
  assert (I : In (match new_index AScn INone with Ok i => i | Err _ => Index AScn true [] end) ixs).
  { unfold indexes_of, cost_q in Ix. cbn [mapM fst snd] in Ix.
    destruct (new_index ANetwork (arg net)) as [i1|]; [|discriminate]. cbn [rbind] in Ix. destruct (new_index ANode (arg nd)) as [i2|]; [|discriminate]. cbn [rbind] in Ix.
    cbn in Ix. injection Ix as <-. simpl. auto. }
  symmetry. induction surplus as [|x l IH]; auto. cbn [filter]. rewrite (forallb_false _ ixs _ I); [apply IH; intros; apply J; right; auto|].
  unfold ix_keeps. cbn. change (cell_of "scn" x) with (cell_of "scn" x). unfold ix_column. cbn. rewrite (J x (or_introl eq_refl)). reflexivity.
Qed.

Lemma same_num a b : same_cell a b -> forall q, b = CNum q -> exists q', a = CNum q' /\ (q' == q)%Q.
Proof. destruct a, b; simpl; intros H q' E; try discriminate; injection E as <-; eauto. Qed.
Lemma same_op op a b a' b' : (forall x y x' y', x == x' -> y == y' -> op x y == op x' y')%Q -> same_cell a a' -> same_cell b b' ->
  same_cell (cell_op op a b) (cell_op op a' b').
Proof. intros P. destruct a, a', b, b'; simpl; intros; try congruence; auto. Qed.
Lemma agree_cell cols names l r c : agree cols names l r -> In c cols -> ~ In c names -> same_cell (cell_of c l) (cell_of c r).
Proof. intros H I N. destruct (H c I N) as (v & D & S). unfold cell_of at 1. now rewrite D. Qed.

Section Costs.
  Variables (s : study) (r : result) (bcast : bool) (junk : nat -> string -> nat -> cell) (an : analyzer).
  Hypotheses (Api : api_study s) (M : mirrors s r) (New : new_analyzer bcast junk s r = Ok an)
    (Co : complete s) (Enough : List.length (st_converters s) <= list_sum (source_counts s)).
  Local Notation h := (st_horizon s).
  Local Notation n := (st_nb_scn s).

  Lemma dest_keyed : convs_of s r <> [] -> keyed ADestConv (Table cols8 (blocks n h (fun x : string * converter * oconverter => dest_row (snd (fst x)) (snd x)) (convs_of s r))).
  Proof.
    intros NE. constructor; cbn [tb_cols tb_rows].
    - intros z I. simpl in I. unfold cols8. simpl. tauto.
    - intros rw c I J. unfold blocks in I. apply in_flat_map in I as (x & _ & I). apply grid_In in I as (a & b & _ & _ & ->).
      simpl in J. repeat (destruct J as [<-|J]; [exact Logic.I|]). destruct J.
    - unfold blocks. rewrite map_flat_map. erewrite flat_map_ext_in.
      2:{ intros e _. rewrite map_grid. reflexivity. }
      apply (NoDup_blocks _ (fun x : string * converter * oconverter => [CStr (v_dnet (snd (fst x))); CStr (v_dnode (snd (fst x))); CStr (v_name (snd (fst x)))])).
      + pose proof (convs_ids s r Api M) as ND. rewrite <- (map_map (fun x => [CStr (v_dnet (snd (fst x))); CStr (v_dnode (snd (fst x))); CStr (v_name (snd (fst x)))]) (fun x => x)), map_id.
        apply (NoDup_map_inv (fun k => nth 2 k CNaN)). rewrite map_map. cbn [nth].
        rewrite <- (map_map (fun x : string * converter * oconverter => v_name (snd (fst x))) CStr). apply FinFun.Injective_map_NoDup; [congruence | auto].
      + reflexivity.
    - intros rw c I J N. unfold blocks in I. apply in_flat_map in I as (x & _ & I). apply grid_In in I as (a & b & _ & _ & ->).
      unfold cols8 in J. simpl in J. repeat (destruct J as [<-|J]; [first [exact Logic.I | exfalso; apply N; simpl; tauto]|]). destruct J.
    - intros rw I. unfold blocks in I. apply in_flat_map in I as (x & _ & I). apply grid_In in I as (a & b & _ & _ & ->).
      exists "cost". eexists. split; [unfold cols8; simpl; tauto|]. split; [simpl; intros H; repeat (destruct H as [H|H]; [discriminate H|]); destruct H | reflexivity].
  Qed.

  Lemma agree_times c d cols names l rw : agree cols names l rw -> In c cols -> ~ In c names -> In d cols -> ~ In d names ->
    same_cell (times c d l) (times c d rw).
  Proof.
    intros H I1 N1 I2 N2. apply same_op; [intros; now apply Qmult_comp | eapply agree_cell; eauto | eapply agree_cell; eauto].
  Qed.

  Ltac notin := let H := fresh in intros H; simpl in H; repeat (destruct H as [H|H]; [discriminate H|]); destruct H.

  Definition costs_after_storages (nd net : option string) (e : list nat) (c : ndarray) : res ndarray :=
    let* cost := add_cost an nd net (nth 3 e 0) ALink (times "used" "cost") c in
    add_cost an nd net (nth 5 e 0) ADestConv (times "flow" "cost") cost.

  (** The costs of storages, and those before and after them. *)
  Lemma cost_split nd net : askable s nd net -> exists e g2,
    (nth 2 e 0 <> 0 <-> exists x, In x (stors_of s r) /\ inside nd net (fst (fst (fst x))) (snd (fst (fst x))) = true) /\
    get_cost an nd net = (let* c := add_cost an nd net (nth 2 e 0) AStor (times "capacity" "cost") (garr n h g2) in costs_after_storages nd net e c) /\
    (forall scn t, scn < n -> t < h -> (g2 scn t == cost_of nd net (items_of cons_value (cons_of s r)) scn t + cost_of nd net (items_of prod_value (prods_of s r)) scn t)%Q) /\
    forall g3, exists g, costs_after_storages nd net e (garr n h g3) = Ok (garr n h g) /\
      forall scn t, scn < n -> t < h -> (g scn t == g3 scn t + cost_of nd net (items_of link_value (links_of s r)) scn t + cost_of nd net (conv_items (convs_of s r)) scn t)%Q.
  Proof.
    intros Ask. destruct (counted s nd net Api Ask) as (e & Ee & Cn). pose proof (api_facts s Api) as (W & X2 & Ph & Pn).
    destruct (analyzer_tables s r bcast junk an Api M New) as (Es & _ & Ec & Ep & El & Est & Ed).
    destruct (C36_tables_have_unique_keys bcast junk s r an Api M New) as (Kc & Kp & Kl & _).
    assert (N' : match net with None => if name_true nd then Some "default" else None | x => x end = net) by (destruct Ask; reflexivity).
    unfold get_cost. rewrite Es, Ee. cbn [rbind]. rewrite N'. rewrite nd_zeros2_garr.
    assert (CK : forall {E F} (gets : node -> list E) (getr : onode -> list F) i, i < 4 ->
       (forall n, nth i [List.length (n_cons n); List.length (n_prods n); List.length (n_stors n); List.length (n_links n)] 0 = List.length (gets n)) ->
       (forall n rn, node_like s n rn -> List.length (gets n) = List.length (getr rn)) ->
       nth i e 0 <> 0 <-> exists x, In x (elements gets getr s r) /\ inside nd net (fst (fst (fst x))) (snd (fst (fst x))) = true).
    { intros E F gets getr i L G LL. rewrite (Cn i) by lia. rewrite (elements_counted gets getr s r nd net Api M LL). split.
      - intros (k & d & size & I & (nn & a & b & N & _ & _ & ->) & X). exists k, d, nn. split; auto. split; auto. rewrite <- G.
        do 4 (destruct i as [|i]; [exact X|]). lia.
      - intros (k & d & nn & I & N & X). destruct (node_elements_ok s k d nn W N) as (size & _ & C). exists k, d, size. split; auto. split; auto.
        destruct C as (n' & a & b & N2 & _ & _ & ->). rewrite N in N2. injection N2 as <-. rewrite <- G in X. do 4 (destruct i as [|i]; [exact X|]). lia. }
    destruct (add_cost_blocks an s nd net ACons (an_cons an) (an_cons an) (erow cons_row) (cons_of s r) (fun x => fst (fst x))
      (fun rw => cell_op Qmult (cell_op Qminus (cell_of "asked" rw) (cell_of "given" rw)) (cell_of "cost" rw)) cons_value (nth 0 e 0) Es) with (g := fun _ _ : nat => 0%Q)
      as (g1 & -> & G1); auto; try reflexivity.
    { vm_compute; tauto. }
    { rewrite Ec. reflexivity. }
    { intros l rw H. rewrite Ec in H. cbn [tb_cols] in H. apply same_op; [intros; now apply Qmult_comp | apply same_op; [intros; apply Qplus_comp; auto; now apply Qopp_comp| |]|];
        (eapply agree_cell; [exact H | simpl; tauto | notin]). }
    { apply CK; [lia | reflexivity | apply like_cons]. }
    cbn [rbind].
    destruct (add_cost_blocks an s nd net AProd (an_prod an) (an_prod an) (erow prod_row) (prods_of s r) (fun x => fst (fst x))
      (times "used" "cost") prod_value (nth 1 e 0) Es) with (g := g1) as (g2 & -> & G2); auto; try reflexivity.
    { vm_compute; tauto. }
    { rewrite Ep. reflexivity. }
    { intros l rw H. rewrite Ep in H. cbn [tb_cols] in H. apply (agree_times _ _ _ _ _ _ H); first [notin | simpl; tauto]. }
    { apply CK; [lia | reflexivity | apply like_prods]. }
    cbn [rbind].
    exists e, g2. split; [apply CK; [lia | reflexivity | apply like_stors]|]. split; [reflexivity|]. split.
    { intros scn t L1 L2. rewrite G2, G1 by auto. unfold cost_of, items_of. rewrite !map_map. unfold here. cbn [fst snd]. lra. }
    intros g3. unfold costs_after_storages.
    destruct (add_cost_blocks an s nd net ALink (an_link an) (an_link an) (erow link_row) (links_of s r) (fun x => fst (fst x))
      (times "used" "cost") link_value (nth 3 e 0) Es) with (g := g3) as (g4 & -> & G4); auto; try reflexivity.
    { vm_compute; tauto. }
    { rewrite El. reflexivity. }
    { intros l rw H. rewrite El in H. cbn [tb_cols] in H. apply (agree_times _ _ _ _ _ _ H); first [notin | simpl; tauto]. }
    { apply CK; [lia | reflexivity | apply like_links]. }
    cbn [rbind].
    destruct (convs_facts s r Api M) as [CF CE].
    assert (D : nth 5 e 0 <> 0 <-> exists x, In x (convs_of s r) /\ inside nd net (v_dnet (snd (fst x))) (v_dnode (snd (fst x))) = true).
    { rewrite (Cn 5) by lia. split.
      - intros (k & d & size & I & (nn & a & b & N & _ & (names & ND & <- & Hn) & ->) & X). cbn [nth] in X.
        destruct names as [|name names]; [simpl in X; lia|]. destruct (proj1 (Hn name) (or_introl eq_refl)) as (v & V & <- & <-).
        apply dget_In in V. rewrite CE in V. apply in_map_iff in V as ([[a' v'] rv] & E & J). cbn [fst] in E. injection E as -> ->. exists (name, v, rv). auto.
      - intros ([[name v] rv] & I & H). cbn [fst snd] in H. rewrite Forall_forall in CF. destruct (CF _ I) as [V R _ _]. cbn [fst snd] in *.
        assert (HN : has_node s (v_dnet v) (v_dnode v)).
        { destruct (wf_dest _ _ _ (wf_conv _ W _ _ V)) as [(_ & _ & Z & _)|Z]; auto. destruct (Co name v V). congruence. }
        unfold has_node in HN. destruct (node_at s (v_dnet v) (v_dnode v)) as [nn|] eqn:N; [|congruence].
        destruct (node_elements_ok s _ _ nn W N) as (size & _ & C). exists (v_dnet v), (v_dnode v), size. split; auto. split; auto.
        destruct C as (n' & a & b & _ & _ & (names & ND & <- & Hn) & ->). cbn [nth]. destruct names as [|? ?]; [|simpl; lia]. exfalso.
        apply (proj2 (Hn name)). exists v. split; auto. split; auto. }
    assert (Fin : exists g5, add_cost an nd net (nth 5 e 0) ADestConv (times "flow" "cost") (garr n h g4) = Ok (garr n h g5) /\
       forall scn t, scn < n -> t < h -> (g5 scn t == g4 scn t + cost_of nd net (conv_items (convs_of s r)) scn t)%Q).
    { destruct (convs_of s r) as [|x0 xs] eqn:EC.
      - assert (Z : nth 5 e 0 = 0). { destruct (Nat.eq_dec (nth 5 e 0) 0) as [|NZ]; auto. destruct (proj1 D NZ) as (? & [] & _). }
        rewrite Z. exists g4. split; auto. intros scn t _ _. unfold cost_of. cbn. lra.
      - destruct (build_dest_eq s r bcast junk Api M Co) as (cols & B & Bc).
        { exact Enough. }
        rewrite Ed in B. injection B as B. rewrite EC in Bc, B. rewrite Bc in B by discriminate. clear Bc.
        destruct (add_cost_blocks an s nd net ADestConv
           (Table cols8 (blocks n h (fun x : string * converter * oconverter => dest_row (snd (fst x)) (snd x)) (x0 :: xs))) (an_dest an)
           (fun x : string * converter * oconverter => dest_row (snd (fst x)) (snd x)) (x0 :: xs) (fun x => (v_dnet (snd (fst x)), v_dnode (snd (fst x))))
           (times "flow" "cost") conv_value (nth 5 e 0) Es) with (g := g4) as (g5 & -> & G5); auto; try reflexivity.
        + vm_compute; tauto.
        + rewrite <- EC. apply dest_keyed. rewrite EC. discriminate.
        + intros ixs Ix. rewrite B. apply (pivot_junk nd net ADestConv ixs _ _ _ Ix). intros x I. apply in_map_iff in I as (k & <- & _). reflexivity.
        + intros l rw H. cbn [tb_cols] in H. apply (agree_times _ _ _ _ _ _ H); first [notin | unfold cols8; simpl; tauto].
        + exists g5. split; auto. intros scn t L1 L2. rewrite G5 by auto. apply Qplus_comp; [reflexivity|]. unfold cost_of, conv_items. rewrite map_map. reflexivity. }
    destruct Fin as (g5 & -> & G5). exists g5. split; auto. intros scn t L1 L2.
    rewrite G5, G4 by auto. apply Qplus_comp; [|reflexivity]. unfold cost_of, items_of. rewrite !map_map. unfold here. cbn [fst snd]. lra.
  Qed.

  (** The sum of all costs inside what is asked. *)
  Theorem cost_inside nd net : storage_count s <= 1 -> askable s nd net -> exists g, get_cost an nd net = Ok (garr n h g) /\
    forall scn t, scn < n -> t < h -> (g scn t == cost_of nd net (items s r) scn t)%Q.
  Proof.
    intros One Ask. destruct (cost_split nd net Ask) as (e & g2 & C2 & -> & G2 & Rest). pose proof (api_facts s Api) as (W & X2 & Ph & Pn).
    destruct (analyzer_tables s r bcast junk an Api M New) as (Es & _ & _ & _ & _ & Est & _).
    destruct (C36_tables_have_unique_keys bcast junk s r an Api M New) as (_ & _ & _ & Ks). specialize (Ks One).
    rewrite (build_storage_eq s r bcast junk Api M) in Est.
    2:{ unfold stors_of. rewrite <- (count_elements_eq n_stors on_stors s r M); auto. apply like_stors. }
    injection Est as Est.
    destruct (add_cost_blocks an s nd net AStor (an_stor an) (an_stor an) (erow stor_row) (stors_of s r) (fun x => fst (fst x))
      (times "capacity" "cost") stor_value (nth 2 e 0) Es) with (g := g2) as (g3 & -> & G3); auto; try reflexivity.
    { vm_compute; tauto. }
    { rewrite <- Est. reflexivity. }
    { intros l rw H. rewrite <- Est in H. cbn [tb_cols] in H. apply (agree_times _ _ _ _ _ _ H); first [notin | simpl; tauto]. }
    cbn [rbind].
    destruct (Rest g3) as (g & -> & G). exists g. split; auto. intros scn t L1 L2.
    rewrite G, G3, G2 by auto. unfold items. rewrite !cost_of_app. unfold cost_of, items_of. rewrite !map_map. unfold here. cbn [fst snd]. lra.
  Qed.
End Costs.

(** ** Sums over nodes *)
Lemma sum_indicator (x : string) (q : Q) ks : NoDup ks -> (total (fun k => if String.eqb x k then q else 0) ks == if mem x ks then q else 0)%Q.
Proof.
  unfold total. induction ks as [|k ks IH]; intros N; [reflexivity|]. inversion N as [|? ? NI N']; subst. cbn [map qsum fold_right].
  fold (qsum (map (fun k => if String.eqb x k then q else 0%Q) ks)). rewrite (IH N'). cbn [mem existsb].
  change (eqb k x) with (String.eqb k x). change (eqb x k) with (String.eqb x k).
  destruct (String.eqb_spec x k) as [->|D].
  - replace (mem k ks) with false; [rewrite ?String.eqb_refl; cbn [orb]; lra|]. symmetry. destruct (mem k ks) eqn:E; auto. exfalso. apply NI. now apply mem_In.
  - rewrite ?(proj2 (String.eqb_neq k x) (not_eq_sym D)). cbn [orb]. change (existsb _ ks) with (mem x ks). lra.
Qed.
Lemma split_sum {I} (key : I -> string) ks (f : I -> Q) l : NoDup ks -> (forall i, In i l -> ~ In (key i) ks -> (f i == 0)%Q) ->
  (qsum (map f l) == total (fun k => qsum (map (fun i => if String.eqb (key i) k then f i else 0) l)) ks)%Q.
Proof.
  intros N. unfold total. induction l as [|i l IH]; intros H.
  - cbn. rewrite qsum_zero_all; [reflexivity|]. reflexivity.
  - cbn [map]. transitivity (f i + qsum (map f l))%Q; [reflexivity|]. rewrite IH by (intros; apply H; simpl; auto).
    transitivity (qsum (map (fun k => (if String.eqb (key i) k then f i else 0%Q) + qsum (map (fun j => if String.eqb (key j) k then f j else 0%Q) l)) ks))%Q; [|reflexivity].
    rewrite (qsum_map_add (fun k => if String.eqb (key i) k then f i else 0%Q) (fun k => qsum (map (fun j => if String.eqb (key j) k then f j else 0%Q) l))).
    apply Qplus_comp; [|reflexivity]. pose proof (sum_indicator (key i) (f i) ks N) as X. unfold total in X. rewrite X.
    destruct (mem (key i) ks) eqn:E; [reflexivity|]. apply H; [simpl; auto|]. rewrite <- mem_In, E. discriminate.
Qed.

Section Sums.
  Variables (s : study) (r : result).
  Hypotheses (Api : api_study s) (M : mirrors s r) (Co : complete s).

  Lemma items_nodes i : In i (items s r) -> has_node s (fst (fst i)) (snd (fst i)).
  Proof.
    pose proof (api_facts s Api) as (W & _). unfold items, items_of. rewrite !in_app_iff, !in_map_iff.
    assert (X : forall {E F} (gets : node -> list E) (getr : onode -> list F) x, In x (elements gets getr s r) -> has_node s (fst (fst (fst x))) (snd (fst (fst x)))).
    { intros E F gets getr [[[k d] e] o] I. apply (is_element_In gets getr s r W M) in I as (nn & rn & j & N & _). cbn [fst snd]. unfold has_node. congruence. }
    intros [(x & <- & I)|[(x & <- & I)|[(x & <- & I)|[(x & <- & I)|I]]]]; cbn [fst snd]; try exact (X _ _ _ _ x I).
    unfold conv_items in I. apply in_map_iff in I as (x & <- & I). cbn [fst snd]. destruct (convs_facts s r Api M) as [CF _]. rewrite Forall_forall in CF.
    destruct (CF _ I) as [V _ _ _]. destruct (wf_dest _ _ _ (wf_conv _ W _ _ V)) as [(_ & _ & Z & _)|Z]; auto. destruct (Co _ _ V). congruence.
  Qed.

  Lemma node_in_net k d : has_node s k d -> exists ns, dget k (st_networks s) = Some ns /\ In d (dkeys ns).
  Proof.
    unfold has_node, node_at. destruct (dget k (st_networks s)) as [ns|]; [|congruence]. intros H. exists ns. split; auto.
    destruct (dget d ns) eqn:D; [|congruence]. eapply dget_In_keys; eauto.
  Qed.

  Lemma cost_node net nd scn t : (cost_of (Some nd) (Some net) (items s r) scn t == node_total s r net nd scn t)%Q.
  Proof.
    unfold items. rewrite !cost_of_app. unfold node_total, node_cost.
    assert (X : forall {E F} (gets : node -> list E) (getr : onode -> list F) val (g : E -> F -> Q), (forall x, (val x scn t == g (snd (fst x)) (snd x))%Q) ->
       (cost_of (Some nd) (Some net) (items_of val (elements gets getr s r)) scn t ==
        match node_at s net nd, rnode_at r net nd with Some nn, Some rn => total (fun eo => g (fst eo) (snd eo)) (combine (gets nn) (getr rn)) | _, _ => 0 end)%Q).
    { intros E F gets getr val g V. unfold cost_of, items_of. rewrite map_map. rewrite <- (sum_node s r Api M gets getr net nd g). apply qsum_map_ext.
      intros x _. cbn [fst snd]. unfold inside. rewrite andb_comm. destruct (String.eqb _ nd && String.eqb _ net); [apply V | reflexivity]. }
    unfold cons_of, prods_of, stors_of, links_of.
    rewrite (X _ _ n_cons on_cons cons_value (fun c o => value (c_cost c) scn t * (value (c_qty c) scn t - entry (oc_qty o) scn t))%Q) by (intros; unfold cons_value; ring).
    rewrite (X _ _ n_prods on_prods prod_value (fun c o => value (p_cost c) scn t * entry (op_qty o) scn t)%Q) by (intros; unfold prod_value; ring).
    rewrite (X _ _ n_stors on_stors stor_value (fun c o => value (s_cost c) scn t * entry (os_capacity o) scn t)%Q) by (intros; unfold stor_value; ring).
    rewrite (X _ _ n_links on_links link_value (fun c o => value (l_cost c) scn t * entry (ol_qty o) scn t)%Q) by (intros; unfold link_value; ring).
    assert (D : (cost_of (Some nd) (Some net) (conv_items (convs_of s r)) scn t == delivery_cost s r net nd scn t)%Q).
    { unfold cost_of, conv_items. rewrite map_map. unfold delivery_cost, total. destruct (convs_facts s r Api M) as [CF _]. revert CF. unfold convs_of. rewrite map_map.
      intros CF. apply qsum_map_ext. intros vv I. rewrite Forall_map, Forall_forall in CF. destruct (CF vv I) as [V _ _ _]. cbn [fst snd] in *. unfold goes_to. rewrite V.
      unfold inside. cbn [fst snd]. destruct (String.eqb _ net && String.eqb _ nd); [unfold conv_value; cbn [fst snd]; ring | reflexivity]. }
    rewrite D. destruct (node_at s net nd); [|lra]. destruct (rnode_at r net nd); [|lra]. lra.
  Qed.

  Lemma cost_network net scn t : In net (dkeys (st_networks s)) -> (cost_of None (Some net) (items s r) scn t == network_total s r net scn t)%Q.
  Proof.
    pose proof (api_facts s Api) as (W & _). intros I. apply In_keys_dget in I as (ns & D). unfold network_total. rewrite D. unfold cost_of.
    rewrite (split_sum (fun i : item => snd (fst i)) (dkeys ns)).
    - unfold total. apply qsum_map_ext. intros nd J. rewrite <- cost_node. unfold cost_of. apply qsum_map_ext. intros i _. unfold inside.
      destruct (String.eqb (snd (fst i)) nd), (String.eqb (fst (fst i)) net); reflexivity.
    - eapply wf_nodes; eauto.
    - intros i J NI. unfold inside. destruct (String.eqb_spec (fst (fst i)) net) as [E|]; [|reflexivity]. exfalso. apply NI.
      destruct (node_in_net _ _ (items_nodes i J)) as (ns' & D' & H). rewrite E, D in D'. now injection D' as <-.
  Qed.

  Lemma cost_study scn t : (cost_of None None (items s r) scn t == total (fun net => network_total s r net scn t) (dkeys (st_networks s)))%Q.
  Proof.
    pose proof (api_facts s Api) as (W & _). unfold cost_of. rewrite (split_sum (fun i : item => fst (fst i)) (dkeys (st_networks s))).
    - unfold total. apply qsum_map_ext. intros k J. rewrite <- cost_network by auto. unfold cost_of. apply qsum_map_ext. intros i _. unfold inside.
      destruct (String.eqb (fst (fst i)) k); reflexivity.
    - apply W.
    - intros i J NI. exfalso. apply NI. destruct (node_in_net _ _ (items_nodes i J)) as (ns' & D' & _). eapply dget_In_keys; eauto.
  Qed.

  Lemma cost_step scn t : (cost_of None None (items s r) scn t == step_cost s r scn t)%Q.
  Proof.
    unfold items. rewrite !cost_of_app. unfold step_cost.
    assert (X : forall {E F} (gets : node -> list E) (getr : onode -> list F) val (g : E -> F -> Q), (forall x, (val x scn t == g (snd (fst x)) (snd x))%Q) ->
       (cost_of None None (items_of val (elements gets getr s r)) scn t ==
        total (fun kk => total (fun dd => total (fun eo => g (fst eo) (snd eo)) (combine (gets (snd (fst dd))) (getr (snd (snd dd))))) (combine (snd (fst kk)) (snd (snd kk)))) (combine (st_networks s) (r_networks r)))%Q).
    { intros E F gets getr val g V. unfold cost_of, items_of. rewrite map_map. rewrite <- (sum_elements gets getr s r (fun _ _ e o => g e o)). apply qsum_map_ext.
      intros x _. apply V. }
    unfold cons_of, prods_of, stors_of, links_of.
    rewrite (X _ _ n_cons on_cons cons_value (fun c o => value (c_cost c) scn t * (value (c_qty c) scn t - entry (oc_qty o) scn t))%Q) by (intros; unfold cons_value; ring).
    rewrite (X _ _ n_prods on_prods prod_value (fun c o => value (p_cost c) scn t * entry (op_qty o) scn t)%Q) by (intros; unfold prod_value; ring).
    rewrite (X _ _ n_stors on_stors stor_value (fun c o => value (s_cost c) scn t * entry (os_capacity o) scn t)%Q) by (intros; unfold stor_value; ring).
    rewrite (X _ _ n_links on_links link_value (fun c o => value (l_cost c) scn t * entry (ol_qty o) scn t)%Q) by (intros; unfold link_value; ring).
    assert (D : (cost_of None None (conv_items (convs_of s r)) scn t ==
       total (fun vv => ovalue (v_cost (snd (fst vv))) scn t * entry (ov_dest (snd (snd vv))) scn t) (combine (st_converters s) (r_converters r)))%Q).
    { unfold cost_of, conv_items, convs_of. rewrite !map_map. unfold total. apply qsum_map_ext. intros vv _. unfold conv_value. cbn [fst snd]. unfold inside. cbn [andb]. ring. }
    rewrite D. rewrite !Qplus_assoc. apply Qplus_comp; [|reflexivity]. unfold total, node_cost.
    rewrite <- !qsum_map_add. apply qsum_map_ext. intros kk _. rewrite <- !qsum_map_add. apply qsum_map_ext. intros dd _. unfold total. reflexivity.
  Qed.
End Sums.

(** ** C41 *)

(** Partial: at most one storage in the study. Nodes, networks, the whole study. Converters
    without source are allowed as long as the analyzer exists (well_read: see C67). *)
Theorem C41_costs_partial bcast junk s r an : api_study s -> mirrors s r -> new_analyzer bcast junk s r = Ok an ->
  storage_count s <= 1 -> well_read bcast s ->
  (forall net nd, has_node s net nd -> exists c, get_cost an (Some nd) (Some net) = Ok c /\ has_dims s c /\
     forall scn t, scn < st_nb_scn s -> t < st_horizon s -> (entry c scn t == node_total s r net nd scn t)%Q) /\
  (forall nd, nd <> "" -> has_node s "default" nd -> get_cost an (Some nd) None = get_cost an (Some nd) (Some "default")) /\
  (forall net, net <> "" -> In net (dkeys (st_networks s)) -> exists c, get_cost an None (Some net) = Ok c /\ has_dims s c /\
     forall scn t, scn < st_nb_scn s -> t < st_horizon s -> (entry c scn t == network_total s r net scn t)%Q) /\
  (~ In "" (dkeys (st_networks s)) -> exists c, get_cost an None None = Ok c /\ has_dims s c /\
     forall scn t, scn < st_nb_scn s -> t < st_horizon s ->
       (entry c scn t == total (fun net => network_total s r net scn t) (dkeys (st_networks s)))%Q /\ (entry c scn t == step_cost s r scn t)%Q).
Proof.
  intros A M N One Wr. destruct (well_read_analysable bcast junk s r an A M Wr N) as (Co & _ & Enough).
  assert (C : forall nd net, askable s nd net -> exists g, get_cost an nd net = Ok (garr (st_nb_scn s) (st_horizon s) g) /\
    forall scn t, scn < st_nb_scn s -> t < st_horizon s -> (g scn t == cost_of nd net (items s r) scn t)%Q) by (intros; apply (cost_inside s r bcast junk an A M N Co Enough); auto).
  split; [|split; [|split]].
  - intros net nd H. destruct (C _ _ (ask_node s net nd H)) as (g & E & G). eexists. split; [exact E|]. split; [apply garr_dims|].
    intros scn t L1 L2. rewrite entry_garr, G by auto. now apply cost_node.
  - intros nd NE H. unfold get_cost. cbn [elements_inside name_true]. now rewrite (proj2 (String.eqb_neq nd "") NE).
  - intros net NE H. destruct (C _ _ (ask_network s net NE H)) as (g & E & G). eexists. split; [exact E|]. split; [apply garr_dims|].
    intros scn t L1 L2. rewrite entry_garr, G by auto. now apply cost_network.
  - intros NE. destruct (C _ _ (ask_study s NE)) as (g & E & G). eexists. split; [exact E|]. split; [apply garr_dims|].
    intros scn t L1 L2. rewrite entry_garr, G by auto. split; [now apply cost_study | now apply cost_step].
Qed.

(** The costs of all nodes over the horizon are the objective of the linear program at the
    answer of the solver. *)
Theorem C41_objective_partial bcast junk answer s r an scn costs : api_study s -> solved answer s r -> new_analyzer bcast junk s r = Ok an ->
  storage_count s <= 1 -> well_read bcast s -> scn < st_nb_scn s ->
  (forall net nd, has_node s net nd -> get_cost an (Some nd) (Some net) = Ok (costs net nd)) ->
  (total (fun kn => total (fun nd => total (fun t => entry (costs (fst kn) nd) scn t) (seq 0 (st_horizon s))) (dkeys (snd kn))) (st_networks s) ==
   objective (program_of s scn) (answer scn (program_of s scn)))%Q.
Proof.
  intros A SV N One Wr L H. destruct (solved_weak _ _ _ A SV) as (R & M & C). destruct (C scn L) as ((vs & B) & CA & _).
  pose proof (api_facts s A) as (W & _ & Ph & Pn). pose proof (solved_usable s answer r W Ph Pn SV) as U. pose proof (complete_usable s U) as Co.
  assert (OB : (objective (program_of s scn) (answer scn (program_of s scn)) == total_cost s r scn)%Q).
  { rewrite (objective_value s scn L R _ vs _ B), (cost_eq s r R M scn _ CA). reflexivity. }
  rewrite OB.
  destruct (C41_costs_partial bcast junk s r an A M N One Wr) as (CN & _).
  assert (E : forall k ns nd t, In (k, ns) (st_networks s) -> In nd (dkeys ns) -> t < st_horizon s -> (entry (costs k nd) scn t == node_total s r k nd scn t)%Q).
  { intros k ns nd t I J T. assert (D : dget k (st_networks s) = Some ns) by (apply In_dget; auto; apply W).
    assert (HN : has_node s k nd). { unfold has_node, node_at. rewrite D. apply In_keys_dget in J as (nn & ->). discriminate. }
    destruct (CN k nd HN) as (c & Ec & _ & V). rewrite (H k nd HN) in Ec. injection Ec as ->. auto. }
  transitivity (total (fun kn => total (fun nd => total (fun t => node_total s r (fst kn) nd scn t) (seq 0 (st_horizon s))) (dkeys (snd kn))) (st_networks s)).
  { unfold total. apply qsum_map_ext. intros [k ns] I. apply qsum_map_ext. intros nd J. apply qsum_map_ext. intros t T. apply in_seq in T. apply (E k ns); auto. lia. }
  assert (SW : forall {X Y} (f : X -> Y -> Q) l m, (total (fun x => total (fun y => f x y) m) l == total (fun y => total (fun x => f x y) l) m)%Q).
  { clear. intros X Y f l m. unfold total. induction l as [|x l IH]; cbn [map qsum fold_right].
    - symmetry. apply qsum_zero_all. reflexivity.
    - fold (qsum (map (fun x => qsum (map (fun y => f x y) m)) l)). rewrite IH. rewrite <- (qsum_map_add (fun y => f x y) (fun y => qsum (map (fun x => f x y) l))). reflexivity. }
  transitivity (total (fun kn => total (fun t => total (fun nd => node_total s r (fst kn) nd scn t) (dkeys (snd kn))) (seq 0 (st_horizon s))) (st_networks s)).
  { unfold total at 1 4. apply qsum_map_ext. intros [k ns] I. apply SW. }
  rewrite SW. unfold total_cost. unfold total at 1 4. apply qsum_map_ext. intros t T.
  rewrite <- (cost_step s r scn t), (cost_study s r A M Co scn t). unfold total at 1 3. unfold dkeys. rewrite map_map. apply qsum_map_ext.
  intros [k ns] I. unfold network_total. cbn [fst snd]. assert (D : dget k (st_networks s) = Some ns) by (apply In_dget; auto; apply W). now rewrite D.
Qed.

(** ** Examples and counterexamples *)
Example C41_example : api_study mix /\ solved mix_answer mix mix_result /\ new_analyzer true no_junk mix mix_result = Ok mix_an /\
  storage_count mix = 1 /\ well_read true mix /\
  (exists c, get_cost mix_an (Some "a") (Some "elec") = Ok c /\ (entry c 0 1 == 3036)%Q) /\
  (node_total mix mix_result "elec" "b" 0 1 == 40)%Q /\ (node_total mix mix_result "gas" "g" 0 1 == 180)%Q /\
  (objective (program_of mix 0) (mix_answer 0%nat (program_of mix 0)) == 3296)%Q.
Proof.
  split; [apply mix_api|]. split; [apply mix_solved|]. split; [apply mix_an_new|]. split; [reflexivity|]. split.
  - left. right. vm_compute. lia.
  - split; [eexists; split; vm_compute; reflexivity | repeat split; vm_compute; reflexivity].
Qed.

(** Two storages: the second overwrites the first, whose cost is lost. *)
Definition pair_calls : list call :=
  [ OnStudy_network "net"; OnSel 0 (MNode "a"); 
    OnSel 1 (MStorage "first" (jn 10) (jn 10) (jn 10) (jn 2) 5%Q (jn 1));
    OnSel 2 (MStorage "second" (jn 10) (jn 10) (jn 10) (jn 3) 5%Q (jn 1)) ].
Definition pair_study : study := Eval vm_compute in w_study (run (start 1 1 None) pair_calls).
Definition pair_answer (_ : nat) (_ : solver) (v : var) : Q := match v with VCap _ _ _ _ => 5 | _ => 0 end%Q.
Definition pair_result : result := Eval vm_compute in
  match solve_lp pair_answer [0] no_bench pair_study with Ok r => r | Err _ => Result [] [] no_bench end.
Lemma pair_api : api_study pair_study.
Proof. exists 1, 1, None, pair_calls. split; [lia|]. split; [lia|]. split; [plain_tac | vm_compute; reflexivity]. Qed.
Theorem C41_costs_refuted : forall bcast, exists s answer r an c, api_study s /\ solved answer s r /\ feasible_answer answer s 0 /\
  new_analyzer bcast no_junk s r = Ok an /\ get_cost an (Some "a") (Some "net") = Ok c /\
  (entry c 0 0 == 15)%Q /\ (node_total s r "net" "a" 0 0 == 25)%Q /\ (objective (program_of s 0) (answer 0%nat (program_of s 0)) == 25)%Q.
Proof.
  intros bcast. exists pair_study, pair_answer, pair_result.
  exists (match new_analyzer true no_junk pair_study pair_result with Ok an => an | Err _ => mix_an end), (ND [1; 1] [15%Q]).
  split; [apply pair_api|]. split; [exists [0], no_bench; split; [reflexivity | vm_compute; reflexivity]|].
  split; [apply satb_ok; vm_compute; reflexivity|]. split; [destruct bcast; vm_compute; reflexivity|].
  split; [vm_compute; reflexivity|]. repeat split; vm_compute; reflexivity.
Qed.

Print Assumptions C41_costs_partial.
Print Assumptions C41_objective_partial.
Print Assumptions C41_costs_refuted.
