(** Property C41 in studies with several storages: what costs contain, and when they fail. *)
From Coq Require Import String List ZArith QArith Bool Arith Lia Lqa Permutation Sorted.
Import ListNotations.
From Verif Require Import Base BaseFacts Numeric Study Fluent Output LP SpecStudy SpecLP StudyFacts LPFacts LPSat LPResult LPReady LPWeak LPMore P_LP
  Analyzer SpecAnalyzer AnalyzerFacts P_Tables P_Exact QueryFacts P_Query P_Reuse SumFacts SpecTotals P_Totals P_Cost Viewer ViewFacts SpecViewer P_Viewer.
Open Scope nat_scope.
Open Scope string_scope.
Open Scope list_scope.

Lemma cost_ixs nd net el ixs : indexes_of (cost_q nd (Some net) el) = Ok ixs -> exists i2 i5, new_index ANode (arg nd) = Ok i2 /\ new_index el INone = Ok i5 /\
  ixs = [Index ANetwork false [CStr net]; i2; Index AScn true []; Index ATime true []; i5].
Proof.
  unfold indexes_of, cost_q. cbn [mapM fst snd arg]. destruct (new_index ANode (arg nd)) as [i2|]; [|discriminate].
  cbn. intros H. injection H as <-. do 2 eexists. split; [reflexivity|]. split; reflexivity.
Qed.

(** Rows of another network do not matter. *)
Lemma pivot_elsewhere nd net el ixs cols rows surplus : indexes_of (cost_q nd (Some net) el) = Ok ixs -> (forall x, In x surplus -> cell_of "network" x <> CStr net) ->
  pivot ixs (Table cols (rows ++ surplus)) = pivot ixs (Table cols rows).
Proof.
  intros Ix J. unfold pivot. cbn [tb_cols tb_rows]. rewrite filter_app.
  replace (filter (fun r => forallb (fun i => ix_keeps i r) ixs) surplus) with (@nil trow); [now rewrite app_nil_r|].
  destruct (cost_ixs nd net el ixs Ix) as (i2 & i5 & _ & _ & ->).
  symmetry. apply filter_none. intros x I. apply (forallb_false _ _ (Index ANetwork false [CStr net])); [now left|].
  unfold ix_keeps. cbn [ix_all ix_index]. destruct (mem _ _) eqn:E; auto. apply mem_In in E as [E|[]]. exfalso. apply (J x I). cbn in E. congruence.
Qed.

Section Stores.
  Variables (s : study) (r : result) (bcast : bool) (junk : nat -> string -> nat -> cell) (an : analyzer).
  Hypotheses (Api : api_study s) (M : mirrors s r) (Un : unwritten junk s) (New : new_analyzer bcast junk s r = Ok an).
  Local Notation h := (st_horizon s).
  Local Notation n := (st_nb_scn s).
  Let Sh := shelf_stor s r bcast junk an Api M New.

  Lemma stor_table : an_stor an = Table stor_cols (blocks n h (erow stor_row) (kept (stors_of s r)) ++ stor_surplus s r junk).
  Proof. pose proof (sh_table _ _ _ _ _ _ _ _ _ _ _ Sh) as T. cbn [table_of] in T. now injection T. Qed.

  (** The last storage is inside what is asked: it is counted. *)
  Lemma stor_step_kept nd net count g : In net (dkeys (st_networks s)) -> count <> 0 ->
    (exists x, In x (kept (stors_of s r)) /\ inside nd (Some net) (fst (fst (fst x))) (snd (fst (fst x))) = true) ->
    exists g', add_cost an nd (Some net) count AStor (times "capacity" "cost") (garr n h g) = Ok (garr n h g') /\
    forall scn t, scn < n -> t < h -> (g' scn t == g scn t + cost_of nd (Some net) (items_of stor_value (kept (stors_of s r))) scn t)%Q.
  Proof.
    intros In_ NZ Ex. destruct (analyzer_tables s r bcast junk an Api M New) as (Es & _).
    destruct (add_cost_blocks an s nd (Some net) AStor (Table stor_cols (blocks n h (erow stor_row) (kept (stors_of s r)))) (an_stor an) (erow stor_row) (kept (stors_of s r)) (fun x => fst (fst x))
      (times "capacity" "cost") stor_value count Es) with (g := g) as (g' & E & G); auto; try reflexivity.
    - vm_compute; tauto.
    - apply (sh_keyed _ _ _ _ _ _ _ _ _ _ _ Sh). destruct Ex as (x & I & _). intros Z. rewrite Z in I. destruct I.
    - intros ixs Ix. rewrite stor_table. apply (pivot_elsewhere nd net AStor ixs _ _ _ Ix). intros rw I. now apply (surplus_strange s r M junk net "" "" Un In_ rw I).
    - intros l rw H. cbn [tb_cols] in H. apply (agree_times _ _ _ _ _ _ H); first [intros X; simpl in X; repeat (destruct X as [X|X]; [discriminate X|]); destruct X | unfold stor_cols; simpl; tauto].
    - split; auto.
    - exists g'. split; auto. intros scn t L1 L2. rewrite G by auto. apply Qplus_comp; [reflexivity|]. unfold cost_of, items_of. rewrite map_map. reflexivity.
  Qed.

  (** Otherwise no row is found, and the empty sum does not have the shape of the costs. *)
  Lemma stor_step_lost nd net count g : In net (dkeys (st_networks s)) -> count <> 0 ->
    (forall x, In x (kept (stors_of s r)) -> inside nd (Some net) (fst (fst (fst x))) (snd (fst (fst x))) = false) ->
    add_cost an nd (Some net) count AStor (times "capacity" "cost") (garr n h g) = Err ValueError.
  Proof.
    intros In_ NZ No. destruct (analyzer_tables s r bcast junk an Api M New) as (Es & _). destruct (dims_pos s Api) as (Pn & Ph).
    unfold add_cost. rewrite (proj2 (Nat.eqb_neq count 0) NZ).
    assert (K : is_kind AStor) by (vm_compute; tauto).
    destruct (cost_query_eq an nd (Some net) AStor K) as (ixs & Ix & ->).
    destruct (indexes_ok (cost_q nd (Some net) AStor) (cost_q_accepted nd (Some net) AStor)) as (ixs' & E & O). rewrite Ix in E. injection E as <-.
    rewrite (filter_table an AStor (an_stor an) (cost_q nd (Some net) AStor) ixs eq_refl (cost_q_whole nd (Some net) AStor) O).
    rewrite stor_table, (pivot_elsewhere nd net AStor ixs _ _ _ Ix) by (intros rw I; now apply (surplus_strange s r M junk net "" "" Un In_ rw I)).
    destruct (cost_ixs nd net AStor ixs Ix) as (i2 & i5 & N2 & N5 & ->).
    assert (P : pivot [Index ANetwork false [CStr net]; i2; Index AScn true []; Index ATime true []; i5] (Table stor_cols (blocks n h (erow stor_row) (kept (stors_of s r)))) =
      Ok (Frame ["network"; "node"; "scn"; "t"; "name"] [])).
    { unfold pivot. cbn [tb_cols tb_rows]. replace (filter _ (blocks _ _ _ _)) with (@nil trow).
      2:{ symmetry. apply filter_none. intros rw I. apply blocks_In in I as (y & scn & t & Iy & _ & _ & ->). specialize (No y Iy). unfold inside in No. apply andb_false_iff in No as [No|No].
          - apply (forallb_false _ _ (Index ANetwork false [CStr net])); [now left|]. unfold ix_keeps. cbn [ix_all ix_index]. destruct (mem _ _) eqn:Em; auto. apply mem_In in Em as [Em|[]]. cbn in Em. injection Em as Em. rewrite Em, String.eqb_refl in No. discriminate.
          - destruct nd as [d|]; [|discriminate]. cbn in N2. injection N2 as <-. apply (forallb_false _ _ (Index ANode false [CStr d])); [right; now left|]. unfold ix_keeps. cbn [ix_all ix_index]. destruct (mem _ _) eqn:Em; auto. apply mem_In in Em as [Em|[]]. cbn in Em. injection Em as Em. rewrite Em, String.eqb_refl in No. discriminate. }
      cbn in N5. injection N5 as <-. destruct nd as [d|]; cbn in N2; injection N2 as <-; reflexivity. }
    rewrite P. cbn [rbind]. unfold level_sums. cbn. rewrite Es. unfold reshape2. cbn [List.length]. destruct (Nat.eqb_spec 0 (n * h)) as [Z|_]; [nia|reflexivity].
  Qed.
End Stores.

Section Exact.
  Variables (s : study) (r : result) (bcast : bool) (junk : nat -> string -> nat -> cell) (an : analyzer).
  Hypotheses (Api : api_study s) (M : mirrors s r) (Un : unwritten junk s) (Wr : well_read bcast s) (New : new_analyzer bcast junk s r = Ok an).
  Local Notation h := (st_horizon s).
  Local Notation n := (st_nb_scn s).
  Let W : study_wf s := proj1 (api_facts s Api).
  Let An := well_read_analysable bcast junk s r an Api M Wr New.
  Definition others (nd net : option string) (scn t : nat) : Q := (cost_of nd net (items s r) scn t - cost_of nd net (items_of stor_value (stors_of s r)) scn t)%Q.

  Lemma askable_net nd net : askable s nd (Some net) -> In net (dkeys (st_networks s)).
  Proof.
    intros Ask. inversion Ask as [k d H|k NE I|]; subst; auto. unfold has_node, node_at in H. destruct (dget net (st_networks s)) eqn:D; [|congruence]. eapply dget_In_keys; eauto.
  Qed.
  Lemma cost_none nd net : askable s nd (Some net) -> (forall x, In x (stors_of s r) -> inside nd (Some net) (fst (fst (fst x))) (snd (fst (fst x))) = false) ->
    exists g, get_cost an nd (Some net) = Ok (garr n h g) /\ forall scn t, scn < n -> t < h -> (g scn t == cost_of nd (Some net) (items s r) scn t)%Q.
  Proof.
    intros Ask No. destruct An as (Co & _ & Le). destruct (cost_split s r bcast junk an Api M New Co Le nd (Some net) Ask) as (e & g2 & C2 & -> & G2 & Rest).
    assert (Z : nth 2 e 0 = 0). { destruct (Nat.eq_dec (nth 2 e 0) 0) as [|NZ]; auto. destruct (proj1 C2 NZ) as (x & I & H). rewrite (No x I) in H. discriminate. }
    unfold add_cost at 1. rewrite Z. cbn [Nat.eqb rbind]. destruct (Rest g2) as (g & -> & G). exists g. split; auto. intros scn t L1 L2. rewrite G, G2 by auto.
    unfold items. rewrite !cost_of_app.
    assert (Z2 : (cost_of nd (Some net) (items_of stor_value (stors_of s r)) scn t == 0)%Q).
    { unfold cost_of, items_of. rewrite map_map. apply qsum_zero_all. intros x I. cbn [fst snd]. rewrite (No x I). reflexivity. }
    rewrite Z2. lra.
  Qed.
  Lemma cost_last nd net k d x o : askable s nd (Some net) -> is_element n_stors on_stors s r k d x o -> last_element n_stors s k d x -> inside nd (Some net) k d = true ->
    exists g, get_cost an nd (Some net) = Ok (garr n h g) /\ forall scn t, scn < n -> t < h -> (g scn t == others nd (Some net) scn t + storage_cost scn t x o)%Q.
  Proof.
    intros Ask El La Is. destruct An as (Co & _ & Le). destruct (cost_split s r bcast junk an Api M New Co Le nd (Some net) Ask) as (e & g2 & C2 & -> & G2 & Rest).
    pose proof (stor_last s r Api M k d x o El La) as Kx.
    assert (NZ : nth 2 e 0 <> 0). { apply C2. exists (k, d, x, o). split; auto. unfold stors_of. now apply (is_element_In n_stors on_stors s r W M). }
    destruct (stor_step_kept s r bcast junk an Api M Un New nd net (nth 2 e 0) g2 (askable_net nd net Ask) NZ) as (g3 & -> & G3).
    { exists (k, d, x, o). rewrite Kx. split; [now left | exact Is]. }
    cbn [rbind]. destruct (Rest g3) as (g & -> & G). exists g. split; auto. intros scn t L1 L2. rewrite G, G3, G2 by auto. unfold others, items. rewrite !cost_of_app.
    assert (Z : (cost_of nd (Some net) (items_of stor_value (kept (stors_of s r))) scn t == storage_cost scn t x o)%Q).
    { rewrite Kx. unfold cost_of, items_of, stor_value, storage_cost, qsum. cbn [map fst snd fold_right]. rewrite Is. ring. }
    rewrite Z. ring.
  Qed.
  Lemma cost_lost nd net k d nn : askable s nd (Some net) -> node_at s k d = Some nn -> n_stors nn <> [] -> inside nd (Some net) k d = true ->
    (forall k' d' x, last_element n_stors s k' d' x -> inside nd (Some net) k' d' = false) -> get_cost an nd (Some net) = Err ValueError.
  Proof.
    intros Ask Nn NE Is No. destruct An as (Co & _ & Le). destruct (cost_split s r bcast junk an Api M New Co Le nd (Some net) Ask) as (e & g2 & C2 & -> & G2 & Rest).
    assert (NZ : nth 2 e 0 <> 0).
    { apply C2. apply (elements_counted n_stors on_stors s r nd (Some net) Api M (like_stors s)). exists k, d, nn. split; auto. split; auto. destruct (n_stors nn); [congruence | simpl; lia]. }
    rewrite (stor_step_lost s r bcast junk an Api M Un New nd net (nth 2 e 0) g2 (askable_net nd net Ask) NZ); [reflexivity|].
    intros y Iy. destruct (stors_of s r) as [|[[[k' d'] x'] o'] els _] eqn:EL using rev_ind; [destruct Iy|]. rewrite kept_last in Iy. destruct Iy as [<-|[]]. cbn [fst snd].
    apply (No k' d' x'). exact (elements_last n_stors on_stors s r M (like_stors s) els k' d' x' o' EL).
  Qed.

  Lemma stored_node net nd scn t : (cost_of (Some nd) (Some net) (items_of stor_value (stors_of s r)) scn t == stored_cost s r net nd scn t)%Q.
  Proof.
    unfold cost_of, items_of. rewrite map_map. unfold stored_cost. rewrite <- (sum_node s r Api M n_stors on_stors net nd (storage_cost scn t)). apply qsum_map_ext.
    intros x _. cbn [fst snd]. unfold inside. rewrite andb_comm. destruct (String.eqb _ nd && String.eqb _ net); [unfold stor_value, storage_cost; ring | reflexivity].
  Qed.
  Lemma stored_network net scn t : In net (dkeys (st_networks s)) -> (cost_of None (Some net) (items_of stor_value (stors_of s r)) scn t == network_stored_cost s r net scn t)%Q.
  Proof.
    intros I. apply In_keys_dget in I as (ns & D). unfold network_stored_cost. rewrite D. unfold cost_of.
    rewrite (split_sum (fun i : item => snd (fst i)) (dkeys ns)).
    - unfold total. apply qsum_map_ext. intros nd J. rewrite <- stored_node. unfold cost_of. apply qsum_map_ext. intros i _. unfold inside.
      destruct (String.eqb (snd (fst i)) nd), (String.eqb (fst (fst i)) net); reflexivity.
    - eapply wf_nodes; eauto.
    - intros i J NI. unfold inside. destruct (String.eqb_spec (fst (fst i)) net) as [E|]; [|reflexivity]. exfalso. apply NI.
      assert (J' : In i (items s r)) by (unfold items; rewrite !in_app_iff; auto). destruct An as (Co & _).
      destruct (node_in_net s _ _ (items_nodes s r Api M Co i J')) as (ns' & D' & H). rewrite E, D in D'. now injection D' as <-.
  Qed.
End Exact.

(** Exactly, in a study with any number of storages: of the storages in a node, or in a
    network, only the last one of the study is counted; if there are some but not that one,
    there is no answer. *)
Theorem C41_costs_exact bcast junk s r an : api_study s -> mirrors s r -> unwritten junk s -> well_read bcast s -> new_analyzer bcast junk s r = Ok an ->
  (forall net nd nn, node_at s net nd = Some nn ->
     (n_stors nn = [] -> exists c, get_cost an (Some nd) (Some net) = Ok c /\ has_dims s c /\
        forall scn t, scn < st_nb_scn s -> t < st_horizon s -> (entry c scn t == node_total s r net nd scn t)%Q) /\
     (forall x o, is_element n_stors on_stors s r net nd x o -> last_element n_stors s net nd x ->
        exists c, get_cost an (Some nd) (Some net) = Ok c /\ has_dims s c /\ forall scn t, scn < st_nb_scn s -> t < st_horizon s ->
          (entry c scn t == node_total s r net nd scn t - stored_cost s r net nd scn t + storage_cost scn t x o)%Q) /\
     (n_stors nn <> [] -> (forall x, ~ last_element n_stors s net nd x) -> get_cost an (Some nd) (Some net) = Err ValueError)) /\
  (forall net, net <> "" -> In net (dkeys (st_networks s)) ->
     ((forall nd nn, node_at s net nd = Some nn -> n_stors nn = []) -> exists c, get_cost an None (Some net) = Ok c /\ has_dims s c /\
        forall scn t, scn < st_nb_scn s -> t < st_horizon s -> (entry c scn t == network_total s r net scn t)%Q) /\
     (forall nd x o, is_element n_stors on_stors s r net nd x o -> last_element n_stors s net nd x ->
        exists c, get_cost an None (Some net) = Ok c /\ has_dims s c /\ forall scn t, scn < st_nb_scn s -> t < st_horizon s ->
          (entry c scn t == network_total s r net scn t - network_stored_cost s r net scn t + storage_cost scn t x o)%Q) /\
     ((exists nd nn, node_at s net nd = Some nn /\ n_stors nn <> []) -> (forall nd x, ~ last_element n_stors s net nd x) -> get_cost an None (Some net) = Err ValueError)).
Proof.
  intros A M Un Wr N. pose proof (proj1 (api_facts s A)) as W. destruct (well_read_analysable bcast junk s r an A M Wr N) as (Co & _).
  assert (Else : forall net nd nn y, node_at s net nd = Some nn -> n_stors nn = [] -> In y (stors_of s r) -> ~ (fst (fst (fst y)) = net /\ snd (fst (fst y)) = nd)).
  { intros net nd nn [[[k d] x] o] Nn Em I [<- <-]. cbn [fst snd] in *. unfold stors_of in I. apply (is_element_In n_stors on_stors s r W M) in I as (n' & rn & i & N1 & _ & X & _).
    rewrite Nn in N1. injection N1 as <-. rewrite Em in X. destruct i; discriminate. }
  split.
  - intros net nd nn Nn. assert (HN : has_node s net nd) by (unfold has_node; congruence). pose proof (ask_node s net nd HN) as Ask. split; [|split].
    + intros Em. destruct (cost_none s r bcast junk an A M Wr N (Some nd) net Ask) as (g & E & G).
      { intros y Iy. unfold inside. destruct (String.eqb_spec (fst (fst (fst y))) net); auto. destruct (String.eqb_spec (snd (fst (fst y))) nd); auto. exfalso. exact (Else net nd nn y Nn Em Iy (conj e e0)). }
      eexists. split; [exact E|]. split; [apply garr_dims|]. intros scn t L1 L2. rewrite entry_garr, G by auto. now apply cost_node.
    + intros x o El La. destruct (cost_last s r bcast junk an A M Un Wr N (Some nd) net net nd x o Ask El La) as (g & E & G).
      { unfold inside. now rewrite !String.eqb_refl. }
      eexists. split; [exact E|]. split; [apply garr_dims|]. intros scn t L1 L2. rewrite entry_garr, G by auto. unfold others. rewrite (cost_node s r A M), (stored_node s r A M). reflexivity.
    + intros NE No. apply (cost_lost s r bcast junk an A M Un Wr N (Some nd) net net nd nn Ask Nn NE).
      * unfold inside. now rewrite !String.eqb_refl.
      * intros k d x La. unfold inside. destruct (String.eqb_spec k net) as [->|]; auto. destruct (String.eqb_spec d nd) as [->|]; auto. destruct (No x La).
  - intros net NE I. pose proof (ask_network s net NE I) as Ask. split; [|split].
    + intros Em. destruct (cost_none s r bcast junk an A M Wr N None net Ask) as (g & E & G).
      { intros y Iy. unfold inside. rewrite andb_true_r. destruct (String.eqb_spec (fst (fst (fst y))) net) as [E|]; auto. exfalso.
        destruct y as [[[k d] x] o]. cbn [fst] in E. subst k. pose proof Iy as J. unfold stors_of in J. apply (is_element_In n_stors on_stors s r W M) in J as (nn & rn & i & N1 & _).
        exact (Else net d nn _ N1 (Em d nn N1) Iy (conj eq_refl eq_refl)). }
      eexists. split; [exact E|]. split; [apply garr_dims|]. intros scn t L1 L2. rewrite entry_garr, G by auto. now apply cost_network.
    + intros nd x o El La. destruct (cost_last s r bcast junk an A M Un Wr N None net net nd x o Ask El La) as (g & E & G).
      { unfold inside. now rewrite !String.eqb_refl. }
      eexists. split; [exact E|]. split; [apply garr_dims|]. intros scn t L1 L2. rewrite entry_garr, G by auto. unfold others. rewrite (cost_network s r A M Co net) by auto.
      rewrite (stored_network s r bcast junk an A M Wr N net) by auto. reflexivity.
    + intros (nd & nn & Nn & Ne) No. apply (cost_lost s r bcast junk an A M Un Wr N None net net nd nn Ask Nn Ne).
      * unfold inside. now rewrite !String.eqb_refl.
      * intros k d x La. unfold inside. destruct (String.eqb_spec k net) as [->|]; auto. destruct (No d x La).
Qed.
Print Assumptions C41_costs_exact.

(** Two storages in different nodes: no answer for the node of the first, the cost of the
    second only for the network. *)
Example C41_costs_exact_example : api_study band /\ mirrors band band_result /\ unwritten no_junk band /\ well_read true band /\ new_analyzer true no_junk band band_result = Ok band_an /\
  (exists x o, is_element n_stors on_stors band band_result "elec" "b" x o /\ last_element n_stors band "elec" "b" x /\ (storage_cost 1 1 x o == 3)%Q) /\
  (exists nn, node_at band "elec" "a" = Some nn /\ n_stors nn <> [] /\ forall x, ~ last_element n_stors band "elec" "a" x) /\
  get_cost band_an (Some "a") (Some "elec") = Err ValueError /\
  (exists c, get_cost band_an (Some "b") (Some "elec") = Ok c /\ (entry c 1 1 == 11)%Q) /\ (node_total band band_result "elec" "b" 1 1 == 11)%Q /\
  (exists c, get_cost band_an None (Some "elec") = Ok c /\ (entry c 1 1 == 11)%Q) /\ (network_total band band_result "elec" 1 1 == 13)%Q /\ (network_stored_cost band band_result "elec" 1 1 == 5)%Q.
Proof.
  split; [apply band_api|]. split; [apply band_mirrors|]. split; [apply band_unwritten|]. split; [left; apply band_refuses|]. split; [apply band_an_new|].
  destruct band_last as (x & o & El & Nm & _ & La & _). split.
  { exists x, o. split; auto. split; auto. destruct El as (nn & rn & i & N1 & N2 & X & Y). vm_compute in N1. injection N1 as <-. vm_compute in N2. injection N2 as <-.
    destruct i as [|[|i]]; try discriminate. vm_compute in X, Y. injection X as <-. injection Y as <-. vm_compute. reflexivity. }
  split. { eexists. split; [reflexivity|]. split; [discriminate|]. intros y La'. destruct (last_element_unique n_stors band _ _ _ _ _ _ La La') as (_ & H & _). discriminate. }
  split; [vm_compute; reflexivity|]. split; [eexists; split; vm_compute; reflexivity|]. split; [vm_compute; reflexivity|].
  split; [eexists; split; vm_compute; reflexivity|]. split; vm_compute; reflexivity.
Qed.
