(** Properties C40, C42 and C43: balances, remaining capacities and counts. *)
From Coq Require Import String List ZArith QArith Bool Arith Lia Lqa Permutation Sorted.
From Verif Require Import Base BaseFacts Numeric Study Fluent Output LP SpecStudy SpecLP StudyFacts LPFacts LPSat LPResult LPReady LPMore P_LP
  Analyzer SpecAnalyzer AnalyzerFacts P_Tables QueryFacts P_Query P_Reuse SumFacts SpecTotals.
Import ListNotations.
Open Scope nat_scope.
Open Scope string_scope.
Open Scope list_scope.

(** ** Sums over elements *)
Lemma sum_elements {E F} (gets : node -> list E) (getr : onode -> list F) s r (g : string -> string -> E -> F -> Q) :
  (qsum (map (fun x => g (fst (fst (fst x))) (snd (fst (fst x))) (snd (fst x)) (snd x)) (elements gets getr s r)) ==
   total (fun kk => total (fun dd => total (fun eo => g (fst (fst kk)) (fst (fst dd)) (fst eo) (snd eo))
     (combine (gets (snd (fst dd))) (getr (snd (snd dd))))) (combine (snd (fst kk)) (snd (snd kk)))) (combine (st_networks s) (r_networks r)))%Q.
Proof.
  unfold elements, total. rewrite qsum_map_flat_map. apply qsum_map_ext. intros kk _. rewrite qsum_map_flat_map. apply qsum_map_ext. intros dd _.
  rewrite map_map. reflexivity.
Qed.

Lemma qsum_zero_all {A} (f : A -> Q) l : (forall x, In x l -> (f x == 0)%Q) -> (qsum (map f l) == 0)%Q.
Proof. apply qsum_map_zero. Qed.

(** The pair of entries at a key in two dictionaries with the same keys. *)
Lemma pick_pair {V W} (P : V -> W -> Prop) (f : string -> V -> W -> Q) (l : dict string V) (m : dict string W) k :
  Forall2 (fun a b => fst b = fst a /\ P (snd a) (snd b)) l m -> NoDup (dkeys l) ->
  (total (fun kk => if String.eqb (fst (fst kk)) k then f (fst (fst kk)) (snd (fst kk)) (snd (snd kk)) else 0) (combine l m) ==
   match dget k l, dget k m with Some v, Some w => f k v w | _, _ => 0 end)%Q.
Proof.
  unfold total. induction 1 as [|[a v] [b w] l m [E _] F IH]; intros N; [reflexivity|].
  cbn [fst snd] in *. subst b. cbn [dkeys map] in N. inversion N as [|? ? NI N']; subst. cbn [combine map dget qsum fold_right fst snd].
  specialize (IH N'). change (eqb k a) with (String.eqb k a). rewrite (String.eqb_sym k a).
  destruct (String.eqb_spec a k) as [->|D].
  - rewrite qsum_zero_all; [lra|]. intros [[a' v'] [b' w']] I. cbn [fst snd]. apply in_combine_l in I. destruct (String.eqb_spec a' k) as [->|]; [|reflexivity].
    exfalso. apply NI. apply in_map_iff. exists (k, v'). auto.
  - fold (qsum (map (fun kk : (string * V) * (string * W) => if String.eqb (fst (fst kk)) k then f (fst (fst kk)) (snd (fst kk)) (snd (snd kk)) else 0%Q) (combine l m))).
    rewrite IH. lra.
Qed.

Lemma total_combine_r {A B} (g : B -> Q) (l : list A) m : List.length l = List.length m -> total (fun x => g (snd x)) (combine l m) = total g m.
Proof. revert m. unfold total. induction l as [|x l IH]; intros [|y m] E; simpl in *; try discriminate; auto. f_equal. apply IH. lia. Qed.

Section Totals.
  Variables (s : study) (r : result) (bcast : bool) (junk : nat -> string -> nat -> cell) (an : analyzer).
  Hypotheses (Api : api_study s) (M : mirrors s r) (New : new_analyzer bcast junk s r = Ok an).
  Local Notation h := (st_horizon s).
  Local Notation n := (st_nb_scn s).
  Let W : study_wf s := proj1 (api_facts s Api).

  Lemma analyzer_tables : an_study an = s /\ an_result an = r /\
    an_cons an = Table ["cost"; "asked"; "given"; "name"; "node"; "network"; "t"; "scn"] (flat_map (block s cons_row) (cons_of s r)) /\
    an_prod an = Table ["cost"; "avail"; "used"; "name"; "node"; "network"; "t"; "scn"] (flat_map (block s prod_row) (prods_of s r)) /\
    an_link an = Table ["cost"; "avail"; "used"; "node"; "dest"; "network"; "t"; "scn"] (flat_map (block s link_row) (links_of s r)) /\
    build_storage bcast junk s r = Ok (an_stor an) /\ build_dest_converter bcast junk s r = Ok (an_dest an).
  Proof.
    unfold new_analyzer in New. rewrite (build_consumption_eq s r bcast junk Api M), (build_production_eq s r bcast junk Api M), (build_link_eq s r bcast junk Api M) in New.
    cbn [rbind] in New. destruct (build_storage bcast junk s r) as [x|] eqn:B4; [|discriminate]. cbn [rbind] in New.
    destruct (build_src_converter bcast junk s r) as [v|]; [|discriminate]. cbn [rbind] in New.
    destruct (build_dest_converter bcast junk s r) as [d|]; [|discriminate]. cbn [rbind] in New. injection New as <-. repeat split.
  Qed.

  (** A table by blocks, as [blocks]. *)
  Definition erow {E F} (row : string -> string -> E -> F -> nat -> nat -> trow) (x : string * string * E * F) : nat -> nat -> trow :=
    row (fst (fst (fst x))) (snd (fst (fst x))) (snd (fst x)) (snd x).
  Lemma blocks_eq {E F} (row : string -> string -> E -> F -> nat -> nat -> trow) els : flat_map (block s row) els = blocks n h (erow row) els.
  Proof. reflexivity. Qed.

  (** The sums of a column over some of the blocks. *)
  Lemma some_sums {E F} (row : string -> string -> E -> F -> nat -> nat -> trow) (p : trow -> bool) (p' : string * string * E * F -> bool) col val els :
    (forall x scn t, key_of st (erow row x scn t) = gkey scn t) -> (forall x scn t, p (erow row x scn t) = p' x) ->
    (forall x scn t, cell_of col (erow row x scn t) = CNum (val x scn t)) ->
    exists g, (forall scn t, scn < n -> t < h -> (g scn t == qsum (map (fun x => if p' x then val x scn t else 0) els))%Q) /\
      match pivot_sum st col (filter p (flat_map (block s row) els)) with [] => True | v => v = grid n h g end /\
      (pivot_sum st col (filter p (flat_map (block s row) els)) = [] -> forall scn t, scn < n -> t < h -> (g scn t == 0)%Q).
  Proof.
    intros K P V. rewrite blocks_eq, (filter_blocks n h (erow row) p p') by auto.
    exists (tally col (blocks n h (erow row) (filter p' els))).
    assert (Sum : forall scn t, scn < n -> t < h -> (tally col (blocks n h (erow row) (filter p' els)) scn t == qsum (map (fun x => if p' x then val x scn t else 0) els))%Q).
    { intros scn t L1 L2. rewrite (tally_blocks n h (erow row) K col val) by auto. apply qsum_filter. }
    split; auto. destruct (filter p' els) as [|x l] eqn:EF.
    - split; [exact Logic.I|]. reflexivity.
    - rewrite (pivot_sum_grid n h) by (apply blocks_on_grid; [auto | discriminate]).
      split.
      + destruct (grid n h (tally col (blocks n h (erow row) (x :: l)))); auto.
      + intros EE scn t L1 L2. exfalso. assert (X : List.length (grid n h (tally col (blocks n h (erow row) (x :: l)))) = 0) by now rewrite EE.
        rewrite grid_length in X. nia.
  Qed.

  (** ** C40 *)
  Lemma nets_F2 : Forall2 (fun (kn : string * network) (ko : string * onetwork) => fst ko = fst kn /\
               Forall2 (fun (kd : string * node) (kr : string * onode) => fst kr = fst kd /\ node_like s (snd kd) (snd kr)) (snd kn) (snd ko))
             (st_networks s) (r_networks r).
  Proof. apply (mr_nodes _ _ M). Qed.
  Lemma nets_get net ns : dget net (st_networks s) = Some ns -> exists rns, dget net (r_networks r) = Some rns /\
    Forall2 (fun (kd : string * node) (kr : string * onode) => fst kr = fst kd /\ node_like s (snd kd) (snd kr)) ns rns /\ NoDup (dkeys ns).
  Proof.
    intros H. pose proof (Forall2_dget (fun (k : string) (ns : network) (rns : onetwork) => Forall2 (fun (kd : string * node) (kr : string * onode) =>
                          fst kr = fst kd /\ node_like s (snd kd) (snd kr)) ns rns) _ _ net nets_F2) as X.
    rewrite H in X. destruct (dget net (r_networks r)) as [rns|]; [|contradiction]. exists rns. split; auto. split; auto. eapply wf_nodes; eauto.
  Qed.
  Lemma nets_none net : dget net (st_networks s) = None -> dget net (r_networks r) = None.
  Proof.
    intros H. pose proof (Forall2_dget (fun (k : string) (ns : network) (rns : onetwork) => Forall2 (fun (kd : string * node) (kr : string * onode) =>
                          fst kr = fst kd /\ node_like s (snd kd) (snd kr)) ns rns) _ _ net nets_F2) as X.
    rewrite H in X. destruct (dget net (r_networks r)); [contradiction|auto].
  Qed.

  (** Sums over the elements of one network. *)
  Lemma sum_network {E F} (gets : node -> list E) (getr : onode -> list F) net (g : string -> E -> F -> Q) :
    (qsum (map (fun x : string * string * E * F => if String.eqb (fst (fst (fst x))) net then g (snd (fst (fst x))) (snd (fst x)) (snd x) else 0) (elements gets getr s r)) ==
     match dget net (st_networks s), dget net (r_networks r) with
     | Some ns, Some rns => total (fun dd => total (fun eo => g (fst (fst dd)) (fst eo) (snd eo)) (combine (gets (snd (fst dd))) (getr (snd (snd dd))))) (combine ns rns)
     | _, _ => 0 end)%Q.
  Proof.
    rewrite (sum_elements gets getr s r (fun k d e o => if String.eqb k net then g d e o else 0%Q)).
    rewrite <- (pick_pair _ (fun _ ns rns => total (fun dd => total (fun eo => g (fst (fst dd)) (fst eo) (snd eo)) (combine (gets (snd (fst dd))) (getr (snd (snd dd))))) (combine ns rns))
      (st_networks s) (r_networks r) net nets_F2 (wf_networks _ W)).
    unfold total. apply qsum_map_ext. intros kk _. destruct (String.eqb (fst (fst kk)) net); [reflexivity|].
    apply qsum_zero_all. intros dd _. apply qsum_zero_all. reflexivity.
  Qed.
  (** ... of one node. *)
  Lemma sum_node {E F} (gets : node -> list E) (getr : onode -> list F) net nd (g : E -> F -> Q) :
    (qsum (map (fun x : string * string * E * F => if String.eqb (snd (fst (fst x))) nd && String.eqb (fst (fst (fst x))) net then g (snd (fst x)) (snd x) else 0) (elements gets getr s r)) ==
     match node_at s net nd, rnode_at r net nd with
     | Some nn, Some rn => total (fun eo => g (fst eo) (snd eo)) (combine (gets nn) (getr rn))
     | _, _ => 0 end)%Q.
  Proof.
    pose proof (sum_network gets getr net (fun d e o => if String.eqb d nd then g e o else 0%Q)) as X.
    rewrite <- (qsum_map_ext (fun x : string * string * E * F => if String.eqb (fst (fst (fst x))) net then if String.eqb (snd (fst (fst x))) nd then g (snd (fst x)) (snd x) else 0%Q else 0%Q)).
    2:{ intros x _. destruct (String.eqb (fst (fst (fst x))) net), (String.eqb (snd (fst (fst x))) nd); reflexivity. }
    rewrite X. clear X. unfold node_at, rnode_at. destruct (dget net (st_networks s)) as [ns|] eqn:D.
    - destruct (nets_get net ns D) as (rns & -> & F2 & N).
      rewrite <- (pick_pair _ (fun _ nn rn => total (fun eo => g (fst eo) (snd eo)) (combine (gets nn) (getr rn))) ns rns nd F2 N).
      unfold total. apply qsum_map_ext. intros dd _. destruct (String.eqb (fst (fst dd)) nd); [reflexivity|]. apply qsum_zero_all. reflexivity.
    - reflexivity.
  Qed.

  Lemma link_keys : forall x scn t, key_of st (erow link_row x scn t) = gkey scn t. Proof. reflexivity. Qed.

  Lemma qle_trans_sum_eq {A} (f g : A -> Q) l : (forall x, In x l -> (f x == g x)%Q) -> (qsum (map f l) == qsum (map g l))%Q.
  Proof. apply qsum_map_ext. Qed.

  Theorem balance_of net nd : exists g, get_balance an nd net = Ok (garr n h g) /\
    forall scn t, scn < n -> t < h -> (g scn t == balance r net nd scn t)%Q.
  Proof.
    destruct analyzer_tables as (Es & _ & _ & _ & El & _). unfold get_balance. rewrite Es, El. cbn [tb_rows].
    destruct (some_sums link_row (fun r => eqb (cell_of "dest" r) (CStr nd) && eqb (cell_of "network" r) (CStr net))
      (fun x => String.eqb (l_dest (snd (fst x))) nd && String.eqb (fst (fst (fst x))) net) "used"
      (fun x scn t => entry (ol_qty (snd x)) scn t) (links_of s r)) as (gi & Gi & Hi & Zi); [reflexivity|reflexivity|reflexivity|].
    destruct (some_sums link_row (fun r => eqb (cell_of "node" r) (CStr nd) && eqb (cell_of "network" r) (CStr net))
      (fun x => String.eqb (snd (fst (fst x))) nd && String.eqb (fst (fst (fst x))) net) "used"
      (fun x scn t => entry (ol_qty (snd x)) scn t) (links_of s r)) as (ge & Ge & He & Ze); [reflexivity|reflexivity|reflexivity|].
    fold st. set (im := pivot_sum st "used" (filter (fun r0 => eqb (cell_of "dest" r0) (CStr nd) && _) _)) in *.
    set (ex := pivot_sum st "used" (filter (fun r0 => eqb (cell_of "node" r0) (CStr nd) && _) _)) in *.
    assert (B : exists b, match im with [] => Ok (nd_zeros2 n h) | _ => let* a := reshape2 n h (map Qopp im) in nd_op Qplus (nd_zeros2 n h) a end = Ok (garr n h b) /\
       forall scn t, scn < n -> t < h -> (b scn t == - gi scn t)%Q).
    { rewrite nd_zeros2_garr. destruct im as [|q im'] eqn:Eim.
      - eexists. split; [reflexivity|]. intros scn t L1 L2. rewrite (Zi eq_refl) by auto. reflexivity.
      - rewrite Hi, map_grid, reshape2_grid. cbn [rbind]. rewrite nd_op_garr. eexists. split; [reflexivity|]. intros scn t L1 L2. cbn beta. lra. }
    destruct B as (b & -> & Hb). cbn [rbind].
    assert (Gi' : forall scn t, scn < n -> t < h -> (gi scn t == imported r scn net nd t)%Q).
    { intros scn t L1 L2. rewrite Gi by auto. unfold links_of, imported.
      rewrite (qsum_map_ext _ (fun x : string * string * link * olink => if String.eqb (fst (fst (fst x))) net then (if String.eqb (l_dest (snd (fst x))) nd then entry (ol_qty (snd x)) scn t else 0%Q) else 0%Q)).
      2:{ intros x _. destruct (String.eqb (fst (fst (fst x))) net), (String.eqb (l_dest (snd (fst x))) nd); reflexivity. }
      rewrite (sum_network n_links on_links net (fun _ l o => if String.eqb (l_dest l) nd then entry (ol_qty o) scn t else 0%Q)).
      destruct (dget net (st_networks s)) as [ns|] eqn:D; [|now rewrite (nets_none net D)].
      destruct (nets_get net ns D) as (rns & -> & F2 & _). clear D. induction F2 as [|[k nn] [k' rn] ns rns [_ L] _ IH]; [reflexivity|].
      unfold total in *. cbn [combine map qsum fold_right fst snd]. apply Qplus_comp; [|exact IH].
      cbn [snd] in L. pose proof (nl_links _ _ _ L) as F. clear - F. induction F as [|l o ls os [E _] _ IH]; [reflexivity|].
      cbn [combine map qsum fold_right fst snd]. rewrite E. apply Qplus_comp; [reflexivity|exact IH]. }
    assert (Ge' : forall scn t, scn < n -> t < h -> (ge scn t == match rnode_at r net nd with Some rn => exported scn rn t | None => 0 end)%Q).
    { intros scn t L1 L2. rewrite Ge by auto. unfold links_of.
      rewrite (sum_node n_links on_links net nd (fun _ o => entry (ol_qty o) scn t)).
      destruct (node_at s net nd) as [nn|] eqn:N.
      - destruct (rnode_at r net nd) as [rn|] eqn:R; [|reflexivity]. rewrite (total_combine_r (fun o => entry (ol_qty o) scn t)); [reflexivity|].
        eapply Forall2_len, nl_links, mirror_like; eauto.
      - destruct (rnode_at r net nd) as [rn|] eqn:R; [|reflexivity]. exfalso. unfold node_at, rnode_at in *.
        destruct (dget net (st_networks s)) as [ns|] eqn:D; [|rewrite (nets_none net D) in R; discriminate].
        destruct (nets_get net ns D) as (rns & E & F2 & _). rewrite E in R.
        pose proof (Forall2_dget (fun _ n rn => node_like s n rn) _ _ nd F2) as Y. rewrite N, R in Y. exact Y. }
    destruct ex as [|q ex'] eqn:Eex.
    - eexists. split; [reflexivity|]. intros scn t L1 L2. rewrite Hb, Gi' by auto. specialize (Ze eq_refl scn t L1 L2). rewrite Ge' in Ze by auto. unfold balance. lra.
    - rewrite He, reshape2_grid. cbn [rbind]. rewrite nd_op_garr. eexists. split; [reflexivity|]. intros scn t L1 L2. cbn beta.
      rewrite Hb, Gi', Ge' by auto. unfold balance. lra.
  Qed.
  (** ** C42 *)
  Lemma mapM_ok {A B} (f : A -> res B) (g : A -> B) l : (forall x, In x l -> f x = Ok (g x)) -> mapM f l = Ok (map g l).
  Proof. induction l as [|x l IH]; intros H; auto. cbn [mapM map]. rewrite H by (left; auto). cbn [rbind]. rewrite IH by (intros; apply H; right; auto). reflexivity. Qed.

  Lemma one_key {A} (row : A -> nat -> nat -> trow) name m (pos : nat -> nat -> nat) els : 0 < n -> 0 < h ->
    (forall x scn t, key_of [name] (row x scn t) = [CInt (Z.of_nat (pos scn t))]) ->
    (forall scn t, scn < n -> t < h -> pos scn t < m) -> (forall k, k < m -> exists scn t, scn < n /\ t < h /\ pos scn t = k) -> els <> [] ->
    group_keys [name] (blocks n h row els) = map (fun k => [CInt (Z.of_nat k)]) (seq 0 m).
  Proof.
    intros Pn Ph K Lt Sur NE. apply group_keys_are.
    - apply Forall_map, Forall_forall. repeat constructor.
    - apply FinFun.Injective_map_NoDup; [intros a b E; injection E; lia | apply seq_NoDup].
    - apply sorted_seq. intros i j L _. apply key_le_cons; [exact Logic.I | exact Logic.I |]. left. split; [intros E; injection E; lia|]. cbn. apply Z.leb_le. lia.
    - intros rw I. unfold blocks in I. apply in_flat_map in I as (x & _ & I). apply grid_In in I as (a & b & La & Lb & ->).
      rewrite K. apply in_map_iff. exists (pos a b). split; auto. apply in_seq. specialize (Lt a b La Lb). lia.
    - intros k I. apply in_map_iff in I as (j & <- & I). apply in_seq in I. destruct (Sur j) as (a & b & La & Lb & E); [lia|].
      destruct els as [|x els]; [congruence|]. exists (row x a b). split; [|now rewrite K, E]. unfold blocks. cbn [flat_map].
      apply in_or_app. left. apply grid_In. eauto.
  Qed.

  Lemma pivot_blocks {A} (row : A -> nat -> nat -> trow) col val els :
    (forall x scn t, key_of st (row x scn t) = gkey scn t) -> (forall x scn t, cell_of col (row x scn t) = CNum (val x scn t)) ->
    exists g, pivot_scn_t s col (blocks n h row els) = Ok (garr n h g) /\
      forall scn t, scn < n -> t < h -> (g scn t == qsum (map (fun x => val x scn t) els))%Q.
  Proof.
    intros K V. pose proof (api_facts s Api) as (X1 & X2 & Ph & Pn). unfold pivot_scn_t. destruct els as [|x els].
    - cbn [blocks flat_map]. change (group_keys ["scn"] []) with (@nil (list cell)). cbn [List.length Nat.mul Nat.eqb].
      rewrite nd_zeros2_garr. eexists. split; [reflexivity|]. reflexivity.
    - rewrite (one_key row "scn" n (fun a _ => a)) by (auto; try (intros k Lk; exists k, 0; auto; fail); try discriminate;
        intros y scn t; specialize (K y scn t); unfold key_of, st in *; cbn [map] in *; unfold gkey in K; congruence).
      rewrite (one_key row "t" h (fun _ b => b)) by (auto; try (intros k Lk; exists 0, k; auto; fail); try discriminate;
        intros y scn t; specialize (K y scn t); unfold key_of, st in *; cbn [map] in *; unfold gkey in K; congruence).
      rewrite !map_length, !seq_length. replace (Nat.eqb (n * h) 0) with false by (symmetry; apply Nat.eqb_neq; nia).
      assert (EK : flat_map (fun a => map (fun b => a ++ b) (map (fun k => [CInt (Z.of_nat k)]) (seq 0 h))) (map (fun k => [CInt (Z.of_nat k)]) (seq 0 n)) = grid n h gkey).
      { unfold grid. rewrite flat_map_concat_map, map_map, <- flat_map_concat_map. apply flat_map_ext. intros a. rewrite map_map. reflexivity. }
      rewrite EK. fold st.
      rewrite (mapM_ok _ (fun k => sum_cells (map (cell_of col) (group st (blocks n h row (x :: els)) k)))).
      + cbn [rbind]. rewrite map_grid. exists (tally col (blocks n h row (x :: els))). split; [reflexivity|].
        intros scn t L1 L2. apply (tally_blocks n h row K col val); auto.
      + intros k I. apply grid_In in I as (a & b & La & Lb & ->).
        destruct (group st (blocks n h row (x :: els)) (gkey a b)) as [|y l] eqn:G; auto. exfalso.
        assert (J : In (row x a b) (group st (blocks n h row (x :: els)) (gkey a b))).
        { apply filter_In. split; [|apply eqb_eq; auto]. unfold blocks. cbn [flat_map]. apply in_or_app. left. apply grid_In. eauto. }
        rewrite G in J. exact J.
  Qed.

  Theorem remaining_of net : exists g, get_rac an net = Ok (garr n h g) /\
    forall scn t, scn < n -> t < h -> (g scn t == remaining s r net scn t)%Q.
  Proof.
    destruct analyzer_tables as (Es & _ & Ec & Ep & _). unfold get_rac. rewrite Es, Ec, Ep. cbn [tb_rows].
    rewrite !blocks_eq. set (pc := fun x : string * string * consumption * oconsumption => String.eqb (fst (fst (fst x))) net).
    set (pp := fun x : string * string * production * oproduction => String.eqb (fst (fst (fst x))) net).
    rewrite (filter_blocks n h (erow prod_row) _ pp) by reflexivity. rewrite (filter_blocks n h (erow cons_row) _ pc) by reflexivity.
    destruct (pivot_blocks (erow prod_row) "used" (fun x scn t => entry (op_qty (snd x)) scn t) (filter pp (prods_of s r))) as (gu & -> & Hu); [reflexivity|reflexivity|].
    destruct (pivot_blocks (erow prod_row) "avail" (fun x scn t => value (p_qty (snd (fst x))) scn t) (filter pp (prods_of s r))) as (ga & -> & Ha); [reflexivity|reflexivity|].
    destruct (pivot_blocks (erow cons_row) "asked" (fun x scn t => value (c_qty (snd (fst x))) scn t) (filter pc (cons_of s r))) as (gk & -> & Hk); [reflexivity|reflexivity|].
    destruct (pivot_blocks (erow cons_row) "given" (fun x scn t => entry (oc_qty (snd x)) scn t) (filter pc (cons_of s r))) as (gg & -> & Hg); [reflexivity|reflexivity|].
    cbn [rbind]. rewrite !nd_op_garr. cbn [rbind]. rewrite nd_op_garr. eexists. split; [reflexivity|]. intros scn t L1 L2. cbn beta.
    rewrite Hu, Ha, Hk, Hg by auto. rewrite !qsum_filter. unfold pp, pc, prods_of, cons_of.
    rewrite (sum_network n_prods on_prods net (fun _ e o => value (p_qty e) scn t)), (sum_network n_prods on_prods net (fun _ e o => entry (op_qty o) scn t)).
    rewrite (sum_network n_cons on_cons net (fun _ e o => value (c_qty e) scn t)), (sum_network n_cons on_cons net (fun _ e o => entry (oc_qty o) scn t)).
    unfold remaining. destruct (dget net (st_networks s)) as [ns|]; [|lra]. destruct (dget net (r_networks r)) as [rns|]; [|lra].
    unfold total, unused, unserved, total. rewrite <- !qsum_map_sub.
    apply qsum_map_ext. intros dd _. cbn beta.
    rewrite (qsum_map_sub (fun co : consumption * oconsumption => value (c_qty (fst co)) scn t) (fun co => entry (oc_qty (snd co)) scn t)).
    rewrite (qsum_map_sub (fun po : production * oproduction => value (p_qty (fst po)) scn t) (fun po => entry (op_qty (snd po)) scn t)). lra.
  Qed.
End Totals.

(** For every analyzer, every node (also one that does not exist, or has no link), every
    scenario and time; and the sum over the nodes of each network. *)
Theorem C40_balances bcast junk s r an : api_study s -> mirrors s r -> new_analyzer bcast junk s r = Ok an ->
  (forall net nd, exists b, get_balance an nd net = Ok b /\ has_dims s b /\
     forall scn t, scn < st_nb_scn s -> t < st_horizon s -> (entry b scn t == balance r net nd scn t)%Q) /\
  (forall net ns, dget net (st_networks s) = Some ns -> exists bs, mapM (fun nd => get_balance an nd net) (dkeys ns) = Ok bs /\
     forall scn t, scn < st_nb_scn s -> t < st_horizon s -> (total (fun b => entry b scn t) bs == 0)%Q).
Proof.
  intros A M N. split.
  - intros net nd. destruct (balance_of s r bcast junk an A M N net nd) as (g & E & G). exists (garr (st_nb_scn s) (st_horizon s) g).
    split; auto. split; [apply garr_dims|]. intros scn t L1 L2. rewrite entry_garr by auto. auto.
  - intros net ns D. destruct (nets_get s r A M net ns D) as (rns & D' & F2 & ND).
    assert (K : dkeys rns = dkeys ns) by (apply (Forall2_keys (fun _ n rn => node_like s n rn) ns rns F2)).
    assert (X : forall l, (forall nd, In nd l -> In nd (dkeys ns)) -> exists bs, mapM (fun nd => get_balance an nd net) l = Ok bs /\
       forall scn t, scn < st_nb_scn s -> t < st_horizon s -> (total (fun b => entry b scn t) bs == total (fun nd => balance r net nd scn t) l)%Q).
    { induction l as [|nd l IH]; intros I; [exists []; split; [reflexivity|reflexivity]|].
      destruct IH as (bs & Eb & Hb); [intros; apply I; right; auto|].
      destruct (balance_of s r bcast junk an A M N net nd) as (g & E & G). exists (garr (st_nb_scn s) (st_horizon s) g :: bs).
      cbn [mapM]. rewrite E. cbn [rbind]. rewrite Eb. split; [reflexivity|]. intros scn t L1 L2. unfold total in *. cbn [map qsum fold_right].
      fold (qsum (map (fun b => entry b scn t) bs)). rewrite Hb by auto. rewrite entry_garr, G by auto. reflexivity. }
    destruct (X (dkeys ns)) as (bs & Eb & Hb); auto. exists bs. split; auto. intros scn t L1 L2. rewrite Hb by auto.
    rewrite <- K. unfold dkeys, total. rewrite map_map. pose proof (links_conserve s r scn t net rns (proj1 (api_facts s A)) M D') as LC.
    unfold balance. rewrite qsum_map_sub. unfold total in LC. rewrite LC.
    rewrite (qsum_map_ext (fun x : string * onode => match rnode_at r net (fst x) with Some rn => exported scn rn t | None => 0%Q end) (fun kr => exported scn (snd kr) t)).
    + lra.
    + intros [k rn] I. cbn [fst snd]. unfold rnode_at. rewrite D', (In_dget k rn rns); [reflexivity | now rewrite K | auto].
Qed.

(** ** C42 *)
Theorem C42_remaining_capacity bcast junk s r an net : api_study s -> mirrors s r -> new_analyzer bcast junk s r = Ok an ->
  exists a, get_rac an net = Ok a /\ has_dims s a /\
    forall scn t, scn < st_nb_scn s -> t < st_horizon s -> (entry a scn t == remaining s r net scn t)%Q.
Proof.
  intros A M N. destruct (remaining_of s r bcast junk an A M N net) as (g & E & G). exists (garr (st_nb_scn s) (st_horizon s) g).
  split; auto. split; [apply garr_dims|]. intros scn t L1 L2. rewrite entry_garr by auto. auto.
Qed.

(** ** C43 *)
Lemma list_sum_filter {A} (b : A -> bool) l : list_sum (map (fun x => if b x then 1 else 0) l) = List.length (filter b l).
Proof. induction l as [|x l IH]; auto. cbn [map filter]. unfold list_sum in *. cbn [fold_right]. rewrite IH. destruct (b x); auto. Qed.
Lemma counts_filter (P : converter -> Prop) b s : NoDup (dkeys (st_converters s)) -> (forall v, b v = true <-> P v) ->
  counts P s (list_sum (map (fun kv : string * converter => if b (snd kv) then 1 else 0) (st_converters s))).
Proof.
  intros N B. rewrite list_sum_filter. exists (map fst (filter (fun kv => b (snd kv)) (st_converters s))). split; [|split].
  - clear - N. unfold dkeys in N. induction (st_converters s) as [|[k v] l IH]; cbn; [constructor|]. cbn in N. inversion N as [|? ? NI N']; subst.
    destruct (b v); cbn; auto. constructor; auto. intros I. apply NI. apply in_map_iff in I as (x & E & I). apply filter_In in I as [I _].
    apply in_map_iff. eauto.
  - now rewrite map_length.
  - intros name. unfold conv_at. rewrite in_map_iff. split.
    + intros ([k v] & <- & I). apply filter_In in I as [I H]. cbn [snd fst] in *. exists v. split; [now apply In_dget | now apply B].
    + intros (v & D & H). exists (name, v). split; auto. apply filter_In. split; [now apply dget_In | now apply B].
Qed.

Lemma node_elements_ok s net nd n : study_wf s -> node_at s net nd = Some n -> exists size, node_elements s net nd = Ok size /\ node_counts s net nd size.
Proof.
  intros W N. unfold node_elements, node_at, dlook in *. destruct (dget net (st_networks s)) as [ns|] eqn:D; [|discriminate]. cbn [rbind].
  rewrite N. cbn [rbind]. eexists. split; [reflexivity|]. do 3 eexists. split; [unfold node_at; rewrite D; exact N|]. split; [|split; [|reflexivity]].
  - apply (counts_filter (feeds net nd) (fun v => dmem (net, nd) (v_src v))); [apply W|]. intros v. apply dmem_In.
  - apply (counts_filter (fed_by net nd) (fun v => String.eqb net (v_dnet v) && String.eqb nd (v_dnode v))); [apply W|]. intros v. unfold fed_by.
    rewrite andb_true_iff, !String.eqb_eq. split; intros [A B]; auto.
Qed.

Lemma plus6_fold sizes : Forall (fun l => List.length l = 6) sizes -> fold_left plus6 sizes zeros6 = sum_counts sizes.
Proof.
  intros F. assert (G : forall acc, List.length acc = 6 -> fold_left plus6 sizes acc = plus6 acc (sum_counts sizes)).
  { induction F as [|x l L _ IH]; intros acc A.
    - do 7 (destruct acc as [|? acc]; try discriminate A). unfold sum_counts, plus6. cbn. repeat rewrite Nat.add_0_r. reflexivity.
    - do 7 (destruct acc as [|? acc]; try discriminate A). do 7 (destruct x as [|? x]; try discriminate L). cbn [fold_left]. rewrite IH by reflexivity.
      unfold sum_counts, plus6. cbn. repeat rewrite Nat.add_assoc. reflexivity. }
  rewrite G by reflexivity. unfold plus6, zeros6, sum_counts. reflexivity.
Qed.
Lemma foldM_plus6 {A} (f : A -> res (list nat)) l sizes : Forall2 (fun x size => f x = Ok size) l sizes -> forall acc,
  foldM (fun size x => let* e := f x in Ok (plus6 size e)) l acc = Ok (fold_left plus6 sizes acc).
Proof. induction 1 as [|x y l m E _ IH]; intros acc; auto. cbn [foldM fold_left]. rewrite E. cbn [rbind]. apply IH. Qed.

Lemma network_elements_ok s net ns : study_wf s -> net <> "" -> dget net (st_networks s) = Some ns ->
  exists sizes, Forall2 (node_counts s net) (dkeys ns) sizes /\ network_elements s net = Ok (sum_counts sizes).
Proof.
  intros W NE D. unfold network_elements. rewrite (proj2 (String.eqb_neq net "") NE). unfold dlook. rewrite D. cbn [rbind].
  assert (X : forall l, (forall nd, In nd l -> In nd (dkeys ns)) -> exists sizes,
     Forall2 (fun nd size => node_elements s net nd = Ok size) l sizes /\ Forall2 (node_counts s net) l sizes).
  { induction l as [|nd l IH]; intros I; [exists []; auto|]. destruct IH as (sizes & A & B); [intros; apply I; right; auto|].
    specialize (I nd (or_introl eq_refl)). apply In_keys_dget in I as (n & Hn).
    destruct (node_elements_ok s net nd n W) as (size & E & C); [unfold node_at; now rewrite D|]. exists (size :: sizes). auto. }
  destruct (X (dkeys ns)) as (sizes & A & B); auto. exists sizes. split; auto. rewrite (foldM_plus6 _ _ sizes A). f_equal. apply plus6_fold.
  clear - B. induction B as [|? ? ? ? (n & i & o & _ & _ & _ & ->) _ IH]; constructor; auto.
Qed.

(** Partial: for a network or a study, no network may have the empty name. *)
Theorem C43_counts_partial s : api_study s ->
  (forall net nd n, node_at s net nd = Some n -> exists size, elements_inside s (Some nd) (Some net) = Ok size /\ node_counts s net nd size) /\
  (forall net ns, net <> "" -> dget net (st_networks s) = Some ns ->
     exists sizes, Forall2 (node_counts s net) (dkeys ns) sizes /\ elements_inside s None (Some net) = Ok (sum_counts sizes)) /\
  (~ In "" (dkeys (st_networks s)) ->
     exists sizes, Forall2 (fun net size => elements_inside s None (Some net) = Ok size) (dkeys (st_networks s)) sizes /\
       elements_inside s None None = Ok (sum_counts sizes)) /\
  (forall nd n, nd <> "" -> node_at s "default" nd = Some n -> elements_inside s (Some nd) None = elements_inside s (Some nd) (Some "default")).
Proof.
  intros A. destruct (api_facts s A) as (W & _). split; [|split; [|split]].
  - intros net nd n N. now apply (node_elements_ok s net nd n).
  - intros net ns NE D. exact (network_elements_ok s net ns W NE D).
  - intros NE. cbn [elements_inside].
    assert (X : forall l, (forall net, In net l -> In net (dkeys (st_networks s))) -> exists sizes,
       Forall2 (fun net size => network_elements s net = Ok size) l sizes /\ Forall (fun l => List.length l = 6) sizes).
    { induction l as [|net l IH]; intros I; [exists []; auto|]. destruct IH as (sizes & F & B); [intros; apply I; right; auto|].
      pose proof (I net (or_introl eq_refl)) as J. apply In_keys_dget in J as (ns & D).
      destruct (network_elements_ok s net ns W) as (sz & _ & E); auto; [intros ->; apply NE, (I "" (or_introl eq_refl))|].
      exists (sum_counts sz :: sizes). split; constructor; auto. }
    destruct (X (dkeys (st_networks s))) as (sizes & F & B); auto. exists sizes. split; auto. now rewrite (foldM_plus6 _ _ sizes F), plus6_fold.
  - intros nd n NE N. cbn [elements_inside name_true]. now rewrite (proj2 (String.eqb_neq nd "") NE).
Qed.

(** ** Examples and counterexamples *)
Example C40_example : api_study mix /\ mirrors mix mix_result /\ new_analyzer true no_junk mix mix_result = Ok mix_an /\
  exists b c, get_balance mix_an "b" "elec" = Ok b /\ get_balance mix_an "a" "elec" = Ok c /\
    (entry b 0 0 == 8)%Q /\ (entry c 0 0 == -8)%Q /\ (balance mix_result "elec" "b" 1 0 == 7)%Q.
Proof.
  split; [apply mix_api|]. split; [apply mix_mirrors|]. split; [apply mix_an_new|].
  do 2 eexists. split; [vm_compute; reflexivity|]. split; [vm_compute; reflexivity|]. repeat split; vm_compute; reflexivity.
Qed.

(** Network "gas" has no consumption; "void" does not exist. *)
Example C42_example : api_study mix /\ mirrors mix mix_result /\ new_analyzer true no_junk mix mix_result = Ok mix_an /\
  (remaining mix mix_result "elec" 0 1 == -2)%Q /\ (exists a, get_rac mix_an "gas" = Ok a /\ (entry a 0 1 == 12)%Q) /\
  (exists a, get_rac mix_an "void" = Ok a /\ (entry a 0 1 == 0)%Q).
Proof.
  split; [apply mix_api|]. split; [apply mix_mirrors|]. split; [apply mix_an_new|]. split; [vm_compute; reflexivity|].
  split; eexists; (split; [vm_compute; reflexivity | vm_compute; reflexivity]).
Qed.

Example C43_example : api_study mix /\ node_counts mix "elec" "a" [1; 0; 1; 1; 0; 1] /\
  elements_inside mix (Some "g") (Some "gas") = Ok [0; 1; 0; 0; 1; 0] /\ elements_inside mix None (Some "elec") = Ok [1; 1; 1; 2; 0; 1] /\
  elements_inside mix None None = Ok [1; 2; 1; 2; 1; 1].
Proof.
  split; [apply mix_api|]. split; [|repeat split; vm_compute; reflexivity].
  destruct (proj1 (C43_counts_partial mix mix_api) "elec" "a" _ eq_refl) as (size & E & C). vm_compute in E. injection E as <-. exact C.
Qed.

(** A network with an empty name: its node is counted, the network is not. *)
Definition blank_calls : list call := [ OnStudy_network ""; OnSel 0 (MNode "a"); OnSel 1 (MConsumption "load" (jn 1) (jn 1)) ].
Definition blank : study := Eval vm_compute in w_study (run (start 1 1 None) blank_calls).
Lemma blank_api : api_study blank.
Proof. exists 1, 1, None, blank_calls. split; [lia|]. split; [lia|]. split; [plain_tac | vm_compute; reflexivity]. Qed.
Theorem C43_counts_refuted : exists s ns, api_study s /\ dget "" (st_networks s) = Some ns /\ dkeys ns = ["a"] /\
  node_counts s "" "a" [1; 0; 0; 0; 0; 0] /\ elements_inside s None (Some "") = Err KeyError /\ elements_inside s None None = Err KeyError.
Proof.
  exists blank. eexists. split; [apply blank_api|]. split; [reflexivity|]. split; [reflexivity|].
  split; [|split; vm_compute; reflexivity].
  destruct (proj1 (C43_counts_partial blank blank_api) "" "a" _ eq_refl) as (size & E & C). vm_compute in E. injection E as <-. exact C.
Qed.

(** Exactly which questions are answered; every other is a KeyError. *)
Definition can_be_counted (s : study) (nd net : option string) : Prop :=
  match net, nd with
  | Some net, Some nd => exists n, node_at s net nd = Some n
  | Some net, None => net <> "" /\ In net (dkeys (st_networks s))
  | None, Some nd => nd <> "" /\ exists n, node_at s "default" nd = Some n
  | None, None => ~ In "" (dkeys (st_networks s))
  end.
Lemma node_elements_exact s net nd : study_wf s ->
  (exists n size, node_at s net nd = Some n /\ node_elements s net nd = Ok size) \/ (node_at s net nd = None /\ node_elements s net nd = Err KeyError).
Proof.
  intros W. destruct (node_at s net nd) as [n|] eqn:N.
  - left. destruct (node_elements_ok s net nd n W N) as (size & E & _). eauto.
  - right. split; auto. unfold node_elements, node_at, dlook in *. destruct (dget net (st_networks s)) as [ns|]; auto. cbn [rbind]. now rewrite N.
Qed.
Lemma network_elements_blank s : network_elements s "" = Err KeyError.
Proof. reflexivity. Qed.
Theorem C43_exact : forall s nd net, api_study s ->
  ((exists size, elements_inside s nd net = Ok size) <-> can_be_counted s nd net) /\
  (~ can_be_counted s nd net -> elements_inside s nd net = Err KeyError).
Proof.
  intros s nd net A. destruct (api_facts s A) as (W & _). destruct (C43_counts_partial s A) as (H1 & H2 & H3 & _).
  assert (G : (can_be_counted s nd net /\ exists size, elements_inside s nd net = Ok size) \/ (~ can_be_counted s nd net /\ elements_inside s nd net = Err KeyError)).
  { destruct net as [net|], nd as [nd|]; cbn [can_be_counted].
    - destruct (node_elements_exact s net nd W) as [(n & size & N & E)|[N E]].
      + left. split; [now exists n | now exists size].
      + right. split; [rewrite N; intros [? X]; discriminate | exact E].
    - destruct (String.eqb net "") eqn:Q.
      + apply String.eqb_eq in Q. subst. right. split; [tauto | reflexivity].
      + apply String.eqb_neq in Q. destruct (dget net (st_networks s)) as [ns|] eqn:D.
        * left. split; [split; [exact Q | now apply dget_In_keys in D]|]. destruct (H2 net ns Q D) as (z & _ & E). eauto.
        * right. split; [apply dget_None in D; tauto|]. cbn [elements_inside]. unfold network_elements. rewrite (proj2 (String.eqb_neq net "") Q). unfold dlook. now rewrite D.
    - cbn [elements_inside name_true]. destruct (String.eqb nd "") eqn:Q; cbn [negb].
      + apply String.eqb_eq in Q. subst. right. split; [tauto | reflexivity].
      + apply String.eqb_neq in Q. destruct (node_elements_exact s "default" nd W) as [(n & size & N & E)|[N E]].
        * left. split; [split; [exact Q | now exists n] | now exists size].
        * right. split; [rewrite N; intros [_ [? X]]; discriminate | exact E].
    - destruct (in_dec string_dec "" (dkeys (st_networks s))) as [I|I].
      + right. split; [tauto|]. cbn [elements_inside]. apply in_split in I as (l1 & l2 & E).
        assert (X : forall net, In net l1 -> net <> "" /\ exists ns, dget net (st_networks s) = Some ns).
        { intros net J. pose proof (wf_networks _ W) as ND. rewrite E in ND. apply NoDup_remove in ND as [_ ND]. split.
          - intros ->. apply ND. apply in_or_app. now left.
          - apply In_keys_dget. rewrite E. apply in_or_app. now left. }
        rewrite E. generalize zeros6. clear E. induction l1 as [|net l1 IH]; intros acc; cbn [app foldM].
        * reflexivity.
        * destruct (X net (or_introl eq_refl)) as (NE & ns & D). destruct (network_elements_ok s net ns W NE D) as (z & _ & EZ). rewrite EZ. cbn [rbind].
          apply IH. intros; apply X; now right.
      + left. split; [exact I|]. destruct (H3 I) as (z & _ & E). eauto. }
  destruct G as [[G [size E]]|[G E]]; split; try tauto.
  - split; eauto.
  - split; [intros [size X]; rewrite E in X; discriminate | tauto].
Qed.
Example C43_exact_example : api_study blank /\ can_be_counted blank (Some "a") (Some "") /\ ~ can_be_counted blank None (Some "") /\
  ~ can_be_counted blank None None /\ ~ can_be_counted blank (Some "") None /\ can_be_counted mix None None.
Proof.
  split; [apply blank_api|]. split; [eexists; reflexivity|]. split; [cbn; tauto|]. split; [cbn; tauto|]. split; [cbn; tauto|].
  cbn. intros [H|[H|[]]]; discriminate.
Qed.

Print Assumptions C40_balances.
Print Assumptions C42_remaining_capacity.
Print Assumptions C43_counts_partial.
Print Assumptions C43_counts_refuted.
Print Assumptions C43_exact.
