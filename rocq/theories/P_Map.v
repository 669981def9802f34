(** Properties C58 and C60: exchange map and matrix of remaining capacities. *)
From Coq Require Import String Ascii List ZArith QArith Bool Arith Lia Lqa Permutation Sorted.
From Verif Require Import Base BaseFacts Numeric Study Fluent Output LP SpecStudy SpecLP StudyFacts LPFacts LPResult LPReady P_LP
  Analyzer SpecAnalyzer AnalyzerFacts P_Tables QueryFacts P_Query P_Reuse SumFacts SpecTotals P_Totals P_Cost Viewer ViewFacts SpecViewer P_Viewer.
Import ListNotations.
Open Scope nat_scope.
Open Scope string_scope.
Open Scope list_scope.

(** ** C60 *)
Lemma list_max_ok l : l <> [] -> exists m, list_max l = Ok m /\ In m l /\ forall q, In q l -> (q <= m)%Q.
Proof. destruct l as [|x l]; [congruence|]. intros _. destruct (max_spec l x) as ((q & I & E) & G). eexists. split; [reflexivity|]. rewrite E in *. auto. Qed.
Lemma list_min_ok l : l <> [] -> exists m, list_min l = Ok m /\ In m l /\ forall q, In q l -> (m <= q)%Q.
Proof. destruct l as [|x l]; [congruence|]. intros _. destruct (min_spec l x) as ((q & I & E) & G). eexists. split; [reflexivity|]. rewrite E in *. auto. Qed.
Lemma div_pos q m : (0 < q)%Q -> (q <= m)%Q -> (0 < q / m <= 1)%Q.
Proof.
  intros A B. assert (P : (0 < m)%Q) by lra. split; [apply Qlt_shift_div_l; auto; lra | apply Qle_shift_div_r; auto; lra].
Qed.
Lemma filter_nonempty {A} (p : A -> bool) l : filter p l <> [] <-> exists x, In x l /\ p x = true.
Proof.
  split.
  - destruct (filter p l) as [|x m] eqn:E; [congruence|]. intros _. exists x. apply filter_In. rewrite E. now left.
  - intros (x & I) E. apply filter_In in I. rewrite E in I. destruct I.
Qed.

(** The matrix is drawn exactly when it has a positive and a negative value. *)
Theorem C60_matrix_partial a : (exists q, In q (data a) /\ (0 < q)%Q) -> (exists q, In q (data a) /\ (q < 0)%Q) ->
  exists z, draw_matrix a = Ok (ND (shape a) z) /\ Forall2 colour_of (data a) z.
Proof.
  intros (p & Ip & Pp) (m & Im & Pm). unfold draw_matrix, sdt.
  destruct (list_max_ok (filter (fun q => qlt 0 q) (data a))) as (up & -> & Iu & Gu).
  { apply filter_nonempty. exists p. split; auto. now apply qlt_lt. }
  cbn [rbind]. apply filter_In in Iu as (Iu & Pu). apply qlt_lt in Pu. set (f := fun q => if qlt 0 q then (q / up)%Q else q).
  assert (Ff : forall q, (q < 0)%Q -> f q = q). { intros q L. unfold f. destruct (qlt 0 q) eqn:E; auto. apply qlt_lt in E. lra. }
  assert (Fp : forall q, In q (data a) -> (0 < q)%Q -> (0 < f q <= 1)%Q).
  { intros q I L. unfold f. rewrite (proj2 (qlt_lt 0 q) L). apply div_pos; auto. apply Gu, filter_In. split; auto. now apply qlt_lt. }
  assert (F0 : forall q, ~ (0 < q)%Q -> f q = q). { intros q L. unfold f. destruct (qlt 0 q) eqn:E; auto. apply qlt_lt in E. contradiction. }
  destruct (list_min_ok (filter (fun q => qlt q 0) (map f (data a)))) as (down & -> & Id & Gd).
  { apply filter_nonempty. exists m. split; [|now apply qlt_lt]. rewrite <- (Ff m Pm). now apply in_map. }
  cbn [rbind]. apply filter_In in Id as (Id & Pd). apply qlt_lt in Pd. eexists. split; [reflexivity|]. rewrite map_map.
  apply Forall2_map_r, Forall2_same. intros q I. destruct (Q_dec 0 q) as [[L|L]|L].
  - destruct (Fp q I L) as (A & B). destruct (qlt (f q) 0) eqn:E; [apply qlt_lt in E; lra|]. split; [lra|]. split; split; intros; lra.
  - rewrite (Ff q L). rewrite (proj2 (qlt_lt q 0) L).
    assert (B : (0 < (- q) / - down <= 1)%Q).
    { apply div_pos; [lra|]. assert (down <= q)%Q; [|lra]. apply Gd, filter_In. split; [|now apply qlt_lt]. rewrite <- (Ff q L). now apply in_map. }
    assert (E : (q / - down == - ((- q) / - down))%Q) by (field; lra). unfold colour_of. set (v := (q / - down)%Q) in *. set (w := ((- q) / - down)%Q) in *. clearbody v w. split; [lra|]. split; split; intros; lra.
  - rewrite F0 by lra. destruct (qlt q 0) eqn:E; [apply qlt_lt in E; lra|]. split; [lra|]. split; split; intros; lra.
Qed.
Theorem C60_one_sign a : (forall q, In q (data a) -> (0 <= q)%Q) \/ (forall q, In q (data a) -> (q <= 0)%Q) -> draw_matrix a = Err ValueError.
Proof.
  intros H. unfold draw_matrix, sdt. destruct (filter (fun q => qlt 0 q) (data a)) as [|x l] eqn:E; [reflexivity|].
  assert (NE : filter (fun q => qlt 0 q) (data a) <> []) by (rewrite E; discriminate). destruct (list_max_ok _ NE) as (up & Eu & Iu & Gu). rewrite <- E, Eu. cbn [rbind].
  apply filter_In in Iu as (Iu & Pu). apply qlt_lt in Pu. destruct H as [H|H]; [|specialize (H _ Iu); lra].
  replace (filter (fun q => qlt q 0) _) with (@nil Q); [reflexivity|]. symmetry. apply filter_none. intros q I. apply in_map_iff in I as (z & <- & I).
  destruct (qlt 0 z) eqn:L.
  - apply qlt_lt in L. apply qlt_false. assert (0 < z / up)%Q; [apply Qlt_shift_div_l; lra | lra].
  - apply qlt_false. auto.
Qed.

(** The title: share of scenarios and times where nothing is missing. *)
Theorem C64_rac_title bcast junk s r an net : api_study s -> mirrors s r -> new_analyzer bcast junk s r = Ok an ->
  forall pct z, rac_matrix an net = Ok (pct, z) ->
  (pct * qnat (st_nb_scn s * st_horizon s) ==
   100 * qnat (List.length (filter (fun st => Qle_bool 0 (remaining s r net (fst st) (snd st))) (list_prod (seq 0 (st_nb_scn s)) (seq 0 (st_horizon s))))))%Q.
Proof.
  intros A M N pct z E. destruct (dims_pos s A) as (Pn & Ph). destruct (remaining_of s r bcast junk an A M N net) as (g & R & G). unfold rac_matrix in E. rewrite R in E. cbn [rbind] in E.
  destruct (draw_matrix _) as [c|]; [|discriminate]. cbn [rbind] in E. injection E as <- _. unfold garr. cbn [data]. rewrite grid_length.
  assert (EL : List.length (filter (fun q => qle 0 q) (grid (st_nb_scn s) (st_horizon s) g)) =
    List.length (filter (fun st => Qle_bool 0 (remaining s r net (fst st) (snd st))) (list_prod (seq 0 (st_nb_scn s)) (seq 0 (st_horizon s))))).
  { unfold grid. assert (X : forall l m, (forall a b, In a l -> In b m -> (g a b == remaining s r net a b)%Q) ->
      List.length (filter (fun q => qle 0 q) (flat_map (fun a => map (fun b => g a b) m) l)) =
      List.length (filter (fun st => Qle_bool 0 (remaining s r net (fst st) (snd st))) (list_prod l m))).
    { induction l as [|a l IH]; intros m H; auto. cbn [flat_map list_prod]. rewrite !filter_app, !app_length. rewrite (IH m) by (intros; apply H; auto; now right). f_equal.
      assert (Y : forall m, (forall b, In b m -> (g a b == remaining s r net a b)%Q) -> List.length (filter (fun q => qle 0 q) (map (fun b => g a b) m)) =
        List.length (filter (fun st => Qle_bool 0 (remaining s r net (fst st) (snd st))) (map (fun y => (a, y)) m))).
      { clear. induction m as [|b m IH]; intros H; auto. cbn [map filter fst snd]. unfold qle at 1. rewrite (H b (or_introl eq_refl)).
        destruct (Qle_bool 0 (remaining s r net a b)); cbn [List.length]; rewrite IH; auto; intros; apply H; now right. }
      apply Y. intros b I. apply H; auto. now left. }
    apply X. intros a b I J. apply in_seq in I. apply in_seq in J. apply G; lia. }
  rewrite EL. field. unfold qnat, Qeq, inject_Z. cbn [Qnum Qden]. assert (0 < st_nb_scn s * st_horizon s) by nia. lia.
Qed.

(** ** C58 *)
Lemma preimages {X Y} (P : X -> Prop) (g : X -> Y) l : (forall y, In y l -> exists x, P x /\ y = g x) -> exists xs, l = map g xs /\ Forall P xs.
Proof.
  induction l as [|y l IH]; intros H; [exists []; auto|]. destruct (H y (or_introl eq_refl)) as (x & Px & ->). destruct IH as (xs & -> & F); [intros; apply H; now right|].
  exists (x :: xs). auto.
Qed.
Lemma foldM_run {A B} (f : B -> A -> res B) (Inv : B -> Prop) (Ext : B -> B -> Prop) (Done : A -> B -> Prop) :
  (forall b, Ext b b) -> (forall a b c, Ext a b -> Ext b c -> Ext a c) -> (forall x a b, Done x a -> Ext a b -> Done x b) ->
  forall l, (forall b x, In x l -> Inv b -> exists b', f b x = Ok b' /\ Inv b' /\ Ext b b' /\ Done x b') ->
  forall b, Inv b -> exists b', foldM f l b = Ok b' /\ Inv b' /\ Ext b b' /\ forall x, In x l -> Done x b'.
Proof.
  intros R T D l. induction l as [|x l IH]; intros H b I; cbn [foldM].
  - exists b. split; auto. split; auto. split; auto. intros ? [].
  - destruct (H b x (or_introl eq_refl) I) as (b1 & -> & I1 & E1 & D1). cbn [rbind].
    destruct (IH ltac:(intros; apply H; auto; now right) b1 I1) as (b2 & -> & I2 & E2 & D2). exists b2. split; auto. split; auto. split; [eauto|].
    intros y [<-|J]; eauto.
Qed.

Section Map.
  Variables (s : study) (r : result) (bcast : bool) (junk : nat -> string -> nat -> cell) (an : analyzer).
  Hypotheses (Api : api_study s) (M : mirrors s r) (New : new_analyzer bcast junk s r = Ok an).
  Local Notation h := (st_horizon s).
  Local Notation n := (st_nb_scn s).
  Let W : study_wf s := proj1 (api_facts s Api).
  Variables (net : string) (scn t : nat).
  Hypotheses (Ls : scn < n) (Lt : t < h).
  Local Notation LE := (string * string * link * olink)%type.
  Let row (x : LE) := erow link_row x scn t.
  Let query := [(ANetwork, str net); (AScn, int (Z.of_nat scn)); (ATime, int (Z.of_nat t)); (ANode, INone); (ALink, INone)].

  Lemma map_whole : whole ALink query.
  Proof.
    unfold whole, query. cbn [map fst]. apply perm_skip. transitivity [AScn; ANode; ATime; ALink]; [apply perm_skip, perm_swap|].
    transitivity [ANode; AScn; ATime; ALink]; [apply perm_swap|]. apply perm_skip. transitivity [AScn; ALink; ATime]; [apply perm_skip, perm_swap|]. apply perm_swap.
  Qed.
  Lemma map_matches x scn' t' : matches query (erow link_row x scn' t') <-> enet x = net /\ scn' = scn /\ t' = t.
  Proof.
    unfold matches, query. split.
    - intros H. assert (H1 := H ANetwork (str net) ltac:(simpl; tauto)). assert (H2 := H AScn (int (Z.of_nat scn)) ltac:(simpl; tauto)). assert (H3 := H ATime (int (Z.of_nat t)) ltac:(simpl; tauto)).
      cbn in H1, H2, H3. destruct x as [[[a b] l] o]. unfold erow, link_row in *. cbn in H1, H2, H3. injection H1. injection H2. injection H3. unfold enet. cbn. intros. repeat split; auto; lia.
    - destruct x as [[[a b] l] o]. unfold enet. cbn [fst]. intros (-> & -> & ->) ax y I. simpl in I. repeat (destruct I as [I|I]; [injection I as <- <-; reflexivity || exact Logic.I|]). destruct I.
  Qed.

  (** The links of the network, in the order of the answer. *)
  Definition link_line (x : LE) : list cell * trow := ([CStr (enode x); CStr (ename l_dest x)], snd (line (query_names query) link_cols (row x))).
  Lemma map_fetch : exists xs lv, fetch an (str net) [(AScn, int (Z.of_nat scn)); (ATime, int (Z.of_nat t)); (ANode, INone); (ALink, INone)] = Ok (Frame lv (map link_line xs)) /\
    (xs <> [] -> lv = ["node"; "dest"]) /\ level_pos "node" lv <> Err KeyError /\ (forall x, In x xs <-> In x (links_of s r) /\ enet x = net).
  Proof.
    assert (Dec : (exists x, In x (links_of s r) /\ enet x = net) \/ forall x, In x (links_of s r) -> enet x <> net).
    { induction (links_of s r) as [|x l IH]; [right; intros ? []|]. destruct (string_dec (enet x) net) as [E|E]; [left; exists x; split; [left|]; auto|].
      destruct IH as [(y & I & Ey)|IH]; [left; exists y; split; [right|]; auto | right; intros y [<-|I]; auto]. }
    pose proof (shelf_link s r bcast junk an Api M New) as Sh. destruct (dims_pos s Api) as (Pn & Ph).
    destruct Dec as [(x & Ix & Ex)|None].
    - destruct (fetch_some _ _ _ _ _ _ _ _ _ _ _ _ Sh [(ANetwork, CStr net); (AScn, CInt (Z.of_nat scn)); (ATime, CInt (Z.of_nat t))] ANode [(ALink, INone)] net
        [(AScn, int (Z.of_nat scn)); (ATime, int (Z.of_nat t)); (ANode, INone); (ALink, INone)]) as (target & F & IN & _).
      + reflexivity.
      + exact map_whole.
      + intros b y [E|[]]. congruence.
      + intros c I. simpl in I. destruct I as [I|[I|[I|[]]]]; try discriminate I. injection I as <-. eauto.
      + intros ? [].
      + exists x, scn, t. split; auto. split; auto. split; auto. apply (map_matches x scn t). auto.
      + destruct (preimages (fun x => In x (links_of s r) /\ enet x = net) row target) as (xs & -> & Fx).
        { intros y Iy. apply IN in Iy as ((z & scn' & t' & Iz & _ & _ & ->) & My). apply (map_matches z scn' t') in My as (E & -> & ->). exists z. auto. }
        exists xs, ["node"; "dest"]. split; [|split; [auto|split; [discriminate|]]].
        * rewrite F. f_equal. f_equal. unfold lines_of. rewrite map_map. apply map_ext. intros [[[a b] l] o]. unfold link_line, row. f_equal.
        * intros y. split; [intros I; rewrite Forall_forall in Fx; auto|]. intros (Iy & Ey).
          assert (Ir : In (row y) (map row xs)). { apply IN. split; [exists y, scn, t; auto|]. apply (map_matches y scn t). auto. }
          apply in_map_iff in Ir as (z & Er & Iz). rewrite Forall_forall in Fx. destruct (Fx z Iz) as (Iz' & _).
          assert (z = y); [|now subst]. apply (same_element _ _ _ _ _ _ _ _ _ _ _ _ Sh Pn Ph z y Iz' Iy).
          -- pose proof (f_equal (cell_of "network") Er) as E. unfold row in E. rewrite !(cell_net _ _ _ _ _ _ _ _ _ _ _ _ Sh) in E. now injection E.
          -- pose proof (f_equal (cell_of "node") Er) as E. unfold row in E. rewrite !(cell_node _ _ _ _ _ _ _ _ _ _ _ _ Sh) in E. now injection E.
          -- pose proof (f_equal (cell_of (axis_column ALink)) Er) as E. unfold row in E. rewrite !(cell_name _ _ _ _ _ _ _ _ _ _ _ _ Sh) in E. now injection E.
    - exists [], (query_names query). split; [|split; [congruence|split; [discriminate|]]].
      + pose proof (sh_table _ _ _ _ _ _ _ _ _ _ _ Sh) as Tb. rewrite app_nil_r in Tb. apply (fetch_eq an ALink _ _ [Index ANetwork false [CStr net]; Index AScn false [CInt (Z.of_nat scn)]; Index ATime false [CInt (Z.of_nat t)]; Index ANode true []; Index ALink true []]).
        * eapply sh_kind; exact Sh.
        * exact map_whole.
        * reflexivity.
        * unfold an_filter. cbn [check_index existsb ix_axis axis_eqb orb andb]. cbn in Tb. injection Tb as Tb. rewrite Tb. unfold pivot.
          replace (forallb _ _) with true by reflexivity. cbn [tb_rows tb_cols].
          replace (filter (fun r0 => forallb (fun i => ix_keeps i r0) _) _) with (@nil trow); [reflexivity|]. symmetry. apply filter_none. intros rr I.
          apply blocks_In in I as (x & scn' & t' & Ix & _ & _ & ->). apply (forallb_false _ _ (Index ANetwork false [CStr net])); [simpl; tauto|].
          unfold ix_keeps. cbn [ix_all ix_index]. change (ix_column (Index ANetwork false [CStr net])) with "network". rewrite (cell_net _ _ _ _ _ _ _ _ _ _ _ _ Sh).
          apply mem_nIn. intros [E|[]]. injection E as E. now apply (None x Ix).
      + intros x. split; [intros [] | intros (I & E); destruct (None x I E)].
  Qed.

  Variables (xs : list LE) (lv : list string).
  Hypotheses (Lv : xs <> [] -> lv = ["node"; "dest"]) (IN : forall x, In x xs <-> In x (links_of s r) /\ enet x = net).
  Let f := Frame lv (map link_line xs).
  Let used (x : LE) : Q := entry (ol_qty (snd x)) scn t.

  Lemma links_once x y : In x xs -> In y xs -> enode x = enode y -> ename l_dest x = ename l_dest y -> x = y.
  Proof.
    intros I J E1 E2. apply IN in I as (I & Nx). apply IN in J as (J & Ny). destruct (dims_pos s Api) as (Pn & Ph).
    apply (same_element _ _ _ _ _ _ _ _ _ _ _ _ (shelf_link s r bcast junk an Api M New) Pn Ph x y I J); congruence.
  Qed.
  Lemma find_here x : In x xs -> find_line f (CStr (enode x)) (CStr (ename l_dest x)) = Some (link_line x).
  Proof.
    intros I. unfold find_line, f. cbn [fr_rows].
    destruct (find (fun l => eqb (fst l) [CStr (enode x); CStr (ename l_dest x)]) (map link_line xs)) as [l|] eqn:E.
    - apply find_some in E as (J & K). apply eqb_eq in K. apply in_map_iff in J as (y & <- & J). cbn [link_line fst] in K. injection K as K1 K2. f_equal. f_equal. now apply links_once.
    - exfalso. pose proof (find_none _ _ E (link_line x) (in_map _ _ _ I)) as K. cbn [link_line fst] in K. rewrite eqb_refl in K. discriminate.
  Qed.
  Lemma find_nothing a b : (forall x, In x xs -> enode x = a -> ename l_dest x <> b) -> find_line f (CStr a) (CStr b) = None.
  Proof.
    intros H. unfold find_line, f. cbn [fr_rows]. destruct (find _ _) as [l|] eqn:E; auto. apply find_some in E as (J & K). apply eqb_eq in K.
    apply in_map_iff in J as (y & <- & J). cbn [link_line fst] in K. injection K as K1 K2. destruct (H y J K1 K2).
  Qed.
  Lemma used_here x : In x xs -> line_used f (CStr (enode x)) (CStr (ename l_dest x)) = Ok (CNum (norm (used x))).
  Proof.
    intros I. unfold line_used. rewrite find_here by auto. unfold link_line. cbn [snd]. rewrite line_value.
    - destruct x as [[[a b] l] o]. unfold row, erow, used. cbn [fst snd]. cbv [link_row cell_of]. cbn [app dget eqb]. reflexivity.
    - unfold link_cols. simpl. tauto.
    - unfold query. cbn. intros J. repeat (destruct J as [J|J]; [discriminate J|]). exact J.
  Qed.
  Lemma carried_here x : In x xs -> carried s r net (enode x) (ename l_dest x) scn t (norm (used x)).
  Proof.
    intros I. apply IN in I as (I & E). destruct x as [[[a b] l] o]. left. exists l, o. split; [|split; [reflexivity | apply norm_eq]].
    apply (is_element_In n_links on_links s r W M). unfold enet, enode in *. cbn [fst snd] in *. now subst a.
  Qed.
  Lemma link_dec a b : (exists x, In x xs /\ enode x = a /\ ename l_dest x = b) \/ forall x, In x xs -> enode x = a -> ename l_dest x <> b.
  Proof.
    clear IN Lv f. induction xs as [|x l IH]; [right; intros ? []|]. destruct (string_dec (enode x) a) as [E1|E1], (string_dec (ename l_dest x) b) as [E2|E2].
    1: left; exists x; split; [left|]; auto.
    all: destruct IH as [(y & I & Ey)|IH]; [left; exists y; split; [right|]; auto | right; intros y [<-|I]; auto; congruence].
  Qed.
  Lemma carried_none a b : (forall x, In x xs -> enode x = a -> ename l_dest x <> b) -> carried s r net a b scn t 0.
  Proof.
    intros H. right. split; [|reflexivity]. intros l o El E. apply (is_element_In n_links on_links s r W M) in El. apply (H (net, a, l, o)); auto. apply IN. split; auto.
  Qed.
  Lemma back_value a b : exists q, (match find_line f (CStr a) (CStr b) with Some _ => line_used f (CStr a) (CStr b) | None => Ok (CNum 0) end) = Ok (CNum q) /\ carried s r net a b scn t q.
  Proof.
    destruct (link_dec a b) as [(x & I & <- & <-)|H].
    - exists (norm (used x)). rewrite find_here, used_here by auto. split; auto. now apply carried_here.
    - exists 0%Q. rewrite find_nothing by auto. split; auto. now apply carried_none.
  Qed.
  Lemma linked_iff a b : linked s net a b <-> exists x, In x xs /\ enode x = a /\ ename l_dest x = b.
  Proof.
    split.
    - intros (nn & l & N & I & E). destruct (mirror_node_l s r M net a nn N) as (rn & R & L). pose proof (nl_links _ _ _ L) as FL.
      apply In_nth_error in I as (i & Ei). destruct (Forall2_get _ _ _ _ _ FL Ei) as (o & Eo & _).
      exists (net, a, l, o). split; [|split; auto]. apply IN. split; auto. apply (is_element_In n_links on_links s r W M). exists nn, rn, i. auto.
    - intros ([[[a' b'] l] o] & I & <- & <-). apply IN in I as (I & E). apply (is_element_In n_links on_links s r W M) in I as (nn & rn & i & N & _ & Ei & _).
      unfold enet, enode in *. cbn [fst snd] in *. subst a'. exists nn, l. split; auto. split; auto. eapply nth_error_In; eauto.
  Qed.

  (** One line. *)
  Let step lines src dest :=
      let* go := line_used f src dest in
      let* back := match find_line f dest src with Some _ => line_used f dest src | None => Ok (CNum 0) end in
      let ex := cell_op Qminus go back in
      Ok (if cell_nonneg ex then dset (src, dest) ex lines else dset (dest, src) (cell_neg ex) lines).
  Definition good_lines (lines : dict (cell * cell) cell) : Prop := NoDup (dkeys lines) /\
    forall c d v, dget (c, d) lines = Some v -> exists a b q, c = CStr a /\ d = CStr b /\ holds v q /\ (0 <= q)%Q /\
      net_flow s r net a b scn t q /\ (linked s net a b \/ linked s net b a).
  Definition drawn_line (x : LE) (lines : dict (cell * cell) cell) : Prop :=
    In (CStr (enode x), CStr (ename l_dest x)) (dkeys lines) \/ In (CStr (ename l_dest x), CStr (enode x)) (dkeys lines).

  Lemma good_dset lines a b q : good_lines lines -> (0 <= q)%Q -> net_flow s r net a b scn t q -> linked s net a b \/ linked s net b a ->
    good_lines (dset (CStr a, CStr b) (CNum q) lines).
  Proof.
    intros (N & H) P F K. split; [now apply NoDup_dset|]. intros c d v E. destruct (eqb_dec (c, d) (CStr a, CStr b)) as [Ek|D].
    - injection Ek as -> ->. rewrite dget_dset_eq in E. injection E as <-. exists a, b, q. repeat (split; auto). exists q. split; auto. reflexivity.
    - rewrite dget_dset_neq in E by auto. eauto.
  Qed.
  Lemma step_ok lines x : In x xs -> good_lines lines -> exists lines', step lines (CStr (enode x)) (CStr (ename l_dest x)) = Ok lines' /\
    good_lines lines' /\ incl (dkeys lines) (dkeys lines') /\ drawn_line x lines'.
  Proof.
    intros I G. unfold step. rewrite used_here by auto. cbn [rbind]. destruct (back_value (ename l_dest x) (enode x)) as (q & -> & C). cbn [rbind cell_op cell_nonneg].
    pose proof (carried_here x I) as C'. assert (K : linked s net (enode x) (ename l_dest x)) by (apply linked_iff; eauto).
    destruct (qle 0 (norm (used x) - q)) eqn:E.
    - apply Qle_bool_iff in E. eexists. split; [reflexivity|]. split; [|split].
      + apply good_dset; auto. exists (norm (used x)), q. split; auto. split; auto. reflexivity.
      + intros k J. apply In_dkeys_dset. auto.
      + left. apply In_dkeys_dset. auto.
    - assert (L : (norm (used x) - q < 0)%Q). { apply Qnot_le_lt. intros L. apply Qle_bool_iff in L. unfold qle in E. congruence. }
      eexists. split; [reflexivity|]. cbn [cell_neg]. split; [|split].
      + apply good_dset; auto; [lra|]. exists q, (norm (used x)). split; auto. split; auto. ring.
      + intros k J. apply In_dkeys_dset. auto.
      + right. apply In_dkeys_dset. auto.
  Qed.

  Lemma all_dests a : (exists x, In x xs /\ enode x = a) -> exists ds, dests f (CStr a) = Ok ds /\ forall d, In d ds <-> exists x, In x xs /\ enode x = a /\ d = CStr (ename l_dest x).
  Proof.
    intros (x & I & E). unfold dests.
    assert (NE : xs <> []) by (intros Z; rewrite Z in I; destruct I).
    replace (in_index (CStr a) f) with true.
    2:{ symmetry. unfold in_index, f. cbn [fr_rows]. apply existsb_exists. exists (link_line x). split; [now apply in_map|]. cbn [link_line fst]. rewrite E. apply eqb_refl. }
    unfold level_values, frame_loc, f. cbn [fr_levels fr_rows]. rewrite (Lv NE). cbn [tl level_pos]. change (String.eqb "dest" "dest") with true. cbn [rbind]. eexists. split; [reflexivity|].
    intros d. rewrite (proj2 (unique_spec _) d), in_map_iff. split.
    - intros (l & <- & J). apply in_flat_map in J as (m & J & K). apply in_map_iff in J as (y & <- & J). cbn [link_line fst] in K.
      destruct (eqb (CStr (enode y)) (CStr a)) eqn:B; [|destruct K]. apply eqb_eq in B. injection B as B. destruct K as [<-|[]]. cbn [fst nth]. eauto.
    - intros (y & J & B & ->). eexists. split; [|apply in_flat_map; exists (link_line y); split; [now apply in_map|]; cbn [link_line fst]; rewrite B, eqb_refl; left; reflexivity]. reflexivity.
  Qed.

  Lemma lines_ok : level_pos "node" lv <> Err KeyError -> exists lines,
    (let* srcs := level_values "node" f in
     foldM (fun lines src => let* ds := dests f src in foldM (fun lines dest => step lines src dest) ds lines) srcs []) = Ok lines /\
    good_lines lines /\ forall x, In x xs -> drawn_line x lines.
  Proof.
    intros Ln. assert (Srcs : exists srcs, level_values "node" f = Ok srcs /\ forall c, In c srcs <-> exists x, In x xs /\ c = CStr (enode x)).
    { unfold level_values, f. cbn [fr_levels fr_rows]. destruct xs as [|x0 l0] eqn:Ex.
      - destruct (level_pos "node" lv) as [i|e] eqn:El; [|exfalso; apply Ln; clear - El; revert El; induction lv as [|y l IH]; cbn; [congruence|]; destruct (String.eqb y "node"); [congruence|];
          destruct (level_pos "node" l) as [|e'] eqn:E'; cbn; [congruence|]; intros Z; injection Z as ->; now rewrite IH].
        cbn [rbind map]. exists []. split; [reflexivity|]. intros c. split; [intros [] | intros (x & [] & _)].
      - rewrite <- Ex in *. rewrite Lv by (rewrite Ex; discriminate). cbn [level_pos]. change (String.eqb "node" "node") with true. cbn [rbind]. eexists. split; [reflexivity|].
        intros c. rewrite (proj2 (unique_spec _) c), map_map, in_map_iff. cbn [link_line fst nth]. split; intros (x & A & B); eauto. }
    destruct Srcs as (srcs & -> & HS). cbn [rbind].
    destruct (foldM_run (fun lines src => let* ds := dests f src in foldM (fun lines dest => step lines src dest) ds lines) good_lines (fun a b => incl (dkeys a) (dkeys b))
      (fun src lines => forall x, In x xs -> src = CStr (enode x) -> drawn_line x lines)) with (l := srcs) (b := @nil ((cell * cell) * cell)) as (lines & E & G & _ & D).
    - intros b. apply incl_refl.
    - intros a b c. apply incl_tran.
    - intros src a b D I x Ix E. destruct (D x Ix E) as [K|K]; [left | right]; auto.
    - intros lines src Is G. apply HS in Is as (x & Ix & ->). destruct (all_dests (enode x)) as (ds & -> & HD); [eauto|]. cbn [rbind].
      destruct (foldM_run (fun lines dest => step lines (CStr (enode x)) dest) good_lines (fun a b => incl (dkeys a) (dkeys b))
        (fun dest lines => forall y, In y xs -> enode y = enode x -> dest = CStr (ename l_dest y) -> drawn_line y lines)) with (l := ds) (b := lines) as (lines' & E & G' & I' & D'); auto.
      + intros b. apply incl_refl.
      + intros a b c. apply incl_tran.
      + intros dest a b D I y Iy E1 E2. destruct (D y Iy E1 E2) as [K|K]; [left | right]; auto.
      + intros b dest Id Gb. apply HD in Id as (y & Iy & Ey & ->). rewrite <- Ey. destruct (step_ok b y Iy Gb) as (b' & E & G' & I' & D'). exists b'. split; auto. split; auto. split; auto.
        intros z Iz Ez E'. injection E' as E'. assert (z = y) by (apply links_once; auto; congruence). now subst.
      + exists lines'. split; auto. split; auto. split; auto. intros z Iz Ez. injection Ez as Ez. apply (D' (CStr (ename l_dest z))); auto. apply HD. eauto.
    - split; [constructor|]. intros c d v E. discriminate.
    - exists lines. split; auto. split; auto. intros x I. apply (D (CStr (enode x))); auto. apply HS. eauto.
  Qed.
End Map.

Lemma nd_get2_garr n h g i j : i < n -> j < h -> nd_get2 (garr n h g) (Z.of_nat i) (Z.of_nat j) = Ok (g i j).
Proof. intros A B. unfold nd_get2, garr. cbn [shape data]. rewrite !pyindex_nat by auto. unfold lnth. now rewrite nth_error_grid. Qed.

Lemma map_nodes bcast junk s r an net scn t ns : api_study s -> mirrors s r -> new_analyzer bcast junk s r = Ok an ->
  dget net (st_networks s) = Some ns -> scn < st_nb_scn s -> t < st_horizon s -> exists nodes,
  mapM (fun nd => let* b := get_balance an nd net in let* q := nd_get2 b (Z.of_nat scn) (Z.of_nat t) in Ok (nd, q)) (dkeys ns) = Ok nodes /\
  dkeys nodes = dkeys ns /\ forall nd q, In (nd, q) nodes -> (q == balance r net nd scn t)%Q.
Proof.
  intros A M N D Ls Lt. generalize (dkeys ns). induction l as [|nd l IH]; [exists []; split; [|split]; auto; intros ? ? []|].
  destruct IH as (nodes & E & K & B). destruct (balance_of s r bcast junk an A M N net nd) as (g & Eb & G). cbn [mapM]. rewrite Eb. cbn [rbind]. rewrite nd_get2_garr by auto. cbn [rbind].
  rewrite E. cbn [rbind]. exists ((nd, g scn t) :: nodes). split; auto. split; [unfold dkeys in *; cbn [map fst]; now rewrite K|].
  intros nd' q [Z|I]; [injection Z as <- <-; auto | auto].
Qed.

Theorem C58_map_partial bcast junk s r an net scn t limit : api_study s -> mirrors s r -> new_analyzer bcast junk s r = Ok an ->
  (exists nd, has_node s net nd) -> scn < st_nb_scn s -> t < st_horizon s ->
  exists v, map_view an net (Z.of_nat t) (Z.of_nat scn) limit = Ok v /\ map_of s r net scn t (em_nodes v) (em_lines v) /\
    match limit with None => covers (em_limit v) (em_nodes v) | Some q => em_limit v = q end.
Proof.
  intros A M N (nd0 & Hn) Ls Lt.
  assert (Es : an_study an = s) by (destruct (analyzer_tables s r bcast junk an A M N) as (E & _); exact E).
  assert (D : exists ns, dget net (st_networks s) = Some ns /\ dkeys ns <> []).
  { unfold has_node, node_at in Hn. destruct (dget net (st_networks s)) as [ns|]; [|destruct Hn; congruence]. exists ns. split; auto.
    destruct ns; [cbn in Hn; destruct Hn; congruence | discriminate]. }
  destruct D as (ns & D & NE). destruct (map_nodes bcast junk s r an net scn t ns A M N D Ls Lt) as (nodes & En & K & B).
  destruct (map_fetch s r bcast junk an A M N net scn t Ls Lt) as (xs & lv & F & Lv & Ln & IN).
  destruct (lines_ok s r bcast junk an A M N net scn t xs lv Lv IN Ln) as (lines & E & (G1 & G2) & G3).
  unfold map_view. rewrite Es. unfold dlook. rewrite D. cbn [rbind]. rewrite En. cbn [rbind].
  assert (Mo : map_of s r net scn t nodes lines).
  { constructor; eauto. intros a b K'. apply (linked_iff s r A M net xs IN) in K'; auto. destruct K' as (x & Ix & <- & <-). destruct (G3 x Ix) as [J|J]; apply In_keys_dget in J as (v & J); eauto. }
  assert (Lim : exists q, match limit with Some q => Ok q | None => let* up := list_max (map snd nodes) in let* down := list_min (map snd nodes) in Ok (qmax up (- down)%Q) end = Ok q /\
    match limit with None => covers q nodes | Some q' => q = q' end).
  { destruct limit as [q|]; [eauto|]. assert (NE' : map snd nodes <> []). { intros Z. apply map_eq_nil in Z. rewrite Z in K. cbn in K. congruence. }
    destruct (list_max_ok _ NE') as (up & -> & Iu & Gu). destruct (list_min_ok _ NE') as (down & -> & Id & Gd). cbn [rbind]. eexists. split; [reflexivity|].
    apply in_map_iff in Iu as ((nu & qu) & Eu & Iu). apply in_map_iff in Id as ((nd & qd) & Ed & Id). cbn [snd] in *. subst qu qd. unfold qmax. split.
    - intros nd' q I. assert (Iq : In q (map snd nodes)) by (apply in_map_iff; exists (nd', q); auto). pose proof (Gu _ Iq). pose proof (Gd _ Iq).
      destruct (qlt up (- down)) eqn:L; [apply qlt_lt in L | apply qlt_false in L]; lra.
    - destruct (qlt up (- down)); [exists nd, down | exists nu, up]; split; auto; [right | left]; reflexivity. }
  destruct Lim as (q & -> & HL). cbn [rbind]. rewrite F. cbn [rbind].
  destruct (level_values "node" _) as [srcs|] eqn:El; [|discriminate]. cbn [rbind] in *. rewrite E. cbn [rbind]. eexists. split; [reflexivity|]. cbn [em_nodes em_limit em_lines]. auto.
Qed.

(** A colour limit chosen by the user can be exceeded. *)
Theorem C58_given_limit_refuted : exists s r an net scn t q v, api_study s /\ mirrors s r /\ new_analyzer true no_junk s r = Ok an /\
  (exists nd, has_node s net nd) /\ scn < st_nb_scn s /\ t < st_horizon s /\ map_view an net (Z.of_nat t) (Z.of_nat scn) (Some q) = Ok v /\
  exists nd b, In (nd, b) (em_nodes v) /\ (em_limit v < b)%Q.
Proof.
  exists mix, mix_result, mix_an, "elec", 0, 0, 5%Q. eexists. split; [apply mix_api|]. split; [apply mix_mirrors|]. split; [apply mix_an_new|].
  split; [exists "a"; vm_compute; eauto; discriminate|]. split; [vm_compute; lia|]. split; [vm_compute; lia|]. split; [vm_compute; reflexivity|].
  exists "b", 8%Q. split; [right; left; reflexivity | reflexivity].
Qed.

Example C58_example : exists v, map_view mix_an "elec" 0 0 None = Ok v /\ em_nodes v = [("a", (-8)%Q); ("b", 8%Q)] /\ em_limit v = 8%Q /\ em_lines v = [((CStr "b", CStr "a"), CNum 8)].
Proof. eexists. split; [vm_compute; reflexivity|]. auto. Qed.
(** Nodes without links. *)
Example C58_no_links_example : exists v, map_view mix_an "gas" 1 1 None = Ok v /\ dkeys (em_nodes v) = ["g"] /\ em_lines v = [].
Proof. eexists. split; [vm_compute; reflexivity|]. auto. Qed.

Example C60_example : exists q, In q [(4 # 1)%Q; (-2)%Q; 5%Q; 0%Q] /\ draw_matrix (ND [2; 2] [(4 # 1)%Q; (-2)%Q; 5%Q; 0%Q]) = Ok (ND [2; 2] [(4 # 5)%Q; (-2 # 2)%Q; (5 # 5)%Q; 0%Q]).
Proof. exists 5%Q. split; [simpl; tauto | vm_compute; reflexivity]. Qed.
Example C60_real_example : exists pct z, rac_matrix mix_an "elec" = Ok (pct, z) /\ (pct == 75)%Q /\ shape z = [2; 2].
Proof. do 2 eexists. split; [vm_compute; reflexivity|]. split; reflexivity. Qed.

(** Enough capacity everywhere: the matrix of the gas network is not drawn. *)
Theorem C60_matrix_refuted : exists answer s r an net, api_study s /\ solved answer s r /\ (forall scn, scn < st_nb_scn s -> feasible_answer answer s scn) /\
  new_analyzer true no_junk s r = Ok an /\ (exists nd, has_node s net nd) /\ rac_matrix an net = Err ValueError.
Proof.
  exists mix_answer, mix, mix_result, mix_an, "gas". split; [apply mix_api|]. split; [apply mix_solved|]. split; [intros scn L; apply mix_feasible; exact L|]. split; [apply mix_an_new|].
  split; [exists "g"; vm_compute; eauto; discriminate | vm_compute; reflexivity].
Qed.

Print Assumptions C60_matrix_partial.
Print Assumptions C60_one_sign.
Print Assumptions C60_matrix_refuted.
Print Assumptions C64_rac_title.
Print Assumptions C58_map_partial.
Print Assumptions C58_given_limit_refuted.
