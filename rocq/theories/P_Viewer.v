(** Properties C61 and C62: monotone, timeline and gaussian views. *)
From Coq Require Import String Ascii List ZArith QArith Bool Arith Lia Lqa Permutation Sorted.
From Verif Require Import Base BaseFacts Numeric Study Fluent Output LP SpecStudy SpecLP StudyFacts LPFacts LPResult LPReady P_LP
  Analyzer SpecAnalyzer AnalyzerFacts P_Tables P_Exact QueryFacts P_Query P_Reuse SumFacts SpecTotals P_Totals P_Cost Viewer ViewFacts SpecViewer.
Import ListNotations.
Open Scope nat_scope.
Open Scope string_scope.
Open Scope list_scope.

(** ** C61 *)
Lemma nums_sorted l : exists l', isort cell_le (map CNum l) = map CNum l' /\ Permutation l' l /\ StronglySorted (fun a b => (a <= b)%Q) l'.
Proof.
  assert (P := isort_perm cell_le (map CNum l)).
  assert (So : StronglySorted (fun a b => cell_le a b = true) (isort cell_le (map CNum l))).
  { apply (isort_sorted cell_le (fun c => exists q, c = CNum q)).
    - intros a b (x & ->) (y & ->). cbn. unfold qle. rewrite !Qle_bool_iff. destruct (Qlt_le_dec x y); [left | right]; lra.
    - intros a b c (x & ->) (y & ->) (z & ->). cbn. unfold qle. rewrite !Qle_bool_iff. lra.
    - apply Forall_map, Forall_forall. eauto. }
  destruct (Permutation_map_inv _ _ P) as (l' & E & P'). rewrite E in *. exists l'. split; auto. split; [now apply Permutation_sym|].
  clear - So. induction l' as [|x l IH]; [constructor|]. cbn in So. inversion So as [|? ? S' F]; subst. constructor; auto.
  apply Forall_forall. intros y I. rewrite Forall_forall in F. specialize (F (CNum y) (in_map CNum _ _ I)). cbn in F. unfold qle in F. now apply Qle_bool_iff.
Qed.
Lemma rev_sorted {A} (R : A -> A -> Prop) l : StronglySorted R l -> StronglySorted (fun a b => R b a) (rev l).
Proof.
  induction 1 as [|x l S IH F]; [constructor|]. cbn [rev]. apply sorted_app; auto; [repeat constructor|].
  intros a b I J. apply in_rev in I. destruct J as [<-|[]]. rewrite Forall_forall in F. auto.
Qed.

(** Every list of numbers. *)
Theorem C61_drawn_series l : exists l', draw_monotone (map CNum l) = map CNum l' /\ Permutation l' l /\ StronglySorted (fun a b => (b <= a)%Q) l'.
Proof.
  destruct (nums_sorted l) as (l' & E & P & So). exists (rev l'). unfold draw_monotone. rewrite E, map_rev. split; auto. split.
  - rewrite <- P. apply Permutation_sym, Permutation_rev.
  - now apply rev_sorted in So.
Qed.

(** Every array, NaN included: the same values, as often. *)
Theorem C61_drawn_cells l : Permutation (draw_monotone l) l.
Proof. unfold draw_monotone. rewrite <- Permutation_rev. apply isort_perm. Qed.

Lemma Forall2_map_r {A B C} (P : A -> C -> Prop) (f : B -> C) l m : Forall2 P l (map f m) <-> Forall2 (fun a b => P a (f b)) l m.
Proof.
  revert m. induction l as [|a l IH]; intros [|b m]; split; intros H; inversion H; subst; cbn in *; try constructor; auto; now apply IH.
Qed.
Lemma Forall2_map_l {A B C} (P : C -> B -> Prop) (f : A -> C) l m : Forall2 P (map f l) m <-> Forall2 (fun a b => P (f a) b) l m.
Proof.
  revert m. induction l as [|a l IH]; intros [|b m]; split; intros H; inversion H; subst; cbn in *; try constructor; auto; now apply IH.
Qed.
Lemma Forall2_same {A} (P : A -> A -> Prop) l : (forall x, In x l -> P x x) -> Forall2 P l l.
Proof. induction l; intros H; constructor; auto; [apply H; left; auto | apply IHl; intros; apply H; right; auto]. Qed.

Lemma holds_norm q : holds (CNum (norm q)) q. Proof. exists (norm q). split; auto. apply norm_eq. Qed.
Lemma shows_norm l : shows (map (fun q => CNum (norm q)) l) l.
Proof. unfold shows. apply Forall2_map_l, Forall2_same. intros. apply holds_norm. Qed.

Lemma monotone_norm values : monotone_of values (draw_monotone (map (fun q => CNum (norm q)) values)).
Proof.
  rewrite <- map_map. destruct (C61_drawn_series (map norm values)) as (l & -> & P & So).
  destruct (Permutation_map_inv _ _ P) as (l' & -> & P'). exists l'. split; [|split].
  - rewrite map_map. apply shows_norm.
  - now apply Permutation_sym.
  - clear - So. induction l' as [|x l IH]; [constructor|]. cbn in So. inversion So as [|? ? S' F]; subst. constructor; auto.
    apply Forall_forall. intros y I. rewrite Forall_forall in F. specialize (F (norm y) (in_map norm _ _ I)). cbn beta in F. now rewrite !norm_eq in F.
Qed.

Section Element.
  Variables (X : Type) (an : analyzer) (el : axis) (n h : nat) (els : list X) (row : X -> nat -> nat -> trow) (knet knode kname : X -> string) (cols : list string) (sur : list trow).
  Hypotheses (Sh : shelf an el n h els row knet knode kname cols sur) (Pn : 0 < n) (Ph : 0 < h).
  Variable (x : X).
  Hypotheses (Ix : In x els) (Cl : forall r, In r sur -> strange el [CStr (knet x); CStr (knode x); CStr (kname x)] r).
  Variables (col : string) (f : nat -> nat -> Q).
  Hypotheses (Cin : In col cols) (Cout : ~ In col ["network"; "node"; axis_column el; "scn"; "t"]) (Val : forall scn t, cell_of col (row x scn t) = CNum (f scn t)).

  Lemma Cout' : ~ In col (names_ts el). Proof. intros I. apply Cout. unfold names_ts in I. simpl in *. tauto. Qed.

  Lemma scn_column scn : scn < n -> (let* f := fetch an (str (knet x)) [(ANode, str (knode x)); (el, str (kname x)); (AScn, int (Z.of_nat scn)); (ATime, INone)] in column col f) =
    Ok (map (fun t => CNum (norm (f scn t))) (seq 0 h)).
  Proof.
    intros L. rewrite (fetch_scn X an el n h els row knet knode kname cols sur Sh Pn Ph x Ix Cl scn L). cbn [rbind].
    rewrite column_lines by auto. f_equal. apply map_ext. intros t. now rewrite Val, mean_norm.
  Qed.
  Lemma t_column t : t < h -> (let* f := fetch an (str (knet x)) [(ANode, str (knode x)); (el, str (kname x)); (ATime, int (Z.of_nat t)); (AScn, INone)] in column col f) =
    Ok (map (fun scn => CNum (norm (f scn t))) (seq 0 n)).
  Proof.
    intros L. rewrite (fetch_t X an el n h els row knet knode kname cols sur Sh Pn Ph x Ix Cl t L). cbn [rbind].
    rewrite (column_lines (names_ts el) cols col ["scn"] (fun scn => [CInt (Z.of_nat scn)]) (fun scn => row x scn t)) by (auto using Cout'). f_equal. apply map_ext. intros scn. now rewrite Val, mean_norm.
  Qed.
  Lemma all_column : (let* f := fetch an (str (knet x)) [(ANode, str (knode x)); (el, str (kname x)); (ATime, INone); (AScn, INone)] in column col f) =
    Ok (grid h n (fun t scn => CNum (norm (f scn t)))).
  Proof.
    rewrite (fetch_all' X an el n h els row knet knode kname cols sur Sh Pn Ph x Ix Cl). cbn [rbind].
    assert (E : grid h n (fun t scn => ([CInt (Z.of_nat t); CInt (Z.of_nat scn)], snd (line (names_ts el) cols (row x scn t)))) =
      map (fun ts => ([CInt (Z.of_nat (fst ts)); CInt (Z.of_nat (snd ts))], snd (line (names_ts el) cols (row x (snd ts) (fst ts))))) (grid h n (fun t scn => (t, scn)))).
    { rewrite map_grid. reflexivity. }
    rewrite E. rewrite (column_lines (names_ts el) cols col ["t"; "scn"] (fun ts => [CInt (Z.of_nat (fst ts)); CInt (Z.of_nat (snd ts))]) (fun ts => row x (snd ts) (fst ts)))
      by (auto using Cout'). f_equal. rewrite map_grid. apply grid_ext. intros t scn _ _. cbn [fst snd]. now rewrite Val, mean_norm.
  Qed.

  (** Monotone. *)
  Lemma monotone_scn scn : scn < n -> exists y, monotone an (knet x) (knode x) el (kname x) col None (Some (Z.of_nat scn)) = Ok y /\
    monotone_of (map (f scn) (seq 0 h)) y.
  Proof.
    intros L. unfold monotone. pose proof (scn_column scn L) as E. destruct (fetch an _ _) as [g|]; [|discriminate]. cbn [rbind] in *. rewrite E. cbn [rbind].
    eexists. split; [reflexivity|]. rewrite <- (map_map (f scn) (fun q => CNum (norm q))). apply monotone_norm.
  Qed.
  Lemma monotone_t t : t < h -> exists y, monotone an (knet x) (knode x) el (kname x) col (Some (Z.of_nat t)) None = Ok y /\
    monotone_of (map (fun scn => f scn t) (seq 0 n)) y.
  Proof.
    intros L. unfold monotone. pose proof (t_column t L) as E. destruct (fetch an _ _) as [g|]; [|discriminate]. cbn [rbind] in *. rewrite E. cbn [rbind].
    eexists. split; [reflexivity|]. rewrite <- (map_map (fun scn => f scn t) (fun q => CNum (norm q))). apply monotone_norm.
  Qed.

  (** Timeline. *)
  Lemma loc_grid scn : scn < n -> forall g, frame_loc (CInt (Z.of_nat scn)) (Frame ["scn"; "t"] (grid n h (fun scn t => ([CInt (Z.of_nat scn); CInt (Z.of_nat t)], g scn t)))) =
    Frame ["t"] (map (fun t => ([CInt (Z.of_nat t)], g scn t)) (seq 0 h)).
  Proof.
    intros L g. unfold frame_loc. cbn [fr_levels fr_rows tl]. f_equal. unfold grid.
    assert (G : forall m k, k <= scn < k + m -> flat_map (fun l : list cell * trow => match fst l with c :: kk => if eqb c (CInt (Z.of_nat scn)) then [(kk, snd l)] else [] | [] => [] end)
       (flat_map (fun a => map (fun t => ([CInt (Z.of_nat a); CInt (Z.of_nat t)], g a t)) (seq 0 h)) (seq k m)) = map (fun t => ([CInt (Z.of_nat t)], g scn t)) (seq 0 h)).
    { assert (Same : forall ts, flat_map (fun l : list cell * trow => match fst l with c :: kk => if eqb c (CInt (Z.of_nat scn)) then [(kk, snd l)] else [] | [] => [] end)
         (map (fun t => ([CInt (Z.of_nat scn); CInt (Z.of_nat t)], g scn t)) ts) = map (fun t => ([CInt (Z.of_nat t)], g scn t)) ts).
      { induction ts as [|t ts IH]; auto. cbn [map flat_map fst snd]. rewrite eqb_refl. cbn [app]. now rewrite IH. }
      assert (Other : forall a ts, a <> scn -> flat_map (fun l : list cell * trow => match fst l with c :: kk => if eqb c (CInt (Z.of_nat scn)) then [(kk, snd l)] else [] | [] => [] end)
         (map (fun t => ([CInt (Z.of_nat a); CInt (Z.of_nat t)], g a t)) ts) = []).
      { intros a ts D. induction ts as [|t ts IH]; auto. cbn [map flat_map fst snd]. rewrite (proj2 (eqb_neq _ _)); [exact IH|]. intros E. injection E. lia. }
      induction m as [|m IH]; intros k K; [lia|]. cbn [seq flat_map]. rewrite flat_map_app. destruct (Nat.eq_dec k scn) as [->|D].
      - rewrite Same. replace (flat_map _ (flat_map _ (seq (S scn) m))) with (@nil (list cell * trow)); [apply app_nil_r|].
        symmetry. assert (Z : forall m k, scn < k -> flat_map (fun l : list cell * trow => match fst l with c :: kk => if eqb c (CInt (Z.of_nat scn)) then [(kk, snd l)] else [] | [] => [] end)
          (flat_map (fun a => map (fun t => ([CInt (Z.of_nat a); CInt (Z.of_nat t)], g a t)) (seq 0 h)) (seq k m)) = []).
        { clear - Other. induction m as [|m IH]; intros k K; auto. cbn [seq flat_map]. rewrite flat_map_app, Other, IH by lia. reflexivity. }
        apply Z. lia.
      - rewrite Other by auto. cbn [app]. apply IH. lia. }
    apply G. lia.
  Qed.
  Lemma unique_grid g : unique (map (fun l : list cell * trow => nth 0 (fst l) CNaN) (grid n h (fun scn t => ([CInt (Z.of_nat scn); CInt (Z.of_nat t)], g scn t)))) =
    map (fun k => CInt (Z.of_nat k)) (seq 0 n).
  Proof.
    rewrite map_grid. cbn [fst nth]. unfold grid, unique.
    assert (Rep : forall a ts seen rest, In (CInt (Z.of_nat a)) seen -> unique_from seen (map (fun _ : nat => CInt (Z.of_nat a)) ts ++ rest) = unique_from seen rest).
    { intros a ts seen rest I. induction ts as [|b l IH]; auto. cbn [map app unique_from]. now rewrite (proj2 (mem_In _ _) I). }
    assert (G : forall m k seen, (forall j, In (CInt (Z.of_nat j)) seen -> j < k) ->
       unique_from seen (flat_map (fun a => map (fun _ => CInt (Z.of_nat a)) (seq 0 h)) (seq k m)) = map (fun k => CInt (Z.of_nat k)) (seq k m)).
    { induction m as [|m IH]; intros k seen Hs; auto. cbn [seq flat_map map]. destruct h as [|h']; [lia|]. cbn [seq map app unique_from].
      destruct (mem (CInt (Z.of_nat k)) seen) eqn:Em; [apply mem_In in Em; apply Hs in Em; lia|]. f_equal. rewrite Rep by (left; auto). apply IH.
      intros j [J|J]; [injection J; lia | apply Hs in J; lia]. }
    apply G. intros j [].
  Qed.
  Lemma timeline_ok : exists c, timeline an (knet x) (knode x) el (kname x) col = Ok c /\ timeline_of n h f c.
  Proof.
    unfold timeline. rewrite (fetch_all X an el n h els row knet knode kname cols sur Sh Pn Ph x Ix Cl). cbn [rbind].
    set (g := fun scn t => snd (line (names_st el) cols (row x scn t))).
    change (grid n h (fun scn t => ([CInt (Z.of_nat scn); CInt (Z.of_nat t)], snd (line (names_st el) cols (row x scn t))))) with
      (grid n h (fun scn t => ([CInt (Z.of_nat scn); CInt (Z.of_nat t)], g scn t))).
    assert (Ec : exists y, column col (Frame ["scn"; "t"] (grid n h (fun scn t => ([CInt (Z.of_nat scn); CInt (Z.of_nat t)], g scn t)))) = Ok y).
    { assert (E : grid n h (fun scn t => ([CInt (Z.of_nat scn); CInt (Z.of_nat t)], g scn t)) =
        map (fun st => ([CInt (Z.of_nat (fst st)); CInt (Z.of_nat (snd st))], snd (line (names_st el) cols (row x (fst st) (snd st))))) (grid n h (fun scn t => (scn, t)))).
      { rewrite map_grid. reflexivity. }
      rewrite E. eexists. apply (column_lines (names_st el) cols col ["scn"; "t"] (fun st => [CInt (Z.of_nat (fst st)); CInt (Z.of_nat (snd st))]) (fun st => row x (fst st) (snd st))); auto. }
    destruct Ec as (y & Ec). rewrite Ec. cbn [rbind]. clear y Ec. unfold level_values. cbn [fr_levels level_pos]. change (String.eqb "scn" "scn") with true. cbn [rbind fr_rows].
    rewrite unique_grid. destruct n as [|n'] eqn:En; [lia|]. cbn [seq map]. rewrite <- En in *.
    change (CInt (Z.of_nat 0) :: map (fun k => CInt (Z.of_nat k)) (seq 1 n')) with (map (fun k => CInt (Z.of_nat k)) (seq 0 (S n'))). rewrite <- En.
    assert (G : forall ks, (forall k, In k ks -> k < n) -> exists c, mapM (fun s => if in_index s (Frame ["scn"; "t"] (grid n h (fun scn t => ([CInt (Z.of_nat scn); CInt (Z.of_nat t)], g scn t))))
         then let* y := column col (frame_loc s (Frame ["scn"; "t"] (grid n h (fun scn t => ([CInt (Z.of_nat scn); CInt (Z.of_nat t)], g scn t))))) in Ok (s, y) else Err KeyError)
         (map (fun k => CInt (Z.of_nat k)) ks) = Ok c /\ Forall2 (fun scn (c : cell * list cell) => fst c = CInt (Z.of_nat scn) /\ shows (snd c) (map (f scn) (seq 0 h))) ks c).
    { induction ks as [|k ks IH]; intros K; [exists []; split; [reflexivity | constructor]|]. cbn [map mapM].
      replace (in_index (CInt (Z.of_nat k)) _) with true.
      2:{ symmetry. unfold in_index. apply existsb_exists. exists ([CInt (Z.of_nat k); CInt (Z.of_nat 0)], g k 0). split; [|cbn; apply Z.eqb_refl].
          cbn [fr_rows]. apply grid_In. exists k, 0. repeat split; auto. apply K; left; auto. }
      rewrite loc_grid by (apply K; left; auto). unfold g at 1.
      rewrite (column_lines (names_st el) cols col ["t"] (fun t => [CInt (Z.of_nat t)]) (fun t => row x k t)) by auto. cbn [rbind].
      destruct IH as (c & E & F); [intros; apply K; right; auto|]. rewrite E. cbn [rbind]. eexists. split; [reflexivity|]. constructor; auto. cbn [fst snd]. split; auto.
      erewrite map_ext; [|intros t; rewrite Val, mean_norm; reflexivity]. rewrite <- (map_map (f k) (fun q => CNum (norm q))). apply shows_norm. }
    apply G. intros k I. apply in_seq in I. lia.
  Qed.
End Element.

(** ** Gaussian *)
Lemma max_spec : forall l x, (exists q, In q (x :: l) /\ fold_left qmax l x = q) /\ forall q, In q (x :: l) -> (q <= fold_left qmax l x)%Q.
Proof.
  induction l as [|y l IH]; intros x; cbn [fold_left].
  - split; [exists x; split; [left|]; auto|]. intros q [<-|[]]. lra.
  - destruct (IH (qmax x y)) as ((q & I & E) & G). split.
    + exists q. split; auto. destruct I as [<-|I]; [|right; right; auto]. unfold qmax. destruct (qlt x y); simpl; auto.
    + assert (Gm := G _ (or_introl eq_refl)). unfold qmax at 1 in Gm. intros z [<-|[<-|I']]; [| |apply G; right; auto].
      * destruct (qlt x y) eqn:L; [apply qlt_lt in L; lra | auto].
      * destruct (qlt x y) eqn:L; [auto | apply qlt_false in L; lra].
Qed.
Lemma min_spec : forall l x, (exists q, In q (x :: l) /\ fold_left qmin l x = q) /\ forall q, In q (x :: l) -> (fold_left qmin l x <= q)%Q.
Proof.
  induction l as [|y l IH]; intros x; cbn [fold_left].
  - split; [exists x; split; [left|]; auto|]. intros q [<-|[]]. lra.
  - destruct (IH (qmin x y)) as ((q & I & E) & G). split.
    + exists q. split; auto. destruct I as [<-|I]; [|right; right; auto]. unfold qmin. destruct (qlt y x); simpl; auto.
    + assert (Gm := G _ (or_introl eq_refl)). assert (Gm' : (qmin x y <= x)%Q /\ (qmin x y <= y)%Q).
      { unfold qmin. destruct (qlt y x) eqn:L; [apply qlt_lt in L | apply qlt_false in L]; lra. }
      intros z [<-|[<-|I']]; [lra | lra | apply G; right; auto].
Qed.
Lemma pick_filter {A} (p : Q -> bool) (l : list A) : forall rac, List.length rac = List.length l ->
  pick (map p rac) l = Ok (map fst (filter (fun vr => p (snd vr)) (combine l rac))).
Proof.
  intros rac L. unfold pick. rewrite map_length, L, Nat.eqb_refl. f_equal. revert rac L. induction l as [|x l IH]; intros [|q rac] L; try discriminate; auto.
  cbn [map combine filter fst snd]. injection L as L. destruct (p q); cbn [map snd fst]; now rewrite IH.
Qed.
Lemma Forall2_sums (f g : Q -> Q) l m : (forall a b, (a == b)%Q -> (f a == g b)%Q) -> Forall2 Qeq l m -> (qsum (map f l) == qsum (map g m))%Q.
Proof. intros H. induction 1 as [|a b l m E F IH]; [reflexivity|]. cbn [map qsum fold_right]. fold (qsum (map f l)) (qsum (map g m)). rewrite IH, (H _ _ E). reflexivity. Qed.
Lemma Forall2_Qin l m : Forall2 Qeq l m -> (forall q, In q l -> exists q', In q' m /\ (q == q')%Q) /\ (forall q', In q' m -> exists q, In q l /\ (q == q')%Q).
Proof.
  induction 1 as [|a b l m E F [IH1 IH2]]; [split; intros ? []|]. split; intros q [<-|I].
  - exists b. split; [left|]; auto.
  - destruct (IH1 _ I) as (z & Iz & Ez). exists z. split; [right|]; auto.
  - exists a. split; [left|]; auto.
  - destruct (IH2 _ I) as (z & Iz & Ez). exists z. split; [right|]; auto.
Qed.
Lemma split_points (p q : Q -> bool) : (forall a b, (a == b)%Q -> p a = q b) -> forall l l' m m', Forall2 Qeq l l' -> Forall2 Qeq m m' ->
  Forall2 Qeq (map fst (filter (fun vr => p (snd vr)) (combine l m))) (map fst (filter (fun vr => q (snd vr)) (combine l' m'))).
Proof.
  intros H l l' m m' F. revert m m'. induction F as [|a b l l' E F IH]; intros m m' G; [constructor|]. destruct G as [|c d m m' E' G]; [constructor|].
  cbn [combine filter fst snd]. rewrite (H _ _ E'). destruct (q d); cbn [map fst]; auto.
Qed.

Lemma draw_gaussian_ok rac rac' qt values : Forall2 Qeq rac rac' -> Forall2 Qeq qt values -> List.length rac = List.length values -> values <> [] ->
  exists g, draw_gaussian rac qt = Ok g /\ gaussian_of values rac' (ga_mean g) (ga_var g) (ga_max g) (ga_green g) (ga_red g).
Proof.
  intros FR FV L NE. assert (LV : List.length qt = List.length values) by (eapply Forall2_len; eauto). assert (LR : List.length rac = List.length rac') by (eapply Forall2_len; eauto).
  destruct qt as [|x l]; [destruct values; [congruence | discriminate]|].
  unfold draw_gaussian. cbn [list_min list_max rbind]. rewrite !pick_filter by (rewrite LV, L; auto). cbn [rbind]. eexists. split; [reflexivity|].
  assert (NZ : ~ (qnat (List.length (x :: l)) == 0)%Q). { unfold qnat, Qeq, inject_Z. simpl. lia. }
  assert (LM : forall f : Q -> Q, List.length (map f (x :: l)) = List.length (x :: l)) by (intros f; apply map_length).
  constructor; cbn [ga_mean ga_var ga_max ga_green ga_red].
  - congruence.
  - unfold average. rewrite <- LV. fold (qnat (List.length (x :: l))). setoid_replace (qsum (x :: l) / qnat (List.length (x :: l)) * qnat (List.length (x :: l)))%Q with (qsum (x :: l)) by (field; auto).
    rewrite <- (map_id (x :: l)). apply (Forall2_sums (fun q => q) (fun q => q)); auto.
  - unfold average at 1. rewrite LM. rewrite <- LV. fold (qnat (List.length (x :: l))). set (m := average (x :: l)).
    setoid_replace (qsum (map (fun x0 : Q => ((x0 - m) * (x0 - m))%Q) (x :: l)) / qnat (List.length (x :: l)) * qnat (List.length (x :: l)))%Q with
      (qsum (map (fun x0 : Q => ((x0 - m) * (x0 - m))%Q) (x :: l))) by (field; auto).
    apply (Forall2_sums (fun q => ((q - m) * (q - m))%Q) (fun q => ((q - m) * (q - m))%Q)); auto. intros a b E. now rewrite E.
  - destruct (max_spec l x) as ((q & I & E) & G). destruct (Forall2_Qin _ _ FV) as (F1 & F2). split.
    + destruct (F1 _ I) as (z & Iz & Ez). exists z. split; auto. now rewrite E.
    + intros z I'. destruct (F2 _ I') as (w & Iw & Ew). rewrite <- Ew. now apply G.
  - apply (split_points (fun x => qle 0 x) (fun x => Qle_bool 0 x)); auto. intros a b E. unfold qle. now rewrite E.
  - apply (split_points (fun x => qlt x 0) (fun x => negb (Qle_bool 0 x))); auto. intros a b E. unfold qlt. now rewrite E.
Qed.

Lemma mapM_all {A B} (f : A -> res B) g l : (forall x, In x l -> f x = Ok (g x)) -> mapM f l = Ok (map g l).
Proof. induction l as [|x l IH]; intros H; auto. cbn [mapM map]. rewrite (H x (or_introl eq_refl)). cbn [rbind]. rewrite IH; auto. intros; apply H; right; auto. Qed.
Lemma pyindex_nat n k : k < n -> pyindex n (Z.of_nat k) = Some k.
Proof. intros L. unfold pyindex. rewrite (proj2 (Z.leb_le _ _)) by lia. rewrite (proj2 (Z.ltb_lt _ _)) by lia. cbn [andb]. now rewrite Nat2Z.id. Qed.
Lemma nd_row_garr n h g k : k < n -> nd_row (garr n h g) (Z.of_nat k) = Ok (map (g k) (seq 0 h)).
Proof.
  intros L. unfold nd_row, garr. cbn [shape data]. rewrite pyindex_nat by auto. f_equal. unfold grid.
  assert (G : forall m a, a <= k < a + m -> firstn h (skipn ((k - a) * h) (flat_map (fun a => map (fun b => g a b) (seq 0 h)) (seq a m))) = map (g k) (seq 0 h)).
  { induction m as [|m IH]; intros a Ha; [lia|]. cbn [seq flat_map]. destruct (Nat.eq_dec a k) as [->|D].
    - rewrite Nat.sub_diag. cbn [Nat.mul skipn]. rewrite firstn_app, map_length, seq_length, Nat.sub_diag. cbn [firstn]. rewrite app_nil_r. apply firstn_all2. now rewrite map_length, seq_length.
    - replace ((k - a) * h) with (h + (k - S a) * h) by (replace (k - a) with (S (k - S a)) by lia; reflexivity).
      rewrite skipn_app, map_length, seq_length. rewrite skipn_all2 by (rewrite map_length, seq_length; apply Nat.le_add_r). cbn [app].
      replace (h + (k - S a) * h - h) with ((k - S a) * h) by (rewrite Nat.add_comm; symmetry; apply Nat.add_sub). apply IH. lia. }
  specialize (G n 0). rewrite Nat.sub_0_r in G. apply G. lia.
Qed.
Lemma nd_col_garr n h g k : k < h -> nd_col (garr n h g) (Z.of_nat k) = Ok (map (fun i => g i k) (seq 0 n)).
Proof.
  intros L. unfold nd_col, garr. cbn [shape data]. rewrite pyindex_nat by auto. apply mapM_all. intros i I. apply in_seq in I.
  unfold lnth. now rewrite nth_error_grid by lia.
Qed.
Lemma numbers_nums l : numbers (map CNum l) = Ok l.
Proof. unfold numbers. rewrite mapM_map. erewrite mapM_all; [|reflexivity]. now rewrite map_id. Qed.

Section Gauss.
  Variables (n h : nat) (f : nat -> nat -> Q) (rac : nat -> nat -> Q) (g : nat -> nat -> Q).
  Hypotheses (Pn : 0 < n) (Ph : 0 < h) (G : forall scn t, scn < n -> t < h -> (g scn t == rac scn t)%Q).
  Lemma seq_eq (a b : nat -> Q) m : (forall k, k < m -> (a k == b k)%Q) -> Forall2 Qeq (map a (seq 0 m)) (map b (seq 0 m)).
  Proof. intros H. apply Forall2_map_l, Forall2_map_r, Forall2_same. intros k I. apply in_seq in I. apply H. lia. Qed.
  Lemma drawn_gauss_scn scn : scn < n -> exists z, draw_gaussian (map (g scn) (seq 0 h)) (map (fun t => norm (f scn t)) (seq 0 h)) = Ok z /\
    gaussian_of (map (f scn) (seq 0 h)) (map (rac scn) (seq 0 h)) (ga_mean z) (ga_var z) (ga_max z) (ga_green z) (ga_red z).
  Proof.
    intros L. apply draw_gaussian_ok; [apply seq_eq; auto | apply seq_eq; intros; apply norm_eq | now rewrite !map_length | destruct h; [lia | discriminate]].
  Qed.
  Lemma drawn_gauss_t t : t < h -> exists z, draw_gaussian (map (fun scn => g scn t) (seq 0 n)) (map (fun scn => norm (f scn t)) (seq 0 n)) = Ok z /\
    gaussian_of (map (fun scn => f scn t) (seq 0 n)) (map (fun scn => rac scn t) (seq 0 n)) (ga_mean z) (ga_var z) (ga_max z) (ga_green z) (ga_red z).
  Proof.
    intros L. apply draw_gaussian_ok; [apply seq_eq; auto | apply seq_eq; intros; apply norm_eq | now rewrite !map_length | destruct n; [lia | discriminate]].
  Qed.
End Gauss.

(** The column of an element in the table of its kind. *)
Inductive drawn (an : analyzer) (n h : nat) (net nd : string) (el : axis) (name col : string) (f : nat -> nat -> Q) : Prop :=
| Drawn (X : Type) (els : list X) row knet knode kname cols sur x : shelf an el n h els row knet knode kname cols sur -> In x els ->
    (forall r, In r sur -> strange el [CStr (knet x); CStr (knode x); CStr (kname x)] r) ->
    knet x = net -> knode x = nd -> kname x = name -> In col cols -> ~ In col ["network"; "node"; axis_column el; "scn"; "t"] ->
    (forall scn t, cell_of col (row x scn t) = CNum (f scn t)) -> drawn an n h net nd el name col f.

Section Drawn.
  Variables (an : analyzer) (n h : nat) (net nd : string) (el : axis) (name col : string) (f : nat -> nat -> Q).
  Hypotheses (Pn : 0 < n) (Ph : 0 < h) (D : drawn an n h net nd el name col f).

  Lemma drawn_monotone_scn scn : scn < n -> exists y, monotone an net nd el name col None (Some (Z.of_nat scn)) = Ok y /\ monotone_of (map (f scn) (seq 0 h)) y.
  Proof. intros L. destruct D as [X els row knet knode kname cols sur x Sh Ix Cl <- <- <- Ci Co V]. eapply monotone_scn; eauto. Qed.
  Lemma drawn_monotone_t t : t < h -> exists y, monotone an net nd el name col (Some (Z.of_nat t)) None = Ok y /\ monotone_of (map (fun scn => f scn t) (seq 0 n)) y.
  Proof. intros L. destruct D as [X els row knet knode kname cols sur x Sh Ix Cl <- <- <- Ci Co V]. eapply monotone_t; eauto. Qed.
  Lemma drawn_timeline : exists c, timeline an net nd el name col = Ok c /\ timeline_of n h f c.
  Proof. destruct D as [X els row knet knode kname cols sur x Sh Ix Cl <- <- <- Ci Co V]. eapply timeline_ok; eauto. Qed.
  Lemma drawn_scn scn : scn < n -> exists g, fetch an (str net) [(ANode, str nd); (el, str name); (AScn, int (Z.of_nat scn)); (ATime, INone)] = Ok g /\
    column col g = Ok (map (fun t => CNum (norm (f scn t))) (seq 0 h)).
  Proof.
    intros L. destruct D as [X els row knet knode kname cols sur x Sh Ix Cl <- <- <- Ci Co V].
    pose proof (scn_column X an el n h els row knet knode kname cols sur Sh Pn Ph x Ix Cl col f Ci Co V scn L) as E. destruct (fetch an _ _) as [g|]; [|discriminate]. eauto.
  Qed.
  Lemma drawn_t t : t < h -> exists g, fetch an (str net) [(ANode, str nd); (el, str name); (ATime, int (Z.of_nat t)); (AScn, INone)] = Ok g /\
    column col g = Ok (map (fun scn => CNum (norm (f scn t))) (seq 0 n)).
  Proof.
    intros L. destruct D as [X els row knet knode kname cols sur x Sh Ix Cl <- <- <- Ci Co V].
    pose proof (t_column X an el n h els row knet knode kname cols sur Sh Pn Ph x Ix Cl col f Ci Co V t L) as E. destruct (fetch an _ _) as [g|]; [|discriminate]. eauto.
  Qed.
  Lemma drawn_all : exists g, fetch an (str net) [(ANode, str nd); (el, str name); (ATime, INone); (AScn, INone)] = Ok g /\
    column col g = Ok (grid h n (fun t scn => CNum (norm (f scn t)))).
  Proof.
    destruct D as [X els row knet knode kname cols sur x Sh Ix Cl <- <- <- Ci Co V].
    pose proof (all_column X an el n h els row knet knode kname cols sur Sh Pn Ph x Ix Cl col f Ci Co V) as E. destruct (fetch an _ _) as [g|]; [|discriminate]. eauto.
  Qed.

  Variables (rac : nat -> nat -> Q) (g : nat -> nat -> Q).
  Hypotheses (R : get_rac an net = Ok (garr n h g)) (G : forall scn t, scn < n -> t < h -> (g scn t == rac scn t)%Q).

  Lemma drawn_gaussian_scn scn : scn < n -> exists z, gaussian an net nd el name col None (Some (Z.of_nat scn)) = Ok z /\
    gaussian_of (map (f scn) (seq 0 h)) (map (rac scn) (seq 0 h)) (ga_mean z) (ga_var z) (ga_max z) (ga_green z) (ga_red z).
  Proof.
    intros L. destruct (drawn_scn scn L) as (fr & E & C). unfold gaussian. cbn [opt]. rewrite E. cbn [rbind]. rewrite C, R. cbn [rbind]. rewrite nd_row_garr by auto. cbn [rbind].
    rewrite <- (map_map (fun t => norm (f scn t)) CNum), numbers_nums. cbn [rbind]. apply (drawn_gauss_scn n h); auto.
  Qed.
  Lemma drawn_gaussian_t t : t < h -> exists z, gaussian an net nd el name col (Some (Z.of_nat t)) None = Ok z /\
    gaussian_of (map (fun scn => f scn t) (seq 0 n)) (map (fun scn => rac scn t) (seq 0 n)) (ga_mean z) (ga_var z) (ga_max z) (ga_green z) (ga_red z).
  Proof.
    intros L. destruct (drawn_t t L) as (fr & E & C). unfold gaussian. rewrite E. cbn [rbind]. rewrite C, R. cbn [rbind]. rewrite nd_col_garr by auto. cbn [rbind].
    rewrite <- (map_map (fun scn => norm (f scn t)) CNum), numbers_nums. cbn [rbind]. apply (drawn_gauss_t n h); auto.
  Qed.
End Drawn.

Section ConvDrawn.
  Variables (an : analyzer) (n h : nat) (net nd : string) (el : axis) (name : string) (f : nat -> nat -> Q).
  Hypotheses (Pn : 0 < n) (Ph : 0 < h) (D : drawn an n h net nd el name "flow" f).
  Variables (rac : nat -> nat -> Q) (g : nat -> nat -> Q).
  Hypotheses (R : get_rac an net = Ok (garr n h g)) (G : forall scn t, scn < n -> t < h -> (g scn t == rac scn t)%Q).

  Lemma conv_gaussian_t t : t < h -> exists z, converter_gaussian an net nd el name (Some (Z.of_nat t)) None = Ok z /\
    gaussian_of (map (fun scn => f scn t) (seq 0 n)) (map (fun scn => rac scn t) (seq 0 n)) (ga_mean z) (ga_var z) (ga_max z) (ga_green z) (ga_red z).
  Proof.
    intros L. destruct (drawn_t an n h net nd el name "flow" f Pn Ph D t L) as (fr & E & C). unfold converter_gaussian. rewrite E. cbn [rbind]. rewrite C, R. cbn [rbind]. rewrite nd_col_garr by auto. cbn [rbind].
    rewrite <- (map_map (fun scn => norm (f scn t)) CNum), numbers_nums. cbn [rbind]. apply (drawn_gauss_t n h); auto.
  Qed.
  Lemma conv_gaussian_one : n = 1 -> exists z, converter_gaussian an net nd el name None (Some 0%Z) = Ok z /\
    gaussian_of (map (f 0) (seq 0 h)) (map (rac 0) (seq 0 h)) (ga_mean z) (ga_var z) (ga_max z) (ga_green z) (ga_red z).
  Proof.
    intros N. destruct (drawn_all an n h net nd el name "flow" f Pn Ph D) as (fr & E & C). unfold converter_gaussian. rewrite E. cbn [rbind]. rewrite C, R. cbn [rbind].
    change 0%Z with (Z.of_nat 0). rewrite nd_row_garr by lia. cbn [rbind].
    replace (grid h n (fun t scn => CNum (norm (f scn t)))) with (map CNum (map (fun t => norm (f 0 t)) (seq 0 h))).
    2:{ rewrite N. unfold grid. cbn [seq map]. generalize (seq 0 h). induction l as [|a l IH]; auto. cbn [map flat_map app]. now rewrite IH. }
    rewrite numbers_nums. cbn [rbind]. apply (drawn_gauss_scn n h); auto; lia.
  Qed.
  Lemma conv_gaussian_many scn : 2 <= n -> scn < n -> converter_gaussian an net nd el name None (Some (Z.of_nat scn)) = Err IndexError.
  Proof.
    intros N L. destruct (drawn_all an n h net nd el name "flow" f Pn Ph D) as (fr & E & C). unfold converter_gaussian. rewrite E. cbn [rbind]. rewrite C, R. cbn [rbind].
    rewrite nd_row_garr by auto. cbn [rbind].
    replace (grid h n (fun t scn => CNum (norm (f scn t)))) with (map CNum (grid h n (fun t scn => norm (f scn t)))) by (now rewrite map_grid).
    rewrite numbers_nums. cbn [rbind]. unfold draw_gaussian.
    assert (LG := grid_length h n (fun t scn => norm (f scn t))).
    destruct (grid h n (fun t scn => norm (f scn t))) as [|x l] eqn:EG; [simpl in LG; destruct n, h; simpl in LG; lia|].
    cbn [list_min list_max rbind]. unfold pick. rewrite !map_length, seq_length, LG.
    destruct (Nat.eqb_spec h (h * n)) as [B|B]; [destruct n as [|[|m]]; [lia | lia | nia] | reflexivity].
  Qed.
End ConvDrawn.

(** ** Elements of a study *)
Section Elements.
  Variables (s : study) (r : result) (bcast : bool) (junk : nat -> string -> nat -> cell) (an : analyzer).
  Hypotheses (Api : api_study s) (M : mirrors s r) (New : new_analyzer bcast junk s r = Ok an).
  Local Notation h := (st_horizon s).
  Local Notation n := (st_nb_scn s).
  Let W : study_wf s := proj1 (api_facts s Api).

  Lemma quantity_drawn net nd el name col f : quantity s r net nd el name col f -> drawn an n h net nd el name col f.
  Proof.
    assert (NI : forall el, is_kind el -> forall c, In c ["asked"; "given"; "avail"; "used"] -> ~ In c ["network"; "node"; axis_column el; "scn"; "t"]).
    { intros e K c I J. simpl in I, J. destruct e; try (now destruct K); cbn in J;
        repeat (destruct I as [<-|I]; [repeat (destruct J as [J|J]; [discriminate J|]); exact J|]); exact I. }
    intros Q. destruct Q as [c o I|c o I|p o I|p o I|l o I|l o I].
    1,2: apply (is_element_In n_cons on_cons s r W M) in I;
      apply (Drawn _ _ _ _ _ _ _ _ _ _ _ _ _ _ _ _ _ (net, nd, c, o) (shelf_cons s r bcast junk an Api M New)); auto;
      [intros ? [] | unfold cons_cols; simpl; tauto | apply NI; [eapply sh_kind; exact (shelf_cons s r bcast junk an Api M New) | simpl; tauto]].
    1,2: apply (is_element_In n_prods on_prods s r W M) in I;
      apply (Drawn _ _ _ _ _ _ _ _ _ _ _ _ _ _ _ _ _ (net, nd, p, o) (shelf_prod s r bcast junk an Api M New)); auto;
      [intros ? [] | unfold prod_cols; simpl; tauto | apply NI; [eapply sh_kind; exact (shelf_prod s r bcast junk an Api M New) | simpl; tauto]].
    1,2: apply (is_element_In n_links on_links s r W M) in I;
      apply (Drawn _ _ _ _ _ _ _ _ _ _ _ _ _ _ _ _ _ (net, nd, l, o) (shelf_link s r bcast junk an Api M New)); auto;
      [intros ? [] | unfold link_cols; simpl; tauto | apply NI; [eapply sh_kind; exact (shelf_link s r bcast junk an Api M New) | simpl; tauto]].
  Qed.

  Lemma conv_drawn net nd el name f : analysable s -> one_block s el name -> conv_flow s r net nd el name f -> drawn an n h net nd el name "flow" f.
  Proof.
    intros (Co & Fit & Le) Ob Q. destruct (convs_facts s r Api M) as (F & _). rewrite Forall_forall in F. destruct Q as [v q a name (rv & V & R & Dq & Da)|v rv name V R E1 E2].
    - pose proof (convs_In s r Api M name v rv V R) as I. assert (NE : convs_of s r <> []) by (intros E; now rewrite E in I).
      destruct (shelf_src s r bcast junk an Api M New Co Fit NE) as (sur & Sh & Su).
      pose proof (wf_vname _ _ _ (wf_conv _ W _ _ V)) as Nm.
      assert (J : In ((name, v, rv), (net, nd, q, a)) (sources_of s r)).
      { unfold sources_of. apply in_flat_map. exists (name, v, rv). split; auto. apply in_map_iff. eexists. split; [reflexivity|].
        destruct (F _ I) as [_ _ (_ & _ & N3) _]. cbn [fst snd] in N3. unfold srcs_of. cbn [fst snd].
        apply in_map_iff. exists (((net, nd), q), ((net, nd), a)). split; auto.
        clear - N3 Dq Da. revert Dq Da. induction N3 as [|[k x] [k' y] l m [K _] _ IH]; cbn [dget combine]; [discriminate|].
        cbn [fst snd] in *. subst k'. destruct (eqb (net, nd) k) eqn:Ek.
        + apply eqb_eq in Ek. subst. intros G G'. injection G as ->. injection G' as ->. left. reflexivity.
        + intros G G'. right. auto. }
      assert (Rt : right s (name, v, rv) = true).
      { unfold right, nsrc. cbn [fst snd]. apply orb_true_iff. destruct Ob as [Ob|[Ob|Ob]]; [discriminate | left; now apply Nat.eqb_eq|]. right. apply Nat.leb_le. rewrite (Ob _ V). auto. }
      apply (Drawn _ _ _ _ _ _ _ _ _ _ _ _ _ _ _ _ _ ((name, v, rv), (net, nd, q, a)) Sh); auto.
      + apply right_In. auto.
      + intros rw Ir. destruct (Su rw Ir) as (x & ka & Ix & Wr & _ & _ & _ & E). right. cbn [key_of map axis_column]. rewrite E. intros Z. injection Z as _ _ Z.
        unfold sname, dname in Z. cbn [fst snd] in Z. destruct x as [[name' v'] rv']. cbn [fst snd] in Z. pose proof (F _ Ix) as [V' R' _ _]. cbn [fst snd] in V', R'.
        pose proof (wf_vname _ _ _ (wf_conv _ W _ _ V')) as Nm'. assert (name' = name) by congruence. subst name'. assert (v' = v) by congruence. assert (rv' = rv) by congruence. subst. congruence.
      + unfold scols8. simpl. tauto.
      + simpl. intros H. repeat (destruct H as [H|H]; [discriminate H|]). exact H.
    - pose proof (convs_In s r Api M name v rv V R) as I. assert (NE : convs_of s r <> []) by (intros E; now rewrite E in I).
      destruct (shelf_dest s r bcast junk an Api M New Co Le NE) as (sur & Sh & Su).
      apply (Drawn _ _ _ _ _ _ _ _ _ _ _ _ _ _ _ _ _ (name, v, rv) Sh); auto.
      + intros rw Ir. left. auto.
      + unfold dname. cbn [fst snd]. apply (wf_vname _ _ _ (wf_conv _ W _ _ V)).
      + unfold cols8. simpl. tauto.
      + simpl. intros H. repeat (destruct H as [H|H]; [discriminate H|]). exact H.
  Qed.
End Elements.

(** ** C61: monotone views *)
Lemma insert_first {A} (le : A -> A -> bool) x l : Forall (fun y => le x y = true) l -> insert le x l = x :: l.
Proof. destruct 1 as [|y l H F]; auto. cbn [insert]. now rewrite H. Qed.
Lemma isort_id {A} (le : A -> A -> bool) l : StronglySorted (fun a b => le a b = true) l -> isort le l = l.
Proof. induction 1 as [|x l So IH F]; auto. unfold isort in *. cbn [fold_right]. rewrite IH. now apply insert_first. Qed.
Lemma sort_lines lv m (v : nat -> trow) : sort_index (Frame lv (map (fun k => ([CInt (Z.of_nat k)], v k)) (seq 0 m))) = Frame lv (map (fun k => ([CInt (Z.of_nat k)], v k)) (seq 0 m)).
Proof.
  unfold sort_index. cbn [fr_levels fr_rows]. f_equal. apply isort_id. generalize 0. induction m as [|m IH]; intros a; [constructor|]. cbn [seq map]. constructor; auto.
  apply Forall_map, Forall_forall. intros k I. apply in_seq in I. unfold line_le. cbn [fst key_le]. destruct (eqb _ _); auto. cbn. apply Z.leb_le. lia.
Qed.
Lemma zip_nums (op : Q -> Q -> Q) {A} (f g : A -> Q) l : zip_cells op (map (fun k => CNum (f k)) l) (map (fun k => CNum (g k)) l) = map (fun k => CNum (op (f k) (g k))) l.
Proof. unfold zip_cells. induction l as [|a l IH]; auto. cbn [map combine fst snd cell_op]. now rewrite IH. Qed.

(** Values equal as numbers. *)
Lemma Forall2_sorted (R : Q -> Q -> Prop) l m : (forall a b c d, (a == c)%Q -> (b == d)%Q -> R a b -> R c d) -> Forall2 Qeq l m -> StronglySorted R l -> StronglySorted R m.
Proof.
  intros C F. induction F as [|a b l m E F IH]; intros So; [constructor|]. inversion So as [|? ? S' Fa]; subst. constructor; auto.
  clear - C E F Fa. induction F as [|c d l m E' F IH]; constructor; inversion Fa; subst; eauto.
Qed.
Lemma Forall2_perm {A B} (R : A -> B -> Prop) l l' : Permutation l l' -> forall m, Forall2 R l m -> exists m', Permutation m m' /\ Forall2 R l' m'.
Proof.
  induction 1 as [|x l l' P IH|x y l|l l' l'' P1 IH1 P2 IH2]; intros m F.
  - exists m. split; auto.
  - inversion F as [|? b ? m0 H F']; subst. destruct (IH _ F') as (m' & Pm & Fm). exists (b :: m'). split; auto.
  - inversion F as [|? b ? m0 H F']; subst. inversion F' as [|? c ? m1 H' F'']; subst. exists (c :: b :: m1). split; [apply perm_swap | auto].
  - destruct (IH1 _ F) as (m1 & Q1 & F1). destruct (IH2 _ F1) as (m2 & Q2 & F2). exists m2. split; auto. now transitivity m1.
Qed.
Lemma monotone_eq values values' y : Forall2 Qeq values values' -> monotone_of values y -> monotone_of values' y.
Proof.
  intros F (l & Sh & P & So). destruct (Forall2_perm _ _ _ (Permutation_sym P) _ F) as (l' & P' & F'). exists l'. split; [|split].
  - clear - Sh F'. unfold shows in *. revert l' F'. induction Sh as [|c q l m H Sh IH]; intros l' F'; inversion F'; subst; constructor; auto.
    destruct H as (v & -> & E). exists v. split; auto. now rewrite E.
  - now apply Permutation_sym.
  - eapply Forall2_sorted; eauto. cbn. intros a b c d E1 E2. now rewrite E1, E2.
Qed.
Lemma draw_numbers values values' : Forall2 Qeq values values' -> monotone_of values' (draw_monotone (map CNum values)).
Proof.
  intros F. eapply monotone_eq; eauto. destruct (C61_drawn_series values) as (l & -> & P & So). exists l. split; auto.
  unfold shows. apply Forall2_map_l, Forall2_same. intros q _. exists q. split; auto. reflexivity.
Qed.

(** The monotone view shows the values of the timeline. *)
Definition monotone_right (an : analyzer) (net nd : string) (el : axis) (name col : string) (n h : nat) (f : nat -> nat -> Q) : Prop :=
  (exists curves, timeline an net nd el name col = Ok curves /\ timeline_of n h f curves) /\
  (forall scn, scn < n -> exists y, monotone an net nd el name col None (Some (Z.of_nat scn)) = Ok y /\ monotone_of (map (f scn) (seq 0 h)) y) /\
  (forall t, t < h -> exists y, monotone an net nd el name col (Some (Z.of_nat t)) None = Ok y /\ monotone_of (map (fun scn => f scn t) (seq 0 n)) y) /\
  (forall t scn, monotone an net nd el name col (Some t) (Some scn) = Err ValueError).

Theorem C61_monotone bcast junk s r an : api_study s -> mirrors s r -> new_analyzer bcast junk s r = Ok an ->
  forall net nd el name col f, quantity s r net nd el name col f -> monotone_right an net nd el name col (st_nb_scn s) (st_horizon s) f.
Proof.
  intros A M N net nd el name col f Q. destruct (dims_pos s A) as (Pn & Ph). pose proof (quantity_drawn s r bcast junk an A M N _ _ _ _ _ _ Q) as D.
  split; [|split; [|split]].
  - apply drawn_timeline; auto.
  - intros scn L. apply (drawn_monotone_scn an (st_nb_scn s)); auto.
  - intros t L. apply (drawn_monotone_t an (st_nb_scn s) (st_horizon s)); auto.
  - reflexivity.
Qed.
Theorem C61_converter_monotone_partial bcast junk s r an : api_study s -> mirrors s r -> well_read bcast s -> new_analyzer bcast junk s r = Ok an ->
  forall net nd el name f, conv_flow s r net nd el name f -> one_block s el name -> monotone_right an net nd el name "flow" (st_nb_scn s) (st_horizon s) f.
Proof.
  intros A M Wr N net nd el name f Q Ob. pose proof (well_read_analysable bcast junk s r an A M Wr N) as An. destruct (dims_pos s A) as (Pn & Ph). pose proof (conv_drawn s r bcast junk an A M N _ _ _ _ _ An Ob Q) as D.
  split; [|split; [|split]].
  - apply drawn_timeline; auto.
  - intros scn L. apply (drawn_monotone_scn an (st_nb_scn s)); auto.
  - intros t L. apply (drawn_monotone_t an (st_nb_scn s) (st_horizon s)); auto.
  - reflexivity.
Qed.

(** The last storage of the study, the only one in the table. *)
Section Stored.
  Variables (s : study) (r : result).
  Hypotheses (Api : api_study s) (M : mirrors s r).
  Let W : study_wf s := proj1 (api_facts s Api).
  Lemma stor_same net nd x o net' nd' x' o' : In (net, nd, x, o) (stors_of s r) -> In (net', nd', x', o') (stors_of s r) ->
    net = net' -> nd = nd' -> s_name x = s_name x' -> (net, nd, x, o) = (net', nd', x', o').
  Proof.
    intros I J E1 E2 E3.
    assert (ND : NoDup (map (fun e : string * string * storage * ostorage => [CStr (fst (fst (fst e))); CStr (snd (fst (fst e))); CStr (s_name (snd (fst e)))]) (stors_of s r))).
    { apply (NoDup_ids n_stors on_stors s_name s r Api M). intros a b nn H. eapply wf_stors, wf_node; eauto. }
    clear - ND I J E1 E2 E3. revert ND I J. generalize (stors_of s r). induction l as [|y l IH]; intros ND I J; [destruct I|]. cbn [map] in ND. inversion ND as [|? ? NI N']; subst.
    assert (K : forall z, In z l -> [CStr (fst (fst (fst z))); CStr (snd (fst (fst z))); CStr (s_name (snd (fst z)))] <> [CStr (fst (fst (fst y))); CStr (snd (fst (fst y))); CStr (s_name (snd (fst y)))]).
    { intros z Iz E. apply NI. rewrite <- E. apply in_map_iff. eauto. }
    destruct I as [->|I], J as [J|J]; auto.
    - exfalso. apply (K _ J). cbn [fst snd]. congruence.
    - subst y. exfalso. apply (K _ I). cbn [fst snd]. congruence.
  Qed.
  Lemma stor_last net nd x o : is_element n_stors on_stors s r net nd x o -> last_element n_stors s net nd x -> kept (stors_of s r) = [(net, nd, x, o)].
  Proof.
    intros El La. apply (is_element_In n_stors on_stors s r W M) in El. fold (stors_of s r) in El.
    destruct (stors_of s r) as [|[[[net' nd'] x'] o'] els _] eqn:EL using rev_ind; [destruct El|]. rewrite kept_last. f_equal.
    pose proof (elements_last n_stors on_stors s r M (like_stors s) els net' nd' x' o' EL) as La'.
    destruct (last_element_unique n_stors s _ _ _ _ _ _ La La') as (-> & -> & ->). symmetry.
    apply stor_same; auto; rewrite EL; auto. apply in_or_app. simpl. auto.
  Qed.
  Lemma stor_lost net nd x o : is_element n_stors on_stors s r net nd x o -> ~ last_element n_stors s net nd x ->
    forall y, In y (kept (stors_of s r)) -> [CStr (enet y); CStr (enode y); CStr (ename s_name y)] <> [CStr net; CStr nd; CStr (s_name x)].
  Proof.
    intros El La y Iy E. injection E as E1 E2 E3. apply (is_element_In n_stors on_stors s r W M) in El. fold (stors_of s r) in El.
    destruct (stors_of s r) as [|[[[net' nd'] x'] o'] els _] eqn:EL using rev_ind; [destruct El|]. rewrite kept_last in Iy. destruct Iy as [<-|[]].
    unfold enet, enode, ename in *. cbn [fst snd] in *. apply La.
    assert (X : (net', nd', x', o') = (net, nd, x, o)). { apply stor_same; auto; rewrite EL; auto. apply in_or_app. simpl. auto. }
    rewrite X in EL. exact (elements_last n_stors on_stors s r M (like_stors s) els net nd x o EL).
  Qed.
  Lemma last_or_not net nd x o : is_element n_stors on_stors s r net nd x o -> last_element n_stors s net nd x \/ ~ last_element n_stors s net nd x.
  Proof.
    intros El. apply (is_element_In n_stors on_stors s r W M) in El. fold (stors_of s r) in El.
    destruct (stors_of s r) as [|[[[net' nd'] x'] o'] els _] eqn:EL using rev_ind; [destruct El|].
    pose proof (elements_last n_stors on_stors s r M (like_stors s) els net' nd' x' o' EL) as La'.
    destruct (string_dec net net') as [->|D]; [|right; intros La; destruct (last_element_unique n_stors s _ _ _ _ _ _ La La') as (? & _); congruence].
    destruct (string_dec nd nd') as [->|D]; [|right; intros La; destruct (last_element_unique n_stors s _ _ _ _ _ _ La La') as (_ & ? & _); congruence].
    destruct (string_dec (s_name x) (s_name x')) as [E|D]; [|right; intros La; destruct (last_element_unique n_stors s _ _ _ _ _ _ La La') as (_ & _ & ?); congruence].
    left. assert (X : (net', nd', x, o) = (net', nd', x', o')). { apply stor_same; auto; rewrite EL; auto. apply in_or_app. simpl. auto. }
    injection X as -> _. exact La'.
  Qed.
  Lemma only_last net nd x o : is_element n_stors on_stors s r net nd x o -> storage_count s <= 1 -> last_element n_stors s net nd x.
  Proof.
    intros El One. apply (is_element_In n_stors on_stors s r W M) in El. fold (stors_of s r) in El. rewrite <- (stors_length s r M) in One.
    destruct (stors_of s r) as [|y [|z l]] eqn:EL; [destruct El| |simpl in One; lia]. destruct El as [->|[]].
    exact (elements_last n_stors on_stors s r M (like_stors s) [] net nd x o EL).
  Qed.
  Lemma surplus_strange junk net nd name : unwritten junk s -> In net (dkeys (st_networks s)) ->
    forall rw, In rw (stor_surplus s r junk) -> cell_of "network" rw <> CStr net /\ strange AStor [CStr net; CStr nd; CStr name] rw.
  Proof.
    intros Un I rw Ir. unfold stor_surplus in Ir. apply in_map_iff in Ir as (k & <- & Ik).
    assert (D : junk 2 "network" k <> CStr net).
    { destruct Un as [One|Un]; [|auto]. rewrite (stors_length s r M) in Ik. replace (storage_count s - 1) with 0 in Ik by lia. rewrite Nat.mul_0_r in Ik. destruct Ik. }
    split; [exact D|]. right. intros E. apply D. unfold key_of in E. cbn [map] in E. injection E as E _ _. exact E.
  Qed.
  Lemma element_net {E F} (gets : node -> list E) (getr : onode -> list F) net nd x o : is_element gets getr s r net nd x o -> In net (dkeys (st_networks s)).
  Proof.
    intros (nn & _ & _ & N & _). unfold node_at in N. destruct (dget net (st_networks s)) as [ns|] eqn:D; [|discriminate]. apply dget_In in D. unfold dkeys. apply in_map_iff. exists (net, ns). auto.
  Qed.
End Stored.

Section Storage.
  Variables (s : study) (r : result) (bcast : bool) (junk : nat -> string -> nat -> cell) (an : analyzer).
  Hypotheses (Api : api_study s) (M : mirrors s r) (Un : unwritten junk s) (New : new_analyzer bcast junk s r = Ok an).
  Variables (net nd : string) (x : storage) (o : ostorage).
  Hypothesis (El : is_element n_stors on_stors s r net nd x o).
  Local Notation h := (st_horizon s).
  Local Notation n := (st_nb_scn s).
  Let Sh := shelf_stor s r bcast junk an Api M New.

  Lemma stor_clean : forall rw, In rw (stor_surplus s r junk) -> strange AStor [CStr net; CStr nd; CStr (s_name x)] rw.
  Proof. intros rw I. apply (surplus_strange s r M junk net nd (s_name x) Un (element_net s r n_stors on_stors net nd x o El) rw I). Qed.

  (** A storage that is not the last one: nothing is found. *)
  Lemma lost_rows ixs rw : ~ last_element n_stors s net nd x -> In (Index ANetwork false [CStr net]) ixs -> In (Index ANode false [CStr nd]) ixs ->
    In (Index AStor false [CStr (s_name x)]) ixs -> In rw (tb_rows (an_stor an)) -> forallb (fun i => ix_keeps i rw) ixs = false.
  Proof.
    intros La I1 I2 I3 Ir. destruct (forallb (fun i => ix_keeps i rw) ixs) eqn:F; auto. exfalso. rewrite forallb_forall in F.
    assert (K : key_of ["network"; "node"; "name"] rw = [CStr net; CStr nd; CStr (s_name x)]).
    { pose proof (F _ I1) as H1. pose proof (F _ I2) as H2. pose proof (F _ I3) as H3. unfold ix_keeps in H1, H2, H3. cbn [ix_all ix_index] in H1, H2, H3.
      apply mem_In in H1 as [H1|[]]. apply mem_In in H2 as [H2|[]]. apply mem_In in H3 as [H3|[]]. unfold key_of. cbn [map].
      cbn in H1, H2, H3. now rewrite <- H1, <- H2, <- H3. }
    pose proof (sh_table _ _ _ _ _ _ _ _ _ _ _ Sh) as T. cbn [table_of] in T. injection T as T. rewrite T in Ir. cbn [tb_rows] in Ir. apply in_app_or in Ir as [Ir|Ir].
    - apply blocks_In in Ir as (y & scn & t & Iy & _ & _ & ->). apply (stor_lost s r Api M net nd x o El La y Iy).
      pose proof (sh_keys _ _ _ _ _ _ _ _ _ _ _ Sh y scn t) as Ky. unfold key_of in K, Ky. cbn [map axis_column] in K, Ky. congruence.
    - destruct (surplus_strange s r M junk net nd (s_name x) Un (element_net s r n_stors on_stors net nd x o El) rw Ir) as (D & _). unfold key_of in K. cbn [map] in K. congruence.
  Qed.
  Lemma lost_fetch a b ia ib ja jb : ~ last_element n_stors s net nd x -> (a = AScn /\ b = ATime \/ a = ATime /\ b = AScn) ->
    new_index a ia = Ok ja -> new_index b ib = Ok jb -> ix_axis ja = a -> ix_axis jb = b ->
    fetch an (str net) [(ANode, str nd); (AStor, str (s_name x)); (a, ia); (b, ib)] = Ok (Frame ["network"; "node"; "name"; axis_column a; axis_column b] []).
  Proof.
    intros La Ab Na Nb Ea Eb.
    apply (fetch_eq an AStor _ _ [Index ANetwork false [CStr net]; Index ANode false [CStr nd]; Index AStor false [CStr (s_name x)]; ja; jb]).
    - eapply sh_kind; exact Sh.
    - destruct Ab as [[-> ->]|[-> ->]]; [apply whole_series | apply whole_series'].
    - unfold indexes_of. cbn [mapM fst snd]. rewrite Na, Nb. reflexivity.
    - unfold an_filter, check_index. cbn [existsb ix_axis].
      pose proof (sh_table _ _ _ _ _ _ _ _ _ _ _ Sh) as T. cbn [table_of] in T. injection T as T.
      assert (P : pivot [Index ANetwork false [CStr net]; Index ANode false [CStr nd]; Index AStor false [CStr (s_name x)]; ja; jb] (an_stor an) =
        Ok (Frame ["network"; "node"; "name"; axis_column a; axis_column b] [])).
      { unfold pivot. replace (filter _ (tb_rows (an_stor an))) with (@nil trow).
        2:{ symmetry. apply filter_none. intros rw I. apply lost_rows; simpl; auto. }
        rewrite T. cbn [tb_cols forallb map]. unfold ix_column. rewrite Ea, Eb. cbn [ix_axis].
        replace (mem (axis_column a) stor_cols && (mem (axis_column b) stor_cols && true)) with true by (destruct Ab as [[-> ->]|[-> ->]]; reflexivity).
        reflexivity. }
      rewrite P, Ea, Eb. destruct Ab as [[-> ->]|[-> ->]]; reflexivity.
  Qed.

  Hypothesis (La : last_element n_stors s net nd x).
  Lemma stor_In : In (net, nd, x, o) (kept (stors_of s r)).
  Proof. rewrite (stor_last s r Api M net nd x o El La). now left. Qed.
  Lemma stor_fetch_scn scn : scn < n -> fetch an (str net) [(ANode, str nd); (AStor, str (s_name x)); (AScn, int (Z.of_nat scn)); (ATime, INone)] =
    Ok (Frame ["t"] (map (fun t => ([CInt (Z.of_nat t)], snd (line (names_st AStor) stor_cols (stor_row net nd x o scn t)))) (seq 0 h))).
  Proof. destruct (dims_pos s Api) as (Pn & Ph). intros L. exact (fetch_scn _ _ _ _ _ _ _ _ _ _ _ _ Sh Pn Ph _ stor_In stor_clean scn L). Qed.
  Lemma stor_fetch_t t : t < h -> fetch an (str net) [(ANode, str nd); (AStor, str (s_name x)); (ATime, int (Z.of_nat t)); (AScn, INone)] =
    Ok (Frame ["scn"] (map (fun scn => ([CInt (Z.of_nat scn)], snd (line (names_ts AStor) stor_cols (stor_row net nd x o scn t)))) (seq 0 n))).
  Proof. destruct (dims_pos s Api) as (Pn & Ph). intros L. exact (fetch_t _ _ _ _ _ _ _ _ _ _ _ _ Sh Pn Ph _ stor_In stor_clean t L). Qed.
  Lemma stor_column col names lv (key : nat -> list cell) (k : nat -> nat * nat) l f : In col ["flow_in"; "flow_out"; "eff"; "init_capacity"] ->
    names = names_st AStor \/ names = names_ts AStor -> (forall scn t, cell_of col (stor_row net nd x o scn t) = CNum (f scn t)) ->
    column col (Frame lv (map (fun i => (key i, snd (line names stor_cols (stor_row net nd x o (fst (k i)) (snd (k i)))))) l)) = Ok (map (fun i => CNum (norm (f (fst (k i)) (snd (k i))))) l).
  Proof.
    intros Ci Nm V. rewrite (column_lines names stor_cols col lv key (fun i => stor_row net nd x o (fst (k i)) (snd (k i)))).
    - f_equal. apply map_ext. intros i. now rewrite V, mean_norm.
    - unfold stor_cols. simpl in Ci |- *. tauto.
    - destruct Nm as [-> | ->]; unfold names_st, names_ts; cbn; intros J; simpl in Ci;
        repeat (destruct Ci as [<-|Ci]; [repeat (destruct J as [J|J]; [discriminate J|]); exact J|]); exact Ci.
  Qed.

  Lemma stor_column_scn col scn f : In col ["flow_in"; "flow_out"; "eff"; "init_capacity"] -> (forall scn t, cell_of col (stor_row net nd x o scn t) = CNum (f scn t)) ->
    column col (Frame ["t"] (map (fun t => ([CInt (Z.of_nat t)], snd (line (names_st AStor) stor_cols (stor_row net nd x o scn t)))) (seq 0 h))) = Ok (map (fun t => CNum (norm (f scn t))) (seq 0 h)).
  Proof. intros C V. exact (stor_column col (names_st AStor) ["t"] (fun t => [CInt (Z.of_nat t)]) (fun t => (scn, t)) (seq 0 h) f C (or_introl eq_refl) V). Qed.
  Lemma stor_column_t col t f : In col ["flow_in"; "flow_out"; "eff"; "init_capacity"] -> (forall scn t, cell_of col (stor_row net nd x o scn t) = CNum (f scn t)) ->
    column col (Frame ["scn"] (map (fun scn => ([CInt (Z.of_nat scn)], snd (line (names_ts AStor) stor_cols (stor_row net nd x o scn t)))) (seq 0 n))) = Ok (map (fun scn => CNum (norm (f scn t))) (seq 0 n)).
  Proof. intros C V. exact (stor_column col (names_ts AStor) ["scn"] (fun t => [CInt (Z.of_nat t)]) (fun scn => (scn, t)) (seq 0 n) f C (or_intror eq_refl) V). Qed.

  Lemma stor_monotone_scn scn : scn < n -> exists y, storage_monotone an net nd (s_name x) None (Some (Z.of_nat scn)) = Ok y /\
    monotone_of (map (fun t => entry (os_flow_in o) scn t - entry (os_flow_out o) scn t)%Q (seq 0 h)) y.
  Proof.
    intros L. unfold storage_monotone. rewrite stor_fetch_scn by auto. cbn [rbind]. rewrite sort_lines.
    rewrite (stor_column_scn "flow_in" scn (fun a b => entry (os_flow_in o) a b)); [|simpl; tauto|reflexivity].
    rewrite (stor_column_scn "flow_out" scn (fun a b => entry (os_flow_out o) a b)); [|simpl; tauto|reflexivity].
    cbn [rbind fst snd]. rewrite zip_nums. eexists. split; [reflexivity|]. rewrite <- (map_map _ CNum). apply draw_numbers.
    apply Forall2_map_l, Forall2_map_r, Forall2_same. intros t _. now rewrite !norm_eq.
  Qed.
  Lemma stor_monotone_t t : t < h -> exists y, storage_monotone an net nd (s_name x) (Some (Z.of_nat t)) None = Ok y /\
    monotone_of (map (fun scn => entry (os_flow_in o) scn t - entry (os_flow_out o) scn t)%Q (seq 0 n)) y.
  Proof.
    intros L. unfold storage_monotone. rewrite stor_fetch_t by auto. cbn [rbind]. rewrite sort_lines.
    rewrite (stor_column_t "flow_in" t (fun a b => entry (os_flow_in o) a b)); [|simpl; tauto|reflexivity].
    rewrite (stor_column_t "flow_out" t (fun a b => entry (os_flow_out o) a b)); [|simpl; tauto|reflexivity].
    cbn [rbind fst snd]. rewrite zip_nums. eexists. split; [reflexivity|]. rewrite <- (map_map _ CNum). apply draw_numbers.
    apply Forall2_map_l, Forall2_map_r, Forall2_same. intros scn _. now rewrite !norm_eq.
  Qed.

  (** Candles. *)
  Lemma cumsum_step (f : nat -> Q) m : forall a acc, cumsum_from (CNum acc) (map (fun t => CNum (f t)) (seq a m)) =
    map (fun t => CNum (fold_left (fun q k => (q + f k)%Q) (seq a (S (t - a))) acc)) (seq a m).
  Proof.
    induction m as [|m IH]; intros a acc; auto. cbn [seq map cumsum_from cell_op]. rewrite Nat.sub_diag. cbn [seq fold_left]. f_equal. rewrite IH.
    apply map_ext_in. intros t I. apply in_seq in I. replace (t - a) with (S (t - S a)) by lia. reflexivity.
  Qed.
  Lemma candles_ok scn : scn < n -> exists open close, candles an net nd (s_name x) (Z.of_nat scn) = Ok (open, close) /\
    match open with c :: _ => holds c (s_init x) | [] => False end /\ tl open = removelast close /\
    exists g : nat -> Q, close = map (fun t => CNum (g t)) (seq 0 h) /\
      forall t, t < h -> (g t == (match t with O => s_init x | S t' => g t' end) + value (s_eff x) scn t * entry (os_flow_in o) scn t - entry (os_flow_out o) scn t)%Q.
  Proof.
    intros L. destruct (dims_pos s Api) as (Pn & Ph). unfold candles. rewrite stor_fetch_scn by auto. cbn [rbind]. rewrite sort_lines.
    assert (EI : label_zero "init_capacity" (Frame ["t"] (map (fun t => ([CInt (Z.of_nat t)], snd (line (names_st AStor) stor_cols (stor_row net nd x o scn t)))) (seq 0 h))) = Ok (CNum (norm (s_init x)))).
    { clear Sh. unfold label_zero. cbn [fr_levels fr_rows]. destruct h as [|h']; [lia|]. cbn [seq map find fst snd]. change (eqb [CInt (Z.of_nat 0)] [CInt 0]) with true. cbv iota beta. cbn [snd].
      rewrite line_value; [reflexivity | unfold stor_cols; simpl; tauto|]. unfold names_st. cbn. intros J. repeat (destruct J as [J|J]; [discriminate J|]). exact J. }
    rewrite EI. cbn [rbind]. clear EI.
    rewrite (stor_column_scn "flow_in" scn (fun a b => entry (os_flow_in o) a b)); [|simpl; tauto|reflexivity].
    rewrite (stor_column_scn "eff" scn (fun a b => value (s_eff x) a b)); [|simpl; tauto|reflexivity].
    rewrite (stor_column_scn "flow_out" scn (fun a b => entry (os_flow_out o) a b)); [|simpl; tauto|reflexivity].
    cbn [rbind fst snd]. rewrite !zip_nums. cbn [cumsum]. rewrite cumsum_step. set (d := fun t => (norm (entry (os_flow_in o) scn t) * norm (value (s_eff x) scn t) - norm (entry (os_flow_out o) scn t))%Q).
    set (g := fun t => fold_left (fun q k => (q + d k)%Q) (seq 0 (S (t - 0))) (norm (s_init x))).
    match goal with |- context [CNum (norm (s_init x)) :: map ?F (seq 0 h)] => change (map F (seq 0 h)) with (map (fun t => CNum (g t)) (seq 0 h)) end.
    eexists. eexists. split; [reflexivity|]. cbn [tl].
    assert (Ne : map (fun t => CNum (g t)) (seq 0 h) <> []) by (clear - Ph; destruct h; [lia | discriminate]).
    destruct (map (fun t => CNum (g t)) (seq 0 h)) as [|c0 l0] eqn:El0; [congruence|].
    split; [|split].
    - cbn [removelast]. apply holds_norm.
    - reflexivity.
    - exists g. split; auto. intros t Lt.
      assert (Eg : g t = (fold_left (fun q k => q + d k)%Q (seq 0 t) (norm (s_init x)) + d t)%Q) by (unfold g; rewrite Nat.sub_0_r, seq_S, fold_left_app; reflexivity).
      assert (Ed : (d t == value (s_eff x) scn t * entry (os_flow_in o) scn t - entry (os_flow_out o) scn t)%Q) by (unfold d; rewrite !norm_eq; ring).
      assert (E : (fold_left (fun q k => q + d k)%Q (seq 0 t) (norm (s_init x)) == match t with O => s_init x | S t' => g t' end)%Q).
      { destruct t as [|t']; [apply norm_eq|]. unfold g. rewrite Nat.sub_0_r. reflexivity. }
      rewrite Eg, Ed, E. ring.
  Qed.
End Storage.

Theorem C61_storage_monotone_partial bcast junk s r an : api_study s -> mirrors s r -> unwritten junk s -> new_analyzer bcast junk s r = Ok an ->
  forall net nd x o, is_element n_stors on_stors s r net nd x o -> last_element n_stors s net nd x ->
  (forall scn, scn < st_nb_scn s -> exists y, storage_monotone an net nd (s_name x) None (Some (Z.of_nat scn)) = Ok y /\
     monotone_of (map (fun t => entry (os_flow_in o) scn t - entry (os_flow_out o) scn t)%Q (seq 0 (st_horizon s))) y) /\
  (forall t, t < st_horizon s -> exists y, storage_monotone an net nd (s_name x) (Some (Z.of_nat t)) None = Ok y /\
     monotone_of (map (fun scn => entry (os_flow_in o) scn t - entry (os_flow_out o) scn t)%Q (seq 0 (st_nb_scn s))) y) /\
  (forall t scn, storage_monotone an net nd (s_name x) (Some t) (Some scn) = Err ValueError).
Proof.
  intros A M U N net nd x o E La. split; [|split].
  - intros scn L. eapply stor_monotone_scn; eauto.
  - intros t L. eapply stor_monotone_t; eauto.
  - reflexivity.
Qed.

(** ** C57: candles *)
Theorem C57_candles_partial answer bcast junk s r an : api_study s -> unwritten junk s -> solved answer s r -> new_analyzer bcast junk s r = Ok an ->
  forall net nd x o scn, is_element n_stors on_stors s r net nd x o -> last_element n_stors s net nd x ->
  (forall nn, node_at s net nd = Some nn -> n_stors nn = [x]) -> scn < st_nb_scn s -> feasible_answer answer s scn ->
  exists open close, candles an net nd (s_name x) (Z.of_nat scn) = Ok (open, close) /\ candles_of s x o scn open close.
Proof.
  intros A Un SV New net nd x o scn El La Al L F. destruct (C27_result_mirrors_study_any_names answer s r A SV) as (M & _).
  destruct (candles_ok s r bcast junk an A M Un New net nd x o El La scn L) as (open & close & E & H1 & H2 & g & -> & G).
  exists open. eexists. split; [exact E|]. constructor; auto.
  assert (Ev : storage_evolves s scn x o).
  { destruct El as (nn & rn & i & N1 & N2 & E1 & E2). assert (i = 0).
    { assert (Li : i < List.length (n_stors nn)) by (apply nth_error_Some; congruence). rewrite (Al _ N1) in Li. simpl in Li. lia. }
    subst i. eapply C18_first_storage_evolves; eauto. }
  assert (Eq : forall t, t < st_horizon s -> (g t == entry (os_capacity o) scn t)%Q).
  { induction t as [|t IH]; intros Lt; rewrite (G _ Lt), (Ev _ Lt); [reflexivity|]. rewrite IH by lia. reflexivity. }
  unfold shows. apply Forall2_map_l, Forall2_map_r, Forall2_same. intros t I. apply in_seq in I. exists (g t). split; auto. apply Eq. lia.
Qed.

(** Otherwise nothing is drawn, whatever the answer of the solver. *)
Theorem C57_only_last_storage_drawn bcast junk s r an : api_study s -> mirrors s r -> unwritten junk s -> new_analyzer bcast junk s r = Ok an ->
  forall net nd x o, is_element n_stors on_stors s r net nd x o ->
  (last_element n_stors s net nd x /\ forall scn, scn < st_nb_scn s -> exists open close, candles an net nd (s_name x) (Z.of_nat scn) = Ok (open, close) /\
     List.length close = st_horizon s) \/
  (~ last_element n_stors s net nd x /\ (forall scn, candles an net nd (s_name x) scn = Err KeyError) /\
     (forall t, storage_monotone an net nd (s_name x) (Some t) None = Ok []) /\ (forall scn, storage_monotone an net nd (s_name x) None (Some scn) = Ok [])).
Proof.
  intros A M Un N net nd x o El. destruct (last_or_not s r A M net nd x o El) as [La|La]; [left | right]; (split; [exact La|]).
  - intros scn L. destruct (candles_ok s r bcast junk an A M Un N net nd x o El La scn L) as (open & close & E & _ & _ & g & -> & _).
    do 2 eexists. split; [exact E|]. now rewrite map_length, seq_length.
  - split; [|split].
    + intros scn. unfold candles. erewrite (lost_fetch s r bcast junk an A M Un N net nd x o El AScn ATime); eauto; reflexivity.
    + intros t. unfold storage_monotone. erewrite (lost_fetch s r bcast junk an A M Un N net nd x o El ATime AScn); eauto; reflexivity.
    + intros scn. unfold storage_monotone. erewrite (lost_fetch s r bcast junk an A M Un N net nd x o El AScn ATime); eauto; reflexivity.
Qed.

(** ** C62: gaussian views *)
Definition gaussian_scn (view : option Z -> option Z -> res gauss) (h : nat) (f rac : nat -> nat -> Q) (scn : nat) : Prop :=
  exists z, view None (Some (Z.of_nat scn)) = Ok z /\
    gaussian_of (map (f scn) (seq 0 h)) (map (rac scn) (seq 0 h)) (ga_mean z) (ga_var z) (ga_max z) (ga_green z) (ga_red z).
Definition gaussian_time (view : option Z -> option Z -> res gauss) (n : nat) (f rac : nat -> nat -> Q) (t : nat) : Prop :=
  exists z, view (Some (Z.of_nat t)) None = Ok z /\
    gaussian_of (map (fun scn => f scn t) (seq 0 n)) (map (fun scn => rac scn t) (seq 0 n)) (ga_mean z) (ga_var z) (ga_max z) (ga_green z) (ga_red z).

Theorem C62_other_gaussians bcast junk s r an : api_study s -> mirrors s r -> new_analyzer bcast junk s r = Ok an ->
  forall net nd el name col f, quantity s r net nd el name col f ->
  (forall scn, scn < st_nb_scn s -> gaussian_scn (gaussian an net nd el name col) (st_horizon s) f (remaining s r net) scn) /\
  (forall t, t < st_horizon s -> gaussian_time (gaussian an net nd el name col) (st_nb_scn s) f (remaining s r net) t).
Proof.
  intros A M N net nd el name col f Q. destruct (dims_pos s A) as (Pn & Ph). pose proof (quantity_drawn s r bcast junk an A M N _ _ _ _ _ _ Q) as D.
  destruct (remaining_of s r bcast junk an A M N net) as (g & R & G). split.
  - intros scn L. apply (drawn_gaussian_scn an (st_nb_scn s) (st_horizon s) net nd el name col f Pn Ph D (remaining s r net) g R G); auto.
  - intros t L. apply (drawn_gaussian_t an (st_nb_scn s) (st_horizon s) net nd el name col f Pn Ph D (remaining s r net) g R G); auto.
Qed.

(** Converters: right at a time, right in a study with one scenario, an exception for a
    scenario among several. *)
Theorem C62_converter_gaussian_partial bcast junk s r an : api_study s -> mirrors s r -> well_read bcast s -> new_analyzer bcast junk s r = Ok an ->
  forall net nd el name f, conv_flow s r net nd el name f -> one_block s el name ->
  (forall t, t < st_horizon s -> gaussian_time (converter_gaussian an net nd el name) (st_nb_scn s) f (remaining s r net) t) /\
  (st_nb_scn s = 1 -> gaussian_scn (converter_gaussian an net nd el name) (st_horizon s) f (remaining s r net) 0) /\
  (forall scn, 2 <= st_nb_scn s -> scn < st_nb_scn s -> converter_gaussian an net nd el name None (Some (Z.of_nat scn)) = Err IndexError).
Proof.
  intros A M Wr N net nd el name f Q Ob. pose proof (well_read_analysable bcast junk s r an A M Wr N) as An. destruct (dims_pos s A) as (Pn & Ph). pose proof (conv_drawn s r bcast junk an A M N _ _ _ _ _ An Ob Q) as D.
  destruct (remaining_of s r bcast junk an A M N net) as (g & R & G). split; [|split].
  - intros t L. apply (conv_gaussian_t an (st_nb_scn s) (st_horizon s) net nd el name f Pn Ph D (remaining s r net) g R G); auto.
  - intros One. destruct (conv_gaussian_one an _ _ net nd el name f Pn Ph D _ g R G One) as (z & E & H). exists z. split; auto.
  - intros scn L1 L2. apply (conv_gaussian_many an (st_nb_scn s) (st_horizon s) net nd el name f Pn Ph D (remaining s r net) g R G); auto.
Qed.

(** ** Examples *)
Lemma load_element : exists c o, is_element n_cons on_cons mix mix_result "elec" "a" c o /\ c_name c = "load" /\
  entry (oc_qty o) 0 0 = 10%Q /\ entry (oc_qty o) 0 1 = 17%Q.
Proof. do 2 eexists. split; [do 2 eexists; exists 0; split; [reflexivity|]; split; [reflexivity|]; split; reflexivity|]. vm_compute. auto. Qed.
Lemma cell_element : exists x o, is_element n_stors on_stors mix mix_result "elec" "a" x o /\ s_name x = "cell" /\ s_init x = 2%Q.
Proof. do 2 eexists. split; [do 2 eexists; exists 0; split; [reflexivity|]; split; [reflexivity|]; split; reflexivity|]. vm_compute. auto. Qed.
Lemma mix_simple : simple_converters mix.
Proof.
  intros name v V. unfold conv_at in V. apply dget_In in V. destruct V as [E|[]]. injection E as <- <-. vm_compute. split; [discriminate|]. split; [discriminate | reflexivity].
Qed.
Lemma plant_flow : exists f, conv_flow mix mix_result "elec" "a" ADestConv "plant" f /\ f 0 0 = 0%Q /\ f 0 1 = 9%Q.
Proof. eexists. split; [eapply F_dest; reflexivity|]. vm_compute. auto. Qed.
Lemma plant_source : exists f, conv_flow mix mix_result "gas" "g" ASrcConv "plant" f /\ f 0 0 = 0%Q /\ f 0 1 = 18%Q.
Proof. eexists. split; [eapply F_src; eexists; split; [reflexivity|]; split; [reflexivity|]; split; reflexivity|]. vm_compute. auto. Qed.

Example C61_example : exists f, quantity mix mix_result "elec" "a" ACons "load" "given" f /\
  timeline mix_an "elec" "a" ACons "load" "given" = Ok [(CInt 0, [CNum 10; CNum 17]); (CInt 1, [CNum 5; CNum 7])] /\
  monotone mix_an "elec" "a" ACons "load" "given" None (Some 0%Z) = Ok [CNum 17; CNum 10] /\
  monotone mix_an "elec" "a" ACons "load" "given" (Some 1%Z) None = Ok [CNum 17; CNum 7].
Proof.
  destruct load_element as (c & o & El & Nm & _). exists (entry (oc_qty o)). rewrite <- Nm at 1. split; [now apply Q_given|]. repeat split; vm_compute; reflexivity.
Qed.
Definition band_an : analyzer := Eval vm_compute in match new_analyzer true no_junk band band_result with Ok a => a | Err _ => mix_an end.
Lemma band_an_new : new_analyzer true no_junk band band_result = Ok band_an.
Proof. vm_compute. reflexivity. Qed.
Lemma band_dest : exists f, conv_flow band band_result "elec" "a" ADestConv "mixer" f /\ f 0 0 = 2%Q /\ f 1 0 = 0%Q.
Proof. eexists. split; [eapply F_dest; reflexivity|]. vm_compute. auto. Qed.
Lemma band_source : exists f, conv_flow band band_result "gas" "g" ASrcConv "plant" f /\ f 1 0 = 18%Q /\ f 1 1 = 4%Q.
Proof. eexists. split; [eapply F_src; eexists; split; [reflexivity|]; split; [reflexivity|]; split; reflexivity|]. vm_compute. auto. Qed.
(** A converter with two sources is right at its destination, one with a source at both ends. *)
Example C61_converter_example : api_study band /\ mirrors band band_result /\ well_read true band /\ new_analyzer true no_junk band band_result = Ok band_an /\
  (exists f, conv_flow band band_result "elec" "a" ADestConv "mixer" f /\ f 0 0 = 2%Q) /\ one_block band ADestConv "mixer" /\
  monotone band_an "elec" "a" ADestConv "mixer" "flow" (Some 0%Z) None = Ok [CNum 2; CNum 0] /\
  (exists f, conv_flow band band_result "gas" "g" ASrcConv "plant" f /\ f 1 0 = 18%Q) /\ one_block band ASrcConv "plant" /\
  monotone band_an "gas" "g" ASrcConv "plant" "flow" None (Some 1%Z) = Ok [CNum 18; CNum 4] /\ ~ one_block band ASrcConv "mixer".
Proof.
  split; [apply band_api|]. split; [apply band_mirrors|]. split; [left; apply band_refuses|]. split; [apply band_an_new|].
  split; [destruct band_dest as (f & F & H & _); eauto|]. split; [left; reflexivity|]. split; [vm_compute; reflexivity|].
  split; [destruct band_source as (f & F & H & _); eauto|]. split; [right; right; intros v V; vm_compute in V; injection V as <-; reflexivity|]. split; [vm_compute; reflexivity|].
  intros [H|[H|H]]; [discriminate | discriminate | discriminate (H _ eq_refl)].
Qed.
Example C61_storage_example : unwritten no_junk band /\ (exists x, s_name x = "pile" /\ last_element n_stors band "elec" "b" x) /\
  storage_monotone band_an "elec" "b" "pile" None (Some 1%Z) = Ok [CNum 4; CNum (-5)] /\
  storage_monotone band_an "elec" "b" "pile" (Some 1%Z) None = Ok [CNum (-2); CNum (-5)].
Proof. split; [apply band_unwritten|]. split; [destruct band_last as (x & o & _ & H & _ & La & _); eauto|]. split; vm_compute; reflexivity. Qed.

Example C57_example : api_study band /\ unwritten no_junk band /\ solved band_answer band band_result /\ feasible_answer band_answer band 1 /\
  (exists x o, is_element n_stors on_stors band band_result "elec" "b" x o /\ s_name x = "pile" /\ last_element n_stors band "elec" "b" x /\
     forall nn, node_at band "elec" "b" = Some nn -> n_stors nn = [x]) /\
  candles band_an "elec" "b" "pile" 1 = Ok ([CNum 4; CNum 8], [CNum 8; CNum 3]).
Proof.
  split; [apply band_api|]. split; [apply band_unwritten|]. split; [apply band_solved|]. split; [apply band_feasible; lia|].
  split; [destruct band_last as (x & o & El & H & _ & La & On); eauto 7 | vm_compute; reflexivity].
Qed.
Example C57_only_last_example : (exists x o, is_element n_stors on_stors band band_result "elec" "a" x o /\ s_name x = "cell" /\ ~ last_element n_stors band "elec" "a" x /\
    entry (os_capacity o) 0 1 = 3%Q) /\
  candles band_an "elec" "a" "cell" 0 = Err KeyError /\ storage_monotone band_an "elec" "a" "cell" None (Some 0%Z) = Ok [].
Proof.
  split; [|split; vm_compute; reflexivity]. destruct band_first as (x & o & El & H & La). exists x, o. split; auto. split; auto. split; auto.
  destruct El as (n & rn & i & N1 & N2 & X & Y). vm_compute in N1. injection N1 as <-. vm_compute in N2. injection N2 as <-. destruct i as [|[|i]]; try discriminate. vm_compute in Y. injection Y as <-. reflexivity.
Qed.

(** Two storages: the table keeps the last one, the candles of the first are not drawn. *)
Definition twins_an : analyzer := Eval vm_compute in
  match new_analyzer true no_junk P_LP.twin P_LP.twin_result with Ok a => a | Err _ => mix_an end.
Theorem C57_candles_refuted : exists answer s r an net nd x o scn, api_study s /\ plain_sources s /\ solved answer s r /\
  new_analyzer true no_junk s r = Ok an /\ is_element n_stors on_stors s r net nd x o /\ scn < st_nb_scn s /\ feasible_answer answer s scn /\
  storage_evolves s scn x o /\ candles an net nd (s_name x) (Z.of_nat scn) = Err KeyError.
Proof.
  exists P_LP.twin_answer, P_LP.twin, P_LP.twin_result, twins_an, "net", "a".
  assert (E : exists x o, is_element n_stors on_stors P_LP.twin P_LP.twin_result "net" "a" x o /\ s_name x = "first" /\ storage_evolves P_LP.twin 0 x o).
  { do 2 eexists. split; [do 2 eexists; exists 0; split; [reflexivity|]; split; [reflexivity|]; split; reflexivity|].
    split; [reflexivity|]. intros t L. destruct t; [vm_compute; reflexivity | vm_compute in L; lia]. }
  destruct E as (x & o & El & Nm & Ev). exists x, o, 0. split; [apply P_LP.twin_api|]. split; [apply P_LP.twin_plain|]. split; [apply P_LP.twin_solved|]. split; [vm_compute; reflexivity|].
  split; auto. split; [vm_compute; lia|]. split; [apply P_LP.twin_feasible|]. split; auto. rewrite Nm. vm_compute. reflexivity.
Qed.

Example C62_other_example : exists f, quantity mix mix_result "elec" "a" ACons "load" "given" f /\
  (exists z, gaussian mix_an "elec" "a" ACons "load" "given" None (Some 0%Z) = Ok z /\ (ga_mean z == 27 # 2)%Q /\ (ga_var z == 49 # 4)%Q /\ ga_max z = 17%Q /\ ga_green z = [10%Q] /\ ga_red z = [17%Q]).
Proof.
  destruct load_element as (c & o & El & Nm & _). exists (entry (oc_qty o)). rewrite <- Nm at 1. split; [now apply Q_given|].
  eexists. split; [vm_compute; reflexivity|]. repeat split; vm_compute; reflexivity.
Qed.
Example C62_converter_example : well_read true band /\ 2 <= st_nb_scn band /\ one_block band ASrcConv "plant" /\ (exists f, conv_flow band band_result "gas" "g" ASrcConv "plant" f /\ f 1 0 = 18%Q) /\
  (exists z, converter_gaussian band_an "gas" "g" ASrcConv "plant" (Some 1%Z) None = Ok z /\ (ga_mean z == 11)%Q /\ (ga_var z == 49)%Q /\ ga_max z = 18%Q /\ ga_green z = [18%Q; 4%Q] /\ ga_red z = []) /\
  converter_gaussian band_an "gas" "g" ASrcConv "plant" None (Some 0%Z) = Err IndexError.
Proof.
  split; [left; apply band_refuses|]. split; [vm_compute; lia|]. split; [right; right; intros v V; vm_compute in V; injection V as <-; reflexivity|]. split; [destruct band_source as (f & F & H & _); eauto|].
  split; [|vm_compute; reflexivity]. eexists. split; [vm_compute; reflexivity|]. repeat split; vm_compute; reflexivity.
Qed.
(** One scenario. *)
Definition solo_calls : list call :=
  [ OnStudy_network "elec"; OnSel 0 (MNode "a"); OnSel 1 (MConsumption "load" (jn 1000) (jl [10; 4]%Z));
    OnSel 2 (MNetwork "gas"); OnSel 3 (MNode "g"); OnSel 4 (MProduction "well" (jn 10) (jn 30));
    OnSel 5 (MToConverter "plant" (PJson (JNum (1 # 2)))); OnSel 6 (MConverter "plant" "elec" "a" (jn 9) (jn 4)) ].
Definition solo : study := Eval vm_compute in w_study (run (start 2 1 None) solo_calls).
Lemma solo_api : api_study solo.
Proof. exists 2, 1, None, solo_calls. split; [lia|]. split; [lia|]. split; [plain_tac | vm_compute; reflexivity]. Qed.
Definition solo_x (v : var) : Q :=
  match v with
  | VLol _ _ _ 0 => 1 | VSrc _ _ _ 0 | VProd _ _ _ 0 => 18 | VDest _ 0 => 9
  | VSrc _ _ _ _ | VProd _ _ _ _ => 8 | VDest _ _ => 4
  | _ => 0
  end%Q%nat.
Definition solo_answer (_ : nat) (_ : solver) : var -> Q := solo_x.
Definition solo_result : result := Eval vm_compute in
  match solve_lp solo_answer [0] no_bench solo with Ok r => r | Err _ => Result [] [] no_bench end.
Lemma solo_solved : solved solo_answer solo solo_result.
Proof. exists [0], no_bench. split; [reflexivity | vm_compute; reflexivity]. Qed.
Lemma solo_feasible : feasible_answer solo_answer solo 0.
Proof. apply satb_ok. vm_compute. reflexivity. Qed.
Definition solo_an : analyzer := Eval vm_compute in
  match new_analyzer true no_junk solo solo_result with Ok a => a | Err _ => mix_an end.
Example C62_one_scenario_example : api_study solo /\ mirrors solo solo_result /\ simple_converters solo /\ st_nb_scn solo = 1 /\
  new_analyzer true no_junk solo solo_result = Ok solo_an /\
  (exists z, converter_gaussian solo_an "elec" "a" ADestConv "plant" None (Some 0%Z) = Ok z /\ (ga_mean z == 13 # 2)%Q /\ ga_max z = 9%Q /\ ga_green z = [4%Q] /\ ga_red z = [9%Q]).
Proof.
  split; [apply solo_api|]. split; [apply (C27_result_mirrors_study_any_names solo_answer solo solo_result solo_api solo_solved)|]. split.
  { intros name v V. unfold conv_at in V. apply dget_In in V. destruct V as [E|[]]. injection E as <- <-. vm_compute. split; [discriminate|]. split; [discriminate | reflexivity]. }
  split; [reflexivity|]. split; [vm_compute; reflexivity|]. eexists. split; [vm_compute; reflexivity|]. repeat split; vm_compute; reflexivity.
Qed.

(** Two scenarios. *)
Theorem C62_converter_gaussian_refuted : exists s r an net nd name f scn, api_study s /\ mirrors s r /\ simple_converters s /\
  new_analyzer true no_junk s r = Ok an /\ conv_flow s r net nd ADestConv name f /\ scn < st_nb_scn s /\
  ~ gaussian_scn (converter_gaussian an net nd ADestConv name) (st_horizon s) f (remaining s r net) scn.
Proof.
  destruct plant_flow as (f & F & _). exists mix, mix_result, mix_an, "elec", "a", "plant", f, 0.
  split; [apply mix_api|]. split; [apply mix_mirrors|]. split; [apply mix_simple|]. split; [apply mix_an_new|]. split; auto. split; [vm_compute; lia|].
  intros (z & E & _). vm_compute in E. discriminate.
Qed.

Print Assumptions C61_drawn_series.
Print Assumptions C61_drawn_cells.
Print Assumptions C61_monotone.
Print Assumptions C61_converter_monotone_partial.
Print Assumptions C61_storage_monotone_partial.
Print Assumptions C57_candles_partial.
Print Assumptions C57_candles_refuted.
Print Assumptions C57_only_last_storage_drawn.
Print Assumptions C62_other_gaussians.
Print Assumptions C62_converter_gaussian_partial.
Print Assumptions C62_converter_gaussian_refuted.
