(** C87: axes, labels and colours of the figures. *)
From Coq Require Import String Ascii List ZArith QArith Qabs Bool Arith Lia Lqa Permutation Sorted.
From Verif Require Import Base BaseFacts Numeric Study Fluent Output LP SpecStudy SpecLP StudyFacts LPFacts LPResult LPReady P_LP
  Analyzer SpecAnalyzer AnalyzerFacts P_Tables QueryFacts P_Query P_Reuse SumFacts SpecTotals P_Totals P_Cost Viewer ViewFacts SpecViewer P_Viewer P_Map
  Drawing.
Import ListNotations.
Open Scope nat_scope.
Open Scope string_scope.
Open Scope list_scope.

(** ** Whole parts *)
(** [z] is [q] without its digits after the point. *)
Definition cut_of (q : Q) (z : Z) : Prop :=
  ((0 <= q)%Q -> (inject_Z z <= q < inject_Z z + 1)%Q) /\ ((q <= 0)%Q -> (inject_Z z - 1 < q <= inject_Z z)%Q).

Lemma whole_cut q : cut_of q (whole q).
Proof.
  destruct q as [n d]. unfold cut_of, whole, Qle, Qlt, Qminus, Qplus, Qopp, inject_Z. cbn [Qnum Qden].
  rewrite ?Z.mul_1_r, ?Pos.mul_1_r, ?Z.mul_1_l, ?Pos.mul_1_l.
  pose proof (Z.quot_rem' n (Zpos d)) as E. set (k := Z.quot n (Zpos d)) in *. set (m := Z.rem n (Zpos d)) in *.
  split; intros H; cbn in H.
  - assert (B : (0 <= m < Zpos d)%Z) by (apply Z.rem_bound_pos; lia). cbn. nia.
  - assert (B : (- Zpos d < m <= 0)%Z) by (apply Z.rem_bound_pos_neg; lia). cbn. nia.
Qed.

Lemma cut_unique q z z' : cut_of q z -> cut_of q z' -> z = z'.
Proof.
  intros [A B] [A' B']. destruct (Qlt_le_dec 0 q) as [L|L].
  - assert (L' : (0 <= q)%Q) by lra. specialize (A L'). specialize (A' L'). clear B B'.
    assert ((inject_Z z < inject_Z (z' + 1))%Q) by (rewrite inject_Z_plus; change (inject_Z 1) with 1%Q; lra).
    assert ((inject_Z z' < inject_Z (z + 1))%Q) by (rewrite inject_Z_plus; change (inject_Z 1) with 1%Q; lra).
    rewrite <- Zlt_Qlt in *. lia.
  - specialize (B L). specialize (B' L). clear A A'.
    assert ((inject_Z z < inject_Z (z' + 1))%Q) by (rewrite inject_Z_plus; change (inject_Z 1) with 1%Q; lra).
    assert ((inject_Z z' < inject_Z (z + 1))%Q) by (rewrite inject_Z_plus; change (inject_Z 1) with 1%Q; lra).
    rewrite <- Zlt_Qlt in *. lia.
Qed.

(** ** The monotone view is a duration curve *)
Definition above (y : Q) (l : list Q) : nat := List.length (filter (fun v => negb (Qle_bool v y)) l).
Definition reaching (y : Q) (l : list Q) : nat := List.length (filter (fun v => Qle_bool y v) l).

Lemma linspace_length a b n : List.length (linspace a b n) = n.
Proof. destruct n as [|[|k]]; auto. unfold linspace. now rewrite map_length, seq_length. Qed.

Lemma linspace_nth a b k i : i <= S k -> nth_error (linspace a b (S (S k))) i = Some (qnat i * ((b - a) / qnat (S k)) + a)%Q.
Proof.
  intros L. unfold linspace. rewrite nth_error_map.
  rewrite (nth_error_nth' _ 0) by (rewrite seq_length; lia). rewrite seq_nth by lia. reflexivity.
Qed.

Lemma nth_error_combine {A B} (l : list A) (m : list B) i : nth_error (combine l m) i =
  match nth_error l i, nth_error m i with Some a, Some b => Some (a, b) | _, _ => None end.
Proof.
  revert m i. induction l as [|a l IH]; intros [|b m] [|i]; cbn; auto.
  destruct (nth_error l i); auto.
Qed.

Lemma count_perm {A} (f : A -> bool) l m : Permutation l m -> List.length (filter f l) = List.length (filter f m).
Proof. induction 1; cbn; auto; try congruence; repeat (destruct (f _); cbn; auto). Qed.

Lemma sorted_split (l : list Q) i y : StronglySorted (fun a b => (b <= a)%Q) l -> nth_error l i = Some y ->
  above y l <= i /\ S i <= reaching y l.
Proof.
  revert i. induction l as [|v l IH]; intros [|i] S E; cbn in E; try discriminate.
  - injection E as ->. inversion S as [|? ? S' F]; subst. unfold above, reaching. cbn [filter].
    assert (R : Qle_bool y y = true) by (apply Qle_bool_iff; lra). rewrite R. cbn [negb List.length]. split; [|lia].
    replace (filter (fun v => negb (Qle_bool v y)) l) with (@nil Q); [reflexivity|]. symmetry.
    clear - F. induction F as [|v l H _ IH]; cbn; auto. apply Qle_bool_iff in H. rewrite H. cbn. exact IH.
  - inversion S as [|? ? S' F]; subst. destruct (IH i S' E) as [A B]. unfold above, reaching in *. cbn [filter].
    assert (H : (y <= v)%Q) by (rewrite Forall_forall in F; apply F; eapply nth_error_In; eauto).
    apply Qle_bool_iff in H. rewrite H. cbn [List.length]. split; [|lia].
    destruct (negb (Qle_bool v y)); cbn [List.length]; lia.
Qed.

Lemma qnat_le a b : a <= b -> (qnat a <= qnat b)%Q.
Proof. intros H. unfold qnat. rewrite <- Zle_Qle. lia. Qed.
Lemma qnat_pos n : (0 < qnat (S n))%Q.
Proof. unfold qnat. change 0%Q with (inject_Z 0). rewrite <- Zlt_Qlt. lia. Qed.

(** With at least two values: as many points as values, from 0% to 100% in even
    steps; at [x]% stands a value such that at most [x]% of the other values are
    above it and at least [x]% reach it. *)
Theorem C87_duration l : 2 <= List.length l ->
  let points := monotone_points (map CNum l) in
  let others := qnat (List.length l - 1) in
  List.length points = List.length l /\
  (forall i p, nth_error points i = Some p -> (fst p * others == 100 * qnat i)%Q) /\
  (forall x y, In (x, CNum y) points ->
     (100 * qnat (above y l) <= x * others)%Q /\ (x * others <= 100 * qnat (reaching y l - 1))%Q) /\
  (forall v, In v l -> exists x, In (x, CNum v) points).
Proof.
  intros L points others. destruct (C61_drawn_series l) as (l' & E & P & So).
  pose proof (Permutation_length P) as LP. unfold points, monotone_points. rewrite E, map_length.
  destruct (List.length l) as [|[|k]] eqn:EL; [lia | lia |].
  assert (NZ : ~ (qnat (S k) == 0)%Q) by (pose proof (qnat_pos k); lra).
  assert (C : List.length (combine (linspace 0 100 (S (S k))) (map CNum l')) = S (S k))
    by (rewrite combine_length, map_length, linspace_length, LP; lia).
  assert (G : forall i p, nth_error (combine (linspace 0 100 (S (S k))) (map CNum l')) i = Some p ->
     exists y, nth_error l' i = Some y /\ snd p = CNum y /\ (fst p * qnat (S k) == 100 * qnat i)%Q).
  { intros i p H. assert (Li : i < S (S k)) by (rewrite <- C; apply nth_error_Some; congruence).
    rewrite nth_error_combine, linspace_nth, nth_error_map in H by lia.
    destruct (nth_error l' i) as [y|]; [|discriminate]. cbn in H. injection H as <-. exists y. cbn [fst snd].
    split; auto. split; auto. field. exact NZ. }
  split; [exact C|]. unfold others. replace (S (S k) - 1) with (S k) by lia. split; [|split].
  - intros i p H. destruct (G i p H) as (_ & _ & _ & X). exact X.
  - intros x y I. apply In_nth_error in I as [i I]. destruct (G i _ I) as (y' & N & Y & X). cbn [fst snd] in *.
    injection Y as <-. destruct (sorted_split l' i y So N) as [A B].
    assert (A' : above y l' = above y l) by (unfold above; now apply count_perm).
    assert (B' : reaching y l' = reaching y l) by (unfold reaching; now apply count_perm).
    rewrite A' in A. rewrite B' in B. rewrite X. split.
    + pose proof (qnat_le _ _ A). lra.
    + assert (B2 : i <= reaching y l - 1) by lia. pose proof (qnat_le _ _ B2). lra.
  - intros v I. apply (Permutation_in _ (Permutation_sym P)) in I. apply In_nth_error in I as [i I].
    assert (Li : i < S (S k)) by (rewrite <- LP; apply nth_error_Some; congruence).
    eexists. apply (nth_error_In _ i). rewrite nth_error_combine, linspace_nth, nth_error_map, I by lia. reflexivity.
Qed.

(** ** Candles *)
Lemma whole_close q : (Qabs (q - inject_Z (whole q)) < 1)%Q.
Proof.
  destruct (whole_cut q) as [A B]. apply Qabs_Qlt_condition. destruct (Qlt_le_dec 0 q) as [L|L].
  - assert (L' : (0 <= q)%Q) by lra. specialize (A L'). lra.
  - specialize (B L). lra.
Qed.

(** The text of a candle tells opening, closing and flow without their digits after
    the point: for whole quantities they are exact, and in general the flow told
    misses the difference of the other two by at most one. *)
Theorem C87_candle_text {T} (times : list T) open close cd : In cd (draw_candles times open close) ->
  cut_of (cd_open cd) (cd_begin cd) /\ cut_of (cd_close cd) (cd_end cd) /\ cut_of (cd_close cd - cd_open cd) (cd_flow cd) /\
  (Z.abs (cd_end cd - cd_begin cd - cd_flow cd) <= 1)%Z /\
  (forall a b, (cd_open cd == inject_Z a)%Q -> (cd_close cd == inject_Z b)%Q ->
     cd_begin cd = a /\ cd_end cd = b /\ cd_flow cd = (b - a)%Z).
Proof.
  intros I. unfold draw_candles in I. apply in_map_iff in I as ([x [o c]] & <- & _). cbn.
  assert (W : forall q z, (q == inject_Z z)%Q -> whole q = z).
  { intros q z H. apply (cut_unique q); [apply whole_cut|]. split; intros _; rewrite H; lra. }
  split; [apply whole_cut|]. split; [apply whole_cut|]. split; [apply whole_cut|]. split.
  - destruct (whole_cut o) as [A1 A2], (whole_cut c) as [B1 B2], (whole_cut (c - o)) as [C1 C2].
    set (zo := whole o) in *. set (zc := whole c) in *. set (zf := whole (c - o)) in *.
    assert (X : (inject_Z (zc - zo - zf) < inject_Z 2)%Q /\ (inject_Z (-2) < inject_Z (zc - zo - zf))%Q).
    2: { destruct X as [X Y]. rewrite <- Zlt_Qlt in X, Y. lia. }
    unfold Z.sub. rewrite !inject_Z_plus, !inject_Z_opp. change (inject_Z 2) with 2%Q. change (inject_Z (-2)) with (-2)%Q.
    assert (S0 : forall z, (inject_Z z <= -1)%Q \/ (0 <= inject_Z z)%Q).
    { intros z. destruct (Z_lt_le_dec z 0); [left; change (-1)%Q with (inject_Z (-1)) | right; change 0%Q with (inject_Z 0)];
        rewrite <- Zle_Qle; lia. }
    assert (S1 : forall z, (inject_Z z <= 0)%Q \/ (1 <= inject_Z z)%Q).
    { intros z. destruct (Z_lt_le_dec z 1); [left; change 0%Q with (inject_Z 0) | right; change 1%Q with (inject_Z 1)];
        rewrite <- Zle_Qle; lia. }
    destruct (Qlt_le_dec 0 o) as [Lo|Lo]; [assert (Lo' : (0 <= o)%Q) by lra; specialize (A1 Lo'); clear A2 | specialize (A2 Lo); clear A1];
    (destruct (Qlt_le_dec 0 c) as [Lc|Lc]; [assert (Lc' : (0 <= c)%Q) by lra; specialize (B1 Lc'); clear B2 | specialize (B2 Lc); clear B1]);
    (destruct (Qlt_le_dec 0 (c - o)) as [Lf|Lf]; [assert (Lf' : (0 <= c - o)%Q) by lra; specialize (C1 Lf'); clear C2 | specialize (C2 Lf); clear C1]);
    try (split; lra).
  - intros a b Ha Hb. split; [apply W; auto|]. split; [apply W; auto|]. apply W. rewrite Ha, Hb.
    unfold Z.sub. rewrite inject_Z_plus, inject_Z_opp. lra.
Qed.

(** One candle per time, at its place on the time axis; its extremes are those of
    the candle exactly when the content does not grow. *)
Theorem C87_candle_bars {T} (times : list T) open close :
  List.length open = List.length times -> List.length close = List.length times ->
  List.length (draw_candles times open close) = List.length times /\
  forall i x o c, nth_error times i = Some x -> nth_error open i = Some o -> nth_error close i = Some c ->
    exists cd, nth_error (draw_candles times open close) i = Some cd /\ cd_x cd = x /\ cd_open cd = o /\ cd_close cd = c /\
      ((forall q, In q [o; c] -> (cd_low cd <= q <= cd_high cd)%Q) <-> (c <= o)%Q).
Proof.
  intros Lo Lc. unfold draw_candles. split.
  - rewrite map_length, !combine_length. lia.
  - intros i x o c X O C. eexists. rewrite nth_error_map, !nth_error_combine, X, O, C. split; [reflexivity|]. cbn.
    split; auto. split; auto. split; auto. split.
    + intros H. destruct (H o (or_introl eq_refl)). assumption.
    + intros H q [<-|[<-|[]]]; lra.
Qed.

(** ** Opacity, colours *)
Theorem C87_opacity n : 0 < n -> exists a, opacity n = Ok a /\ (1 # 100 <= a <= 1)%Q /\ (1 <= qnat n * a)%Q.
Proof.
  intros L. destruct n as [|n]; [lia|]. eexists. split; [reflexivity|].
  pose proof (qnat_pos n) as P. assert (G : (1 <= qnat (S n))%Q) by (apply (qnat_le 1); lia).
  assert (I1 : (qnat (S n) * (1 / qnat (S n)) == 1)%Q) by (field; lra).
  assert (I0 : (0 < 1 / qnat (S n))%Q) by (apply Qlt_shift_div_l; lra).
  assert (I2 : (1 / qnat (S n) <= 1)%Q) by (apply Qle_shift_div_r; lra).
  unfold qmax. destruct (qlt (1 # 100) (1 / qnat (S n))) eqn:E.
  - apply qlt_lt in E. split; [split; lra | lra].
  - apply qlt_false in E. split; [split; lra|]. nra.
Qed.

Theorem C87_colours {A} (lines : list A) : map fst (line_colours lines) = lines /\
  (forall c, In c (map snd (line_colours lines)) -> c < 10) /\
  (List.length lines <= 10 -> NoDup (map snd (line_colours lines))) /\
  (forall i j a b c, nth_error (line_colours lines) i = Some (a, c) -> nth_error (line_colours lines) j = Some (b, c) ->
     exists k, i = j + 10 * k \/ j = i + 10 * k).
Proof.
  unfold line_colours. set (cs := map (fun i => Nat.modulo i 10) (seq 0 (List.length lines))).
  assert (L : List.length cs = List.length lines) by (unfold cs; now rewrite map_length, seq_length).
  assert (MF : forall (l : list A) (m : list nat), List.length m = List.length l -> map fst (combine l m) = l /\ map snd (combine l m) = m).
  { induction l as [|a l IH]; intros [|b m] E; cbn in *; try discriminate; auto. destruct (IH m) as [F G]; [lia|]. now rewrite F, G. }
  destruct (MF lines cs L) as [F G]. rewrite G. split; [exact F|]. split; [|split].
  - intros c I. unfold cs in I. apply in_map_iff in I as (i & <- & _). apply Nat.mod_upper_bound. lia.
  - intros L10. unfold cs. replace (map (fun i => Nat.modulo i 10) (seq 0 (List.length lines))) with (seq 0 (List.length lines)); [apply seq_NoDup|].
    rewrite <- (map_id (seq 0 (List.length lines))) at 1. apply map_ext_in. intros i I. apply in_seq in I. symmetry. apply Nat.mod_small. lia.
  - intros i j a b c Hi Hj. rewrite nth_error_combine in Hi, Hj. unfold cs in Hi, Hj. rewrite nth_error_map in Hi, Hj.
    destruct (nth_error lines i) as [x|] eqn:Xi; [|discriminate]. destruct (nth_error lines j) as [y|] eqn:Xj; [|discriminate].
    assert (Li : i < List.length lines) by (apply nth_error_Some; congruence). assert (Lj : j < List.length lines) by (apply nth_error_Some; congruence).
    rewrite (nth_error_nth' _ 0), seq_nth in Hi by (try rewrite seq_length; lia). rewrite (nth_error_nth' _ 0), seq_nth in Hj by (try rewrite seq_length; lia).
    cbn [option_map] in Hi, Hj. rewrite Nat.add_0_l in Hi, Hj.
    assert (Mi : i mod 10 = c) by congruence. assert (Mj : j mod 10 = c) by congruence.
    pose proof (Nat.div_mod i 10 ltac:(lia)) as Di. pose proof (Nat.div_mod j 10 ltac:(lia)) as Dj. rewrite Mi in Di. rewrite Mj in Dj.
    destruct (Nat.le_gt_cases j i) as [Le|Gt].
    + exists (i / 10 - j / 10). left. assert (j / 10 <= i / 10) by (apply Nat.div_le_mono; lia). lia.
    + exists (j / 10 - i / 10). right. assert (i / 10 <= j / 10) by (apply Nat.div_le_mono; lia). lia.
Qed.

(** ** Matrix *)
Lemma drawn_colours a z : draw_matrix a = Ok z -> shape z = shape a /\ Forall2 colour_of (data a) (data z).
Proof.
  intros H. assert (P : exists q, In q (data a) /\ (0 < q)%Q).
  { unfold draw_matrix, sdt in H. destruct (filter (fun q => qlt 0 q) (data a)) as [|q l] eqn:F; [discriminate|].
    assert (I : In q (filter (fun q => qlt 0 q) (data a))) by (rewrite F; now left). apply filter_In in I as [I G]. exists q. split; auto. now apply qlt_lt. }
  assert (M : exists q, In q (data a) /\ (q < 0)%Q).
  { destruct (existsb (fun q => qlt q 0) (data a)) eqn:X.
    - apply existsb_exists in X as (q & I & L). exists q. split; auto. now apply qlt_lt.
    - exfalso. rewrite (C60_one_sign a) in H; [discriminate|]. left. intros q I. apply Qnot_lt_le. intros L.
      assert (X' : existsb (fun q => qlt q 0) (data a) = true) by (apply existsb_exists; exists q; split; auto; now apply qlt_lt). congruence. }
  destruct (C60_matrix_partial a P M) as (z' & E & F). rewrite E in H. injection H as <-. auto.
Qed.

Lemma nth_error_prod {A B} (l : list A) (m : list B) i j a b : nth_error l i = Some a -> nth_error m j = Some b ->
  nth_error (list_prod l m) (i * List.length m + j) = Some (a, b).
Proof.
  revert i. induction l as [|x l IH]; intros [|i] Hi Hj; cbn in Hi; try discriminate.
  - injection Hi as ->. cbn [list_prod Nat.mul Nat.add]. rewrite nth_error_app1 by (rewrite map_length; apply nth_error_Some; congruence).
    now rewrite nth_error_map, Hj.
  - cbn [list_prod]. rewrite nth_error_app2 by (rewrite map_length; cbn; lia). rewrite map_length.
    replace (S i * List.length m + j - List.length m) with (i * List.length m + j) by (cbn; lia). auto.
Qed.

(** Each scenario and time has its cell, whose text is the remaining capacity and
    whose colour has its sign. *)
Theorem C87_matrix_cells bcast junk s r an net {T} (times : list T) : api_study s -> mirrors s r -> new_analyzer bcast junk s r = Ok an ->
  List.length times = st_horizon s -> (exists p, rac_matrix an net = Ok p) ->
  exists rac cells, get_rac an net = Ok rac /\ draw_heat times rac = Ok cells /\
    List.length cells = st_nb_scn s * st_horizon s /\
    forall scn t x, scn < st_nb_scn s -> nth_error times t = Some x ->
      exists z v, In (scn, x, z, v) cells /\ (v == remaining s r net scn t)%Q /\ colour_of v z.
Proof.
  intros A M N LT [p Rm]. destruct (remaining_of s r bcast junk an A M N net) as (g & R & G).
  unfold rac_matrix in Rm. rewrite R in Rm. cbn [rbind] in Rm.
  destruct (draw_matrix (garr (st_nb_scn s) (st_horizon s) g)) as [z|] eqn:D; [|discriminate]. clear Rm.
  destruct (drawn_colours _ _ D) as [Sh F]. exists (garr (st_nb_scn s) (st_horizon s) g). eexists. split; [exact R|].
  unfold draw_heat. rewrite D. cbn [rbind garr shape]. split; [reflexivity|].
  assert (LG : List.length (data (garr (st_nb_scn s) (st_horizon s) g)) = st_nb_scn s * st_horizon s) by (cbn [garr data]; apply grid_length).
  assert (LF : List.length (data (garr (st_nb_scn s) (st_horizon s) g)) = List.length (data z)) by (clear - F; induction F; cbn; congruence).
  split.
  - rewrite map_length, !combine_length, prod_length, seq_length. lia.
  - intros scn t x Ls X. assert (Lt : t < st_horizon s) by (rewrite <- LT; apply nth_error_Some; congruence).
    set (k := scn * st_horizon s + t).
    assert (Kd : nth_error (data (garr (st_nb_scn s) (st_horizon s) g)) k = Some (g scn t)) by (cbn [garr data]; now apply nth_error_grid).
    destruct (nth_error (data z) k) as [zz|] eqn:Kz.
    2: { apply nth_error_None in Kz. assert (k < List.length (data (garr (st_nb_scn s) (st_horizon s) g))) by (apply nth_error_Some; congruence). lia. }
    exists zz, (g scn t). split; [|split; [now apply G|]].
    + apply (nth_error_In _ k). rewrite nth_error_map, !nth_error_combine, Kz, Kd.
      unfold k. rewrite <- LT. rewrite (nth_error_prod (seq 0 (st_nb_scn s)) times scn t scn x); auto.
      rewrite (nth_error_nth' _ 0) by (rewrite seq_length; lia). now rewrite seq_nth by lia.
    + clearbody k. clear - F Kd Kz. revert k Kd Kz. induction F as [|u v l m H _ IH]; intros [|k] Kd Kz; cbn in *; try discriminate; eauto. congruence.
Qed.

(** The title rounds the percentage down and says 100 only if no capacity is missing
    anywhere. *)
Theorem C87_title bcast junk s r an net pct z : api_study s -> mirrors s r -> new_analyzer bcast junk s r = Ok an ->
  rac_matrix an net = Ok (pct, z) ->
  (inject_Z (title_percent pct) <= pct < inject_Z (title_percent pct) + 1)%Q /\ (0 <= title_percent pct <= 100)%Z /\
  (title_percent pct = 100%Z <-> forall scn t, scn < st_nb_scn s -> t < st_horizon s -> (0 <= remaining s r net scn t)%Q).
Proof.
  intros A M N Rm. pose proof (C64_rac_title bcast junk s r an net A M N pct z Rm) as E.
  set (all := list_prod (seq 0 (st_nb_scn s)) (seq 0 (st_horizon s))) in *.
  set (f := fun st : nat * nat => Qle_bool 0 (remaining s r net (fst st) (snd st))) in *.
  assert (LA : List.length all = st_nb_scn s * st_horizon s) by (unfold all; now rewrite prod_length, !seq_length).
  destruct (dims_pos s A) as (Pn & Ph). assert (Pos : 0 < st_nb_scn s * st_horizon s) by nia.
  assert (LF : List.length (filter f all) <= List.length all).
  { clear. induction all as [|x l IH]; cbn; auto. destruct (f x); cbn; lia. }
  assert (FA : List.length (filter f all) = List.length all <-> forall x, In x all -> f x = true).
  { clear. induction all as [|x l IH]; cbn.
    - split; [intros _ ? [] | auto].
    - assert (LF : List.length (filter f l) <= List.length l) by (clear; induction l as [|y l IH]; cbn; auto; destruct (f y); cbn; lia).
      destruct (f x) eqn:Fx; cbn.
      + split.
        * intros H y [<-|I]; auto. apply IH; auto.
        * intros H. f_equal. apply IH. intros; apply H; auto.
      + split; [intros H; lia | intros H; rewrite H in Fx by auto; discriminate]. }
  rewrite <- LA in E, Pos. destruct (List.length all) as [|k] eqn:K; [lia|].
  pose proof (qnat_pos k) as Pq. pose proof (qnat_le _ _ LF) as Lq.
  assert (F0 : (0 <= qnat (List.length (filter f all)))%Q) by (apply (qnat_le 0); lia).
  assert (P0 : (0 <= pct)%Q) by (apply Qnot_lt_le; intros C; nra).
  assert (P1 : (pct <= 100)%Q) by (apply Qnot_lt_le; intros C; nra).
  destruct (whole_cut pct) as [Cu _]. specialize (Cu P0). unfold title_percent. split; [exact Cu|].
  split.
  - split.
    + assert (X : (inject_Z (-1) < inject_Z (whole pct))%Q) by (change (inject_Z (-1)) with (-1)%Q; lra). rewrite <- Zlt_Qlt in X. lia.
    + assert (X : (inject_Z (whole pct) <= inject_Z 100)%Q) by (change (inject_Z 100) with 100%Q; lra). rewrite <- Zle_Qle in X. exact X.
  - assert (Eq : whole pct = 100%Z <-> List.length (filter f all) = S k).
    { split.
      - intros W. rewrite W in Cu. change (inject_Z 100) with 100%Q in Cu. apply Nat.le_antisymm; [exact LF|].
        assert (X : (qnat (S k) <= qnat (List.length (filter f all)))%Q) by nra. unfold qnat in X. rewrite <- Zle_Qle in X. lia.
      - intros H. rewrite H in E. assert (P : (pct == 100)%Q) by nra. apply (cut_unique pct); [apply whole_cut|].
        split; intros _; change (inject_Z 100) with 100%Q; lra. }
    rewrite Eq, FA. split.
    + intros H scn t Ls Lt. specialize (H (scn, t)). unfold f in H. cbn [fst snd] in H. apply Qle_bool_iff. apply H.
      unfold all. apply in_prod; apply in_seq; lia.
    + intros H [scn t] I. unfold all in I. apply in_prod_iff in I as [I J]. apply in_seq in I. apply in_seq in J.
      unfold f. cbn [fst snd]. apply Qle_bool_iff. apply H; lia.
Qed.

(** ** A storage that fills *)
Definition fill_calls : list call :=
  [ OnStudy_network "net"; OnSel 0 (MNode "a"); OnSel 1 (MConsumption "load" (jn 100) (jn 1));
    OnSel 2 (MProduction "p" (jn 1) (jn 10));
    OnSel 3 (MStorage "s" (jn 6) (jn 4) (jn 4) (jn 0) (3 # 5)%Q (PJson (JNum (1 # 2)))) ].
Definition fill : study := Eval vm_compute in w_study (run (start 1 1 None) fill_calls).
Lemma fill_api : api_study fill.
Proof. exists 1, 1, None, fill_calls. split; [lia|]. split; [lia|]. split; [plain_tac | vm_compute; reflexivity]. Qed.
Definition fill_x (v : var) : Q :=
  match v with VProd _ _ _ _ => 13 # 5 | VIn _ _ _ _ => 8 # 5 | VCap _ _ _ _ => 7 # 5 | _ => 0 end%Q.
Definition fill_answer (_ : nat) (_ : solver) : var -> Q := fill_x.
Definition fill_result : result := Eval vm_compute in
  match solve_lp fill_answer [0] no_bench fill with Ok r => r | Err _ => Result [] [] no_bench end.
Lemma fill_solved : solved fill_answer fill fill_result.
Proof. exists [0], no_bench. split; [reflexivity | vm_compute; reflexivity]. Qed.
Lemma fill_feasible : feasible_answer fill_answer fill 0.
Proof. apply satb_ok. vm_compute. reflexivity. Qed.
Definition fill_an : analyzer := Eval vm_compute in
  match new_analyzer true no_junk fill fill_result with Ok an => an | Err _ => no_analyzer end.
Lemma fill_an_new : new_analyzer true no_junk fill fill_result = Ok fill_an. Proof. vm_compute. reflexivity. Qed.

(** The highest value of a candle is not its highest, and the flow told is not the
    difference of the contents told. *)
Theorem C87_candles_refuted : exists answer s r an net nd name open close o c cd,
  api_study s /\ solved answer s r /\ feasible_answer answer s 0 /\ new_analyzer true no_junk s r = Ok an /\
  candles an net nd name 0 = Ok (open, close) /\ numbers open = Ok o /\ numbers close = Ok c /\
  In cd (draw_candles (seq 0 (st_horizon s)) o c) /\
  (cd_high cd < cd_close cd)%Q /\ (cd_open cd < cd_low cd)%Q /\ cd_flow cd <> (cd_end cd - cd_begin cd)%Z.
Proof.
  exists fill_answer, fill, fill_result, fill_an, "net", "a", "s". do 5 eexists.
  split; [apply fill_api|]. split; [apply fill_solved|]. split; [apply fill_feasible|]. split; [apply fill_an_new|].
  split; [vm_compute; reflexivity|]. split; [vm_compute; reflexivity|]. split; [vm_compute; reflexivity|].
  split; [left; reflexivity|]. vm_compute. split; [reflexivity|]. split; [reflexivity | discriminate].
Qed.

Example C87_example :
  exists x, monotone_points (map CNum [3; 7; 5; 7]%Q) = x /\ List.length x = 4 /\ map snd x = map CNum [7; 7; 5; 3]%Q /\
    above 7 [3; 7; 5; 7]%Q = 0 /\ reaching 7 [3; 7; 5; 7]%Q = 2 /\ above 5 [3; 7; 5; 7]%Q = 2 /\
    (exists q, nth_error (map fst x) 2 = Some q /\ q == 200 # 3)%Q.
Proof.
  eexists. split; [reflexivity|]. split; [reflexivity|]. split; [vm_compute; reflexivity|]. split; [reflexivity|].
  split; [reflexivity|]. split; [reflexivity|]. eexists. split; [vm_compute; reflexivity | reflexivity].
Qed.

(** Two scenarios and two times with shortages and spare capacity. *)
Example C87_matrix_example : api_study mix /\ mirrors mix mix_result /\ new_analyzer true no_junk mix mix_result = Ok mix_an /\
  List.length (seq 0 2) = st_horizon mix /\
  exists p rac cells, rac_matrix mix_an "elec" = Ok p /\ get_rac mix_an "elec" = Ok rac /\ draw_heat (seq 0 2) rac = Ok cells /\
    List.length cells = 4 /\ title_percent (fst p) = 75%Z.
Proof.
  split; [apply mix_api|]. split; [apply mix_mirrors|]. split; [apply mix_an_new|]. split; [reflexivity|].
  do 3 eexists. split; [vm_compute; reflexivity|]. split; [vm_compute; reflexivity|]. split; [vm_compute; reflexivity|].
  split; vm_compute; reflexivity.
Qed.

Print Assumptions C87_duration.
Print Assumptions C87_candle_text.
Print Assumptions C87_candle_bars.
Print Assumptions C87_opacity.
Print Assumptions C87_colours.
Print Assumptions C87_matrix_cells.
Print Assumptions C87_title.
Print Assumptions C87_candles_refuted.
