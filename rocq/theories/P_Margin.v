(** C84: prices tell how the cost of a study follows its quantities. *)
From Coq Require Import String Ascii List ZArith QArith Bool Arith Lia Lqa Permutation Sorted.
From Verif Require Import Base BaseFacts Numeric Study Fluent Output LP SpecStudy SpecLP StudyFacts LPBuild LPFacts LPSat LPOpt LPResult LPReady LPSolve LPWeak LPMore LPPrice LPMarket P_LP P_Opt P_Law P_More P_Prices.
Import ListNotations.
Open Scope nat_scope.
Open Scope string_scope.
Open Scope list_scope.

(** ** Specification *)
Definition positive (q : Q) : Q := if Qle_bool q 0 then 0%Q else q.
Definition lesser (a b : Q) : Q := if Qle_bool a b then a else b.

Section Worth.
  Variables (scn : nat) (price : nat -> string -> string -> Q).
  (** What a link earns with each unit; from a node to itself it sells twice. *)
  Definition link_gain (t : nat) (net nd : string) (l : link) : Q :=
    (price t net (l_dest l) + (if String.eqb (l_dest l) nd then price t net nd else 0) - price t net nd - value (l_cost l) scn t)%Q.
  (** Each unit of load counts for its price, or for the cost of not serving it if that is
      less; each unit of capacity for what it can earn, if anything. *)
  Definition worth_at (t : nat) (s : study) : Q :=
    (total (fun kn => total (fun kd =>
         total (fun c => lesser (price t (fst kn) (fst kd)) (value (c_cost c) scn t) * value (c_qty c) scn t) (n_cons (snd kd))
         - total (fun p => positive (price t (fst kn) (fst kd) - value (p_cost p) scn t) * value (p_qty p) scn t) (n_prods (snd kd))
         - total (fun l => positive (link_gain t (fst kn) (fst kd) l) * value (l_qty l) scn t) (n_links (snd kd)))
       (snd kn)) (st_networks s)
     - total (fun kv => positive (conv_gain scn price t (snd kv)) * ovalue (v_max (snd kv)) scn t) (st_converters s))%Q.
  Definition worth (s : study) : Q := total (fun t => worth_at t s) (seq 0 (st_horizon s)).
  (** What the storages of a result earn. *)
  Definition stored_profit (s : study) (r : result) : Q :=
    total (fun kn => total (fun kd => match rnode_at r (fst kn) (fst kd) with
      | Some rn => total (fun yo => plan_profit s scn price (fst kn) (fst kd) (fst yo) (entry (os_capacity (snd yo)) scn) (entry (os_flow_in (snd yo)) scn) (entry (os_flow_out (snd yo)) scn))
                         (combine (n_stors (snd kd)) (on_stors rn))
      | None => 0%Q end) (snd kn)) (st_networks s).
End Worth.

(** The same study but for the quantities of loads, productions, links and converters. *)
Section Resized.
  Variables (h scn : nat).
  Definition stor_same (y y' : storage) : Prop :=
    eq_at h scn (s_capacity y) (s_capacity y') /\ eq_at h scn (s_flow_in y) (s_flow_in y') /\ eq_at h scn (s_flow_out y) (s_flow_out y') /\
    (s_init y == s_init y')%Q /\ eq_at h scn (s_eff y) (s_eff y') /\ eq_at h scn (s_cost y) (s_cost y').
  Record node_resized (n n' : node) : Prop := {
    nz_cons : Forall2 (fun c c' => eq_at h scn (c_cost c) (c_cost c')) (n_cons n) (n_cons n');
    nz_prods : Forall2 (fun p p' => eq_at h scn (p_cost p) (p_cost p')) (n_prods n) (n_prods n');
    nz_links : Forall2 (fun l l' => l_dest l' = l_dest l /\ eq_at h scn (l_cost l) (l_cost l')) (n_links n) (n_links n');
    nz_stors : Forall2 stor_same (n_stors n) (n_stors n')
  }.
  Definition conv_resized (v v' : converter) : Prop :=
    Forall2 (fun kq kq' => fst kq' = fst kq /\ eq_at h scn (snd kq) (snd kq')) (v_src v) (v_src v') /\
    v_dnet v' = v_dnet v /\ v_dnode v' = v_dnode v /\
    (forall t, t < h -> (ovalue (v_cost v) scn t == ovalue (v_cost v') scn t)%Q).
End Resized.
Record resized (s s' : study) (scn : nat) : Prop := {
  rz_horizon : st_horizon s' = st_horizon s;
  rz_nodes : Forall2 (fun a b => fst b = fst a /\
    Forall2 (fun c d => fst d = fst c /\ node_resized (st_horizon s) scn (snd c) (snd d)) (snd a) (snd b)) (st_networks s) (st_networks s');
  rz_convs : Forall2 (fun a b => fst b = fst a /\ conv_resized (st_horizon s) scn (snd a) (snd b)) (st_converters s) (st_converters s')
}.

(** ** Lemmas *)
Lemma qsum_Forall2_le {A C} (R : A -> C -> Prop) (f : A -> Q) (g : C -> Q) l m : Forall2 R l m ->
  (forall a b, In a l -> In b m -> R a b -> (f a <= g b)%Q) -> (qsum (map f l) <= qsum (map g m))%Q.
Proof.
  induction 1 as [| a b l m Rab F IH]; intros H; cbn [map]; [cbn; lra |].
  change (qsum (?u :: ?v)) with (u + qsum v)%Q. pose proof (H a b (or_introl eq_refl) (or_introl eq_refl) Rab).
  assert (qsum (map f l) <= qsum (map g m))%Q by (apply IH; intros; apply H; auto; now right). lra.
Qed.
Lemma sumi_Forall2_le {A C} (R : A -> C -> Prop) (f : nat -> A -> Q) (g : nat -> C -> Q) l m : Forall2 R l m ->
  (forall i a b, nth_error l i = Some a -> nth_error m i = Some b -> R a b -> (f i a <= g i b)%Q) -> (sumi f l <= sumi g m)%Q.
Proof.
  intros F. unfold sumi. assert (G : forall k, (forall i a b, nth_error l i = Some a -> nth_error m i = Some b -> R a b -> (f (k + i)%nat a <= g (k + i)%nat b)%Q) ->
    (qsum (mapi f k l) <= qsum (mapi g k m))%Q).
  { induction F as [| a b l m Rab F IH]; intros k H; cbn [mapi]; [cbn; lra |].
    change (qsum (?u :: ?v)) with (u + qsum v)%Q. pose proof (H 0 a b eq_refl eq_refl Rab) as H0. rewrite Nat.add_0_r in H0.
    assert (qsum (mapi f (S k) l) <= qsum (mapi g (S k) m))%Q.
    { apply IH. intros i u v I J K. specialize (H (S i) u v I J K). rewrite Nat.add_succ_r in H. exact H. } lra. }
  intros H. apply (G 0). exact H.
Qed.
Lemma sumi_combine {A C} (f : nat -> A -> Q) (g : A * C -> Q) l m : length l = length m ->
  (forall i a b, nth_error l i = Some a -> nth_error m i = Some b -> (f i a == g (a, b))%Q) -> (sumi f l == qsum (map g (combine l m)))%Q.
Proof.
  unfold sumi. intros E H. assert (G : forall k, (forall i a b, nth_error l i = Some a -> nth_error m i = Some b -> (f (k + i)%nat a == g (a, b))%Q) ->
    (qsum (mapi f k l) == qsum (map g (combine l m)))%Q).
  { clear H. revert m E. induction l as [| a l IH]; intros [| b m] E k H; try discriminate E; cbn [mapi combine map]; [reflexivity |].
    change (qsum (?u :: ?v)) with (u + qsum v)%Q. pose proof (H 0 a b eq_refl eq_refl) as H0. rewrite Nat.add_0_r in H0. rewrite H0.
    rewrite (IH m) by (cbn in E; try lia; intros i u v I J; specialize (H (S i) u v I J); rewrite Nat.add_succ_r in H; exact H). reflexivity. }
  apply (G 0). exact H.
Qed.

Lemma positive_ge q : (0 <= positive q)%Q /\ (q <= positive q)%Q.
Proof. unfold positive. destruct (Qle_bool q 0) eqn:E; [apply Qle_bool_iff in E; lra |]. destruct (Qlt_le_dec 0 q) as [L|L]; [lra |]. apply Qle_bool_iff in L. congruence. Qed.
Lemma positive_cases q : ((q <= 0 /\ positive q == 0) \/ (0 < q /\ positive q == q))%Q.
Proof. unfold positive. destruct (Qle_bool q 0) eqn:E; [apply Qle_bool_iff in E; left; lra |]. destruct (Qlt_le_dec 0 q) as [L|L]; [right; lra |]. apply Qle_bool_iff in L. congruence. Qed.
Lemma lesser_positive p c : (lesser p c == p - positive (p - c))%Q.
Proof.
  unfold lesser. destruct (positive_cases (p - c)) as [(A & B)|(A & B)]; rewrite B.
  - assert (X : Qle_bool p c = true) by (apply Qle_bool_iff; lra). rewrite X. ring.
  - destruct (Qle_bool p c) eqn:X; [apply Qle_bool_iff in X; lra |]. ring.
Qed.
(** A quantity between 0 and [up] earns at most [positive gain * up]; the best one exactly that. *)
Lemma earns_most gain q up : within 0 q up -> (gain * q <= positive gain * up)%Q.
Proof. intros [A B]. destruct (positive_cases gain) as [(C & D)|(C & D)]; rewrite D; nra. Qed.
Lemma earns_best gain q up : within 0 q up -> (gain * up <= gain * q)%Q -> (gain * 0 <= gain * q)%Q -> (gain * q == positive gain * up)%Q.
Proof. intros [A B] C D. destruct (positive_cases gain) as [(E & F)|(E & F)]; rewrite F; nra. Qed.

Section Rents.
Variables (s : study) (scn : nat).
Hypothesis Hscn : scn < st_nb_scn s.
Hypothesis Hs : ready s.
Variable price : akey -> Q.
Let pr := fun t net nd => price (t, net, nd).

Definition rent (P : part) : Q :=
  match P with
  | ACons t net nd i c => positive (price (t, net, nd) - value (c_cost c) scn t) * value (c_qty c) scn t
  | AProd t net nd i p => positive (price (t, net, nd) - value (p_cost p) scn t) * value (p_qty p) scn t
  | ALink t net nd i l => positive (link_gain scn pr t net nd l) * value (l_qty l) scn t
  | AStor net nd i y => 0
  | AConv t name v => positive (conv_gain scn pr t v) * ovalue (v_max v) scn t
  end%Q.

Lemma conv_own t name v x : t < st_horizon s -> conv_at s name = Some v -> fits s scn (AConv t name v) x ->
  (own s scn price (AConv t name v) x == - (conv_gain scn pr t v * x (VDest name t)))%Q.
Proof.
  intros T V [F1 F2]. cbn [own]. destruct (rd_conv _ Hs name v V) as [_ _ SR _].
  assert (NZ : forall k w, In (k, w) (v_src v) -> ~ (value w scn t == 0)%Q) by (intros k w J; apply (SR k w J); auto).
  rewrite (qsum_map_ext (fun kr : string * string * numval => price (t, fst (fst kr), snd (fst kr)) * x (vsrc name t (fst kr)))%Q
    (fun kr => x (VDest name t) * (pr t (fst (fst kr)) (snd (fst kr)) / value (snd kr) scn t))%Q).
  2:{ intros [k w] I. cbn [fst snd]. destruct (F2 k w I) as [_ E]. rewrite <- E. unfold pr. field. exact (NZ k w I). }
  rewrite qsum_map_scal. unfold conv_gain, total, pr. ring.
Qed.

Lemma rent_floor P x : In P (parts s) -> fits s scn P x -> match P with AStor _ _ _ _ => True | _ => (- rent P <= own s scn price P x)%Q end.
Proof.
  intros I F. destruct P; auto.
  - cbn [rent own fits] in *. pose proof (earns_most (price (t, net, nd) - value (c_cost c) scn t) _ _ F). lra.
  - cbn [rent own fits] in *. pose proof (earns_most (price (t, net, nd) - value (p_cost p) scn t) _ _ F). lra.
  - cbn [rent own fits] in *. pose proof (earns_most (link_gain scn pr t net nd l) _ _ F) as H. unfold link_gain, pr in *. lra.
  - apply (parts_In s scn Hscn Hs) in I. destruct I as (T & V). rewrite (conv_own t name v x T V F). cbn [rent]. destruct F as [F _].
    pose proof (earns_most (conv_gain scn pr t v) _ _ F). lra.
Qed.

Lemma rent_best P x : In P (parts s) -> does_best s scn price x -> fits s scn P x ->
  match P with AStor _ _ _ _ => True | _ => (own s scn price P x == - rent P)%Q end.
Proof.
  intros I D F. destruct P; auto.
  - pose proof (D _ (fun _ => value (c_qty c) scn t) I) as B1. pose proof (D _ (fun _ => 0%Q) I) as B2. cbn [rent own fits] in *.
    destruct F as [F1 F2]. assert (W1 : within 0 (value (c_qty c) scn t) (value (c_qty c) scn t)) by (unfold within; lra).
    assert (W2 : within 0 0 (value (c_qty c) scn t)) by (unfold within; lra). specialize (B1 W1). specialize (B2 W2).
    rewrite <- (earns_best (price (t, net, nd) - value (c_cost c) scn t) (x (VLol net nd i t)) (value (c_qty c) scn t) (conj F1 F2)); lra.
  - pose proof (D _ (fun _ => value (p_qty p) scn t) I) as B1. pose proof (D _ (fun _ => 0%Q) I) as B2. cbn [rent own fits] in *.
    destruct F as [F1 F2]. assert (W1 : within 0 (value (p_qty p) scn t) (value (p_qty p) scn t)) by (unfold within; lra).
    assert (W2 : within 0 0 (value (p_qty p) scn t)) by (unfold within; lra). specialize (B1 W1). specialize (B2 W2).
    rewrite <- (earns_best (price (t, net, nd) - value (p_cost p) scn t) (x (VProd net nd i t)) (value (p_qty p) scn t) (conj F1 F2)); lra.
  - pose proof (D _ (fun _ => value (l_qty l) scn t) I) as B1. pose proof (D _ (fun _ => 0%Q) I) as B2. cbn [rent own fits] in *.
    destruct F as [F1 F2]. assert (W1 : within 0 (value (l_qty l) scn t) (value (l_qty l) scn t)) by (unfold within; lra).
    assert (W2 : within 0 0 (value (l_qty l) scn t)) by (unfold within; lra). specialize (B1 W1). specialize (B2 W2).
    rewrite <- (earns_best (link_gain scn pr t net nd l) (x (VLink net nd i t)) (value (l_qty l) scn t) (conj F1 F2)); unfold link_gain, pr in *; lra.
  - pose proof I as I0. apply (parts_In s scn Hscn Hs) in I0. destruct I0 as (T & V). pose proof (conv_own t name v x T V F) as O. destruct F as [F1 F2].
    destruct (rd_conv _ Hs name v V) as [_ _ SR _].
    assert (NZ : forall k w, In (k, w) (v_src v) -> ~ (value w scn t == 0)%Q) by (intros k w J; apply (SR k w J); auto).
    assert (G : forall a b w, In ((a, b), w) (v_src v) -> dget (a, b) (v_src v) = Some w).
    { intros. apply In_dget; auto. eapply wf_once, wf_conv; [apply rd_wf |]; eauto. }
    assert (Y : forall q, within 0 q (ovalue (v_max v) scn t) -> (q == 0 \/ q == ovalue (v_max v) scn t)%Q ->
                (own s scn price (AConv t name v) x <= - (conv_gain scn pr t v * q))%Q).
    { intros q W Z. set (y := fun u => match u with VSrc _ a b _ => match dget (a, b) (v_src v) with Some w => q / value w scn t | None => 0 end | _ => q end%Q).
      assert (FY : fits s scn (AConv t name v) y).
      { split; [exact W |]. intros [a b] w J. cbn [vsrc fst snd y]. rewrite (G a b w J). specialize (NZ _ _ J). split; [| field; exact NZ].
        destruct (F2 _ _ J) as [[K1 K2] _]. unfold within. destruct Z as [Z|Z]; rewrite Z; [| lra].
        setoid_replace (0 / value w scn t)%Q with 0%Q by (field; exact NZ). lra. }
      rewrite <- (conv_own t name v y T V FY : (_ == - (conv_gain scn pr t v * q))%Q). apply D; auto. }
    cbn [rent]. pose proof F1 as [F3 F4]. assert (W1 : within 0 (ovalue (v_max v) scn t) (ovalue (v_max v) scn t)) by (unfold within; lra).
    assert (W2 : within 0 0 (ovalue (v_max v) scn t)) by (unfold within; lra).
    pose proof (Y _ W1 (or_intror (Qeq_refl _))) as Y1. pose proof (Y _ W2 (or_introl (Qeq_refl _))) as Y2. rewrite O in *.
    rewrite <- (earns_best (conv_gain scn pr t v) (x (VDest name t)) (ovalue (v_max v) scn t) F1); lra.
Qed.

(** Sums over the elements, storages apart. *)
Definition stors_sum (f : part -> Q) : Q := nsum s (fun net nd n => sumi (fun i y => f (AStor net nd i y)) (n_stors n)).
Definition steps_sum (f : part -> Q) : Q :=
  qsum (map (fun t => nsum s (fun net nd n => sumi (fun i c => f (ACons t net nd i c)) (n_cons n) + sumi (fun i c => f (AProd t net nd i c)) (n_prods n)
                                            + sumi (fun i c => f (ALink t net nd i c)) (n_links n))
                    + qsum (map (fun kv => f (AConv t (fst kv) (snd kv))) (st_converters s))) (seq 0 (st_horizon s)))%Q.
Lemma split_parts f : (qsum (map f (parts s)) == steps_sum f + stors_sum f)%Q.
Proof.
  unfold parts, steps_sum, stors_sum. rewrite map_app, qsum_app, over_sum.
  assert (X : forall {Y Z} (f : Z -> Q) (h : Y -> list Z) l, (qsum (map f (flat_map h l)) == qsum (map (fun y => qsum (map f (h y))) l))%Q).
  { intros Y Z g h l. induction l; simpl; [lra|]. rewrite map_app, qsum_app, IHl. lra. }
  apply Qplus_comp.
  - apply qsum_map_ext. intros t _. apply Qplus_comp.
    + unfold nsum. apply qsum_map_ext. intros kn _. apply qsum_map_ext. intros kd _. rewrite !map_app, !qsum_app, !map_mapi. unfold sumi. ring.
    + apply qsum_map_ext. intros kv _. cbn [map]. change (qsum (?a :: [])) with (a + 0)%Q. ring.
  - rewrite X. unfold nsum. apply qsum_map_ext. intros kn _. rewrite X. apply qsum_map_ext. intros kd _. rewrite map_mapi. reflexivity.
Qed.

Lemma worth_rents : (worth scn pr s == fee s scn price + steps_sum (fun P => - rent P))%Q.
Proof.
  unfold worth, fee, steps_sum, total. rewrite <- qsum_map_add. apply qsum_map_ext. intros t _. unfold worth_at, total.
  rewrite Qplus_assoc, <- nsum_add. unfold Qminus at 1. apply Qplus_comp.
  - unfold nsum. apply qsum_map_ext. intros kn _. apply qsum_map_ext. intros kd _.
    rewrite !sumi_opp. cbn [rent]. rewrite !sumi_map. rewrite <- qsum_map_scal. unfold pr, Qminus at 1 2. rewrite !Qplus_assoc.
    apply Qplus_comp; [apply Qplus_comp; [| reflexivity] | reflexivity].
    rewrite <- (qsum_map_opp (fun x => positive (price (t, fst kn, fst kd) - value (c_cost x) scn t) * value (c_qty x) scn t)%Q), <- qsum_map_add.
    apply qsum_map_ext. intros c _. rewrite lesser_positive. ring.
  - rewrite <- qsum_map_opp. reflexivity.
Qed.

(** Cost of a dispatch that obeys the laws. *)
Lemma cost_parts x : xok s scn x -> (xcost s scn x == fee s scn price + qsum (map (fun P => own s scn price P x) (parts s)))%Q.
Proof.
  intros X. pose proof (charged_zero s scn Hscn Hs price x X) as CZ. pose proof (lag_parts s scn Hs price x) as LX. rewrite CZ in LX. lra.
Qed.
Lemma steps_floor x : xok s scn x -> (steps_sum (fun P => - rent P) <= steps_sum (fun P => own s scn price P x))%Q.
Proof.
  intros X. apply (xok_half s scn) in X as [HX _]. pose proof (proj1 (half_parts s scn Hscn Hs x) HX) as FX.
  set (f := fun P => match P with AStor _ _ _ _ => own s scn price P x | _ => - rent P end%Q).
  assert (L : (qsum (map f (parts s)) <= qsum (map (fun P => own s scn price P x) (parts s)))%Q).
  { apply (qsum_Forall2_le (fun a b => a = b)); [now apply Forall2_same |]. intros P P' I _ <-. unfold f. pose proof (rent_floor P x I (FX P I)) as H.
    destruct P; try exact H. lra. }
  rewrite !split_parts in L. change (stors_sum f) with (stors_sum (fun P => own s scn price P x)) in L.
  change (steps_sum f) with (steps_sum (fun P => - rent P)%Q) in L. lra.
Qed.
Lemma steps_best x : xok s scn x -> does_best s scn price x -> (steps_sum (fun P => own s scn price P x) == steps_sum (fun P => - rent P))%Q.
Proof.
  intros X D. apply (xok_half s scn) in X as [HX _]. pose proof (proj1 (half_parts s scn Hscn Hs x) HX) as FX.
  set (f := fun P => match P with AStor _ _ _ _ => own s scn price P x | _ => - rent P end%Q).
  assert (L : (qsum (map (fun P => own s scn price P x) (parts s)) == qsum (map f (parts s)))%Q).
  { apply qsum_map_ext. intros P I. unfold f. pose proof (rent_best P x I D (FX P I)) as H. destruct P; try exact H. reflexivity. }
  rewrite !split_parts in L. change (stors_sum f) with (stors_sum (fun P => own s scn price P x)) in L.
  change (steps_sum f) with (steps_sum (fun P => - rent P)%Q) in L. lra.
Qed.
End Rents.

(** ** Two studies that differ in quantities *)
Section Compare.
Variables (s s' : study) (scn : nat).
Hypothesis Hscn : scn < st_nb_scn s.
Hypothesis Hs : ready s.
Hypothesis Hscn' : scn < st_nb_scn s'.
Hypothesis Hs' : ready s'.
Hypothesis RZ : resized s s' scn.
Variable price : akey -> Q.

Lemma stors_compare x x' : xok s' scn x' -> does_best s scn price x ->
  (stors_sum s (fun P => own s scn price P x) <= stors_sum s' (fun P => own s' scn price P x'))%Q.
Proof.
  intros X D. apply (xok_half s' scn) in X as [HX _]. pose proof (proj1 (half_parts s' scn Hscn' Hs' x') HX) as FX.
  unfold stors_sum, nsum. apply (qsum_Forall2_le _ _ _ _ _ (rz_nodes _ _ _ RZ)). intros [net ns] [net' ns'] I I' [E F]. cbn [fst snd] in *. subst net'.
  apply (qsum_Forall2_le _ _ _ _ _ F). intros [nd n] [nd' n'] J J' [E NR]. cbn [fst snd] in *. subst nd'.
  apply (sumi_Forall2_le _ _ _ _ _ (nz_stors _ _ _ _ NR)). intros i y y' Y Y' (C1 & C2 & C3 & C4 & C5 & C6).
  assert (P : In (AStor net nd i y) (parts s)) by (apply (parts_In s scn Hscn Hs); exists n; split; auto; eapply node_at_In; eauto).
  assert (P' : In (AStor net nd i y') (parts s')) by (apply (parts_In s' scn Hscn' Hs'); exists n'; split; auto; eapply node_at_In; eauto).
  specialize (FX _ P'). pose proof (rz_horizon _ _ _ RZ) as HH.
  assert (FY : fits s scn (AStor net nd i y) x').
  { cbn [fits] in *. intros t T. assert (T' : t < st_horizon s') by (rewrite HH; exact T). destruct (FX t T') as ((A1 & A2 & A3) & A4).
    unfold within in *. rewrite (C1 t T), (C2 t T), (C3 t T). split; auto. intros Z. rewrite (A4 Z), (C5 t T). destruct t; [rewrite C4 |]; reflexivity. }
  specialize (D _ x' P FY). eapply Qle_trans; [exact D |]. cbn [own]. rewrite HH.
  rewrite (qsum_map_ext (fun t => value (s_cost y') scn t * x' (VCap net nd i t) + price (t, net, nd) * (x' (VIn net nd i t) - x' (VOut net nd i t)))%Q
    (fun t => value (s_cost y) scn t * x' (VCap net nd i t) + price (t, net, nd) * (x' (VIn net nd i t) - x' (VOut net nd i t)))%Q); [lra |].
  intros t T. apply in_seq in T. rewrite (C6 t ltac:(lia)). reflexivity.
Qed.
End Compare.

(** ** C84 *)

(** The prices of a cheapest dispatch bound the cost of every dispatch of every study that
    has other quantities: the cost moves at least as the worth of these quantities does. *)
Theorem C84_marginal_cost : forall s s' r r' scn price, api_study s -> usable_converters s -> api_study s' -> usable_converters s' ->
  scn < st_nb_scn s -> scn < st_nb_scn s' -> resized s s' scn ->
  mirrors s r -> law_ok s r scn -> equilibrium s r scn price -> mirrors s' r' -> law_ok s' r' scn ->
  (worth scn price s' - worth scn price s <= total_cost s' r' scn - total_cost s r scn)%Q.
Proof.
  intros s s' r r' scn price A U A' U' S S' RZ M L EQ M' L'. pose proof (api_ready s A U) as R. pose proof (api_ready s' A' U') as R'.
  pose proof (read_carries s r scn R M) as CA. pose proof (read_carries s' r' scn R' M') as CA'.
  pose proof (proj1 (law_iff s r R M scn _ CA S) L) as X. pose proof (proj1 (law_iff s' r' R' M' scn _ CA' S') L') as X'.
  rewrite (cost_eq s r R M scn _ CA), (cost_eq s' r' R' M' scn _ CA'). set (x := read_result s r scn) in *. set (x' := read_result s' r' scn) in *.
  set (p := fun k : akey => price (fst (fst k)) (snd (fst k)) (snd k)).
  pose proof (best_of s r scn x S R M CA X p EQ) as D.
  rewrite (cost_parts s scn S R p x X), (cost_parts s' scn S' R' p x' X'), !split_parts, (steps_best s scn S R p x X D).
  pose proof (steps_floor s' scn S' R' p x' X') as F. pose proof (stors_compare s s' scn S R S' R' RZ p x x' X' D) as T.
  pose proof (worth_rents s scn p) as W. pose proof (worth_rents s' scn p) as W'. 
  change (fun (t : nat) (net nd : string) => p (t, net, nd)) with price in W, W'. lra.
Qed.

(** Both ways, between two cheapest dispatches: the prices before and after enclose the change. *)
Theorem C84_enclosed : forall s s' r r' scn price price', api_study s -> usable_converters s -> api_study s' -> usable_converters s' ->
  scn < st_nb_scn s -> scn < st_nb_scn s' -> resized s s' scn -> resized s' s scn ->
  mirrors s r -> law_ok s r scn -> equilibrium s r scn price -> mirrors s' r' -> law_ok s' r' scn -> equilibrium s' r' scn price' ->
  (worth scn price s' - worth scn price s <= total_cost s' r' scn - total_cost s r scn <= worth scn price' s' - worth scn price' s)%Q.
Proof.
  intros s s' r r' scn price price' A U A' U' S S' RZ RZ' M L EQ M' L' EQ'. split.
  - apply C84_marginal_cost; auto.
  - pose proof (C84_marginal_cost s' s r' r scn price' A' U' A U S' S RZ' M' L' EQ' M L). lra.
Qed.

(** And the cost itself is the worth of the quantities, less what storages earn. *)
Theorem C84_cost_shared : forall s r scn price, api_study s -> usable_converters s -> scn < st_nb_scn s ->
  mirrors s r -> law_ok s r scn -> equilibrium s r scn price ->
  (total_cost s r scn == worth scn price s - stored_profit scn price s r)%Q.
Proof.
  intros s r scn price A U S M L EQ. pose proof (api_ready s A U) as R. pose proof (read_carries s r scn R M) as CA.
  pose proof (proj1 (law_iff s r R M scn _ CA S) L) as X. rewrite (cost_eq s r R M scn _ CA). set (x := read_result s r scn) in *.
  set (p := fun k : akey => price (fst (fst k)) (snd (fst k)) (snd k)). pose proof (best_of s r scn x S R M CA X p EQ) as D.
  rewrite (cost_parts s scn S R p x X), split_parts, (steps_best s scn S R p x X D).
  pose proof (worth_rents s scn p) as W. change (fun (t : nat) (net nd : string) => p (t, net, nd)) with price in W.
  rewrite W. assert (T : (stors_sum s (fun P => own s scn p P x) == - stored_profit scn price s r)%Q); [| lra].
  unfold stors_sum, nsum, stored_profit, total. rewrite <- qsum_map_opp. apply qsum_map_ext. intros [net ns] I. rewrite <- qsum_map_opp.
  apply qsum_map_ext. intros [nd n] J. cbn [fst snd]. assert (N : node_at s net nd = Some n) by (eapply node_at_In; eauto).
  destruct (mirror_node_l s r M _ _ _ N) as (rn & Rn & NL). rewrite Rn. rewrite <- qsum_map_opp.
  apply sumi_combine; [eapply Forall2_len, (nl_stors _ _ _ NL) |]. intros i y o Y O. cbn [fst snd]. unfold plan_profit, total.
  rewrite <- qsum_map_opp. cbn [own]. apply qsum_map_ext. intros t T. apply in_seq in T.
  destruct (ca_stors _ _ _ _ CA net nd n rn i y o t ltac:(lia) N Rn Y O) as (E1 & E2 & E3). rewrite E1, E2, E3. unfold p. cbn [fst snd]. unfold x. ring.
Qed.

(** ** Loads *)

(** Sum over the loads of two such studies. *)
Definition per_load (f : nat -> string -> string -> consumption -> consumption -> Q) (s s' : study) : Q :=
  total (fun t => total (fun kk => total (fun dd => total (fun cc => f t (fst (fst kk)) (fst (fst dd)) (fst cc) (snd cc))
      (combine (n_cons (snd (fst dd))) (n_cons (snd (snd dd))))) (combine (snd (fst kk)) (snd (snd kk))))
    (combine (st_networks s) (st_networks s'))) (seq 0 (st_horizon s)).
(** How much more is asked for by a load. *)
Definition extra (scn t : nat) (c c' : consumption) : Q := (value (c_qty c') scn t - value (c_qty c) scn t)%Q.

(** The other quantities are related by [R]. *)
Record capacities (R : Q -> Q -> Prop) (s s' : study) (scn : nat) : Prop := {
  cp_prods : forall t net nd n n' i p p', t < st_horizon s -> node_at s net nd = Some n -> node_at s' net nd = Some n' ->
    nth_error (n_prods n) i = Some p -> nth_error (n_prods n') i = Some p' -> R (value (p_qty p) scn t) (value (p_qty p') scn t);
  cp_links : forall t net nd n n' i p p', t < st_horizon s -> node_at s net nd = Some n -> node_at s' net nd = Some n' ->
    nth_error (n_links n) i = Some p -> nth_error (n_links n') i = Some p' -> R (value (l_qty p) scn t) (value (l_qty p') scn t);
  cp_convs : forall t name v v', t < st_horizon s -> conv_at s name = Some v -> conv_at s' name = Some v' -> R (ovalue (v_max v) scn t) (ovalue (v_max v') scn t)
}.

Lemma qsum_pairs {A C} (R : A -> C -> Prop) (f : A -> Q) (g : C -> Q) (h : A * C -> Q) l m : Forall2 R l m ->
  (forall a b, In a l -> In b m -> R a b -> (g b - f a == h (a, b))%Q) -> (qsum (map g m) - qsum (map f l) == qsum (map h (combine l m)))%Q.
Proof.
  induction 1 as [| a b l m Rab F IH]; intros H; cbn [map combine]; [cbn; lra |].
  change (qsum (?u :: ?v)) with (u + qsum v)%Q. pose proof (H a b (or_introl eq_refl) (or_introl eq_refl) Rab).
  assert (qsum (map g m) - qsum (map f l) == qsum (map h (combine l m)))%Q by (apply IH; intros; apply H; auto; now right). lra.
Qed.
Lemma Forall2_turn {A C} (R : A -> C -> Prop) l m : Forall2 R l m -> Forall2 (fun b a => R a b) m l.
Proof. induction 1; constructor; auto. Qed.
Lemma qsum_Forall2_eq {A C} (R : A -> C -> Prop) (f : A -> Q) (g : C -> Q) l m : Forall2 R l m ->
  (forall a b, In a l -> In b m -> R a b -> (f a == g b)%Q) -> (qsum (map f l) == qsum (map g m))%Q.
Proof.
  intros F H. apply Qle_antisym; [eapply qsum_Forall2_le; eauto; intros a b I J K; rewrite (H a b I J K); lra |].
  apply Forall2_turn in F. eapply qsum_Forall2_le; eauto. intros b a J I K. cbn in K. rewrite (H a b I J K). lra.
Qed.
Lemma sumi_Forall2_eq {A C} (R : A -> C -> Prop) (f : nat -> A -> Q) (g : nat -> C -> Q) l m : Forall2 R l m ->
  (forall i a b, nth_error l i = Some a -> nth_error m i = Some b -> R a b -> (f i a == g i b)%Q) -> (sumi f l == sumi g m)%Q.
Proof.
  intros F H. apply Qle_antisym; [eapply sumi_Forall2_le; eauto; intros i a b I J K; rewrite (H i a b I J K); lra |].
  apply Forall2_turn in F. eapply sumi_Forall2_le; eauto. intros i b a J I K. cbn in K. rewrite (H i a b I J K). lra.
Qed.

Section Loads.
Variables (s s' : study) (scn : nat).
Hypothesis Hs : ready s.
Hypothesis Hs' : ready s'.
Hypothesis RZ : resized s s' scn.

Lemma rz_node net nd : match node_at s net nd, node_at s' net nd with
  | Some n, Some n' => node_resized (st_horizon s) scn n n' | None, None => True | _, _ => False end.
Proof.
  pose (R := fun (_ : string) (ns ns' : network) => Forall2 (fun c d : string * node => fst d = fst c /\
    node_resized (st_horizon s) scn (snd c) (snd d)) ns ns').
  pose proof (Forall2_dget R (st_networks s) (st_networks s') net (rz_nodes _ _ _ RZ)) as D. unfold R in D.
  unfold node_at. destruct (dget net (st_networks s)) as [ns|], (dget net (st_networks s')) as [ns'|]; try contradiction; [| exact Logic.I].
  pose proof (Forall2_dget (fun _ => node_resized (st_horizon s) scn) ns ns' nd D) as E. exact E.
Qed.
Lemma rz_node_r net nd n' : node_at s' net nd = Some n' -> exists n, node_at s net nd = Some n /\ node_resized (st_horizon s) scn n n'.
Proof. intros E. pose proof (rz_node net nd) as D. rewrite E in D. destruct (node_at s net nd) as [n|]; [eauto | contradiction]. Qed.
Lemma rz_conv name : match conv_at s name, conv_at s' name with
  | Some v, Some v' => conv_resized (st_horizon s) scn v v' | None, None => True | _, _ => False end.
Proof. exact (Forall2_dget (fun _ => conv_resized (st_horizon s) scn) _ _ name (rz_convs _ _ _ RZ)). Qed.
Lemma rz_conv_r name v' : conv_at s' name = Some v' -> exists v, conv_at s name = Some v /\ conv_resized (st_horizon s) scn v v'.
Proof. intros E. pose proof (rz_conv name) as D. rewrite E in D. destruct (conv_at s name) as [n|]; [eauto | contradiction]. Qed.

Lemma gain_same price t v v' : t < st_horizon s -> conv_resized (st_horizon s) scn v v' -> (conv_gain scn price t v == conv_gain scn price t v')%Q.
Proof.
  intros T (F & E1 & E2 & C). unfold conv_gain, total. rewrite E1, E2, (C t T). apply Qplus_comp; [reflexivity |]. apply Qopp_comp.
  apply (qsum_Forall2_eq _ _ _ _ _ F). intros [k q] [k' q'] _ _ [E Q]. cbn [fst snd] in *. subst k'. now rewrite (Q t T).
Qed.
Lemma positive_eq a b : (a == b)%Q -> (positive a == positive b)%Q.
Proof. intros E. destruct (positive_cases a) as [(A & B)|(A & B)], (positive_cases b) as [(C & D)|(C & D)]; lra. Qed.

Lemma worth_loads price : capacities Qeq s s' scn ->
  (worth scn price s' - worth scn price s == per_load (fun t net nd c c' => lesser (price t net nd) (value (c_cost c) scn t) * extra scn t c c') s s')%Q.
Proof.
  intros [CP CL CV]. unfold worth, per_load, total at 1 2 3. rewrite (rz_horizon _ _ _ RZ), <- qsum_map_sub. apply qsum_map_ext.
  intros t T. apply in_seq in T. assert (T' : t < st_horizon s) by lia. clear T. unfold worth_at.
  assert (EC : (total (fun kv => positive (conv_gain scn price t (snd kv)) * ovalue (v_max (snd kv)) scn t) (st_converters s) ==
                total (fun kv => positive (conv_gain scn price t (snd kv)) * ovalue (v_max (snd kv)) scn t) (st_converters s'))%Q).
  { apply (qsum_Forall2_eq _ _ _ _ _ (rz_convs _ _ _ RZ)). intros [name v] [name' v'] I J [E K]. cbn [fst snd] in *. subst name'.
    rewrite (positive_eq _ _ (gain_same price t v v' T' K)). apply Qmult_comp; [reflexivity |].
    apply (CV t name); auto; (apply In_dget; [apply wf_convs, rd_wf; auto | auto]). }
  rewrite <- EC.
  match goal with |- (?a - ?c - (?b - ?c) == ?d)%Q => enough (X : (a - b == d)%Q) by lra end.
  unfold total at 1 5. apply (qsum_pairs _ _ _ _ _ _ (rz_nodes _ _ _ RZ)). intros [net ns] [net' ns'] I I' [E F]. cbn [fst snd] in *. subst net'.
  unfold total at 1 5. apply (qsum_pairs _ _ _ _ _ _ F). intros [nd n] [nd' n'] J J' [E NR]. cbn [fst snd] in *. subst nd'.
  assert (N : node_at s net nd = Some n) by (eapply node_at_In; eauto). assert (N' : node_at s' net nd = Some n') by (eapply node_at_In; eauto).
  destruct NR as [NC NP NL NS]. unfold total.
  rewrite <- !(sumi_map (fun p => positive (price t net nd - value (p_cost p) scn t) * value (p_qty p) scn t)%Q).
  rewrite <- !(sumi_map (fun l => positive (link_gain scn price t net nd l) * value (l_qty l) scn t)%Q).
  assert (EP : (sumi (fun _ p => positive (price t net nd - value (p_cost p) scn t) * value (p_qty p) scn t) (n_prods n) ==
                sumi (fun _ p => positive (price t net nd - value (p_cost p) scn t) * value (p_qty p) scn t) (n_prods n'))%Q).
  { apply (sumi_Forall2_eq _ _ _ _ _ NP). intros i p p' P P' C. rewrite (CP t net nd n n' i p p' T' N N' P P'). apply Qmult_comp; [| reflexivity].
    apply positive_eq. now rewrite (C t T'). }
  assert (EL : (sumi (fun _ l => positive (link_gain scn price t net nd l) * value (l_qty l) scn t) (n_links n) ==
                sumi (fun _ l => positive (link_gain scn price t net nd l) * value (l_qty l) scn t) (n_links n'))%Q).
  { apply (sumi_Forall2_eq _ _ _ _ _ NL). intros i p p' P P' [D C]. rewrite (CL t net nd n n' i p p' T' N N' P P'). apply Qmult_comp; [| reflexivity].
    apply positive_eq. unfold link_gain. now rewrite D, (C t T'). }
  rewrite EP, EL. match goal with |- (?a - ?c - ?d - (?b - ?c - ?d) == ?e)%Q => enough (X : (a - b == e)%Q) by lra end.
  apply (qsum_pairs _ _ _ _ _ _ NC). intros c c' _ _ C. cbn [fst snd]. unfold extra.
  assert (E : (lesser (price t net nd) (value (c_cost c) scn t) == lesser (price t net nd) (value (c_cost c') scn t))%Q).
  { rewrite !lesser_positive. apply Qplus_comp; [reflexivity |]. apply Qopp_comp, positive_eq. now rewrite (C t T'). }
  rewrite <- E. ring.
Qed.
End Loads.

(** When only loads change, each unit more costs at least the price of its node, or the cost
    of not serving it if that is less, whatever the dispatch. *)
Theorem C84_loads : forall s s' r r' scn price, api_study s -> usable_converters s -> api_study s' -> usable_converters s' ->
  scn < st_nb_scn s -> scn < st_nb_scn s' -> resized s s' scn -> capacities Qeq s s' scn ->
  mirrors s r -> law_ok s r scn -> equilibrium s r scn price -> mirrors s' r' -> law_ok s' r' scn ->
  (total_cost s r scn + per_load (fun t net nd c c' => lesser (price t net nd) (value (c_cost c) scn t) * extra scn t c c') s s' <= total_cost s' r' scn)%Q.
Proof.
  intros s s' r r' scn price A U A' U' S S' RZ CP M L EQ M' L'. pose proof (api_ready s A U) as R. pose proof (api_ready s' A' U') as R'.
  pose proof (C84_marginal_cost s s' r r' scn price A U A' U' S S' RZ M L EQ M' L') as B. rewrite (worth_loads s s' scn R R' RZ price CP) in B. lra.
Qed.

(** *** Shedding what is asked for more *)
Section Shed.
Variables (s s' : study) (scn : nat) (x : var -> Q).
Hypothesis Hs : ready s.
Hypothesis Hs' : ready s'.
Hypothesis RZ : resized s s' scn.
Hypothesis CQ : capacities Qeq s s' scn.
Hypothesis MORE : forall t net nd n n' i c c', t < st_horizon s -> node_at s net nd = Some n -> node_at s' net nd = Some n' ->
  nth_error (n_cons n) i = Some c -> nth_error (n_cons n') i = Some c' -> (0 <= extra scn t c c')%Q.
Hypothesis X : xok s scn x.

Definition shed (v : var) : Q :=
  match v with
  | VLol net nd i t =>
      match node_at s net nd, node_at s' net nd with
      | Some n, Some n' => match nth_error (n_cons n) i, nth_error (n_cons n') i with Some c, Some c' => (x v + extra scn t c c')%Q | _, _ => x v end
      | _, _ => x v
      end
  | _ => x v
  end.

Lemma shed_lol net nd n n' i c c' t : node_at s net nd = Some n -> node_at s' net nd = Some n' ->
  nth_error (n_cons n) i = Some c -> nth_error (n_cons n') i = Some c' -> shed (VLol net nd i t) = (x (VLol net nd i t) + extra scn t c c')%Q.
Proof. intros N N' C C'. cbn [shed]. now rewrite N, N', C, C'. Qed.

Lemma shed_bounds : xbounds s' scn shed.
Proof.
  destruct X as [[XC XP XS XL XR XD] _ _ _]. pose proof (rz_horizon _ _ _ RZ) as HH. destruct CQ as [QP QL QV]. unfold within in *.
  constructor; rewrite HH; unfold within.
  - intros t net nd n' i c' T N' I. destruct (rz_node_r s s' scn RZ net nd n' N') as (n & N & [F _ _ _]).
    apply Forall2_turn in F. destruct (Forall2_get _ _ _ _ _ F I) as (c & J & _). rewrite (shed_lol net nd n n' i c c' t N N' J I).
    specialize (XC t net nd n i c T N J). pose proof (MORE t net nd n n' i c c' T N N' J I). unfold extra in *. lra.
  - intros t net nd n' i c' T N' I. destruct (rz_node_r s s' scn RZ net nd n' N') as (n & N & [_ F _ _]).
    apply Forall2_turn in F. destruct (Forall2_get _ _ _ _ _ F I) as (c & J & _). cbn [shed].
    rewrite <- (QP t net nd n n' i c c' T N N' J I). eauto.
  - intros t net nd n' i c' T N' I. destruct (rz_node_r s s' scn RZ net nd n' N') as (n & N & [_ _ _ F]).
    apply Forall2_turn in F. destruct (Forall2_get _ _ _ _ _ F I) as (c & J & C1 & C2 & C3 & _). cbn [shed].
    rewrite <- (C1 t T), <- (C2 t T), <- (C3 t T). eauto.
  - intros t net nd n' i c' T N' I. destruct (rz_node_r s s' scn RZ net nd n' N') as (n & N & [_ _ F _]).
    apply Forall2_turn in F. destruct (Forall2_get _ _ _ _ _ F I) as (c & J & _). cbn [shed].
    rewrite <- (QL t net nd n n' i c c' T N N' J I). eauto.
  - intros t name v' k q' T V' I. destruct (rz_conv_r s s' scn RZ name v' V') as (v & V & F & _).
    apply Forall2_turn in F. apply In_nth_error in I as (j & I). destruct (Forall2_get _ _ _ _ _ F I) as ([k0 q] & J & E & Q). cbn [fst snd] in *. subst k0.
    unfold vsrc. cbn [shed]. rewrite <- (QV t name v v' T V V'), <- (Q t T). apply nth_error_In in J. exact (XR t name v k q T V J).
  - intros t name v' T V'. destruct (rz_conv_r s s' scn RZ name v' V') as (v & V & _). cbn [shed]. rewrite <- (QV t name v v' T V V'). eauto.
Qed.

Lemma rz_nodes_in net : Forall2 (fun c d => fst d = fst c /\ node_resized (st_horizon s) scn (snd c) (snd d)) (nodes_in s net) (nodes_in s' net).
Proof.
  pose (R := fun (_ : string) (ns ns' : network) => Forall2 (fun c d : string * node => fst d = fst c /\
    node_resized (st_horizon s) scn (snd c) (snd d)) ns ns').
  pose proof (Forall2_dget R (st_networks s) (st_networks s') net (rz_nodes _ _ _ RZ)) as D. unfold R in D. unfold nodes_in.
  destruct (dget net (st_networks s)), (dget net (st_networks s')); try contradiction; [exact D | constructor].
Qed.

Lemma shed_excess t net nd n n' : node_at s net nd = Some n -> node_at s' net nd = Some n' ->
  node_resized (st_horizon s) scn n n' -> (xexcess s' scn shed t net nd n' == xexcess s scn x t net nd n)%Q.
Proof.
  intros N N' [NC NP NL NS]. unfold xexcess, xnode.
  assert (E1 : (sumi (fun i _ => shed (VLol net nd i t)) (n_cons n') - qsum (map (fun c => value (c_qty c) scn t) (n_cons n')) ==
                sumi (fun i _ => x (VLol net nd i t)) (n_cons n) - qsum (map (fun c => value (c_qty c) scn t) (n_cons n)))%Q).
  { rewrite <- !(sumi_map (fun c => value (c_qty c) scn t)). unfold Qminus. rewrite <- !sumi_opp, <- !sumi_add. symmetry.
    apply (sumi_Forall2_eq _ _ _ _ _ NC). intros i c c' C C' _. rewrite (shed_lol net nd n n' i c c' t N N' C C'). unfold extra. ring. }
  assert (E2 : (sumi (fun i _ => shed (VProd net nd i t)) (n_prods n') == sumi (fun i _ => x (VProd net nd i t)) (n_prods n))%Q).
  { symmetry. apply (sumi_Forall2_eq _ _ _ _ _ NP). intros; reflexivity. }
  assert (E3 : (sumi (fun i _ => - shed (VIn net nd i t) + shed (VOut net nd i t)) (n_stors n') == sumi (fun i _ => - x (VIn net nd i t) + x (VOut net nd i t)) (n_stors n))%Q).
  { symmetry. apply (sumi_Forall2_eq _ _ _ _ _ NS). intros; reflexivity. }
  assert (E4 : (sumi (fun i _ => shed (VLink net nd i t)) (n_links n') == sumi (fun i _ => x (VLink net nd i t)) (n_links n))%Q).
  { symmetry. apply (sumi_Forall2_eq _ _ _ _ _ NL). intros; reflexivity. }
  assert (E5 : (xself shed t net nd n' == xself x t net nd n)%Q).
  { unfold xself. symmetry. apply (sumi_Forall2_eq _ _ _ _ _ NL). intros i l l' _ _ [D _]. now rewrite D. }
  assert (E6 : (qsum (map (fun kv => xconv shed t net nd (fst kv) (snd kv)) (st_converters s')) == qsum (map (fun kv => xconv x t net nd (fst kv) (snd kv)) (st_converters s)))%Q).
  { symmetry. apply (qsum_Forall2_eq _ _ _ _ _ (rz_convs _ _ _ RZ)). intros [name v] [name' v'] _ _ [E (F & D1 & D2 & _)]. cbn [fst snd] in *. subst name'.
    unfold xconv. rewrite D1, D2. cbn [shed]. apply Qplus_comp; [reflexivity |]. apply Qopp_comp. apply (qsum_Forall2_eq _ _ _ _ _ F).
    intros [k q] [k' q'] _ _ [E _]. cbn [fst snd] in *. subst k'. unfold vsrc. cbn [shed]. reflexivity. }
  assert (E7 : (ximport s' shed t net nd == ximport s x t net nd)%Q).
  { unfold ximport. symmetry. apply (qsum_Forall2_eq _ _ _ _ _ (rz_nodes_in net)). intros [k m] [k' m'] _ _ [E [_ _ F _]]. cbn [fst snd] in *. subst k'.
    apply (sumi_Forall2_eq _ _ _ _ _ F). intros i l l' _ _ [D _]. rewrite D. reflexivity. }
  rewrite E2, E3, E4, E5, E6, E7. lra.
Qed.

Lemma shed_ok : xok s' scn shed.
Proof.
  pose proof (rz_horizon _ _ _ RZ) as HH. apply (xok_half s' scn). split; [constructor |].
  - apply shed_bounds.
  - rewrite HH. intros t net nd n' T N'. destruct (rz_node_r s s' scn RZ net nd n' N') as (n & N & [_ _ _ F]). pose proof (xo_storage _ _ _ X t net nd n T N) as H.
    unfold xstorage in *. destruct F as [| y y' l l' (_ & _ & _ & C4 & C5 & _) F]; auto. cbn [shed]. rewrite H, <- (C5 t T). destruct t; [rewrite C4 |]; reflexivity.
  - rewrite HH. intros t name v' T V' k q' I. destruct (rz_conv_r s s' scn RZ name v' V') as (v & V & F & _).
    apply Forall2_turn in F. apply In_nth_error in I as (j & I). destruct (Forall2_get _ _ _ _ _ F I) as ([k0 q] & J & E & Q). cbn [fst snd] in *. subst k0.
    unfold vsrc. cbn [shed]. rewrite <- (Q t T). apply nth_error_In in J. exact (xo_mix _ _ _ X t name v T V k q J).
  - rewrite HH. intros t net nd n' T N'. destruct (rz_node_r s s' scn RZ net nd n' N') as (n & N & NR). rewrite (shed_excess t net nd n n' N N' NR).
    apply (proj2 (proj1 (xok_half s scn x) X)); auto.
Qed.

Lemma shed_cost : (xcost s' scn shed - xcost s scn x == per_load (fun t net nd c c' => value (c_cost c) scn t * extra scn t c c') s s')%Q.
Proof.
  unfold xcost, per_load, total at 1. rewrite (rz_horizon _ _ _ RZ), <- qsum_map_sub. apply qsum_map_ext.
  intros t T. apply in_seq in T. assert (T' : t < st_horizon s) by lia. clear T.
  assert (EC : (qsum (map (fun kv => ovalue (v_cost (snd kv)) scn t * shed (VDest (fst kv) t)) (st_converters s')) ==
                qsum (map (fun kv => ovalue (v_cost (snd kv)) scn t * x (VDest (fst kv) t)) (st_converters s)))%Q).
  { symmetry. apply (qsum_Forall2_eq _ _ _ _ _ (rz_convs _ _ _ RZ)). intros [name v] [name' v'] _ _ [E (_ & _ & _ & C)]. cbn [fst snd shed] in *. subst name'.
    now rewrite (C t T'). }
  rewrite EC. match goal with |- (?a + ?c - (?b + ?c) == ?d)%Q => enough (Y : (a - b == d)%Q) by lra end.
  apply (qsum_pairs _ _ _ _ _ _ (rz_nodes _ _ _ RZ)). intros [net ns] [net' ns'] I I' [E F]. cbn [fst snd] in *. subst net'.
  apply (qsum_pairs _ _ _ _ _ _ F). intros [nd n] [nd' n'] J J' [E NR]. cbn [fst snd] in *. subst nd'.
  assert (N : node_at s net nd = Some n) by (eapply node_at_In; eauto). assert (N' : node_at s' net nd = Some n') by (eapply node_at_In; eauto).
  destruct NR as [NC NP NL NS]. unfold ncost, total.
  rewrite <- (sumi_Forall2_eq _ (fun i p => value (p_cost p) scn t * x (VProd net nd i t))%Q (fun i p => value (p_cost p) scn t * shed (VProd net nd i t))%Q _ _ NP)
    by (intros i p p' _ _ C; cbn [shed]; now rewrite (C t T')).
  rewrite <- (sumi_Forall2_eq _ (fun i p => value (s_cost p) scn t * x (VCap net nd i t))%Q (fun i p => value (s_cost p) scn t * shed (VCap net nd i t))%Q _ _ NS)
    by (intros i p p' _ _ (_ & _ & _ & _ & _ & C); cbn [shed]; now rewrite (C t T')).
  rewrite <- (sumi_Forall2_eq _ (fun i p => value (l_cost p) scn t * x (VLink net nd i t))%Q (fun i p => value (l_cost p) scn t * shed (VLink net nd i t))%Q _ _ NL)
    by (intros i p p' _ _ [_ C]; cbn [shed]; now rewrite (C t T')).
  match goal with |- (?a + ?u + ?v + ?w - (?b + ?u + ?v + ?w) == ?d)%Q => enough (Y : (a == b + d)%Q) by lra end.
  rewrite <- (sumi_combine (fun i c => match nth_error (n_cons n') i with Some c' => value (c_cost c) scn t * extra scn t c c' | None => 0 end)%Q _ (n_cons n) (n_cons n')).
  - rewrite <- sumi_add. symmetry. apply (sumi_Forall2_eq _ _ _ _ _ NC). intros i c c' C C' Q. rewrite C', (shed_lol net nd n n' i c c' t N N' C C'), <- (Q t T'). ring.
  - exact (Forall2_len _ _ _ NC).
  - intros i c c' C C'. rewrite C'. reflexivity.
Qed.
End Shed.

(** And when loads grow, a dispatch that sheds all they ask for more is always possible:
    each unit more costs at most its unavailability cost. *)
Theorem C84_shed : forall s s' r scn, api_study s -> usable_converters s -> api_study s' -> usable_converters s' ->
  scn < st_nb_scn s -> scn < st_nb_scn s' -> resized s s' scn -> capacities Qeq s s' scn ->
  (forall t net nd n n' i c c', t < st_horizon s -> node_at s net nd = Some n -> node_at s' net nd = Some n' ->
     nth_error (n_cons n) i = Some c -> nth_error (n_cons n') i = Some c' -> (0 <= extra scn t c c')%Q) ->
  mirrors s r -> law_ok s r scn ->
  exists r', mirrors s' r' /\ law_ok s' r' scn /\
    (total_cost s' r' scn == total_cost s r scn + per_load (fun t net nd c c' => value (c_cost c) scn t * extra scn t c c') s s')%Q.
Proof.
  intros s s' r scn A U A' U' S S' RZ CQ MORE M L. pose proof (api_ready s A U) as R. pose proof (api_ready s' A' U') as R'.
  pose proof (read_carries s r scn R M) as CA. pose proof (proj1 (law_iff s r R M scn _ CA S) L) as X. set (x := read_result s r scn) in *.
  set (z := shed s s' scn x). exists (result_of s' (fun _ => z)). pose proof (result_of_mirrors s' (fun _ => z)) as M'.
  pose proof (result_of_carries s' (fun _ => z) scn S') as CA'. split; [exact M' |]. split.
  - apply (law_iff s' _ R' M' scn z CA' S'). now apply shed_ok.
  - rewrite (cost_eq s r R M scn _ CA), (cost_eq s' _ R' M' scn _ CA'). pose proof (shed_cost s s' scn x R R' RZ) as E. fold z in E. fold x. lra.
Qed.

(** ** Studies in between *)

(** The quantities of [s] are those of [s1] and [s2] mixed in the proportion [k] to [1 - k]. *)
Record blended (k : Q) (s s1 s2 : study) (scn : nat) : Prop := {
  bl_cons : forall t net nd n n1 n2 i c c1 c2, t < st_horizon s -> node_at s net nd = Some n -> node_at s1 net nd = Some n1 -> node_at s2 net nd = Some n2 ->
    nth_error (n_cons n) i = Some c -> nth_error (n_cons n1) i = Some c1 -> nth_error (n_cons n2) i = Some c2 ->
    (value (c_qty c) scn t == k * value (c_qty c1) scn t + (1 - k) * value (c_qty c2) scn t)%Q;
  bl_prods : forall t net nd n n1 n2 i c c1 c2, t < st_horizon s -> node_at s net nd = Some n -> node_at s1 net nd = Some n1 -> node_at s2 net nd = Some n2 ->
    nth_error (n_prods n) i = Some c -> nth_error (n_prods n1) i = Some c1 -> nth_error (n_prods n2) i = Some c2 ->
    (value (p_qty c) scn t == k * value (p_qty c1) scn t + (1 - k) * value (p_qty c2) scn t)%Q;
  bl_links : forall t net nd n n1 n2 i c c1 c2, t < st_horizon s -> node_at s net nd = Some n -> node_at s1 net nd = Some n1 -> node_at s2 net nd = Some n2 ->
    nth_error (n_links n) i = Some c -> nth_error (n_links n1) i = Some c1 -> nth_error (n_links n2) i = Some c2 ->
    (value (l_qty c) scn t == k * value (l_qty c1) scn t + (1 - k) * value (l_qty c2) scn t)%Q;
  bl_convs : forall t name v v1 v2, t < st_horizon s -> conv_at s name = Some v -> conv_at s1 name = Some v1 -> conv_at s2 name = Some v2 ->
    (ovalue (v_max v) scn t == k * ovalue (v_max v1) scn t + (1 - k) * ovalue (v_max v2) scn t)%Q
}.

Lemma qsum_three {A C D} (R1 : A -> C -> Prop) (R2 : A -> D -> Prop) (k : Q) (f : A -> Q) (g : C -> Q) (h : D -> Q) l m : Forall2 R1 l m -> forall m', Forall2 R2 l m' ->
  (forall a b c, In a l -> In b m -> In c m' -> R1 a b -> R2 a c -> (f a == k * g b + (1 - k) * h c)%Q) ->
  (qsum (map f l) == k * qsum (map g m) + (1 - k) * qsum (map h m'))%Q.
Proof.
  induction 1 as [| a b l m Rab F IH]; intros m' F' H; inversion F' as [| a' c l' m'' Rac F'']; subst; cbn [map]; [cbn; ring |].
  change (qsum (?u :: ?v)) with (u + qsum v)%Q. rewrite (IH m''), (H a b c) by (auto with datatypes; intros; apply H; auto with datatypes). ring.
Qed.
Lemma sumi_three {A C D} (R1 : A -> C -> Prop) (R2 : A -> D -> Prop) (k : Q) (f : A -> Q) (g : C -> Q) (h : D -> Q) l m m' : Forall2 R1 l m -> Forall2 R2 l m' ->
  (forall i a b c, nth_error l i = Some a -> nth_error m i = Some b -> nth_error m' i = Some c -> R1 a b -> R2 a c -> (f a == k * g b + (1 - k) * h c)%Q) ->
  (qsum (map f l) == k * qsum (map g m) + (1 - k) * qsum (map h m'))%Q.
Proof.
  intros F. revert m'. induction F as [| a b l m Rab F IH]; intros m' F' H; inversion F' as [| a' c l' m'' Rac F'']; subst; cbn [map]; [cbn; ring |].
  change (qsum (?u :: ?v)) with (u + qsum v)%Q. rewrite (IH m''), (H 0 a b c) by (auto; intros i u v w I J K; apply (H (S i)); auto). ring.
Qed.

Lemma worth_blend k s s1 s2 scn price : ready s -> ready s1 -> ready s2 -> resized s s1 scn -> resized s s2 scn -> blended k s s1 s2 scn ->
  (worth scn price s == k * worth scn price s1 + (1 - k) * worth scn price s2)%Q.
Proof.
  intros R R1 R2 Z1 Z2 [BC BP BL BV]. unfold worth, total. rewrite (rz_horizon _ _ _ Z1), (rz_horizon _ _ _ Z2), <- !qsum_map_scal, <- qsum_map_add.
  apply qsum_map_ext. intros t T. apply in_seq in T. assert (T' : t < st_horizon s) by lia. clear T. unfold worth_at, total.
  assert (EC : (qsum (map (fun kv => positive (conv_gain scn price t (snd kv)) * ovalue (v_max (snd kv)) scn t) (st_converters s)) ==
     k * qsum (map (fun kv => positive (conv_gain scn price t (snd kv)) * ovalue (v_max (snd kv)) scn t) (st_converters s1)) +
     (1 - k) * qsum (map (fun kv => positive (conv_gain scn price t (snd kv)) * ovalue (v_max (snd kv)) scn t) (st_converters s2)))%Q).
  { apply (qsum_three _ _ k _ _ _ _ _ (rz_convs _ _ _ Z1) _ (rz_convs _ _ _ Z2)). intros [a v] [a1 v1] [a2 v2] I I1 I2 [E1 K1] [E2 K2]. cbn [fst snd] in *. subst a1 a2.
    rewrite <- (positive_eq _ _ (gain_same s scn price t v v1 T' K1)), <- (positive_eq _ _ (gain_same s scn price t v v2 T' K2)).
    rewrite (BV t a v v1 v2) by (auto; apply In_dget; auto; apply wf_convs, rd_wf; auto). ring. }
  rewrite EC. match goal with |- (?a - _ == k * (?b - _) + (1 - k) * (?c - _))%Q => enough (Y : (a == k * b + (1 - k) * c)%Q) by (rewrite Y; ring) end. clear EC.
  apply (qsum_three _ _ k _ _ _ _ _ (rz_nodes _ _ _ Z1) _ (rz_nodes _ _ _ Z2)). intros [a v] [a1 v1] [a2 v2] I I1 I2 [E1 K1] [E2 K2]. cbn [fst snd] in *. subst a1 a2.
  apply (qsum_three _ _ k _ _ _ _ _ K1 _ K2). intros [b n] [b1 n1] [b2 n2] J J1 J2 [E1 NR1] [E2 NR2]. cbn [fst snd] in *. subst b1 b2.
  assert (N : node_at s a b = Some n) by (eapply node_at_In; eauto). assert (N1 : node_at s1 a b = Some n1) by (eapply node_at_In; eauto).
  assert (N2 : node_at s2 a b = Some n2) by (eapply node_at_In; eauto). destruct NR1 as [C1 P1 L1 _], NR2 as [C2 P2 L2 _].
  rewrite (sumi_three _ _ k (fun c => lesser (price t a b) (value (c_cost c) scn t) * value (c_qty c) scn t)%Q (fun c => lesser (price t a b) (value (c_cost c) scn t) * value (c_qty c) scn t)%Q
    (fun c => lesser (price t a b) (value (c_cost c) scn t) * value (c_qty c) scn t)%Q _ _ _ C1 C2).
  2:{ intros i c c1 c2 H H1 H2 Q1 Q2. rewrite (BC t a b n n1 n2 i c c1 c2 T' N N1 N2 H H1 H2). rewrite !lesser_positive.
      rewrite <- (positive_eq (price t a b - value (c_cost c) scn t) (price t a b - value (c_cost c1) scn t)) by (now rewrite (Q1 t T')).
      rewrite <- (positive_eq (price t a b - value (c_cost c) scn t) (price t a b - value (c_cost c2) scn t)) by (now rewrite (Q2 t T')). ring. }
  rewrite (sumi_three _ _ k (fun c => positive (price t a b - value (p_cost c) scn t) * value (p_qty c) scn t)%Q (fun c => positive (price t a b - value (p_cost c) scn t) * value (p_qty c) scn t)%Q
    (fun c => positive (price t a b - value (p_cost c) scn t) * value (p_qty c) scn t)%Q _ _ _ P1 P2).
  2:{ intros i c c1 c2 H H1 H2 Q1 Q2. rewrite (BP t a b n n1 n2 i c c1 c2 T' N N1 N2 H H1 H2).
      rewrite <- (positive_eq (price t a b - value (p_cost c) scn t) (price t a b - value (p_cost c1) scn t)) by (now rewrite (Q1 t T')).
      rewrite <- (positive_eq (price t a b - value (p_cost c) scn t) (price t a b - value (p_cost c2) scn t)) by (now rewrite (Q2 t T')). ring. }
  rewrite (sumi_three _ _ k (fun c => positive (link_gain scn price t a b c) * value (l_qty c) scn t)%Q (fun c => positive (link_gain scn price t a b c) * value (l_qty c) scn t)%Q
    (fun c => positive (link_gain scn price t a b c) * value (l_qty c) scn t)%Q _ _ _ L1 L2).
  2:{ intros i c c1 c2 H H1 H2 [D1 Q1] [D2 Q2]. rewrite (BL t a b n n1 n2 i c c1 c2 T' N N1 N2 H H1 H2).
      rewrite <- (positive_eq (link_gain scn price t a b c) (link_gain scn price t a b c1)) by (unfold link_gain; now rewrite D1, (Q1 t T')).
      rewrite <- (positive_eq (link_gain scn price t a b c) (link_gain scn price t a b c2)) by (unfold link_gain; now rewrite D2, (Q2 t T')). ring. }
  ring.
Qed.

(** The cheapest dispatch of a study in between costs at most what lies in between. *)
Theorem C84_convex : forall k s s1 s2 r r1 r2 scn, (0 <= k <= 1)%Q ->
  api_study s -> usable_converters s -> api_study s1 -> usable_converters s1 -> api_study s2 -> usable_converters s2 ->
  scn < st_nb_scn s -> scn < st_nb_scn s1 -> scn < st_nb_scn s2 -> resized s s1 scn -> resized s s2 scn -> blended k s s1 s2 scn ->
  mirrors s r -> law_ok s r scn -> (forall r', mirrors s r' -> law_ok s r' scn -> (total_cost s r scn <= total_cost s r' scn)%Q) ->
  mirrors s1 r1 -> law_ok s1 r1 scn -> mirrors s2 r2 -> law_ok s2 r2 scn ->
  (total_cost s r scn <= k * total_cost s1 r1 scn + (1 - k) * total_cost s2 r2 scn)%Q.
Proof.
  intros k s s1 s2 r r1 r2 scn K A U A1 U1 A2 U2 S S1 S2 Z1 Z2 B M L Best M1 L1 M2 L2.
  destruct (proj1 (C82_cheapest_iff_equilibrium s r scn A U S M L) Best) as (price & EQ).
  pose proof (C84_marginal_cost s s1 r r1 scn price A U A1 U1 S S1 Z1 M L EQ M1 L1) as B1.
  pose proof (C84_marginal_cost s s2 r r2 scn price A U A2 U2 S S2 Z2 M L EQ M2 L2) as B2.
  pose proof (worth_blend k s s1 s2 scn price (api_ready s A U) (api_ready s1 A1 U1) (api_ready s2 A2 U2) Z1 Z2 B) as W. nra.
Qed.

(** Two units more for "vital": the price of the node is 500, the cost of not serving them
    1000 each. The cheapest dispatch costs 1000 more, shedding them 2000. One unit more lies
    in between. *)
Definition duo_with (q : Z) : list call :=
  [ OnStudy_network "net"; OnSel 0 (MNode "a");
    OnSel 1 (MConsumption "vital" (jn 1000) (jn q)); OnSel 2 (MConsumption "comfort" (jn 500) (jn 10));
    OnSel 3 (MProduction "oil" (jn 20) (jn 7)); OnSel 4 (MProduction "coal" (jn 10) (jn 8));
    OnSel 5 (MNode "b"); OnSel 6 (MProduction "wind" (jn 5) (jn 6));
    OnSel 7 (MLink "b" "a" (jn 2) (jn 4)); OnSel 8 (MLink "a" "b" (jn (-1)) (jn 4)) ].
Definition duo11 : study := Eval vm_compute in w_study (run (start 1 1 None) (duo_with 11)).
Definition duo12 : study := Eval vm_compute in w_study (run (start 1 1 None) (duo_with 12)).
Definition duo12_x (v : var) : Q :=
  match v with
  | VLol _ _ (S O) _ => 3
  | VProd _ "a" O _ => 7 | VProd _ "a" (S O) _ => 8
  | VProd _ "b" _ _ | VLink _ "b" _ _ => 4
  | _ => 0
  end%Q.
Lemma duo11_api : api_study duo11.
Proof. exists 1, 1, None, (duo_with 11). split; [lia|]. split; [lia|]. split; [plain_tac | vm_compute; reflexivity]. Qed.
Lemma duo12_api : api_study duo12.
Proof. exists 1, 1, None, (duo_with 12). split; [lia|]. split; [lia|]. split; [plain_tac | vm_compute; reflexivity]. Qed.

Lemma duo12_optimal : optimal_answer (fun _ _ => duo12_x) duo12 0.
Proof.
  unfold optimal_answer. let p := eval vm_compute in (program_of duo12 0) in change (program_of duo12 0) with p. split.
  - apply satb_ok. vm_compute. reflexivity.
  - intros y F. pose proof (satisfies_vars _ _ F) as V. pose proof (satisfies_cons _ _ F) as K.
    cbn [sv_vars sv_cons] in V, K. open_forall V. open_forall K.
    match goal with |- (objective ?p _ <= _)%Q => assert (E : (objective p duo12_x == 1748)%Q) by (vm_compute; reflexivity) end. rewrite E. cbn. lra.
Qed.
Definition duo12_result : result := Eval vm_compute in
  match solve_lp (fun _ _ => duo12_x) [0] no_bench duo12 with Ok r => r | Err _ => Result [] [] no_bench end.
Lemma duo12_solved : solved (fun _ _ => duo12_x) duo12 duo12_result.
Proof. exists [0], no_bench. split; [reflexivity | vm_compute; reflexivity]. Qed.

Ltac at_once := let t := fresh "t" in let T := fresh "T" in intros t T; destruct t as [| t]; [vm_compute; reflexivity | cbn in T; lia].
Ltac list2 tac := repeat match goal with
  | |- Forall2 _ ?a ?b => let a' := eval vm_compute in a in let b' := eval vm_compute in b in change a with a'; change b with b'; first [apply Forall2_nil | apply Forall2_cons; [tac |]] end.
Ltac same_node := constructor; [list2 at_once | list2 at_once | list2 ltac:(split; [reflexivity | at_once]) | list2 fail].
Ltac same_shape := constructor; [reflexivity | list2 ltac:(split; [reflexivity | list2 ltac:(split; [reflexivity | same_node])]) | list2 fail].
Lemma duo_resized : resized duo duo12 0 /\ resized duo11 duo 0 /\ resized duo11 duo12 0.
Proof. split; [| split]; same_shape. Qed.

Lemma duo_nodes s net nd n : In s [duo; duo11; duo12] -> node_at s net nd = Some n -> net = "net" /\ (nd = "a" \/ nd = "b").
Proof.
  intros I N. unfold node_at in N. destruct (dget net (st_networks s)) as [ns|] eqn:D; [| discriminate N].
  apply dget_In in D. apply dget_In in N.
  destruct I as [<-|[<-|[<-|[]]]]; vm_compute in D; destruct D as [D|[]]; injection D as <- <-; (split; [reflexivity |]);
    vm_compute in N; destruct N as [N|[N|[]]]; injection N as <- _; auto.
Qed.
Ltac duo_case N := let D := fresh "D" in
  match type of N with node_at ?s ?net ?nd = Some ?n => pose proof (duo_nodes s net nd n ltac:(cbn; tauto) N) as [-> D] end; destruct D as [-> | ->];
  repeat match goal with H : node_at _ _ _ = Some _ |- _ => vm_compute in H; injection H as <- end;
  match goal with i : nat, H : nth_error _ ?i = Some _ |- _ => destruct i as [| [| [| i]]] end;
  repeat match goal with H : nth_error _ _ = Some _ |- _ => cbn in H; try discriminate H; [injection H as <-] end;
  try match goal with H : nth_error [] ?i = Some _ |- _ => destruct i; discriminate H end;
  match goal with H : ?t < st_horizon _ |- _ => destruct t as [| t]; [vm_compute; try reflexivity; try discriminate | cbn in H; lia] end.
Lemma duo_capacities : capacities Qeq duo duo12 0.
Proof.
  constructor; [| | intros t name v v' T V; discriminate V]; intros t net nd n n' i p p' T N N' I J; duo_case N.
Qed.
Lemma duo_blended : blended (1 # 2) duo11 duo duo12 0.
Proof.
  constructor; [| | | intros t name v v1 v2 T V; discriminate V]; intros t net nd n n1 n2 i c c1 c2 T N N1 N2 I I1 I2; duo_case N.
Qed.

Example C84_example : api_study duo12 /\ resized duo duo12 0 /\ capacities Qeq duo duo12 0 /\
  (forall t net nd n n' i c c', t < st_horizon duo -> node_at duo net nd = Some n -> node_at duo12 net nd = Some n' ->
     nth_error (n_cons n) i = Some c -> nth_error (n_cons n') i = Some c' -> (0 <= extra 0 t c c')%Q) /\
  law_ok duo duo_result 0 /\ (exists price, equilibrium duo duo_result 0 price) /\ law_ok duo12 duo12_result 0 /\
  (total_cost duo duo_result 0 == 748)%Q /\ (total_cost duo12 duo12_result 0 == 1748)%Q /\
  (forall price, equilibrium duo duo_result 0 price ->
     (per_load (fun t net nd c c' => lesser (price t net nd) (value (c_cost c) 0 t) * extra 0 t c c') duo duo12 == 1000)%Q) /\
  (per_load (fun t net nd c c' => value (c_cost c) 0 t * extra 0 t c c') duo duo12 == 2000)%Q /\
  api_study duo11 /\ resized duo11 duo 0 /\ resized duo11 duo12 0 /\ blended (1 # 2) duo11 duo duo12 0.
Proof.
  assert (P : plain_sources duo12) by (apply plainb_ok; vm_compute; reflexivity).
  pose proof (proj1 (C20_cost_optimal_exact (fun _ _ => duo12_x) duo12 duo12_result 0 duo12_api P duo12_solved ltac:(vm_compute; lia)) duo12_optimal) as [L _].
  destruct C82_example as (_ & _ & _ & _ & L0 & PX & P500).
  split; [apply duo12_api |]. split; [apply duo_resized |]. split; [apply duo_capacities |]. split.
  { intros t net nd n n' i c c' T N N' I J. duo_case N. }
  split; [exact L0 |]. split; [exact PX |]. split; [exact L |]. split; [vm_compute; reflexivity |]. split; [vm_compute; reflexivity |]. split.
  { intros price EQ. pose proof (P500 price EQ) as E.
    assert (X : (per_load (fun t net nd c c' => lesser (price t net nd) (value (c_cost c) 0 t) * extra 0 t c c') duo duo12 ==
                 lesser (price 0%nat "net" "a") 1000 * 2)%Q).
    { unfold per_load, total, extra. cbn -[Qmult Qplus lesser]. ring. }
    rewrite X. unfold lesser. assert (Y : Qle_bool (price 0%nat "net" "a") 1000 = true) by (apply Qle_bool_iff; lra). rewrite Y, E. reflexivity. }
  split; [vm_compute; reflexivity |]. split; [apply duo11_api |]. split; [apply duo_resized |]. split; [apply duo_resized | apply duo_blended].
Qed.

Print Assumptions C84_marginal_cost.
Print Assumptions C84_enclosed.
Print Assumptions C84_cost_shared.
Print Assumptions C84_loads.
Print Assumptions C84_shed.
Print Assumptions C84_convex.
