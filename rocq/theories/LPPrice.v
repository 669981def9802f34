(** Existence of an optimum and of prices for the program of [LP.v], on assignments. *)
From Coq Require Import String List ZArith QArith Bool Arith Lia Lqa.
From Verif Require Import Base BaseFacts Numeric Study Fluent SpecStudy StudyFacts Output LP SpecLP LPFacts LPBuild LPSat Optimum.
Import ListNotations.
Open Scope nat_scope.

(** Coefficient of a variable in a list of coefficients. *)
Definition coef (c : dict var Q) (v : var) : Q := qsum (map (fun vc => if var_eq_dec v (fst vc) then snd vc else 0%Q) c).
Lemma dot_coef vs c x : NoDup vs -> incl (map fst c) vs -> (dot var vs (coef c) x == lin c x)%Q.
Proof.
  intros ND. induction c as [| [v q] c IH]; intros I.
  - unfold coef, lin. cbn. apply qsum_map_zero. intros; ring.
  - assert (IV : In v vs) by (apply I; now left). assert (IC : incl (map fst c) vs) by (intros u J; apply I; now right).
    change (lin ((v, q) :: c) x) with (q * x v + lin c x)%Q. rewrite <- (IH IC). clear IH I IC. unfold dot.
    assert (E : (q * x v == qsum (map (fun u => (if var_eq_dec u v then q else 0) * x u) vs))%Q).
    { clear - ND IV. induction vs as [| u vs IH]; [easy |]. inversion ND; subst. cbn [map]. change (qsum (?a :: ?b)) with (a + qsum b)%Q.
      destruct IV as [->|IV].
      - destruct (var_eq_dec v v); [| congruence]. rewrite qsum_map_zero; [ring |]. intros u J. destruct (var_eq_dec u v); [congruence | ring].
      - destruct (var_eq_dec u v); [congruence |]. rewrite <- IH by auto. ring. }
    rewrite E, <- qsum_map_add. apply qsum_map_ext. intros u _. unfold coef. cbn [map fst snd]. change (qsum (?a :: ?b)) with (a + qsum b)%Q. ring.
Qed.
Lemma akey_dec (k l : akey) : {k = l} + {k <> l}.
Proof. repeat decide equality. Qed.

Section Price.
Variables (s : study) (scn : nat).
Hypothesis Hscn : scn < st_nb_scn s.
Hypothesis Hs : laid s.

(** What a node receives beyond what it needs. *)
Definition xexcess (x : var -> Q) (t : nat) (net nd : string) (n : node) : Q :=
  (xnode x t net nd n + qsum (map (fun kv => xconv x t net nd (fst kv) (snd kv)) (st_converters s))
   + ximport s x t net nd + xself x t net nd n - qsum (map (fun c => value (c_qty c) scn t) (n_cons n)))%Q.
Lemma xexcess_zero x t net nd n : xbalance s scn x t net nd n <-> (xexcess x t net nd n == 0)%Q.
Proof. unfold xbalance, xexcess. split; intros; lra. Qed.

(** Everything the program asks for but the balance of nodes. *)
Record xhalf (x : var -> Q) : Prop := {
  xh_bounds : xbounds s scn x;
  xh_storage : forall t net nd n, t < st_horizon s -> node_at s net nd = Some n -> xstorage scn x t net nd n;
  xh_mix : forall t name v, t < st_horizon s -> conv_at s name = Some v -> xmix scn x t name v
}.
Lemma xok_half x : xok s scn x <-> xhalf x /\ forall t net nd n, t < st_horizon s -> node_at s net nd = Some n -> (xexcess x t net nd n == 0)%Q.
Proof.
  split.
  - intros [B A W M]. split; [constructor; assumption |]. intros t net nd n T N. exact (proj1 (xexcess_zero x t net nd n) (A t net nd n T N)).
  - intros [[B W M] A]. constructor; try assumption. intros t net nd n T N. exact (proj2 (xexcess_zero x t net nd n) (A t net nd n T N)).
Qed.

Definition stiff : list constr := flat_map (fun g => match g with TFix c => [c] | TAdq _ _ => [] end) (g_tags (program s scn)).
Lemma stiff_iff x : (forall v lo up, In (v, (lo, up)) (g_vars (program s scn)) -> within lo (x v) up) /\
  (forall k, In k stiff -> within (k_lb k) (lin (k_coefs k) x) (k_ub k)) <-> xhalf x.
Proof.
  assert (GT : forall k, In k stiff <-> In (TFix k) (over s (fun t net nd n => node_tags net nd t (pnode net nd t scn n))
                                             (fun t name v => conv_tags name t (pconv name t scn v)))).
  { intros k. assert (GT : g_tags (program s scn) = over s (fun t net nd n => node_tags net nd t (pnode net nd t scn n))
                                             (fun t name v => conv_tags name t (pconv name t scn v))).
    { unfold program. simpl. rewrite app_nil_r. apply (over_proj s scn g_tags); auto. }
    rewrite <- GT. unfold stiff. rewrite in_flat_map. split.
    - intros ([k' l|c] & I & J); [easy |]. destruct J as [->|[]]. auto.
    - intros I. exists (TFix k). split; auto. now left. }
  split.
  - intros [SV SC]. constructor.
    + solve [apply bounds_iff; auto].
    + intros t net nd n T N. unfold xstorage. destruct (n_stors n) as [|y r] eqn:E; auto.
      apply (stor_lin s scn Hscn x t net nd y 0 eq_refl). apply SC, GT, (over_In s scn Hscn Hs). exists t. split; auto. left. exists net, nd, n. split; auto.
      right. unfold node_fix. simpl. rewrite E. simpl. auto.
    + intros t name v T N k q I. apply (mix_lin x t name k). apply SC, GT, (over_In s scn Hscn Hs). exists t. split; auto. right. exists name, v. split; auto.
      unfold conv_tags. simpl. unfold dmap. rewrite map_map. apply in_map_iff. exists (k, q). auto.
  - intros [XB XS XM]. split; [solve [apply bounds_iff; auto] |]. intros g I. apply GT, (over_In s scn Hscn Hs) in I as (t & T & [(net & nd & n & N & I) | (name & v & N & I)]).
    + destruct I as [I|I]; [discriminate |]. unfold node_fix in I. simpl in I. specialize (XS t net nd n T N). unfold xstorage in XS.
      destruct (n_stors n) as [|y r]; simpl in I; [tauto|]. destruct I as [I|[]]. injection I as <-. apply (stor_lin s scn Hscn); auto.
    + unfold conv_tags in I. simpl in I. unfold dmap in I. rewrite map_map in I. apply in_map_iff in I as ([k q] & E & I). injection E as <-.
      cbn [fst snd]. apply mix_lin. apply (XM t name v); auto.
Qed.

(** Nodes at each time. *)
Definition places : list akey := over s (fun t net nd _ => [(t, net, nd)]) (fun _ _ _ => []).
Lemma places_In t net nd : In (t, net, nd) places <-> t < st_horizon s /\ exists n, node_at s net nd = Some n.
Proof.
  unfold places. rewrite (over_In s scn Hscn Hs). split.
  - intros (t' & T & [(net' & nd' & n & N & [E|[]]) | (name & v & _ & [])]). inversion E; subst. eauto.
  - intros (T & n & N). exists t. split; auto. left. exists net, nd, n. split; auto. now left.
Qed.
Lemma places_NoDup : NoDup places.
Proof.
  apply (over_NoDup s Hs (fun k : akey => (fst (fst k), inl (snd (fst k), snd k)))).
  - intros. constructor; [easy | constructor].
  - intros. constructor.
  - intros t net nd n y _ [<-|[]]. reflexivity.
  - intros t name v y _ [].
Qed.
Definition excess_at (x : var -> Q) (k : akey) : Q :=
  match node_at s (snd (fst k)) (snd k) with Some n => xexcess x (fst (fst k)) (snd (fst k)) (snd k) n | None => 0%Q end.
Definition charged (price : akey -> Q) (x : var -> Q) : Q := qsum (map (fun k => price k * excess_at x k)%Q places).

(** ** As a program of [Optimum.v] *)
Definition soft (k : akey) : dict var Q := dict_of (sel k (g_ops (program s scn))).
Definition load_at (k : akey) : Q := match node_at s (snd (fst k)) (snd k) with Some n => qsum (map (fun c => value (c_qty c) scn (fst (fst k))) (n_cons n)) | None => 0%Q end.
Definition goal : dict var Q := dict_of (g_obj (program s scn)).
Definition names : list var := nodup var_eq_dec
  (map fst (g_vars (program s scn)) ++ flat_map (fun k => map fst (k_coefs k)) stiff ++ flat_map (fun k => map fst (soft k)) places ++ map fst goal).
Definition rows : list ((var -> Q) * Q) :=
  flat_map (fun b => [(coef [(fst b, 1%Q)], snd (snd b)); (fun v => - coef [(fst b, 1)] v, - fst (snd b))%Q]) (g_vars (program s scn)) ++
  flat_map (fun k => [(coef (k_coefs k), k_ub k); (fun v => - coef (k_coefs k) v, - k_lb k)%Q]) stiff.
Lemma names_NoDup : NoDup names. Proof. apply NoDup_nodup. Qed.
Lemma names_vars b : In b (g_vars (program s scn)) -> incl (map fst [(fst b, 1%Q)]) names.
Proof. intros I v J. cbn in J. destruct J as [<-|[]]. apply nodup_In, in_app_iff. left. now apply in_map. Qed.
Lemma names_stiff k : In k stiff -> incl (map fst (k_coefs k)) names.
Proof. intros I v J. apply nodup_In. rewrite !in_app_iff. right; left. apply in_flat_map. eauto. Qed.
Lemma names_soft k : In k places -> incl (map fst (soft k)) names.
Proof. intros I v J. apply nodup_In. rewrite !in_app_iff. right; right; left. apply in_flat_map. eauto. Qed.
Lemma names_goal : incl (map fst goal) names.
Proof. intros v J. apply nodup_In. rewrite !in_app_iff. auto. Qed.

Lemma rows_iff x : meets var names rows x <-> xhalf x.
Proof.
  rewrite <- stiff_iff. unfold meets, rows. split.
  - intros H. split.
    + intros v lo up I. assert (U : (dot var names (coef [(v, 1%Q)]) x <= up)%Q).
      { apply H, in_app_iff. left. apply in_flat_map. exists (v, (lo, up)). split; auto. now left. }
      assert (L : (dot var names (fun u => - coef [(v, 1)] u) x <= - lo)%Q).
      { apply H, in_app_iff. left. apply in_flat_map. exists (v, (lo, up)). split; auto. right. now left. }
      rewrite dot_opp in L. rewrite dot_coef in U, L by (apply names_NoDup || apply (names_vars _ I)). unfold lin in *. cbn in U, L. split; lra.
    + intros k I. assert (U : (dot var names (coef (k_coefs k)) x <= k_ub k)%Q).
      { apply H, in_app_iff. right. apply in_flat_map. exists k. split; auto. now left. }
      assert (L : (dot var names (fun u => - coef (k_coefs k) u) x <= - k_lb k)%Q).
      { apply H, in_app_iff. right. apply in_flat_map. exists k. split; auto. right. now left. }
      rewrite dot_opp in L. rewrite dot_coef in U, L by (apply names_NoDup || apply (names_stiff _ I)). split; lra.
  - intros [HV HK] a b I. apply in_app_iff in I as [I|I].
    + apply in_flat_map in I as ([v [lo up]] & I & J). cbn [fst snd] in J. pose proof (names_vars _ I) as IN. cbn [fst] in IN.
      assert (E : (dot var names (coef [(v, 1%Q)]) x == x v)%Q) by (rewrite dot_coef by (apply names_NoDup || apply IN); unfold lin; cbn; ring).
      destruct (HV v lo up I) as [L U]. destruct J as [J|[J|[]]]; injection J as <- <-; rewrite ?dot_opp, E; lra.
    + apply in_flat_map in I as (k & I & J).
      assert (E : (dot var names (coef (k_coefs k)) x == lin (k_coefs k) x)%Q) by (apply dot_coef; [apply names_NoDup | now apply names_stiff]).
      destruct (HK k I) as [L U]. destruct J as [J|[J|[]]]; injection J as <- <-; rewrite ?dot_opp, E; lra.
Qed.
Lemma soft_value k x : In k places -> (dot var names (coef (soft k)) x - load_at k == excess_at x k)%Q.
Proof.
  intros I. rewrite dot_coef by (apply names_NoDup || now apply names_soft). destruct k as [[t net] nd]. pose proof I as J. apply places_In in J as (T & n & N).
  unfold load_at, excess_at. cbn [fst snd]. rewrite N. pose proof (balance_lin s scn Hscn Hs x t net nd n 0 T N) as E. cbn [interp k_coefs] in E.
  unfold soft. rewrite E. unfold xexcess. lra.
Qed.
Lemma feasible_iff x : feasible var akey names places rows (fun k => coef (soft k)) load_at x <-> xok s scn x.
Proof.
  unfold feasible. rewrite rows_iff, xok_half. split; intros [H B]; split; auto.
  - intros t net nd n T N. assert (I : In (t, net, nd) places) by (apply places_In; eauto). pose proof (soft_value _ x I) as E. rewrite (B _ I) in E.
    unfold excess_at in E. cbn [fst snd] in E. rewrite N in E. lra.
  - intros [[t net] nd] I. pose proof (soft_value _ x I) as E. pose proof I as J. apply places_In in J as (T & n & N). specialize (B t net nd n T N).
    unfold excess_at in E. cbn [fst snd] in E. rewrite N in E. lra.
Qed.
Lemma goal_value x : (dot var names (coef goal) x == xcost s scn x)%Q.
Proof. rewrite dot_coef by (apply names_NoDup || apply names_goal). apply obj_value; auto. Qed.
Lemma charge_value price x : (charge var akey names places (fun k => coef (soft k)) load_at price x == charged price x)%Q.
Proof. unfold charge, charged. apply qsum_map_ext. intros k I. now rewrite (soft_value k x I). Qed.

(** ** Costs are bounded *)
Definition low (f : (var -> Q) -> Q) : Prop := exists m, forall x, xbounds s scn x -> (m <= f x)%Q.
Lemma low_add f g : low f -> low g -> low (fun x => f x + g x)%Q.
Proof. intros (m & H) (m' & H'). exists (m + m')%Q. intros x B. specialize (H x B). specialize (H' x B). lra. Qed.
Lemma low_sum {A} (f : A -> (var -> Q) -> Q) l : (forall a, In a l -> low (f a)) -> low (fun x => qsum (map (fun a => f a x) l)).
Proof.
  induction l as [| a l IH]; intros H.
  - exists 0%Q. intros. cbn. lra.
  - cbn [map]. apply low_add; [apply H; now left | apply IH; intros; apply H; now right].
Qed.
Lemma low_sumi {A} (f : nat -> A -> (var -> Q) -> Q) l : (forall i a, nth_error l i = Some a -> low (f i a)) -> low (fun x => sumi (fun i a => f i a x) l).
Proof.
  unfold sumi. cut (forall k, (forall i a, nth_error l i = Some a -> low (f (k + i) a)) -> low (fun x => qsum (mapi (fun i a => f i a x) k l))).
  { intros H K. apply (H 0). intros i a E. now apply K. }
  induction l as [| a l IH]; intros k H.
  - exists 0%Q. intros. cbn. lra.
  - cbn [mapi]. apply low_add.
    + specialize (H 0 a eq_refl). now rewrite Nat.add_0_r in H.
    + apply IH. intros i b E. specialize (H (S i) b E). now replace (S k + i) with (k + S i) by lia.
Qed.
Lemma low_times q v lo up : (forall x, xbounds s scn x -> within lo (x v) up) -> low (fun x => q * x v)%Q.
Proof.
  intros H. destruct (Qlt_le_dec q 0).
  - exists (q * up)%Q. intros x B. destruct (H x B). nra.
  - exists (q * lo)%Q. intros x B. destruct (H x B). nra.
Qed.
Lemma cost_low : exists m, forall x, xok s scn x -> (m <= xcost s scn x)%Q.
Proof.
  assert (L : low (xcost s scn)).
  { unfold xcost. apply (low_sum (fun t x => _)). intros t T. apply in_seq in T. assert (T' : t < st_horizon s) by lia. apply low_add.
    - apply (low_sum (fun kn x => _)). intros [net ns] I. apply (low_sum (fun kd x => _)). intros [nd n] J. cbn [fst snd].
      assert (N : node_at s net nd = Some n) by (eapply node_at_In; eauto). unfold ncost.
      repeat apply (low_add (fun x => _)); apply (low_sumi (fun i a x => _)); intros i a E; eapply low_times; intros x B.
      + eapply (xb_cons _ _ _ B); eauto.
      + eapply (xb_prods _ _ _ B); eauto.
      + eapply (xb_stors _ _ _ B); eauto.
      + eapply (xb_links _ _ _ B); eauto.
    - apply (low_sum (fun kv x => _)). intros [name v] I. cbn [fst snd].
      assert (CV : conv_at s name = Some v) by (apply In_dget; auto; apply (ld_convs _ Hs)).
      eapply low_times. intros x B. eapply (xb_dest _ _ _ B); eauto. }
  destruct L as (m & H). exists m. intros x X. apply H. apply X.
Qed.

(** ** Optimum and prices *)
Definition supports (price : akey -> Q) (x : var -> Q) : Prop := forall y, xhalf y -> (xcost s scn x <= xcost s scn y - charged price y)%Q.
Theorem xprices : (exists x, xok s scn x) -> exists x price, xok s scn x /\ supports price x.
Proof.
  intros (x0 & X0). destruct (optimum_and_prices var var_eq_dec akey akey_dec names places rows (fun k => coef (soft k)) load_at (coef goal) names_NoDup places_NoDup)
    as (x & price & F & H).
  - exists x0. now apply feasible_iff.
  - destruct cost_low as (m & Hm). exists m. intros y F. apply feasible_iff in F. rewrite goal_value. auto.
  - exists x, price. split; [now apply feasible_iff |]. intros y Y. apply rows_iff in Y. specialize (H y Y). rewrite !goal_value, charge_value in H. exact H.
Qed.
Theorem xok_or_not : (exists x, xok s scn x) \/ forall x, ~ xok s scn x.
Proof.
  destruct (feasible_or_not var var_eq_dec akey names places rows (fun k => coef (soft k)) load_at names_NoDup) as [(x & F)|N].
  - left. exists x. now apply feasible_iff.
  - right. intros x X. apply (N x). now apply feasible_iff.
Qed.
Lemma charged_zero price x : xok s scn x -> (charged price x == 0)%Q.
Proof.
  intros X. apply xok_half in X as [_ B]. apply qsum_map_zero. intros [[t net] nd] I. apply places_In in I as (T & n & N).
  unfold excess_at. cbn [fst snd]. rewrite N, (B _ _ _ _ T N). ring.
Qed.
Theorem supports_iff x : (xok s scn x /\ forall y, xok s scn y -> (xcost s scn x <= xcost s scn y)%Q) <-> (xok s scn x /\ exists price, supports price x).
Proof.
  split; intros [X H]; split; auto.
  - destruct xprices as (z & price & Z & SZ); [eauto |]. exists price. intros y Y. specialize (H z Z). specialize (SZ y Y). lra.
  - intros y Y. destruct H as (price & H). specialize (H y (proj1 (proj1 (xok_half y) Y))). rewrite charged_zero in H by auto. lra.
Qed.
End Price.
