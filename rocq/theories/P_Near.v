(** C93: answers of the solver that are right up to a tolerance. *)
From Coq Require Import String Ascii List ZArith QArith Qabs Bool Arith Lia Lqa Permutation Sorted.
From Verif Require Import Base BaseFacts Numeric Study Fluent Output LP SpecStudy SpecLP StudyFacts LPBuild LPFacts LPSat LPResult LPReady LPSolve LPWeak LPMore P_LP P_Opt P_Law Optimum LPPrice P_Optimum LPNear.
Import ListNotations.
Open Scope nat_scope.
Open Scope string_scope.
Open Scope list_scope.

(** ** Specification *)

(** Every bound and every constraint of a program is met up to [e]: what a solver working
    with floating point numbers promises. *)
Record nearly (e : Q) (p : solver) (x : var -> Q) : Prop := {
  ne_vars : forall v lo up, In (v, (lo, up)) (sv_vars p) -> within (lo - e) (x v) (up + e);
  ne_cons : forall k, In k (sv_cons p) -> within (k_lb k - e) (lin (k_coefs k) x) (k_ub k + e)
}.

Definition about (e a b : Q) : Prop := (a - b <= e /\ b - a <= e)%Q.

(** The laws of [law_ok], each up to [e]. *)
Record law_near (s : study) (r : result) (scn : nat) (e : Q) : Prop := {
  ln_nodes : forall t net nd n rn, t < st_horizon s -> node_at s net nd = Some n -> rnode_at r net nd = Some rn ->
    Forall2 (fun c o => within (- e) (entry (oc_qty o) scn t) (value (c_qty c) scn t + e)) (n_cons n) (on_cons rn) /\
    Forall2 (fun p o => within (- e) (entry (op_qty o) scn t) (value (p_qty p) scn t + e)) (n_prods n) (on_prods rn) /\
    Forall2 (fun x o => within (- e) (entry (os_capacity o) scn t) (value (s_capacity x) scn t + e) /\
                        within (- e) (entry (os_flow_in o) scn t) (value (s_flow_in x) scn t + e) /\
                        within (- e) (entry (os_flow_out o) scn t) (value (s_flow_out x) scn t + e)) (n_stors n) (on_stors rn) /\
    Forall2 (fun l o => within (- e) (entry (ol_qty o) scn t) (value (l_qty l) scn t + e)) (n_links n) (on_links rn);
  ln_convs : forall t name v rv, t < st_horizon s -> conv_at s name = Some v -> rconv_at r name = Some rv ->
    within (- e) (entry (ov_dest rv) scn t) (ovalue (v_max v) scn t + e) /\
    Forall2 (fun (kr : string * string * numval) (ka : string * string * ndarray) =>
               within (- e) (entry (snd ka) scn t) (ovalue (v_max v) scn t / value (snd kr) scn t + e) /\
               about e (value (snd kr) scn t * entry (snd ka) scn t) (entry (ov_dest rv) scn t)) (v_src v) (ov_src rv);
  ln_balance : forall t net nd rn, t < st_horizon s -> rnode_at r net nd = Some rn ->
    about e (served scn rn t + exported scn rn t + stored scn rn t + sent r scn net nd t)
            (produced scn rn t + imported r scn net nd t + withdrawn scn rn t + received s r scn net nd t + looped scn nd rn t);
  ln_storages : forall net nd n rn x xs o os t, node_at s net nd = Some n -> rnode_at r net nd = Some rn ->
    n_stors n = x :: xs -> on_stors rn = o :: os -> t < st_horizon s ->
    about e (entry (os_capacity o) scn t)
            ((match t with O => s_init x | S t' => entry (os_capacity o) scn t' end)
             + value (s_eff x) scn t * entry (os_flow_in o) scn t - entry (os_flow_out o) scn t)
}.

(** Two results whose quantities differ by at most [d] in a scenario. *)
Definition row_close (scn t : nat) (d : Q) (a b : ndarray) : Prop := about d (entry a scn t) (entry b scn t).
Definition close (s : study) (scn : nat) (d : Q) (r r' : result) : Prop :=
  (forall t net nd rn rn', t < st_horizon s -> rnode_at r net nd = Some rn -> rnode_at r' net nd = Some rn' ->
     Forall2 (fun a b => row_close scn t d (oc_qty a) (oc_qty b)) (on_cons rn) (on_cons rn') /\
     Forall2 (fun a b => row_close scn t d (op_qty a) (op_qty b)) (on_prods rn) (on_prods rn') /\
     Forall2 (fun a b => row_close scn t d (os_capacity a) (os_capacity b) /\ row_close scn t d (os_flow_in a) (os_flow_in b) /\
                         row_close scn t d (os_flow_out a) (os_flow_out b)) (on_stors rn) (on_stors rn') /\
     Forall2 (fun a b => row_close scn t d (ol_qty a) (ol_qty b)) (on_links rn) (on_links rn')) /\
  (forall t name rv rv', t < st_horizon s -> rconv_at r name = Some rv -> rconv_at r' name = Some rv' ->
     row_close scn t d (ov_dest rv) (ov_dest rv') /\
     Forall2 (fun (a b : string * string * ndarray) => row_close scn t d (snd a) (snd b)) (ov_src rv) (ov_src rv')).

(** ** Programs *)
Section Programs.
Variable p : solver.
Definition pnames : list var := nodup var_eq_dec
  (map fst (sv_vars p) ++ flat_map (fun k => map fst (k_coefs k)) (sv_cons p) ++ map fst (sv_obj p)).
Definition prows : list ((var -> Q) * Q) :=
  flat_map (fun b => [(coef [(fst b, 1%Q)], snd (snd b)); (fun v => - coef [(fst b, 1)] v, - fst (snd b))%Q]) (sv_vars p) ++
  flat_map (fun k => [(coef (k_coefs k), k_ub k); (fun v => - coef (k_coefs k) v, - k_lb k)%Q]) (sv_cons p).
Lemma pnames_NoDup : NoDup pnames. Proof. apply NoDup_nodup. Qed.
Lemma pnames_vars b : In b (sv_vars p) -> incl (map fst [(fst b, 1%Q)]) pnames.
Proof. intros I v J. cbn in J. destruct J as [<-|[]]. apply nodup_In, in_app_iff. left. now apply in_map. Qed.
Lemma pnames_cons k : In k (sv_cons p) -> incl (map fst (k_coefs k)) pnames.
Proof. intros I v J. apply nodup_In. rewrite !in_app_iff. right; left. apply in_flat_map. eauto. Qed.
Lemma pnames_obj : incl (map fst (sv_obj p)) pnames.
Proof. intros v J. apply nodup_In. rewrite !in_app_iff. auto. Qed.

Lemma prows_iff e x : meets_within var pnames prows e x <-> nearly e p x.
Proof.
  unfold meets_within, prows. split.
  - intros H. constructor.
    + intros v lo up I. assert (U : (dot var pnames (coef [(v, 1%Q)]) x <= up + e)%Q).
      { apply H, in_app_iff. left. apply in_flat_map. exists (v, (lo, up)). split; auto. now left. }
      assert (L : (dot var pnames (fun u => - coef [(v, 1)] u) x <= - lo + e)%Q).
      { apply H, in_app_iff. left. apply in_flat_map. exists (v, (lo, up)). split; auto. right. now left. }
      rewrite dot_opp in L. rewrite dot_coef in U, L by (apply pnames_NoDup || apply (pnames_vars _ I)). unfold lin in *. cbn in U, L. split; lra.
    + intros k I. assert (U : (dot var pnames (coef (k_coefs k)) x <= k_ub k + e)%Q).
      { apply H, in_app_iff. right. apply in_flat_map. exists k. split; auto. now left. }
      assert (L : (dot var pnames (fun u => - coef (k_coefs k) u) x <= - k_lb k + e)%Q).
      { apply H, in_app_iff. right. apply in_flat_map. exists k. split; auto. right. now left. }
      rewrite dot_opp in L. rewrite dot_coef in U, L by (apply pnames_NoDup || apply (pnames_cons _ I)). split; lra.
  - intros [HV HK] a b I. apply in_app_iff in I as [I|I].
    + apply in_flat_map in I as ([v [lo up]] & I & J). cbn [fst snd] in J. pose proof (pnames_vars _ I) as IN. cbn [fst] in IN.
      assert (E : (dot var pnames (coef [(v, 1%Q)]) x == x v)%Q) by (rewrite dot_coef by (apply pnames_NoDup || apply IN); unfold lin; cbn; ring).
      destruct (HV v lo up I) as [L U]. destruct J as [J|[J|[]]]; injection J as <- <-; rewrite ?dot_opp, E; lra.
    + apply in_flat_map in I as (k & I & J).
      assert (E : (dot var pnames (coef (k_coefs k)) x == lin (k_coefs k) x)%Q) by (apply dot_coef; [apply pnames_NoDup | now apply pnames_cons]).
      destruct (HK k I) as [L U]. destruct J as [J|[J|[]]]; injection J as <- <-; rewrite ?dot_opp, E; lra.
Qed.

Lemma nearly_zero x : nearly 0 p x <-> satisfies p x.
Proof.
  split; intros [HV HK]; constructor; intros; unfold within in *.
  - specialize (HV v lo up H). lra.
  - specialize (HK k H). lra.
  - specialize (HV v lo up H). lra.
  - specialize (HK k H). lra.
Qed.
Lemma meets_iff x : meets var pnames prows x <-> satisfies p x.
Proof. rewrite <- nearly_zero, <- prows_iff. symmetry. apply within_zero. Qed.

Lemma lin_near c x y d : (forall v, (Qabs (x v - y v) <= d)%Q) -> (Qabs (lin c x - lin c y) <= qsum (map (fun vc => Qabs (snd vc)) c) * d)%Q.
Proof.
  intros H. induction c as [| [v q] c IH].
  - unfold lin. cbn. rewrite Qmult_0_l. apply Qle_refl.
  - change (lin ((v, q) :: c) x) with (q * x v + lin c x)%Q. change (lin ((v, q) :: c) y) with (q * y v + lin c y)%Q.
    cbn [map snd]. change (qsum (?a :: ?b)) with (a + qsum b)%Q.
    setoid_replace (q * x v + lin c x - (q * y v + lin c y))%Q with (q * (x v - y v) + (lin c x - lin c y))%Q by ring.
    eapply Qle_trans; [apply Qabs_triangle |]. rewrite Qabs_Qmult. specialize (H v). pose proof (Qabs_nonneg q).
    assert (X : (Qabs q * Qabs (x v - y v) <= Qabs q * d)%Q) by nra. lra.
Qed.

(** A point that nearly satisfies a program is near one that satisfies it. *)
Theorem near_program : (exists x, satisfies p x) -> exists k, (0 <= k)%Q /\ forall e y, (0 <= e)%Q -> nearly e p y ->
  exists x, satisfies p x /\ forall v, (Qabs (x v - y v) <= k * e)%Q.
Proof.
  intros (x0 & F). destruct (near_point var var_eq_dec pnames prows pnames_NoDup) as (k & HK & H).
  { exists x0. now apply meets_iff. }
  exists k. split; auto. intros e y HE N. destruct (H e y HE (proj2 (prows_iff e y) N)) as (x & M & D).
  exists (fun v => if in_dec var_eq_dec v pnames then x v else y v). split.
  - apply meets_iff. intros a b I. specialize (M a b I). eapply Qle_trans; [| exact M]. apply Qle_lteq. right.
    apply qsum_map_ext. intros v J. destruct (in_dec var_eq_dec v pnames); [reflexivity | tauto].
  - intros v. destruct (in_dec var_eq_dec v pnames) as [J|J]; [now apply D |].
    setoid_replace (y v - y v)%Q with 0%Q by ring. change (Qabs 0) with 0%Q. nra.
Qed.
Theorem never_near : (forall x, ~ satisfies p x) -> exists e0, (0 < e0)%Q /\ forall e y, nearly e p y -> (e0 <= e)%Q.
Proof.
  intros N. destruct (no_near_point var var_eq_dec pnames prows pnames_NoDup) as (e0 & P & H).
  { intros x M. apply (N x). now apply meets_iff. }
  exists e0. split; auto. intros e y K. apply (H e y). now apply prows_iff.
Qed.
End Programs.

(** ** The program of a scenario *)
Section Scenario.
Variables (s : study) (scn : nat) (e : Q).
Hypothesis Hscn : scn < st_nb_scn s.
Hypothesis Hs : ready s.

Record xnear (x : var -> Q) : Prop := {
  xn_cons : forall t net nd n i c, t < st_horizon s -> node_at s net nd = Some n -> nth_error (n_cons n) i = Some c ->
    within (- e) (x (VLol net nd i t)) (value (c_qty c) scn t + e);
  xn_prods : forall t net nd n i p, t < st_horizon s -> node_at s net nd = Some n -> nth_error (n_prods n) i = Some p ->
    within (- e) (x (VProd net nd i t)) (value (p_qty p) scn t + e);
  xn_stors : forall t net nd n i y, t < st_horizon s -> node_at s net nd = Some n -> nth_error (n_stors n) i = Some y ->
    within (- e) (x (VCap net nd i t)) (value (s_capacity y) scn t + e) /\
    within (- e) (x (VIn net nd i t)) (value (s_flow_in y) scn t + e) /\
    within (- e) (x (VOut net nd i t)) (value (s_flow_out y) scn t + e);
  xn_links : forall t net nd n i l, t < st_horizon s -> node_at s net nd = Some n -> nth_error (n_links n) i = Some l ->
    within (- e) (x (VLink net nd i t)) (value (l_qty l) scn t + e);
  xn_src : forall t name v k q, t < st_horizon s -> conv_at s name = Some v -> In (k, q) (v_src v) ->
    within (- e) (x (vsrc name t k)) (ovalue (v_max v) scn t / value q scn t + e);
  xn_dest : forall t name v, t < st_horizon s -> conv_at s name = Some v ->
    within (- e) (x (VDest name t)) (ovalue (v_max v) scn t + e);
  xn_balance : forall t net nd n, t < st_horizon s -> node_at s net nd = Some n ->
    about e (xnode x t net nd n + qsum (map (fun kv => xconv x t net nd (fst kv) (snd kv)) (st_converters s))
             + ximport s x t net nd + xself x t net nd n) (qsum (map (fun c => value (c_qty c) scn t) (n_cons n)));
  xn_storage : forall t net nd n y ys, t < st_horizon s -> node_at s net nd = Some n -> n_stors n = y :: ys ->
    about e (x (VCap net nd 0 t)) ((match t with O => s_init y | S t' => x (VCap net nd 0 t') end)
             + value (s_eff y) scn t * x (VIn net nd 0 t) - x (VOut net nd 0 t));
  xn_mix : forall t name v k q, t < st_horizon s -> conv_at s name = Some v -> In (k, q) (v_src v) ->
    about e (value q scn t * x (vsrc name t k)) (x (VDest name t))
}.

Lemma zero_low a b : within (0 - e) a b <-> within (- e) a b.
Proof. unfold within. split; intros [A B]; split; lra. Qed.

Lemma bounds_near x : (forall v lo up, In (v, (lo, up)) (g_vars (program s scn)) -> within (lo - e) (x v) (up + e)) <->
  (forall t net nd n i c, t < st_horizon s -> node_at s net nd = Some n -> nth_error (n_cons n) i = Some c ->
     within (- e) (x (VLol net nd i t)) (value (c_qty c) scn t + e)) /\
  (forall t net nd n i p, t < st_horizon s -> node_at s net nd = Some n -> nth_error (n_prods n) i = Some p ->
    within (- e) (x (VProd net nd i t)) (value (p_qty p) scn t + e)) /\
  (forall t net nd n i y, t < st_horizon s -> node_at s net nd = Some n -> nth_error (n_stors n) i = Some y ->
    within (- e) (x (VCap net nd i t)) (value (s_capacity y) scn t + e) /\
    within (- e) (x (VIn net nd i t)) (value (s_flow_in y) scn t + e) /\
    within (- e) (x (VOut net nd i t)) (value (s_flow_out y) scn t + e)) /\
  (forall t net nd n i l, t < st_horizon s -> node_at s net nd = Some n -> nth_error (n_links n) i = Some l ->
    within (- e) (x (VLink net nd i t)) (value (l_qty l) scn t + e)) /\
  (forall t name v k q, t < st_horizon s -> conv_at s name = Some v -> In (k, q) (v_src v) ->
    within (- e) (x (vsrc name t k)) (ovalue (v_max v) scn t / value q scn t + e)) /\
  (forall t name v, t < st_horizon s -> conv_at s name = Some v ->
    within (- e) (x (VDest name t)) (ovalue (v_max v) scn t + e)).
Proof.
  unfold program. simpl. rewrite app_nil_r, (over_proj s scn g_vars) by auto. split.
  - intros H.
    assert (HN : forall t net nd n v up, t < st_horizon s -> node_at s net nd = Some n ->
              In (v, (0%Q, up)) (node_vars net nd t scn n) -> within (- e) (x v) (up + e)).
    { intros t net nd n v up T N I. apply zero_low. apply H. apply (over_In s scn Hscn Hs). exists t. split; auto. left. exists net, nd, n. auto. }
    assert (HC : forall t name u v up, t < st_horizon s -> conv_at s name = Some u ->
              In (v, (0%Q, up)) (conv_vars name t scn u) -> within (- e) (x v) (up + e)).
    { intros t name u v up T N I. apply zero_low. apply H. apply (over_In s scn Hscn Hs). exists t. split; auto. right. exists name, u. auto. }
    split; [| split; [| split; [| split; [| split]]]].
    + intros t net nd n i c T N E. eapply HN; eauto. unfold node_vars. apply in_app_iff. left. apply In_mapi. exists i, c. auto.
    + intros t net nd n i c T N E. eapply HN; eauto. unfold node_vars. rewrite !in_app_iff. right; left. apply In_mapi. exists i, c. auto.
    + intros t net nd n i c T N E.
      assert (X : forall y, In y [(VCap net nd i t, (0, value (s_capacity c) scn t)%Q);
                            (VIn net nd i t, (0, value (s_flow_in c) scn t)%Q);
                            (VOut net nd i t, (0, value (s_flow_out c) scn t)%Q)] -> In y (node_vars net nd t scn n)).
      { intros y I. unfold node_vars. rewrite !in_app_iff. right; right; left. apply in_concat. eexists. split; [|exact I].
        apply In_mapi. exists i, c. auto. }
      split; [| split]; eapply HN; eauto; apply X; simpl; auto.
    + intros t net nd n i c T N E. eapply HN; eauto. unfold node_vars. rewrite !in_app_iff. right; right; right. apply In_mapi. exists i, c. auto.
    + intros t name v k q T N I. eapply HC; eauto. unfold conv_vars. apply in_app_iff. left. apply in_map_iff. exists (k, q). auto.
    + intros t name v T N. eapply HC; eauto. unfold conv_vars. apply in_app_iff. right. simpl. auto.
  - intros (H1 & H2 & H3 & H4 & H5 & H6) v lo up I. apply (over_In s scn Hscn Hs) in I as (t & T & [(net & nd & n & N & I) | (name & u & N & I)]).
    + simpl in I. unfold node_vars in I. rewrite !in_app_iff in I. destruct I as [I|[I|[I|I]]].
      * apply In_mapi in I as (j & c & E & EQ). inversion EQ; subst. apply zero_low. eapply H1; eauto.
      * apply In_mapi in I as (j & c & E & EQ). inversion EQ; subst. apply zero_low. eapply H2; eauto.
      * apply in_concat in I as (m & I & J). apply In_mapi in I as (j & c & E & ->).
        destruct (H3 t net nd n j c T N E) as (A & C & D).
        destruct J as [EQ|[EQ|[EQ|[]]]]; inversion EQ; subst; apply zero_low; auto.
      * apply In_mapi in I as (j & c & E & EQ). inversion EQ; subst. apply zero_low. eapply H4; eauto.
    + simpl in I. unfold conv_vars in I. rewrite in_app_iff in I. destruct I as [I|[I|[]]].
      * apply in_map_iff in I as ([k q] & EQ & I). inversion EQ; subst. apply zero_low. eapply H5; eauto.
      * inversion I; subst. apply zero_low. eapply H6; eauto.
Qed.

Ltac newkey := rewrite dset_fresh; [cbn [app] | cbn; intuition congruence].

Lemma stor_near x t net nd y :
  let Y := LPStor (s_name y) (value (s_capacity y) scn t) (VCap net nd 0 t) (value (s_flow_in y) scn t) (VIn net nd 0 t)
                  (value (s_flow_out y) scn t) (VOut net nd 0 t) (value (s_cost y) scn t) (s_init y) (value (s_eff y) scn t) in
  let k := stor_constr net nd t Y in
  within (k_lb k - e) (lin (k_coefs k) x) (k_ub k + e) <->
  about e (x (VCap net nd 0 t)) ((match t with O => s_init y | S t' => x (VCap net nd 0 t') end)
       + value (s_eff y) scn t * x (VIn net nd 0 t) - x (VOut net nd 0 t)).
Proof.
  intros Y k. unfold k, stor_constr. destruct t as [|t']; cbn [k_lb k_ub k_coefs]; subst Y; cbn [ls_vcap ls_vin ls_vout ls_init ls_eff].
  - repeat newkey. unfold lin, within, about. simpl. split; intros; lra.
  - assert (t' <> S t') by lia. repeat newkey. unfold lin, within, about. simpl. split; intros; lra.
Qed.
Lemma mix_near x t name k q :
  let c := Constr 0 0 (dset (VDest name t) (-1)%Q (dset (vsrc name t k) q [])) in
  within (k_lb c - e) (lin (k_coefs c) x) (k_ub c + e) <-> about e (q * x (vsrc name t k)) (x (VDest name t)).
Proof.
  intros c. unfold c. cbn [k_lb k_ub k_coefs]. unfold vsrc. repeat newkey. unfold lin, within, about. simpl. split; intros; lra.
Qed.

Lemma near_iff x : nearly e (program_of s scn) x <-> xnear x.
Proof.
  destruct (build_ok s scn Hscn Hs) as (p & B & V & K & _). unfold program_of. rewrite B.
  assert (TG : (forall k, In k (sv_cons p) -> within (k_lb k - e) (lin (k_coefs k) x) (k_ub k + e)) <->
     (forall g, In g (g_tags (program s scn)) -> let k := interp (g_ops (program s scn)) g in within (k_lb k - e) (lin (k_coefs k) x) (k_ub k + e))).
  { rewrite K. split.
    - intros H g I. apply H. apply in_map; auto.
    - intros H k I. apply in_map_iff in I as (g & <- & I). apply H; auto. }
  assert (GT : g_tags (program s scn) = over s (fun t net nd n => node_tags net nd t (pnode net nd t scn n))
                                             (fun t name v => conv_tags name t (pconv name t scn v))).
  { unfold program. simpl. rewrite app_nil_r. apply (over_proj s scn g_tags); auto. }
  assert (AB : forall l a, within (l - e) a (l + e) <-> about e a l) by (intros; unfold within, about; split; intros [? ?]; split; lra).
  split.
  - intros [SV SC]. rewrite V in SV. pose proof (proj1 TG SC) as ST. rewrite GT in ST.
    apply bounds_near in SV as (H1 & H2 & H3 & H4 & H5 & H6). constructor; auto.
    + intros t net nd n T N.
      specialize (ST (TAdq (t, net, nd) (qsum (map lc_qty (ln_cons (pnode net nd t scn n)))))).
      assert (I : In (TAdq (t, net, nd) (qsum (map lc_qty (ln_cons (pnode net nd t scn n)))))
               (over s (fun t net nd n => node_tags net nd t (pnode net nd t scn n)) (fun t name v => conv_tags name t (pconv name t scn v)))).
      { apply (over_In s scn Hscn Hs). exists t. split; auto. left. exists net, nd, n. split; auto. left. reflexivity. }
      specialize (ST I). cbv zeta in ST. cbn [interp k_lb k_ub] in ST. apply AB in ST. unfold about in ST.
      pose proof (balance_lin s scn Hscn Hs x t net nd n (qsum (map lc_qty (ln_cons (pnode net nd t scn n)))) T N) as BL. cbn [interp k_coefs] in BL.
      cbn [k_coefs] in ST. rewrite BL in ST. rewrite node_tags_load in ST. exact ST.
    + intros t net nd n y ys T N E.
      apply (stor_near x t net nd y).
      apply (ST (TFix (stor_constr net nd t (LPStor (s_name y) (value (s_capacity y) scn t) (VCap net nd 0 t) (value (s_flow_in y) scn t) (VIn net nd 0 t)
                  (value (s_flow_out y) scn t) (VOut net nd 0 t) (value (s_cost y) scn t) (s_init y) (value (s_eff y) scn t))))).
      apply (over_In s scn Hscn Hs). exists t. split; auto. left. exists net, nd, n. split; auto. right. unfold node_fix. simpl. rewrite E. simpl. auto.
    + intros t name v k q T N I. apply (mix_near x t name k).
      apply (ST (TFix (Constr 0 0 (dset (VDest name t) (-1)%Q (dset (vsrc name t k) (value q scn t) []))))).
      apply (over_In s scn Hscn Hs). exists t. split; auto. right. exists name, v. split; auto.
      unfold conv_tags. simpl. unfold dmap. rewrite map_map. apply in_map_iff. exists (k, q). auto.
  - intros [H1 H2 H3 H4 H5 H6 XA XS XM]. constructor.
    + rewrite V. apply bounds_near. auto 10.
    + apply TG. rewrite GT. intros g I. apply (over_In s scn Hscn Hs) in I as (t & T & [(net & nd & n & N & I) | (name & v & N & I)]).
      * destruct I as [<-|I].
        -- cbv zeta. cbn [interp k_lb k_ub k_coefs]. apply AB.
           pose proof (balance_lin s scn Hscn Hs x t net nd n (qsum (map lc_qty (ln_cons (pnode net nd t scn n)))) T N) as BL. cbn [interp k_coefs] in BL.
           unfold about. rewrite BL. rewrite node_tags_load. apply XA; auto.
        -- unfold node_fix in I. simpl in I. specialize (XS t net nd n).
           destruct (n_stors n) as [|y m]; simpl in I; [tauto|]. destruct I as [<-|[]]. cbn [interp].
           apply stor_near. eapply XS; eauto.
      * unfold conv_tags in I. simpl in I. unfold dmap in I. rewrite map_map in I. apply in_map_iff in I as ([k q] & <- & I).
        cbn [interp fst snd]. apply mix_near. eapply XM; eauto.
Qed.
End Scenario.

Section Results.
Variables (s : study) (r : result) (scn : nat) (x : var -> Q) (e : Q).
Hypothesis Hs : ready s.
Hypothesis Hm : mirrors s r.
Hypothesis Hc : carries_answer s r scn x.

Lemma balance_gap t net nd n rn : t < st_horizon s -> node_at s net nd = Some n -> rnode_at r net nd = Some rn ->
  (xnode x t net nd n + qsum (map (fun kv => xconv x t net nd (fst kv) (snd kv)) (st_converters s))
   + ximport s x t net nd + xself x t net nd n - qsum (map (fun c => value (c_qty c) scn t) (n_cons n)) ==
   (produced scn rn t + imported r scn net nd t + withdrawn scn rn t + received s r scn net nd t + looped scn nd rn t) -
   (served scn rn t + exported scn rn t + stored scn rn t + sent r scn net nd t))%Q.
Proof.
  intros T N R. rewrite (convs_eq s r Hs Hm scn x Hc t T net nd), <- (imported_eq s r Hs Hm scn x Hc t T net nd), <- (looped_eq s r Hm scn x Hc t T net nd n rn) by auto. unfold xnode.
  rewrite (served_eq s r Hm scn x Hc t T net nd n rn), (produced_eq s r Hm scn x Hc t T net nd n rn), (stored_eq s r Hm scn x Hc t T net nd n rn),
          (withdrawn_eq s r Hm scn x Hc t T net nd n rn), (exported_eq s r Hm scn x Hc t T net nd n rn) by auto.
  assert (E1 : (sumi (fun i c => value (c_qty c) scn t - x (VLol net nd i t)) (n_cons n) ==
                qsum (map (fun c => value (c_qty c) scn t) (n_cons n)) - sumi (fun i _ => x (VLol net nd i t)) (n_cons n))%Q).
  { rewrite (sumi_ext _ (fun i c => value (c_qty c) scn t + - x (VLol net nd i t))%Q) by (intros; lra).
    rewrite (sumi_add (fun _ c => value (c_qty c) scn t) (fun i _ => - x (VLol net nd i t))%Q).
    rewrite (sumi_opp (fun i _ => x (VLol net nd i t))), sumi_map. lra. }
  assert (E2 : (sumi (fun i (_ : storage) => - x (VIn net nd i t) + x (VOut net nd i t)) (n_stors n) ==
                - sumi (fun i _ => x (VIn net nd i t)) (n_stors n) + sumi (fun i _ => x (VOut net nd i t)) (n_stors n))%Q).
  { rewrite (sumi_add (fun i _ => - x (VIn net nd i t))%Q (fun i _ => x (VOut net nd i t))).
    rewrite (sumi_opp (fun i _ => x (VIn net nd i t))). lra. }
  rewrite E1, E2. lra.
Qed.

(** Relation by position. *)
Lemma Forall2_of_nth {A C} (P : A -> C -> Prop) l m : length l = length m ->
  (forall i a b, nth_error l i = Some a -> nth_error m i = Some b -> P a b) -> Forall2 P l m.
Proof.
  revert m. induction l as [| a l IH]; intros [| b m] L H; try discriminate; constructor.
  - apply (H 0); reflexivity.
  - apply IH; [now inversion L |]. intros i u v E1 E2. now apply (H (S i)).
Qed.

Lemma near_law : law_near s r scn e <-> xnear s scn e x.
Proof.
  split.
  - intros [HN HC HB HS]. constructor.
    + intros t net nd n i c T N E. destruct (mirror_node_l s r Hm _ _ _ N) as (rn & R & _). destruct (HN t net nd n rn T N R) as (W & _).
      destruct (Forall2_get _ _ _ _ _ W E) as (o & E2 & A1 & A2). pose proof (ca_cons _ _ _ _ Hc net nd n rn i c o t T N R E E2). split; lra.
    + intros t net nd n i c T N E. destruct (mirror_node_l s r Hm _ _ _ N) as (rn & R & _). destruct (HN t net nd n rn T N R) as (_ & W & _).
      destruct (Forall2_get _ _ _ _ _ W E) as (o & E2 & A1 & A2). pose proof (ca_prods _ _ _ _ Hc net nd n rn i c o t T N R E E2). split; lra.
    + intros t net nd n i c T N E. destruct (mirror_node_l s r Hm _ _ _ N) as (rn & R & _). destruct (HN t net nd n rn T N R) as (_ & _ & W & _).
      destruct (Forall2_get _ _ _ _ _ W E) as (o & E2 & [] & [] & []). destruct (ca_stors _ _ _ _ Hc net nd n rn i c o t T N R E E2) as (? & ? & ?).
      unfold within. repeat split; lra.
    + intros t net nd n i c T N E. destruct (mirror_node_l s r Hm _ _ _ N) as (rn & R & _). destruct (HN t net nd n rn T N R) as (_ & _ & _ & W).
      destruct (Forall2_get _ _ _ _ _ W E) as (o & E2 & A1 & A2). pose proof (ca_links _ _ _ _ Hc net nd n rn i c o t T N R E E2). split; lra.
    + intros t name v k q T V I. destruct (mirror_conv_l s r Hm _ _ V) as (rv & R & _). destruct (HC t name v rv T V R) as (_ & W).
      pose proof (conv_src_rel s r Hm scn x Hc t T name v rv V R) as F. apply In_nth_error in I as [i I].
      destruct (Forall2_get _ _ _ _ _ W I) as ([k2 a] & J & [A1 A2] & _). destruct (Forall2_get _ _ _ _ _ F I) as (ka & J2 & EK & EA).
      rewrite J in J2. injection J2 as <-. cbn [fst snd] in *. subst k2. split; lra.
    + intros t name v T V. destruct (mirror_conv_l s r Hm _ _ V) as (rv & R & _). destruct (HC t name v rv T V R) as ((A1 & A2) & _).
      pose proof (ca_dest _ _ _ _ Hc name v rv t T V R). split; lra.
    + intros t net nd n T N. destruct (mirror_node_l s r Hm _ _ _ N) as (rn & R & _). pose proof (balance_gap t net nd n rn T N R) as G.
      destruct (HB t net nd rn T R) as [B1 B2]. split; lra.
    + intros t net nd n y ys T N E. destruct (mirror_node_l s r Hm _ _ _ N) as (rn & R & L).
      pose proof (Forall2_len _ _ _ (nl_stors _ _ _ L)) as LE. rewrite E in LE. destruct (on_stors rn) as [| o os] eqn:E'; [discriminate |].
      pose proof (HS net nd n rn y ys o os t N R E E' T) as [S1 S2].
      assert (X : forall u, u < st_horizon s -> (entry (os_capacity o) scn u == x (VCap net nd 0 u))%Q /\
        (entry (os_flow_in o) scn u == x (VIn net nd 0 u))%Q /\ (entry (os_flow_out o) scn u == x (VOut net nd 0 u))%Q).
      { intros u U. apply (ca_stors _ _ _ _ Hc net nd n rn 0 y o u); auto; [now rewrite E | now rewrite E']. }
      destruct (X t T) as (X1 & X2 & X3). rewrite X1, X2, X3 in S1, S2. destruct t as [| t']; [split; assumption |].
      destruct (X t' ltac:(lia)) as (X4 & _). rewrite X4 in S1, S2. split; assumption.
    + intros t name v k q T V I. destruct (mirror_conv_l s r Hm _ _ V) as (rv & R & _). destruct (HC t name v rv T V R) as (_ & W).
      pose proof (conv_src_rel s r Hm scn x Hc t T name v rv V R) as F. apply In_nth_error in I as [i I].
      destruct (Forall2_get _ _ _ _ _ W I) as ([k2 a] & J & _ & A1 & A2). destruct (Forall2_get _ _ _ _ _ F I) as (ka & J2 & EK & EA).
      rewrite J in J2. injection J2 as <-. cbn [fst snd] in *. subst k2. pose proof (ca_dest _ _ _ _ Hc name v rv t T V R) as ED. rewrite EA, ED in A1, A2.
      split; assumption.
  - intros [H1 H2 H3 H4 H5 H6 XA XS XM]. constructor.
    + intros t net nd n rn T N R. destruct (mirror_node_l s r Hm _ _ _ N) as (rn' & R' & L). rewrite R in R'. injection R' as <-.
      split; [| split; [| split]].
      * apply Forall2_of_nth; [eapply Forall2_len, nl_cons; eauto |]. intros i a b E E2. destruct (H1 t net nd n i a T N E) as [A1 A2].
        pose proof (ca_cons _ _ _ _ Hc net nd n rn i a b t T N R E E2). split; lra.
      * apply Forall2_of_nth; [eapply Forall2_len, nl_prods; eauto |]. intros i a b E E2. destruct (H2 t net nd n i a T N E) as [A1 A2].
        pose proof (ca_prods _ _ _ _ Hc net nd n rn i a b t T N R E E2). split; lra.
      * apply Forall2_of_nth; [eapply Forall2_len, nl_stors; eauto |]. intros i a b E E2. destruct (H3 t net nd n i a T N E) as ([] & [] & []).
        destruct (ca_stors _ _ _ _ Hc net nd n rn i a b t T N R E E2) as (? & ? & ?). unfold within. repeat split; lra.
      * apply Forall2_of_nth; [eapply Forall2_len, nl_links; eauto |]. intros i a b E E2. destruct (H4 t net nd n i a T N E) as [A1 A2].
        pose proof (ca_links _ _ _ _ Hc net nd n rn i a b t T N R E E2). split; lra.
    + intros t name v rv T V R. pose proof (ca_dest _ _ _ _ Hc name v rv t T V R) as ED. split.
      * destruct (H6 t name v T V). split; lra.
      * pose proof (conv_src_rel s r Hm scn x Hc t T name v rv V R) as F. apply Forall2_In in F. eapply Forall2_imp; [| exact F].
        intros [k q] [k' a] (I & J & EK & EA). cbn [fst snd] in *. destruct (H5 t name v k q T V I) as [A1 A2]. split; [split; lra |].
        destruct (XM t name v k q T V I) as [M1 M2]. unfold about. rewrite EA, ED. split; assumption.
    + intros t net nd rn T R. destruct (mirror_node_r s r Hm _ _ _ R) as (n & N & _). pose proof (balance_gap t net nd n rn T N R) as G.
      destruct (XA t net nd n T N) as [B1 B2]. split; lra.
    + intros net nd n rn y ys o os t N R E E' T. destruct (XS t net nd n y ys T N E) as [S1 S2].
      assert (X : forall u, u < st_horizon s -> (entry (os_capacity o) scn u == x (VCap net nd 0 u))%Q /\
        (entry (os_flow_in o) scn u == x (VIn net nd 0 u))%Q /\ (entry (os_flow_out o) scn u == x (VOut net nd 0 u))%Q).
      { intros u U. apply (ca_stors _ _ _ _ Hc net nd n rn 0 y o u); auto; [now rewrite E | now rewrite E']. }
      destruct (X t T) as (X1 & X2 & X3). unfold about. rewrite X1, X2, X3. destruct t as [| t']; [split; assumption |].
      destruct (X t' ltac:(lia)) as (X4 & _). rewrite X4. split; assumption.
Qed.
End Results.

Lemma close_of s scn d r r' x x' : mirrors s r -> mirrors s r' -> carries_answer s r scn x -> carries_answer s r' scn x' ->
  (forall v, (Qabs (x v - x' v) <= d)%Q) -> close s scn d r r'.
Proof.
  intros M M' C C' D.
  assert (AB : forall v a b, (a == x v)%Q -> (b == x' v)%Q -> about d a b).
  { intros v a b E E'. specialize (D v). apply Qabs_Qle_condition in D. unfold about. rewrite E, E'. split; lra. }
  split.
  - intros t net nd rn rn' T R R'. destruct (mirror_node_r s r M _ _ _ R) as (n & N & L). destruct (mirror_node_r s r' M' _ _ _ R') as (n' & N' & L').
    rewrite N in N'. injection N' as <-. split; [| split; [| split]].
    + pose proof (Forall2_len _ _ _ (nl_cons _ _ _ L)). pose proof (Forall2_len _ _ _ (nl_cons _ _ _ L')). apply Forall2_of_nth; [lia |].
      intros i a b E E'. assert (X : exists c, nth_error (n_cons n) i = Some c).
      { destruct (nth_error (n_cons n) i) eqn:Z; eauto. apply nth_error_None in Z. assert (i < length (on_cons rn)) by (apply nth_error_Some; congruence). lia. }
      destruct X as (c & X). pose proof (ca_cons _ _ _ _ C net nd n rn i c a t T N R X E). pose proof (ca_cons _ _ _ _ C' net nd n rn' i c b t T N R' X E').
      specialize (D (VLol net nd i t)). apply Qabs_Qle_condition in D. split; lra.
    + pose proof (Forall2_len _ _ _ (nl_prods _ _ _ L)). pose proof (Forall2_len _ _ _ (nl_prods _ _ _ L')). apply Forall2_of_nth; [lia |].
      intros i a b E E'. assert (X : exists c, nth_error (n_prods n) i = Some c).
      { destruct (nth_error (n_prods n) i) eqn:Z; eauto. apply nth_error_None in Z. assert (i < length (on_prods rn)) by (apply nth_error_Some; congruence). lia. }
      destruct X as (c & X). apply (AB (VProd net nd i t)); [eapply (ca_prods _ _ _ _ C) | eapply (ca_prods _ _ _ _ C')]; eauto.
    + pose proof (Forall2_len _ _ _ (nl_stors _ _ _ L)). pose proof (Forall2_len _ _ _ (nl_stors _ _ _ L')). apply Forall2_of_nth; [lia |].
      intros i a b E E'. assert (X : exists c, nth_error (n_stors n) i = Some c).
      { destruct (nth_error (n_stors n) i) eqn:Z; eauto. apply nth_error_None in Z. assert (i < length (on_stors rn)) by (apply nth_error_Some; congruence). lia. }
      destruct X as (c & X). destruct (ca_stors _ _ _ _ C net nd n rn i c a t T N R X E) as (? & ? & ?). destruct (ca_stors _ _ _ _ C' net nd n rn' i c b t T N R' X E') as (? & ? & ?).
      split; [| split]; eapply AB; eauto.
    + pose proof (Forall2_len _ _ _ (nl_links _ _ _ L)). pose proof (Forall2_len _ _ _ (nl_links _ _ _ L')). apply Forall2_of_nth; [lia |].
      intros i a b E E'. assert (X : exists c, nth_error (n_links n) i = Some c).
      { destruct (nth_error (n_links n) i) eqn:Z; eauto. apply nth_error_None in Z. assert (i < length (on_links rn)) by (apply nth_error_Some; congruence). lia. }
      destruct X as (c & X). apply (AB (VLink net nd i t)); [eapply (ca_links _ _ _ _ C) | eapply (ca_links _ _ _ _ C')]; eauto.
  - intros t name rv rv' T R R'. assert (X : exists v, conv_at s name = Some v).
    { pose proof (mirror_conv s r M name) as X. rewrite R in X. destruct (conv_at s name); [eauto | tauto]. }
    destruct X as (v & V). split.
    + apply (AB (VDest name t)); [eapply (ca_dest _ _ _ _ C) | eapply (ca_dest _ _ _ _ C')]; eauto.
    + pose proof (conv_src_rel s r M scn x C t T name v rv V R) as F. pose proof (conv_src_rel s r' M' scn x' C' t T name v rv' V R') as F'.
      pose proof (Forall2_len _ _ _ F). pose proof (Forall2_len _ _ _ F'). apply Forall2_of_nth; [lia |]. intros i a b E E'.
      assert (Y : exists c, nth_error (v_src v) i = Some c).
      { destruct (nth_error (v_src v) i) eqn:Z; eauto. apply nth_error_None in Z. assert (i < length (ov_src rv)) by (apply nth_error_Some; congruence). lia. }
      destruct Y as (c & Y). destruct (Forall2_get _ _ _ _ _ F Y) as (a' & Ea & _ & Xa). destruct (Forall2_get _ _ _ _ _ F' Y) as (b' & Eb & _ & Xb).
      rewrite E in Ea. injection Ea as <-. rewrite E' in Eb. injection Eb as <-. exact (AB _ _ _ Xa Xb).
Qed.

(** ** C93 *)

(** An answer of the solver meets the program up to [e] exactly when the result follows the
    laws up to [e]; for [e] null these are the exact laws. *)
Theorem C93_nearly_exact : forall s scn e r x, api_study s -> usable_converters s -> scn < st_nb_scn s ->
  mirrors s r -> carries_answer s r scn x ->
  (nearly e (program_of s scn) x <-> law_near s r scn e) /\ (law_near s r scn 0 <-> law_ok s r scn).
Proof.
  intros s scn e r x A U S M C. pose proof (api_ready s A U) as R.
  assert (X : forall e, nearly e (program_of s scn) x <-> law_near s r scn e).
  { intros e'. rewrite (near_iff s scn e' S R). symmetry. now apply near_law. }
  split; auto. rewrite <- X, nearly_zero. destruct (C15_program_exact s scn A U S) as (_ & _ & _ & D). apply (D r x M C).
Qed.

(** The same for what a solve returns. *)
Theorem C93_solved : forall answer s r scn e, api_study s -> plain_sources s -> solved answer s r -> scn < st_nb_scn s ->
  (nearly e (program_of s scn) (answer scn (program_of s scn)) <-> law_near s r scn e).
Proof.
  intros answer s r scn e A P SV S. assert (U : usable_converters s) by (destruct (api_facts s A) as (W & K & Hh & Hn); eapply solved_usable; eauto).
  destruct (solved_facts _ _ _ A P SV) as (_ & M & C). destruct (C scn S) as (_ & _ & CA). now apply C93_nearly_exact.
Qed.

(** Where the laws can be followed: a result that follows them up to [e] is near one that
    follows them, at a distance of at most [e] times a factor depending on the scenario
    only; and its cost is below the least cost by at most [e] times that factor. *)
Theorem C93_close : forall s scn, api_study s -> usable_converters s -> scn < st_nb_scn s ->
  (exists r, mirrors s r /\ law_ok s r scn) ->
  exists k, (0 <= k)%Q /\ forall e r, (0 <= e)%Q -> mirrors s r -> law_near s r scn e ->
    exists r', mirrors s r' /\ law_ok s r' scn /\ close s scn (k * e) r r' /\ about (k * e) (total_cost s r scn) (total_cost s r' scn).
Proof.
  intros s scn A U S (r0 & M0 & L0). pose proof (api_ready s A U) as R. destruct (C15_program_exact s scn A U S) as (_ & DX & _ & D).
  destruct (DX r0 M0) as (x0 & C0). destruct (near_program (program_of s scn)) as (k & HK & H).
  { exists x0. now apply (D r0 x0 M0 C0). }
  set (w := qsum (map (fun vc => Qabs (snd vc)) (sv_obj (program_of s scn)))).
  assert (W : (0 <= w)%Q).
  { unfold w. clear. induction (sv_obj (program_of s scn)) as [| vc l IH]; [apply Qle_refl |]. cbn [map]. change (qsum (?a :: ?b)) with (a + qsum b)%Q.
    pose proof (Qabs_nonneg (snd vc)). lra. }
  exists (k + w * k)%Q. split; [nra |]. intros e r HE M L. destruct (DX r M) as (y & C).
  destruct (H e y HE) as (x & SX & NX). { now apply (C93_nearly_exact s scn e r y A U S M C). }
  assert (NY : forall v, (Qabs (y v - x v) <= k * e)%Q).
  { intros v. specialize (NX v). setoid_replace (y v - x v)%Q with (- (x v - y v))%Q by ring. now rewrite Qabs_opp. }
  pose proof (result_of_mirrors s (fun _ => x)) as M'. pose proof (result_of_carries s (fun _ => x) scn S) as C'. cbv beta in C'.
  exists (result_of s (fun _ => x)). split; auto. split; [now apply (D _ x M' C') |].
  assert (KE : (0 <= k * e)%Q) by nra. assert (WKE : (0 <= w * (k * e))%Q) by nra. split.
  - apply (close_of s scn _ r (result_of s (fun _ => x)) y x M M' C C'). intros v. specialize (NY v). lra.
  - pose proof (lin_near (sv_obj (program_of s scn)) y x _ NY) as Q1. fold w in Q1.
    pose proof (proj2 (D r y M C)) as E1. pose proof (proj2 (D _ x M' C')) as E2. unfold objective in E1, E2. rewrite E1, E2 in Q1.
    apply Qabs_Qle_condition in Q1. split; lra.
Qed.

Theorem C93_cost : forall s scn, api_study s -> usable_converters s -> scn < st_nb_scn s ->
  exists k, (0 <= k)%Q /\ forall e r r', (0 <= e)%Q -> mirrors s r -> law_near s r scn e ->
    mirrors s r' -> law_ok s r' scn -> (forall r'', mirrors s r'' -> law_ok s r'' scn -> (total_cost s r' scn <= total_cost s r'' scn)%Q) ->
    (total_cost s r' scn <= total_cost s r scn + k * e)%Q.
Proof.
  intros s scn A U S. destruct (C15_program_exact s scn A U S) as (_ & DX & XD & D). destruct (C81_optimum_or_nothing s scn A U S) as [(x & F & _)|N].
  - destruct (XD x) as (r0 & M0 & C0). destruct (C93_close s scn A U S) as (k & HK & H). { exists r0. split; auto. now apply (D r0 x M0 C0). }
    exists k. split; auto. intros e r r' HE M L M' L' Best. destruct (H e r HE M L) as (r2 & M2 & L2 & _ & _ & T2). specialize (Best r2 M2 L2). lra.
  - exists 0%Q. split; [apply Qle_refl |]. intros e r r' _ _ _ M' L' _. exfalso. destruct (DX r' M') as (x' & C'). apply (N x'). now apply (D r' x' M' C').
Qed.

(** What a solve returns when the solver stops at a point that meets the program up to [e]
    and costs at most [g] more than the least cost: the cost of the result is the least
    cost up to [g] and the tolerance. *)
Theorem C93_solved_cost : forall s scn, api_study s -> plain_sources s -> usable_converters s -> scn < st_nb_scn s ->
  exists k, (0 <= k)%Q /\ forall answer r e g y, (0 <= e)%Q -> solved answer s r ->
    nearly e (program_of s scn) (answer scn (program_of s scn)) -> optimal (program_of s scn) y ->
    (objective (program_of s scn) (answer scn (program_of s scn)) <= objective (program_of s scn) y + g)%Q ->
    (objective (program_of s scn) y - k * e <= total_cost s r scn <= objective (program_of s scn) y + g)%Q.
Proof.
  intros s scn A P U S. destruct (C93_cost s scn A U S) as (k & HK & H). destruct (C15_program_exact s scn A U S) as (_ & DX & XD & D).
  exists k. split; auto. intros answer r e g y HE SV N [FY BY] G. destruct (solved_facts _ _ _ A P SV) as (_ & M & C). destruct (C scn S) as (_ & _ & CA).
  destruct (XD y) as (r' & M' & C'). destruct (D r' y M' C') as [DF' DO']. destruct (D r _ M CA) as [_ DO]. split.
  - rewrite DO'. assert (X : (total_cost s r' scn <= total_cost s r scn + k * e)%Q); [| lra].
    apply (H e r r' HE M); auto; [now apply (C93_solved answer s r scn e A P SV S) | now apply DF' |].
    intros r2 M2 L2. destruct (DX r2 M2) as (x2 & C2). destruct (D r2 x2 M2 C2) as [DF2 DO2]. rewrite <- DO', <- DO2. apply BY. now apply DF2.
  - rewrite <- DO. exact G.
Qed.

(** Where the laws cannot be followed they cannot be followed nearly either: below some
    positive tolerance there is nothing for a solver to return. *)
Theorem C93_insolvable : forall s scn, api_study s -> usable_converters s -> scn < st_nb_scn s ->
  (forall r, mirrors s r -> ~ law_ok s r scn) ->
  exists e0, (0 < e0)%Q /\ (forall e r, mirrors s r -> law_near s r scn e -> (e0 <= e)%Q) /\
             (forall e x, nearly e (program_of s scn) x -> (e0 <= e)%Q).
Proof.
  intros s scn A U S N. destruct (C15_program_exact s scn A U S) as (_ & DX & XD & D). destruct (never_near (program_of s scn)) as (e0 & P & H).
  { intros x F. destruct (XD x) as (r & M & C). apply (N r M). now apply (D r x M C). }
  exists e0. split; auto. split; auto. intros e r M L. destruct (DX r M) as (x & C). apply (H e x). now apply (C93_nearly_exact s scn e r x A U S M C).
Qed.

(** The misses of a storage add up: after [t + 1] steps its content misses the initial
    content plus what came in minus what went out by at most [t + 1] times the tolerance. *)
Theorem C93_storage_drift : forall s r scn e net nd n rn x xs o os t, law_near s r scn e ->
  node_at s net nd = Some n -> rnode_at r net nd = Some rn -> n_stors n = x :: xs -> on_stors rn = o :: os -> t < st_horizon s ->
  about (inject_Z (Z.of_nat (S t)) * e) (entry (os_capacity o) scn t)
    (s_init x + total (fun u => value (s_eff x) scn u * entry (os_flow_in o) scn u - entry (os_flow_out o) scn u)%Q (seq 0 (S t))).
Proof.
  intros s r scn e net nd n rn x xs o os t L N R E E'. induction t as [| t IH]; intros T.
  - destruct (ln_storages _ _ _ _ L net nd n rn x xs o os 0 N R E E' T) as [A1 A2]. unfold about, total. cbn [seq map].
    change (qsum [?a]) with (a + 0)%Q. change (inject_Z (Z.of_nat 1)) with 1%Q. split; lra.
  - destruct (ln_storages _ _ _ _ L net nd n rn x xs o os (S t) N R E E' T) as [A1 A2]. destruct (IH ltac:(lia)) as [B1 B2]. clear IH.
    unfold about, total in *. rewrite (seq_S (S t) 0), map_app, qsum_app. cbn [map]. change (0 + S t) with (S t). change (qsum [?a]) with (a + 0)%Q.
    replace (Z.of_nat (S (S t))) with (Z.of_nat (S t) + 1)%Z by lia. rewrite inject_Z_plus. change (inject_Z 1) with 1%Q. split; lra.
Qed.

(** ** Examples *)
Definition nearlyb (e : Q) (p : solver) (x : var -> Q) : bool :=
  forallb (fun vb => withinb (fst (snd vb) - e) (x (fst vb)) (snd (snd vb) + e)) (sv_vars p) &&
  forallb (fun k => withinb (k_lb k - e) (lin (k_coefs k) x) (k_ub k + e)) (sv_cons p).
Lemma nearlyb_ok e p x : nearlyb e p x = true -> nearly e p x.
Proof.
  unfold nearlyb. intros H. apply andb_true_iff in H as [A B]. rewrite forallb_forall in A, B. constructor.
  - intros v lo up I. apply withinb_ok. exact (A _ I).
  - intros k I. apply withinb_ok. exact (B _ I).
Qed.

(** The demonstration study with an answer a thousandth too high everywhere: right up to a
    hundredth, and not exactly. *)
Definition high_answer (scn : nat) (p : solver) (v : var) : Q := (mix_answer scn p v + (1 # 1000))%Q.
Definition high_result : result := Eval vm_compute in
  match solve_lp high_answer [1; 0] no_bench mix with Ok r => r | Err _ => Result [] [] no_bench end.
Lemma high_solved : solved high_answer mix high_result.
Proof. exists [1; 0], no_bench. split; [apply perm_swap | vm_compute; reflexivity]. Qed.
Example C93_example : api_study mix /\ plain_sources mix /\ usable_converters mix /\ solved high_answer mix high_result /\
  nearly (1 # 100) (program_of mix 0) (high_answer 0 (program_of mix 0)) /\ law_near mix high_result 0 (1 # 100) /\
  ~ law_ok mix high_result 0 /\ (exists r, mirrors mix r /\ law_ok mix r 0) /\
  exists n rn x xs o os, node_at mix "elec" "a" = Some n /\ rnode_at high_result "elec" "a" = Some rn /\ n_stors n = x :: xs /\ on_stors rn = o :: os.
Proof.
  assert (N : nearly (1 # 100) (program_of mix 0) (high_answer 0 (program_of mix 0))) by (apply nearlyb_ok; vm_compute; reflexivity).
  split; [apply mix_api |]. split; [apply mix_plain |]. split; [apply mix_usable |]. split; [apply high_solved |]. split; auto.
  split; [apply (C93_solved high_answer mix high_result 0 (1 # 100) mix_api mix_plain high_solved); [vm_compute; lia | exact N] |].
  split.
  { intros L. destruct (solved_facts _ _ _ mix_api mix_plain high_solved) as (_ & M & C). destruct (C 0 ltac:(vm_compute; lia)) as (_ & _ & CA).
    destruct (C15_program_exact mix 0 mix_api mix_usable ltac:(vm_compute; lia)) as (_ & _ & _ & D). apply (D _ _ M CA) in L.
    assert (I : existsb (fun k => negb (withinb (k_lb k) (lin (k_coefs k) (high_answer 0 (program_of mix 0))) (k_ub k))) (sv_cons (program_of mix 0)) = true)
      by (vm_compute; reflexivity).
    apply existsb_exists in I as (k & I & B). destruct (sat_cons _ _ L k I) as [B1 B2]. unfold withinb in B.
    apply Qle_bool_iff in B1, B2. rewrite B1, B2 in B. discriminate. }
  split.
  { destruct (solved_facts _ _ _ mix_api mix_plain mix_solved) as (_ & M & C). destruct (C 0 ltac:(vm_compute; lia)) as (_ & _ & CA).
    destruct (C15_program_exact mix 0 mix_api mix_usable ltac:(vm_compute; lia)) as (_ & _ & _ & D). exists mix_result. split; auto.
    apply (D _ _ M CA). apply mix_feasible. lia. }
  do 6 eexists. split; [vm_compute; reflexivity |]. split; [vm_compute; reflexivity |]. split; reflexivity.
Qed.

(** A storage that holds 5 where only 2 fit and only 1 can leave: no result is lawful, even
    nearly. *)
Definition brim_calls : list call :=
  [ OnStudy_network "elec"; OnSel 0 (MNode "a"); OnSel 1 (MStorage "cell" (jn 2) (jn 1) (jn 1) (jn 0) 5%Q (jn 1)) ].
Definition brim : study := Eval vm_compute in w_study (run (start 1 1 None) brim_calls).
Lemma brim_api : api_study brim.
Proof. exists 1, 1, None, brim_calls. split; [lia|]. split; [lia|]. split; [plain_tac | vm_compute; reflexivity]. Qed.
Example C93_insolvable_example : api_study brim /\ usable_converters brim /\ (forall r, mirrors brim r -> ~ law_ok brim r 0) /\
  (forall e r, mirrors brim r -> law_near brim r 0 e -> (1 # 2 <= e)%Q).
Proof.
  assert (U : usable_converters brim) by (apply usableb_ok; vm_compute; reflexivity).
  assert (X : forall e r, mirrors brim r -> law_near brim r 0 e -> (1 # 2 <= e)%Q).
  { intros e r M [HN _ _ HS]. destruct (node_at brim "elec" "a") as [n|] eqn:N; [| discriminate N].
    destruct (mirror_node_l brim r M _ _ _ N) as (rn & R & L). vm_compute in N. injection N as <-.
    pose proof (nl_stors _ _ _ L) as F. cbn [n_stors] in F. inversion F as [| y o ys os Fo Fs E1 E2]; subst. inversion Fs; subst.
    destruct (HN 0 "elec" "a" _ rn ltac:(vm_compute; lia) eq_refl R) as (_ & _ & W & _). cbn [n_stors] in W. rewrite <- E2 in W. inversion W as [| ? ? ? ? Wo _]; subst.
    destruct Wo as ([_ W1] & [W2 _] & [_ W3]). destruct (HS "elec" "a" _ rn _ _ o [] 0 eq_refl R eq_refl (eq_sym E2) ltac:(vm_compute; lia)) as [_ S2].
    match type of W1 with (_ <= ?v + _)%Q => assert (V1 : (v == 2)%Q) by (vm_compute; reflexivity); rewrite V1 in W1 end.
    match type of W3 with (_ <= ?v + _)%Q => assert (V3 : (v == 1)%Q) by (vm_compute; reflexivity); rewrite V3 in W3 end.
    match type of S2 with (?i + ?v * _ - _ - _ <= _)%Q => assert (V4 : (i == 5)%Q) by (vm_compute; reflexivity); rewrite V4 in S2;
      assert (V5 : (v == 1)%Q) by (vm_compute; reflexivity); rewrite V5 in S2 end.
    clear - W1 W2 W3 S2. lra. }
  split; [apply brim_api |]. split; auto. split; auto. intros r M L.
  assert (Y : law_near brim r 0 0).
  { destruct (C15_program_exact brim 0 brim_api U ltac:(vm_compute; lia)) as (_ & DX & _). destruct (DX r M) as (x & C).
    now apply (C93_nearly_exact brim 0 0 r x brim_api U ltac:(vm_compute; lia) M C). }
  specialize (X 0%Q r M Y). lra.
Qed.

Print Assumptions C93_nearly_exact.
Print Assumptions C93_solved.
Print Assumptions C93_close.
Print Assumptions C93_cost.
Print Assumptions C93_solved_cost.
Print Assumptions C93_insolvable.
Print Assumptions C93_storage_drift.
