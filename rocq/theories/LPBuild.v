(** The building phase of [LP.v] in closed form. *)
From Coq Require Import String List ZArith QArith Bool Arith Lia Lqa.
From Verif Require Import Base BaseFacts Numeric Study Fluent SpecStudy StudyFacts Output LP SpecLP LPFacts.
Import ListNotations.
Open Scope nat_scope.

(** ** What the mapper creates *)
Definition pnode (net nd : string) (t scn : nat) (n : node) : lpnode :=
  LPNode (mapi (fun i c => LPCons (c_name c) (value (c_cost c) scn t) (value (c_qty c) scn t) (VLol net nd i t)) 0 (n_cons n))
         (mapi (fun i p => LPProd (p_name p) (value (p_cost p) scn t) (value (p_qty p) scn t) (VProd net nd i t)) 0 (n_prods n))
         (mapi (fun i x => LPStor (s_name x) (value (s_capacity x) scn t) (VCap net nd i t)
                                  (value (s_flow_in x) scn t) (VIn net nd i t)
                                  (value (s_flow_out x) scn t) (VOut net nd i t)
                                  (value (s_cost x) scn t) (s_init x) (value (s_eff x) scn t)) 0 (n_stors n))
         (mapi (fun i l => LPLink nd (l_dest l) (value (l_qty l) scn t) (VLink net nd i t) (value (l_cost l) scn t)) 0 (n_links n)).

Definition node_vars (net nd : string) (t scn : nat) (n : node) : list (var * (Q * Q)) :=
  mapi (fun i c => (VLol net nd i t, (0, value (c_qty c) scn t)%Q)) 0 (n_cons n) ++
  mapi (fun i p => (VProd net nd i t, (0, value (p_qty p) scn t)%Q)) 0 (n_prods n) ++
  concat (mapi (fun i x => [(VCap net nd i t, (0, value (s_capacity x) scn t)%Q);
                            (VIn net nd i t, (0, value (s_flow_in x) scn t)%Q);
                            (VOut net nd i t, (0, value (s_flow_out x) scn t)%Q)]) 0 (n_stors n)) ++
  mapi (fun i l => (VLink net nd i t, (0, value (l_qty l) scn t)%Q)) 0 (n_links n).

Definition vsrc (name : string) (t : nat) (k : string * string) : var := VSrc name (fst k) (snd k) t.

Definition pconv (name : string) (t scn : nat) (v : converter) : lpconv :=
  LPConv (v_name v) (dmap (fun q => value q scn t) (v_src v))
         (map (fun kr => (fst kr, vsrc name t (fst kr))) (v_src v))
         (v_dnet v) (v_dnode v) (VDest name t) (ovalue (v_cost v) scn t) (ovalue (v_max v) scn t).

Definition conv_vars (name : string) (t scn : nat) (v : converter) : list (var * (Q * Q)) :=
  map (fun kr => (vsrc name t (fst kr), (0, ovalue (v_max v) scn t / value (snd kr) scn t)%Q)) (v_src v) ++
  [(VDest name t, (0, ovalue (v_max v) scn t)%Q)].

Lemma gsum_gv (l : list (list (var * (Q * Q)))) : gsum (map gv l) = gv (concat l).
Proof. induction l; simpl; auto. rewrite IHl. reflexivity. Qed.
Lemma gsum_gob (l : list (list (var * Q))) : gsum (map gob l) = gob (concat l).
Proof. induction l; simpl; auto. rewrite IHl. reflexivity. Qed.
Lemma gsum_gop (l : list (list (akey * (var * Q)))) : gsum (map gop l) = gop (concat l).
Proof. induction l; simpl; auto. rewrite IHl. reflexivity. Qed.
Lemma concat_single {A C} (f : nat -> A -> C) l : forall i, concat (mapi (fun i x => [f i x]) i l) = mapi f i l.
Proof. induction l; simpl; intros; f_equal; auto. Qed.

Lemma concat_map_single {A C} (f : A -> C) l : concat (map (fun x => [f x]) l) = map f l.
Proof. induction l; simpl; congruence. Qed.
Lemma concat_map_nil {A C} (l : list A) : concat (map (fun _ => []) l) = @nil C.
Proof. induction l; simpl; congruence. Qed.

Lemma smapi_vars {A C} (f : nat -> A -> B C) r (vs : nat -> A -> list (var * (Q * Q))) l g :
  (forall j x g, In x l -> moves g (f j x) (r j x) (gapp g (gv (vs j x)))) ->
  moves g (smapi f 0 l) (mapi r 0 l) (gapp g (gv (concat (mapi vs 0 l)))).
Proof.
  intros F. rewrite <- gsum_gv, map_mapi. apply (smapi_moves_all f r (fun j x => gv (vs j x)) l 0 g F).
Qed.

Section Build.
Variables (s : study) (scn : nat).
Hypothesis Hscn : scn < st_nb_scn s.

Lemma read g v t : readable s v -> t < st_horizon s -> moves g (slift (getn v scn t)) (value v scn t) g.
Proof. intros R T. apply moves_lift. apply R; auto. Qed.

Lemma get_node_var_moves g net nd t n :
  t < st_horizon s -> node_at s net nd = Some n -> node_ready s n ->
  moves g (get_node_var s net nd t scn) (pnode net nd t scn n) (gapp g (gv (node_vars net nd t scn n))).
Proof.
  intros T N R. unfold get_node_var. unfold node_at in N.
  destruct (dget net (st_networks s)) as [ns|] eqn:D; [|discriminate].
  eapply moves_bind; [apply moves_lift; unfold dlook; now rewrite D|].
  eapply moves_bind; [apply moves_lift; unfold dlook; now rewrite N|].
  destruct R.
  eapply moves_bind.
  { apply (smapi_vars _ (fun i c => LPCons (c_name c) (value (c_cost c) scn t) (value (c_qty c) scn t) (VLol net nd i t))
             (fun i c => [(VLol net nd i t, (0, value (c_qty c) scn t)%Q)])).
    intros j x g' I. destruct (nr_cons x I).
    eapply moves_bind; [apply read; auto|]. eapply moves_bind; [apply read; auto|].
    eapply moves_bind; [apply moves_var|]. apply moves_ret. }
  eapply moves_bind.
  { apply (smapi_vars _ (fun i p => LPProd (p_name p) (value (p_cost p) scn t) (value (p_qty p) scn t) (VProd net nd i t))
             (fun i p => [(VProd net nd i t, (0, value (p_qty p) scn t)%Q)])).
    intros j x g' I. destruct (nr_prods x I).
    eapply moves_bind; [apply read; auto|]. eapply moves_bind; [apply read; auto|].
    eapply moves_bind; [apply moves_var|]. apply moves_ret. }
  eapply moves_bind.
  { apply (smapi_vars _ (fun i x => LPStor (s_name x) (value (s_capacity x) scn t) (VCap net nd i t)
                                  (value (s_flow_in x) scn t) (VIn net nd i t)
                                  (value (s_flow_out x) scn t) (VOut net nd i t)
                                  (value (s_cost x) scn t) (s_init x) (value (s_eff x) scn t))
             (fun i x => [(VCap net nd i t, (0, value (s_capacity x) scn t)%Q);
                            (VIn net nd i t, (0, value (s_flow_in x) scn t)%Q);
                            (VOut net nd i t, (0, value (s_flow_out x) scn t)%Q)])).
    intros j x g' I. destruct (nr_stors x I) as (? & ? & ? & ? & ?).
    do 5 (eapply moves_bind; [apply read; auto|]).
    do 3 (eapply moves_bind; [apply moves_var|]).
    eapply moves_eq; [apply moves_ret|]. rewrite !gapp_assoc. reflexivity. }
  eapply moves_bind.
  { apply (smapi_vars _ (fun i l => LPLink nd (l_dest l) (value (l_qty l) scn t) (VLink net nd i t) (value (l_cost l) scn t))
             (fun i l => [(VLink net nd i t, (0, value (l_qty l) scn t)%Q)])).
    intros j x g' I. destruct (nr_links x I).
    eapply moves_bind; [apply read; auto|]. eapply moves_bind; [apply read; auto|].
    eapply moves_bind; [apply moves_var|]. apply moves_ret. }
  eapply moves_eq; [apply moves_ret|].
  rewrite !gapp_assoc. f_equal. unfold node_vars. rewrite !concat_single. reflexivity.
Qed.

Lemma ratios_ok t (l : dict (string * string) numval) :
  t < st_horizon s -> (forall k q, In (k, q) l -> readable s q) ->
  dmapM (fun r => getn r scn t) l = Ok (dmap (fun q => value q scn t) l).
Proof.
  intros T R. unfold dmapM, dmap. apply mapM_pure. intros [k q] I. simpl.
  rewrite (R k q I scn t Hscn T). reflexivity.
Qed.

Lemma get_conv_var_moves g name t v :
  t < st_horizon s -> conv_at s name = Some v -> conv_ready s v ->
  moves g (get_conv_var s name t scn) (pconv name t scn v) (gapp g (gv (conv_vars name t scn v))).
Proof.
  intros T N R. unfold get_conv_var. destruct R as [(co & Ec & Rc) (mx & Em & Rm) Rs _].
  eapply moves_bind; [apply moves_lift; unfold dlook; unfold conv_at in N; now rewrite N|].
  eapply moves_bind.
  { apply moves_lift. apply ratios_ok; auto. intros k q I. apply (Rs k q I). }
  eapply moves_bind.
  { apply moves_lift. rewrite Ec. simpl. apply Rc; auto. }
  eapply moves_bind.
  { apply moves_lift. rewrite Em. simpl. apply Rm; auto. }
  eapply moves_bind.
  { apply (smapi_vars _ (fun _ kr => (fst kr, vsrc name t (fst kr)))
             (fun _ kr => [(vsrc name t (fst kr), (0, value mx scn t / snd kr)%Q)])).
    intros j kr g' I. unfold dmap in I. apply in_map_iff in I as ([k q] & <- & I). simpl.
    eapply moves_bind.
    { apply moves_lift. unfold pydiv. destruct (Qeq_bool (value q scn t) 0) eqn:Z; [|reflexivity].
      apply Qeq_bool_eq in Z. destruct (Rs k q I) as [_ NZ]. exfalso. eapply NZ; eauto. }
    eapply moves_bind; [apply moves_var|]. apply moves_ret. }
  eapply moves_bind; [apply moves_var|].
  unfold pconv. rewrite Ec, Em. simpl ovalue.
  rewrite !mapi_map. unfold dmap. rewrite !map_map. simpl.
  eapply moves_eq; [apply moves_ret|].
  rewrite gapp_assoc. f_equal. unfold conv_vars. rewrite Em. simpl ovalue.
  rewrite concat_map_single. reflexivity.
Qed.

(** ** What the builders record *)
Definition node_ops (net nd : string) (t : nat) (N : lpnode) : list (akey * (var * Q)) :=
  map (fun c => ((t, net, nd), (lc_var c, 1%Q))) (ln_cons N) ++
  map (fun p => ((t, net, nd), (lp_var p, 1%Q))) (ln_prods N) ++
  flat_map (fun x => [((t, net, nd), (ls_vin x, (-1)%Q)); ((t, net, nd), (ls_vout x, 1%Q))]) (ln_stors N) ++
  map (fun l => ((t, net, ll_src l), (ll_var l, (-1)%Q))) (ln_links N).

Definition node_imp (net nd : string) (t : nat) (N : lpnode) : list (ikey * var) :=
  map (fun l => ((t, net, ll_src l, ll_dest l), ll_var l)) (ln_links N).

Definition node_obj (N : lpnode) : list (var * Q) :=
  map (fun c => (lc_var c, lc_cost c)) (ln_cons N) ++ map (fun p => (lp_var p, lp_cost p)) (ln_prods N) ++
  map (fun x => (ls_vcap x, ls_cost x)) (ln_stors N) ++ map (fun l => (ll_var l, ll_cost l)) (ln_links N).

Definition stor_constr (net nd : string) (t : nat) (x : lpstor) : constr :=
  match t with
  | O => Constr (ls_init x) (ls_init x) (dset (ls_vcap x) 1%Q (dset (ls_vout x) 1%Q (dset (ls_vin x) (- ls_eff x)%Q [])))
  | S t' => Constr 0 0 (dset (ls_vcap x) 1%Q (dset (VCap net nd 0 t') (-1)%Q (dset (ls_vout x) 1%Q (dset (ls_vin x) (- ls_eff x)%Q []))))
  end.
Definition node_fix (net nd : string) (t : nat) (N : lpnode) : list tag :=
  match ln_stors N with [] => [] | x :: _ => [TFix (stor_constr net nd t x)] end.
Definition node_cap (net nd : string) (t : nat) (N : lpnode) : list (ikey * var) :=
  match ln_stors N with [] => [] | x :: _ => [((t, net, nd, ls_name x), ls_vcap x)] end.

Definition node_tags (net nd : string) (t : nat) (N : lpnode) : list tag :=
  TAdq (t, net, nd) (qsum (map lc_qty (ln_cons N))) :: node_fix net nd t N.

Definition node_inc (t : nat) (net nd : string) (n : node) : ghost :=
  let N := pnode net nd t scn n in
  G (node_vars net nd t scn n) (node_tags net nd t N) (node_ops net nd t N) (node_obj N)
    (node_imp net nd t N) (node_cap net nd t N).

Definition conv_ops (t : nat) (V : lpconv) : list (akey * (var * Q)) :=
  ((t, lv_dnet V, lv_dnode V), (lv_dest V, 1%Q)) ::
  map (fun kx => ((t, fst (fst kx), snd (fst kx)), (snd kx, (-1)%Q))) (lv_src V).
Definition conv_tags (name : string) (t : nat) (V : lpconv) : list tag :=
  map (fun kr => TFix (Constr 0 0 (dset (lv_dest V) (-1)%Q (dset (vsrc name t (fst kr)) (snd kr) [])))) (lv_ratios V).

Definition conv_inc (t : nat) (name : string) (v : converter) : ghost :=
  let V := pconv name t scn v in
  G (conv_vars name t scn v) (conv_tags name t V) (conv_ops t V) [(lv_dest V, lv_cost V)] [] [].

Lemma sfor_obj {A} (f : A -> var * Q) l g :
  moves g (sfor (fun x => obj_coef (fst (f x)) (snd (f x))) l) tt (gapp g (gob (map f l))).
Proof.
  eapply moves_eq.
  - apply (sfor_moves_all _ (fun x => gob [f x])). intros x i I. destruct (f x) eqn:E; simpl. apply moves_obj.
  - f_equal. rewrite <- (map_map (fun x => [f x]) gob), gsum_gob. now rewrite concat_map_single.
Qed.

Lemma obj_add_node_moves g N : moves g (obj_add_node N) tt (gapp g (gob (node_obj N))).
Proof.
  unfold obj_add_node.
  eapply moves_bind; [exact (sfor_obj (fun c => (lc_var c, lc_cost c)) (ln_cons N) g)|].
  eapply moves_bind; [exact (sfor_obj (fun c => (lp_var c, lp_cost c)) (ln_prods N) _)|].
  eapply moves_bind; [exact (sfor_obj (fun c => (ls_vcap c, ls_cost c)) (ln_stors N) _)|].
  eapply moves_eq; [exact (sfor_obj (fun c => (ll_var c, ll_cost c)) (ln_links N) _)|].
  rewrite !gapp_assoc. reflexivity.
Qed.

Lemma sfor_adq {A} (f : A -> akey * (var * Q)) l g :
  (forall x, In x l -> has_tag g (fst (f x))) ->
  moves g (sfor (fun x => adq_coef (fst (f x)) (fst (snd (f x))) (snd (snd (f x)))) l) tt (gapp g (gop (map f l))).
Proof.
  intros H. eapply moves_eq.
  - apply (sfor_moves_all _ (fun x => gop [f x])). intros x i I. specialize (H x I).
    destruct (f x) as [k [v c]] eqn:E; simpl in *. apply moves_adq. now apply has_tag_app_l.
  - f_equal. rewrite <- (map_map (fun x => [f x]) gop), gsum_gop. now rewrite concat_map_single.
Qed.

Lemma adq_add_node_moves g net nd t N :
  ~ has_tag g (t, net, nd) -> (forall l, In l (ln_links N) -> ll_src l = nd) ->
  moves g (adq_add_node net nd N t) tt
        (gapp g (G [] [TAdq (t, net, nd) (qsum (map lc_qty (ln_cons N)))] (node_ops net nd t N) [] (node_imp net nd t N) [])).
Proof.
  intros H L. unfold adq_add_node. apply moves_new_adq; auto.
  set (g0 := gapp g (gt [TAdq (t, net, nd) (qsum (map lc_qty (ln_cons N)))])).
  assert (H0 : forall i, has_tag (gapp g0 i) (t, net, nd)).
  { intros i. apply has_tag_app_l. eexists. unfold g0; simpl. apply in_or_app. right. simpl. eauto. }
  assert (E0 : g0 = gapp g (gt [TAdq (t, net, nd) (qsum (map lc_qty (ln_cons N)))])) by reflexivity.
  clearbody g0.
  eapply moves_bind.
  { apply (sfor_adq (fun c => ((t, net, nd), (lc_var c, 1%Q)))). intros. rewrite <- (gapp_nil_r g0). apply H0. }
  eapply moves_bind.
  { apply (sfor_adq (fun c => ((t, net, nd), (lp_var c, 1%Q)))). intros; apply H0. }
  rewrite gapp_assoc.
  eapply moves_bind.
  { apply (sfor_moves_all _ (fun x => gop [((t, net, nd), (ls_vin x, (-1)%Q)); ((t, net, nd), (ls_vout x, 1%Q))])).
    intros x i I. eapply moves_bind.
    - apply moves_adq. rewrite gapp_assoc. apply H0.
    - eapply moves_eq; [apply moves_adq; rewrite !gapp_assoc; apply H0|]. rewrite !gapp_assoc. reflexivity. }
  rewrite <- (map_map (fun x => [((t, net, nd), (ls_vin x, (-1)%Q)); ((t, net, nd), (ls_vout x, 1%Q))]) gop), gsum_gop.
  rewrite gapp_assoc.
  eapply moves_eq.
  { apply (sfor_moves_all _ (fun l => G [] [] [((t, net, ll_src l), (ll_var l, (-1)%Q))] []
                                         [((t, net, ll_src l, ll_dest l), ll_var l)] [])).
    intros x i I. eapply moves_bind.
    - apply moves_adq. rewrite (L x I), gapp_assoc. apply H0.
    - eapply moves_eq; [apply moves_imp|]. rewrite !gapp_assoc. reflexivity. }
  rewrite E0, !gapp_assoc. f_equal.
  rewrite gsum_split. unfold gapp; simpl. unfold node_ops, node_imp.
  rewrite !flat_map_concat_map, !map_map. simpl.
  rewrite !concat_map_nil, !concat_map_single. simpl. rewrite ?app_nil_r. reflexivity.
Qed.

Lemma stor_add_node_moves g net nd t N :
  (forall x r t', ln_stors N = x :: r -> t = S t' ->
     dget (t', net, nd, ls_name x) (dict_of (g_cap g)) = Some (VCap net nd 0 t')) ->
  moves g (stor_add_node net nd N t) tt
        (gapp g (G [] (node_fix net nd t N) [] [] [] (node_cap net nd t N))).
Proof.
  intros H. unfold stor_add_node, node_fix, node_cap. destruct (ln_stors N) as [|x r] eqn:E.
  - eapply moves_eq; [apply moves_ret|]. now rewrite gapp_nil_r.
  - eapply moves_bind; [apply moves_cap|]. destruct t as [|t'].
    + apply moves_new_fix.
      do 2 (eapply moves_bind; [apply moves_set_coef|]).
      eapply moves_eq; [apply moves_set_coef|]. rewrite gapp_assoc. reflexivity.
    + apply moves_new_fix.
      do 2 (eapply moves_bind; [apply moves_set_coef|]).
      match goal with |- moves ?g0 _ _ _ => set (g1 := g0) end.
      intros b Sb. erewrite sbind_eq_ok by reflexivity.
      erewrite sbind_eq_ok.
      2:{ unfold slift, dlook. rewrite (sim_cap _ _ Sb). unfold g1. simpl. rewrite app_nil_r, dict_of_snoc.
          rewrite dget_dset_neq by (intros X; inversion X; lia).
          rewrite (H x r t' eq_refl eq_refl). reflexivity. }
      revert b Sb.
      change (moves g1 (set_coef (length (g_tags (gapp g (gca [((S t', net, nd, ls_name x), ls_vcap x)])))) (VCap net nd 0 t') (-1)%Q;;
                        set_coef (length (g_tags (gapp g (gca [((S t', net, nd, ls_name x), ls_vcap x)])))) (ls_vcap x) 1) tt
                    (gapp g (G [] [TFix (stor_constr net nd (S t') x)] [] [] [] [((S t', net, nd, ls_name x), ls_vcap x)]))).
      unfold g1. eapply moves_bind; [apply moves_set_coef|].
      eapply moves_eq; [apply moves_set_coef|]. rewrite gapp_assoc. reflexivity.
Qed.

Lemma batch_node_moves g net nd t n :
  t < st_horizon s -> node_at s net nd = Some n -> node_ready s n ->
  ~ has_tag g (t, net, nd) ->
  (forall x r t', n_stors n = x :: r -> t = S t' ->
     dget (t', net, nd, s_name x) (dict_of (g_cap g)) = Some (VCap net nd 0 t')) ->
  moves g (batch_node s scn t net nd) (pnode net nd t scn n) (gapp g (node_inc t net nd n)).
Proof.
  intros T N R H C. unfold batch_node.
  eapply moves_bind; [apply get_node_var_moves; eauto|].
  eapply moves_bind.
  { apply adq_add_node_moves.
    - intros [l I]. apply H. exists l. simpl in I. rewrite app_nil_r in I. auto.
    - intros l I. simpl in I. apply In_mapi in I as (j & y & _ & ->). reflexivity. }
  eapply moves_bind.
  { apply stor_add_node_moves. intros x r t' E ->. simpl. rewrite !app_nil_r.
    simpl in E. destruct (n_stors n) as [|y m] eqn:F; [discriminate|]. simpl in E. inversion E; subst. simpl.
    eapply C; eauto. }
  eapply moves_bind; [apply obj_add_node_moves|].
  eapply moves_eq; [apply moves_ret|].
  rewrite !gapp_assoc. f_equal. unfold node_inc, gapp; simpl. now rewrite !app_nil_r.
Qed.

Lemma batch_conv_moves g name t v :
  t < st_horizon s -> conv_at s name = Some v -> conv_ready s v -> NoDup (dkeys (v_src v)) ->
  (forall net nd, In (net, nd) (dkeys (v_src v)) -> has_node s net nd) ->
  (forall net nd, has_node s net nd -> has_tag g (t, net, nd)) ->
  moves g (batch_conv s scn t name) (pconv name t scn v) (gapp g (conv_inc t name v)).
Proof.
  intros T N R ONCE SRCS H. unfold batch_conv.
  eapply moves_bind; [apply get_conv_var_moves; eauto|].
  assert (H' : forall i net nd, has_node s net nd -> has_tag (gapp g i) (t, net, nd))
    by (intros; apply has_tag_app_l; auto).
  eapply moves_bind.
  { unfold adq_add_converter. eapply moves_bind.
    - apply moves_adq. apply H'. destruct R. auto.
    - apply (sfor_adq (fun kx => ((t, fst (fst kx), snd (fst kx)), (snd kx, (-1)%Q)))).
      intros [[a b] x] I. simpl. rewrite gapp_assoc. apply H'. simpl in I.
      apply in_map_iff in I as ([[a' b'] q] & E & I). inversion E; subst.
      apply SRCS. apply (in_map fst) in I. exact I. }
  eapply moves_bind.
  { unfold mix_add_converter.
    apply (sfor_moves_all _ (fun kr => gt [TFix (Constr 0 0 (dset (VDest name t) (-1)%Q (dset (vsrc name t (fst kr)) (snd kr) [])))])).
    intros [k q] i I. simpl. eapply moves_bind.
    - apply moves_lift. unfold dlook. simpl in I. unfold dmap in I.
      apply in_map_iff in I as ([k' q'] & E & I). inversion E; subst.
      rewrite (In_dget k (vsrc name t k)); [reflexivity| |].
      + unfold dkeys. rewrite map_map. exact ONCE.
      + apply in_map_iff. exists (k, q'). auto.
    - apply moves_new_fix. eapply moves_bind; [apply moves_set_coef|].
      eapply moves_eq; [apply moves_set_coef|]. reflexivity. }
  eapply moves_bind; [apply moves_obj|].
  eapply moves_eq; [apply moves_ret|].
  rewrite !gapp_assoc. f_equal. rewrite gsum_split. unfold conv_inc, gapp; simpl.
  unfold conv_tags, conv_ops. simpl. rewrite !flat_map_concat_map, !map_map. simpl.
  rewrite !concat_map_nil, !concat_map_single. simpl. rewrite !app_nil_r. reflexivity.
Qed.

(** ** Tags and capacities recorded so far *)
Lemma has_tag_app a b k : has_tag (gapp a b) k <-> has_tag a k \/ has_tag b k.
Proof.
  unfold has_tag. simpl. split.
  - intros [l I]. apply in_app_iff in I as [I|I]; eauto.
  - intros [[l I]|[l I]]; exists l; apply in_app_iff; auto.
Qed.
Lemma has_tag_sum l k : has_tag (gsum l) k <-> exists g, In g l /\ has_tag g k.
Proof.
  induction l as [|a l IH]; simpl.
  - split; [intros [x []] | intros (g & [] & _)].
  - rewrite has_tag_app, IH. split.
    + intros [H | (g & I & H)]; eauto.
    + intros (g & [<- | I] & H); eauto.
Qed.
Lemma has_tag_node t net nd n k : has_tag (node_inc t net nd n) k <-> k = (t, net, nd).
Proof.
  unfold has_tag, node_inc, node_tags, node_fix. simpl. split.
  - intros [l [E | I]]; [congruence|]. destruct (mapi _ 0 (n_stors n)); simpl in I; [tauto|].
    destruct I as [I|[]]; discriminate.
  - intros ->. eauto.
Qed.
Lemma has_tag_conv t name v k : ~ has_tag (conv_inc t name v) k.
Proof.
  intros [l I]. unfold conv_inc, conv_tags in I. simpl in I. apply in_map_iff in I as (x & E & _). discriminate.
Qed.

Definition caps_ok (g : ghost) : Prop := forall t net nd nm v, In ((t, net, nd, nm), v) (g_cap g) -> v = VCap net nd 0 t.
Lemma caps_ok_app a b : caps_ok a -> caps_ok b -> caps_ok (gapp a b).
Proof. intros A C t net nd nm v. simpl. rewrite in_app_iff. intros [I|I]; eauto. Qed.
Lemma caps_ok_sum l : (forall g, In g l -> caps_ok g) -> caps_ok (gsum l).
Proof.
  induction l; simpl; intros H; [intros ? ? ? ? ? [] | apply caps_ok_app; auto].
Qed.
Lemma caps_ok_node t net nd n : caps_ok (node_inc t net nd n).
Proof.
  intros t' net' nd' nm v. unfold node_inc, node_cap. simpl. destruct (n_stors n); simpl; [tauto|].
  intros [E|[]]; inversion E; subst; auto.
Qed.
Lemma caps_ok_conv t name v : caps_ok (conv_inc t name v).
Proof. intros ? ? ? ? ? []. Qed.

Lemma dget_fold_last {K V} `{EqB K} (k : K) (v : V) l : forall d,
  (forall v', In (k, v') l -> v' = v) -> (In (k, v) l \/ dget k d = Some v) ->
  dget k (fold_left (fun d kv => dset (fst kv) (snd kv) d) l d) = Some v.
Proof.
  induction l as [|[k' v'] l IH]; simpl; intros d U [I|I]; auto; try tauto.
  - apply IH; auto. destruct I as [I|I]; auto. inversion I; subst. right. apply dget_dset_eq.
  - apply IH; auto. right. destruct (eqb_dec k k') as [->|N].
    + rewrite dget_dset_eq. f_equal. apply U; auto.
    + rewrite dget_dset_neq; auto.
Qed.
Lemma dget_dict_of_last {K V} `{EqB K} (k : K) (v : V) l :
  (forall v', In (k, v') l -> v' = v) -> In (k, v) l -> dget k (dict_of l) = Some v.
Proof. intros U I. apply dget_fold_last; auto. Qed.

Definition prev_caps (g : ghost) (t : nat) : Prop := forall t' net nd n x r, t = S t' ->
  node_at s net nd = Some n -> n_stors n = x :: r -> In ((t', net, nd, s_name x), VCap net nd 0 t') (g_cap g).
Lemma prev_caps_app g i t : prev_caps g t -> prev_caps (gapp g i) t.
Proof. intros P t' net nd n x r E N X. simpl. rewrite in_app_iff. left. eapply P; eauto. Qed.

(** ** Whole steps *)
Definition net_inc (t : nat) (kn : string * network) : ghost :=
  gsum (map (fun kd => node_inc t (fst kn) (fst kd) (snd kd)) (snd kn)).
Definition nodes_inc (t : nat) : ghost := gsum (map (net_inc t) (st_networks s)).
Definition convs_inc (t : nat) : ghost := gsum (map (fun kv => conv_inc t (fst kv) (snd kv)) (st_converters s)).
Definition step_inc (t : nat) : ghost := gapp (nodes_inc t) (convs_inc t).

Definition pstep (t : nat) : lpstep :=
  LPStep (map (fun kn => (fst kn, map (fun kd => (fst kd, pnode (fst kn) (fst kd) t scn (snd kd))) (snd kn))) (st_networks s))
         (map (fun kv => (fst kv, pconv (fst kv) t scn (snd kv))) (st_converters s)).

Hypothesis Hs : laid s.

Lemma node_at_In net ns nd n : In (net, ns) (st_networks s) -> In (nd, n) ns -> node_at s net nd = Some n.
Proof.
  intros I J. unfold node_at. pose proof Hs as W.
  assert (D : dget net (st_networks s) = Some ns) by (apply In_dget; auto; apply ld_networks; auto).
  rewrite D. apply In_dget; auto. eapply ld_nodes; eauto.
Qed.

Lemma node_at_inv net nd n : node_at s net nd = Some n ->
  exists ns, In (net, ns) (st_networks s) /\ In (nd, n) ns.
Proof.
  unfold node_at. destruct (dget net (st_networks s)) as [ns|] eqn:D; [|discriminate].
  intros E. exists ns. split; apply dget_In; auto.
Qed.

Lemma caps_ok_net t kn : caps_ok (net_inc t kn).
Proof. apply caps_ok_sum. intros g I. apply in_map_iff in I as (x & <- & _). apply caps_ok_node. Qed.
Lemma caps_ok_step t : caps_ok (step_inc t).
Proof.
  apply caps_ok_app; apply caps_ok_sum; intros g I; apply in_map_iff in I as (x & <- & _).
  - apply caps_ok_net.
  - apply caps_ok_conv.
Qed.

Lemma has_tag_net t kn k : has_tag (net_inc t kn) k <-> exists nd, In nd (dkeys (snd kn)) /\ k = (t, fst kn, nd).
Proof.
  unfold net_inc. rewrite has_tag_sum. split.
  - intros (g & I & H). apply in_map_iff in I as (kd & <- & I). apply has_tag_node in H. subst.
    exists (fst kd). split; auto. apply in_map; auto.
  - intros (nd & I & ->). apply in_map_iff in I as (kd & <- & I).
    eexists. split; [apply in_map_iff; exists kd; split; eauto|]. apply has_tag_node. auto.
Qed.

Lemma has_tag_nodes t k : has_tag (nodes_inc t) k <-> exists net nd, has_node s net nd /\ k = (t, net, nd).
Proof.
  unfold nodes_inc. rewrite has_tag_sum. split.
  - intros (g & I & H). apply in_map_iff in I as (kn & <- & I). apply has_tag_net in H as (nd & J & ->).
    apply in_map_iff in J as (kd & <- & J). exists (fst kn), (fst kd). split; auto.
    unfold has_node. rewrite (node_at_In (fst kn) (snd kn) (fst kd) (snd kd)); try congruence;
      rewrite <- surjective_pairing; auto.
  - intros (net & nd & H & ->). unfold has_node in H. destruct (node_at s net nd) as [n|] eqn:N; [|congruence].
    apply node_at_inv in N as (ns & I & J).
    exists (net_inc t (net, ns)). split; [apply in_map; auto|].
    apply has_tag_net. exists nd. split; auto. apply (in_map fst) in J. auto.
Qed.

Lemma has_tag_step t k : has_tag (step_inc t) k <-> exists net nd, has_node s net nd /\ k = (t, net, nd).
Proof.
  unfold step_inc. rewrite has_tag_app, has_tag_nodes. split; [intros [H|H]; auto | auto].
  apply has_tag_sum in H as (g & I & H). apply in_map_iff in I as (kv & <- & I).
  apply has_tag_conv in H. tauto.
Qed.

Lemma NoDup_mid {A C} (f : A -> C) a x b : NoDup (map f (a ++ x :: b)) -> ~ In (f x) (map f a).
Proof.
  rewrite map_app. simpl. intros H. apply NoDup_remove_2 in H. rewrite in_app_iff in H. tauto.
Qed.

Lemma batch_step_moves g t : t < st_horizon s ->
  (forall k, has_tag g k -> fst (fst k) < t) -> caps_ok g -> prev_caps g t ->
  moves g (batch_step s scn t) (pstep t) (gapp g (step_inc t)).
Proof.
  intros T HT CO PC. unfold batch_step. pose proof Hs as W.
  eapply moves_bind with (g1 := gapp g (nodes_inc t)).
  { unfold nodes_inc. rewrite <- (mapi_map (net_inc t) _ 0).
    apply (smapi_moves _ (fun _ kn => (fst kn, map (fun kd => (fst kd, pnode (fst kn) (fst kd) t scn (snd kd))) (snd kn)))).
    intros pre [net ns] post E. simpl. rewrite mapi_map.
    assert (I : In (net, ns) (st_networks s)) by (rewrite E, in_app_iff; simpl; auto).
    assert (NI : ~ In net (map fst pre)).
    { pose proof (ld_networks _ W) as ND. unfold dkeys in ND. rewrite E in ND. now apply NoDup_mid in ND. }
    match goal with |- moves ?x _ _ _ => set (g1 := x) end.
    assert (E1 : g1 = gapp g (gsum (map (net_inc t) pre))) by reflexivity. clearbody g1.
    assert (H1 : forall k, has_tag g1 k -> fst (fst k) < t \/ snd (fst k) <> net).
    { intros k H. rewrite E1 in H. apply has_tag_app in H as [H|H]; auto. right.
      apply has_tag_sum in H as (g' & J & H). apply in_map_iff in J as (kn & <- & J).
      apply has_tag_net in H as (nd & _ & ->). simpl. intros EQ. apply NI. rewrite <- EQ. apply in_map; auto. }
    assert (C1 : caps_ok g1).
    { rewrite E1. apply caps_ok_app; auto. apply caps_ok_sum. intros g' J. apply in_map_iff in J as (kn & <- & _). apply caps_ok_net. }
    assert (P1 : prev_caps g1 t) by (rewrite E1; apply prev_caps_app; auto).
    clear E1.
    eapply moves_bind; [|apply moves_ret].
    rewrite <- (mapi_map (fun kd => (fst kd, pnode net (fst kd) t scn (snd kd))) _ 0).
    unfold net_inc. simpl. rewrite <- (mapi_map (fun kd => node_inc t net (fst kd) (snd kd)) _ 0).
    apply (smapi_moves _ (fun _ kd => (fst kd, pnode net (fst kd) t scn (snd kd)))).
    intros pre' [nd n] post' E'. simpl. rewrite mapi_map.
    assert (J : In (nd, n) ns) by (rewrite E', in_app_iff; simpl; auto).
    pose proof (node_at_In _ _ _ _ I J) as N.
    eapply moves_bind; [|apply moves_ret].
    apply batch_node_moves; auto.
    - eapply ld_node; eauto.
    - intros H. apply has_tag_app in H as [H|H].
      + apply H1 in H as [H|H]; simpl in H; [lia | congruence].
      + apply has_tag_sum in H as (g' & K & H). apply in_map_iff in K as (kd & <- & K).
        apply has_tag_node in H. inversion H; subst.
        assert (ND : NoDup (dkeys (pre' ++ (fst kd, n) :: post'))).
        { eapply ld_nodes; eauto. apply In_dget; eauto. apply ld_networks; auto. }
        apply NoDup_mid in ND. apply ND. simpl. apply in_map; auto.
    - intros x r t' X ->. apply dget_dict_of_last.
      + intros v' K. apply (caps_ok_app g1 (gsum (map (fun kd => node_inc (S t') net (fst kd) (snd kd)) pre'))) in K; auto.
        apply caps_ok_sum. intros g' L. apply in_map_iff in L as (kd & <- & _). apply caps_ok_node.
      + apply (prev_caps_app g1 (gsum (map (fun kd => node_inc (S t') net (fst kd) (snd kd)) pre')) (S t') P1 t' net nd n x r); auto. }
  eapply moves_bind.
  { apply (smapi_moves _ (fun _ kv => (fst kv, pconv (fst kv) t scn (snd kv)))
             (fun _ kv => conv_inc t (fst kv) (snd kv))).
    intros pre [name v] post E. simpl. eapply moves_bind; [|apply moves_ret].
    assert (N : conv_at s name = Some v).
    { apply In_dget; [apply ld_convs; auto | rewrite E, in_app_iff; simpl; auto]. }
    apply batch_conv_moves; auto.
    - eapply ld_conv; eauto.
    - eapply ld_once; eauto.
    - intros a b. eapply ld_srcs; eauto.
    - intros net nd H. do 1 apply has_tag_app_l. apply has_tag_app. right. apply has_tag_nodes. eauto. }
  rewrite !mapi_map.
  eapply moves_eq; [apply moves_ret|]. rewrite gapp_assoc. reflexivity.
Qed.

Definition steps_inc (n : nat) : ghost := gsum (map step_inc (seq 0 n)).

Lemma prev_caps_steps t : prev_caps (steps_inc t) t.
Proof.
  intros t' net nd n x r -> N X. unfold steps_inc. rewrite seq_S, map_app, gsum_app.
  replace (gsum (map step_inc [0 + t'])) with (step_inc t') by (symmetry; apply gapp_nil_r).
  apply in_app_iff. right. apply in_app_iff. left.
  unfold nodes_inc. rewrite gsum_split. simpl. apply in_flat_map.
  apply node_at_inv in N as (ns & I & J). exists (net_inc t' (net, ns)). split; [apply in_map; auto|].
  unfold net_inc. rewrite gsum_split. simpl. apply in_flat_map.
  exists (node_inc t' net nd n). split; [apply in_map_iff; exists (nd, n); auto|].
  unfold node_inc, node_cap. simpl. rewrite X. simpl. auto.
Qed.

Definition imports (g : ghost) : list (akey * (var * Q)) :=
  map (fun kv => match fst kv with (t, net, _, dest) => ((t, net, dest), (snd kv, 1%Q)) end) (dict_of (g_imp g)).

Definition program : ghost :=
  let g := steps_inc (st_horizon s) in gapp g (gop (imports g)).

Lemma In_dict_of {K V} `{EqB K} (l : list (K * V)) kv : In kv (dict_of l) -> In kv l.
Proof.
  unfold dict_of. enough (H0 : forall d, In kv (fold_left (fun d kv => dset (fst kv) (snd kv) d) l d) -> In kv d \/ In kv l).
  { intros I. apply H0 in I as [[]|]; auto. }
  induction l as [|[k v] l IH]; simpl; intros d I; auto.
  apply IH in I as [I|I]; auto.
  assert (D : forall (d : list (K * V)), In kv (dset k v d) -> In kv d \/ kv = (k, v)).
  { clear. induction d as [|[k' v'] d IH]; simpl.
    - intros [<-|[]]; auto.
    - destruct (eqb k k') eqn:E; simpl.
      + apply eqb_eq in E; subst. intros [<-|I]; auto.
      + intros [<-|I]; auto. apply IH in I as [I|I]; auto. }
  apply D in I as [I | ->]; auto.
Qed.

(** The building phase succeeds and its program is known. *)
Theorem build_batch_moves : moves gnil (build_batch s scn) (map pstep (seq 0 (st_horizon s))) program.
Proof.
  unfold build_batch. eapply moves_bind with (a := map pstep (seq 0 (st_horizon s))) (g1 := steps_inc (st_horizon s)).
  { unfold steps_inc. rewrite <- (gapp_nil_l (gsum _)).
    rewrite <- (mapi_map step_inc _ 0), <- (mapi_map pstep _ 0).
    apply smapi_moves. intros pre t post E. rewrite mapi_map, gapp_nil_l.
    assert (EP : pre = seq 0 t /\ t < st_horizon s).
    { assert (L : length pre < st_horizon s).
      { rewrite <- (seq_length (st_horizon s) 0), E, app_length. simpl. lia. }
      assert (NT : nth_error (seq 0 (st_horizon s)) (length pre) = Some t).
      { rewrite E, nth_error_app2, Nat.sub_diag by auto. reflexivity. }
      rewrite (nth_error_nth' _ 0) in NT by (rewrite seq_length; auto). rewrite seq_nth in NT by auto.
      simpl in NT. inversion NT as [L']. rewrite L' in *. split; auto.
      assert (F : firstn (length pre) (seq 0 (st_horizon s)) = pre).
      { rewrite E, firstn_app, firstn_all, Nat.sub_diag. simpl. apply app_nil_r. }
      rewrite L' in F. rewrite <- F.
      replace (st_horizon s) with (t + (st_horizon s - t)) by lia.
      rewrite seq_app, firstn_app, seq_length, Nat.sub_diag. simpl. rewrite app_nil_r.
      rewrite firstn_all2; auto. rewrite seq_length. auto. }
    destruct EP as [-> T]. apply batch_step_moves; auto.
    - intros k H. apply has_tag_sum in H as (g & I & H). apply in_map_iff in I as (t' & <- & I).
      apply in_seq in I. apply has_tag_step in H as (net & nd & _ & ->). simpl. lia.
    - apply caps_ok_sum. intros g I. apply in_map_iff in I as (t' & <- & I). apply caps_ok_step.
    - apply prev_caps_steps. }
  eapply moves_bind; [|apply moves_ret].
  intros b Sb. unfold adq_build. erewrite sbind_eq_ok by reflexivity.
  rewrite (sim_imp _ _ Sb).
  set (f := fun kv : ikey * var => match fst kv with (t, net, _, dest) => ((t, net, dest), (snd kv, 1%Q)) end).
  assert (X : moves (steps_inc (st_horizon s))
     (sfor (fun kv => adq_coef (fst (f kv)) (fst (snd (f kv))) (snd (snd (f kv)))) (dict_of (g_imp (steps_inc (st_horizon s)))))
     tt program).
  { apply (sfor_adq f). intros kv I. apply In_dict_of in I.
    unfold steps_inc in I |- *. rewrite gsum_split in I. simpl in I. apply in_flat_map in I as (g & I & J).
    apply has_tag_sum. apply in_map_iff in I as (t & <- & I).
    exists (step_inc t). split; [apply in_map; auto|]. apply has_tag_step.
    unfold step_inc in J. simpl in J. apply in_app_iff in J as [J|J].
    - unfold nodes_inc in J. rewrite gsum_split in J. simpl in J. apply in_flat_map in J as (g & A & J).
      apply in_map_iff in A as ([net ns] & <- & A). unfold net_inc in J. rewrite gsum_split in J. simpl in J.
      apply in_flat_map in J as (g & C & J). apply in_map_iff in C as ([nd n] & <- & C). simpl in J.
      unfold node_imp in J. simpl in J. rewrite map_mapi in J. apply In_mapi in J as (j & l & L & ->). simpl.
      exists net, (l_dest l). split; auto.
      pose proof (node_at_In _ _ _ _ A C) as N.
      eapply ld_dests; eauto. eapply nth_error_In; eauto.
    - unfold convs_inc in J. rewrite gsum_split in J. simpl in J. apply in_flat_map in J as (g & A & J).
      apply in_map_iff in A as (kv' & <- & A). destruct J. }
  destruct (X b Sb) as (b' & E' & S'). exists b'. split; auto. rewrite <- E'.
  generalize (dict_of (g_imp (steps_inc (st_horizon s)))) as l. clear.
  intros l. revert b. induction l as [|[[[[t net] nd] dest] v] l IH]; intros b; auto.
  cbn [sfor]. unfold sbind. simpl.
  destruct (adq_coef _ _ _ b) as [b1 [[]|e]]; auto.
Qed.

Theorem build_ok : exists p, build s scn = Ok (p, map pstep (seq 0 (st_horizon s))) /\ sv_vars p = g_vars program /\ sv_cons p = map (interp (g_ops program)) (g_tags program) /\ sv_obj p = dict_of (g_obj program).
Proof.
  destruct (build_batch_moves b_init sim_init) as (b & E & S).
  exists (b_solver b). unfold build. rewrite E. destruct S. auto.
Qed.
End Build.
