(** C86: what the workers answer survives the transport to the main process. *)
From Coq Require Import String Ascii List ZArith QArith Bool Arith Lia.
From Verif Require Import Base BaseFacts Numeric Study Fluent Output Json LP Transport SpecStudy SpecJson
  SpecLP NumericFacts StudyFacts FluentFacts JsonFacts LPBuild LPSolve LPReady P_Exact P_LP.
Import ListNotations.
Open Scope nat_scope.
Open Scope string_scope.
Open Scope list_scope.

(** ** What a step with values for its variables reads. *)
Definition cons_with (x : var -> Q) (c : lpcons) : dcons := DCons (lc_qty c) (x (lc_var c)) (lc_cost c) (lc_name c).
Definition prod_with (x : var -> Q) (p : lpprod) : dprod := DProd (lp_qty p) (x (lp_var p)) (lp_cost p) (lp_name p).
Definition stor_with (x : var -> Q) (s : lpstor) : dstor :=
  DStor (ls_name s) (ls_capacity s) (x (ls_vcap s)) (ls_flow_in s) (x (ls_vin s)) (ls_flow_out s) (x (ls_vout s))
        (ls_cost s) (ls_init s) (ls_eff s).
Definition link_with (x : var -> Q) (l : lplink) : dlink :=
  DLink (ll_src l) (ll_dest l) (ll_qty l) (x (ll_var l)) (ll_cost l).
Definition node_with (x : var -> Q) (n : lpnode) : dnode :=
  DNode (map (cons_with x) (ln_cons n)) (map (prod_with x) (ln_prods n)) (map (stor_with x) (ln_stors n))
        (map (link_with x) (ln_links n)).
Definition conv_with (x : var -> Q) (v : lpconv) : dconv :=
  DConv (lv_name v) (map (fun kr => ([fst (fst kr); snd (fst kr)], snd kr)) (lv_ratios v))
        (map (fun kx => ([fst (fst kx); snd (fst kx)], x (snd kx))) (lv_src v))
        (lv_dnet v) (lv_dnode v) (x (lv_dest v)) (lv_cost v) (lv_max v).
Definition step_with (x : var -> Q) (p : lpstep) : dstep :=
  DStep (dmap (dmap (node_with x)) (lt_networks p)) (dmap (conv_with x) (lt_converters p)).

(** Sources named without the separator, each once. *)
Definition clear_sources (v : lpconv) : Prop :=
  NoDup (dkeys (lv_ratios v)) /\ NoDup (dkeys (lv_src v)) /\
  (forall k, In k (dkeys (lv_ratios v)) -> plain_key k) /\ (forall k, In k (dkeys (lv_src v)) -> plain_key k).

(** ** Facts *)
Lemma mapJ_to {A B} (m : ST json B) (f : A -> json) (h : A -> B) l :
  (forall x, In x l -> exists t, m (f x) = (t, Ok (h x))) -> exists ts, mapJ m (map f l) = (ts, Ok (map h l)).
Proof.
  induction l as [|x r IH]; simpl; intros H; [eauto|].
  destruct (H x) as [t E]; auto. destruct IH as [ts E']; auto. rewrite E, E'. simpl. eauto.
Qed.

Lemma each_list_to {A B} (m : ST json B) (f : A -> json) (h : A -> B) l :
  (forall x, In x l -> exists t, m (f x) = (t, Ok (h x))) ->
  exists t, each_list m (JList (map f l)) = (t, Ok (map h l)).
Proof. intros H. destruct (mapJ_to m f h l H) as [ts E]. unfold each_list. rewrite E. eauto. Qed.

Lemma each_obj_to {A B} (m : ST json B) (f : A -> json) (h : A -> B) (d : dict string A) :
  (forall k x, In (k, x) d -> exists t, m (f x) = (t, Ok (h x))) ->
  exists t, each_obj m (JObj (dmap f d)) = (t, Ok (dmap h d)).
Proof.
  intros H. unfold each_obj. rewrite dvalues_dmap.
  destruct (mapJ_to m f h (dvalues d)) as [ts E].
  { intros x J. unfold dvalues in J. apply in_map_iff in J as ([k y] & <- & J). eauto. }
  rewrite E. simpl. eexists. rewrite dkeys_dmap, combine_fst_map. reflexivity.
Qed.

Lemma jeach_to {A B} k (m : ST json B) (f : A -> json) (h : A -> B) l d :
  dget k d = Some (JList (map f l)) ->
  (forall x, In x l -> exists t, m (f x) = (t, Ok (h x))) ->
  jeach k m (JObj d) = (JObj (dset k (JList (map (fun _ => JPy) l)) d), Ok (map h l)).
Proof.
  intros G H. unfold jeach, focus, jfield, dlook, sbind, sret, jwrite. rewrite G.
  destruct (each_list_to m f h l H) as [t E]. rewrite E. cbn.
  rewrite map_map, dset_dset. reflexivity.
Qed.

Local Ltac ord := unfold sbind, jread, jwrite, slift, sret, kwargs, jstr_opt, jnum_opt, jstr, jnum; cbn.

Lemma cons_back x c : exists t, lpcons_from_json (lpcons_to_json x c) = (t, Ok (cons_with x c)).
Proof. eexists. unfold lpcons_from_json, lpcons_to_json. ord. reflexivity. Qed.
Lemma prod_back x c : exists t, lpprod_from_json (lpprod_to_json x c) = (t, Ok (prod_with x c)).
Proof. eexists. unfold lpprod_from_json, lpprod_to_json. ord. reflexivity. Qed.
Lemma stor_back x c : exists t, lpstor_from_json (lpstor_to_json x c) = (t, Ok (stor_with x c)).
Proof. eexists. unfold lpstor_from_json, lpstor_to_json. ord. reflexivity. Qed.
Lemma link_back x c : exists t, lplink_from_json (lplink_to_json x c) = (t, Ok (link_with x c)).
Proof. eexists. unfold lplink_from_json, lplink_to_json. ord. reflexivity. Qed.

Lemma node_back x n : exists t, lpnode_from_json (lpnode_to_json x n) = (t, Ok (node_with x n)).
Proof.
  unfold lpnode_from_json, lpnode_to_json.
  erewrite sbind_eq_ok by (apply (jeach_to "consumptions" _ (lpcons_to_json x) (cons_with x));
    [reflexivity | intros; apply cons_back]).
  erewrite sbind_eq_ok by (apply (jeach_to "productions" _ (lpprod_to_json x) (prod_with x));
    [reflexivity | intros; apply prod_back]).
  erewrite sbind_eq_ok by (apply (jeach_to "storages" _ (lpstor_to_json x) (stor_with x));
    [reflexivity | intros; apply stor_back]).
  erewrite sbind_eq_ok by (apply (jeach_to "links" _ (lplink_to_json x) (link_with x));
    [reflexivity | intros; apply link_back]).
  ord. eexists. reflexivity.
Qed.

Lemma net_back x ns : exists t, lpnet_from_json (lpnet_to_json x ns) = (t, Ok (dmap (node_with x) ns)).
Proof.
  unfold lpnet_from_json, lpnet_to_json.
  destruct (each_obj_to lpnode_from_json (lpnode_to_json x) (node_with x) ns) as [t E].
  { intros; apply node_back. }
  erewrite sbind_eq_ok by (eapply (focus_ok "nodes"); [reflexivity | exact E]).
  ord. eexists. reflexivity.
Qed.

(** Joining and splitting the keys of a dictionary, whatever they are. *)
Definition rekeyed (d : dict (string * string) Q) : dict (list string) Q :=
  dict_of (map (fun kx => (split_cc (fst kx), snd kx)) (dict_of (map (fun kx => (join_cc (fst kx), snd kx)) d))).

Lemma dset_map {K V W} `{EqB K} (f : V -> W) k v (d : dict K V) : dset k (f v) (dmap f d) = dmap f (dset k v d).
Proof.
  induction d as [|[k' v'] r IH]; cbn; auto. destruct (eqb k k'); cbn; auto. f_equal. exact IH.
Qed.

Lemma dict_of_map {K V W} `{EqB K} (f : V -> W) (l : list (K * V)) :
  dict_of (map (fun kv => (fst kv, f (snd kv))) l) = dmap f (dict_of l).
Proof.
  unfold dict_of. change (@nil (K * W)) with (dmap (K := K) f []). generalize (@nil (K * V)).
  induction l as [|[k v] r IH]; intros d; cbn; auto. rewrite dset_map. apply IH.
Qed.

Lemma dmapM_num {K} (d : dict K Q) : dmapM as_num (dmap JNum d) = Ok d.
Proof. unfold dmapM, dmap. induction d as [|[k v] r IH]; cbn in *; auto. now rewrite IH. Qed.

Lemma split_back (d : dict (string * string) Q) :
  dict_of (map (fun kv => (split_cc (fst kv), snd kv))
                (dict_of (map (fun kr => (join_cc (fst kr), JNum (snd kr))) d)))
  = dmap JNum (rekeyed d).
Proof.
  unfold rekeyed.
  rewrite <- (dict_of_map JNum), map_map.
  replace (map (fun kr => (join_cc (fst kr), JNum (snd kr))) d)
    with (map (fun kv : string * Q => (fst kv, JNum (snd kv))) (map (fun kx => (join_cc (fst kx), snd kx)) d))
    by (rewrite map_map; reflexivity).
  rewrite dict_of_map. unfold dmap. rewrite map_map. reflexivity.
Qed.

Definition conv_read (x : var -> Q) (v : lpconv) : dconv :=
  DConv (lv_name v) (rekeyed (lv_ratios v)) (rekeyed (dmap x (lv_src v)))
        (lv_dnet v) (lv_dnode v) (x (lv_dest v)) (lv_cost v) (lv_max v).

Lemma conv_back x v : exists t, lpconv_from_json (lpconv_to_json x v) = (t, Ok (conv_read x v)).
Proof.
  unfold lpconv_from_json, lpconv_to_json.
  erewrite sbind_eq_ok by (unfold split_keys; ord; reflexivity).
  erewrite sbind_eq_ok by (unfold split_keys; ord; reflexivity).
  rewrite split_back.
  replace (map (fun kx : string * string * var => (join_cc (fst kx), JNum (x (snd kx)))) (lv_src v))
    with (map (fun kr : string * string * Q => (join_cc (fst kr), JNum (snd kr))) (dmap x (lv_src v)))
    by (unfold dmap; rewrite map_map; reflexivity).
  rewrite split_back. ord. rewrite !dmapM_num. eexists. reflexivity.
Qed.

Lemma rekeyed_clear d : NoDup (dkeys d) -> (forall k, In k (dkeys d) -> plain_key k) ->
  rekeyed d = map (fun kx => ([fst (fst kx); snd (fst kx)], snd kx)) d.
Proof.
  intros ND P. unfold rekeyed. rewrite (dict_of_NoDup (map (fun kx => (join_cc (fst kx), snd kx)) d)).
  2: now apply (join_keys_NoDup (fun q : Q => q)).
  rewrite map_map. cbn [fst snd].
  assert (E : map (fun kx : string * string * Q => (split_cc (join_cc (fst kx)), snd kx)) d =
              map (fun kx => ([fst (fst kx); snd (fst kx)], snd kx)) d).
  { apply map_ext_in. intros [k q] J. cbn. f_equal. apply key_of_join. apply P.
    change k with (fst (k, q)). now apply in_map. }
  rewrite E. apply dict_of_NoDup. rewrite map_map. cbn [fst].
  clear E P. induction d as [|[[a b] q] r IH]; cbn in *; [constructor|].
  inversion ND; subst. constructor; auto.
  intros J. apply in_map_iff in J as ([[a' b'] q'] & E & J). cbn in E. inversion E; subst.
  apply H1. change (a, b) with (fst (a, b, q')). now apply in_map.
Qed.

Lemma conv_read_clear x v : clear_sources v -> conv_read x v = conv_with x v.
Proof.
  intros (N1 & N2 & P1 & P2). unfold conv_read, conv_with.
  rewrite (rekeyed_clear (lv_ratios v)), (rekeyed_clear (dmap x (lv_src v))); auto.
  - unfold dmap. rewrite map_map. reflexivity.
  - now rewrite dkeys_dmap.
  - now rewrite dkeys_dmap.
Qed.

Definition step_read (x : var -> Q) (p : lpstep) : dstep :=
  DStep (dmap (dmap (node_with x)) (lt_networks p)) (dmap (conv_read x) (lt_converters p)).

Lemma step_back x p : exists t, lpstep_from_json (lpstep_to_json x p) = (t, Ok (step_read x p)).
Proof.
  unfold lpstep_from_json, lpstep_to_json.
  destruct (each_obj_to lpnet_from_json (lpnet_to_json x) (dmap (node_with x)) (lt_networks p)) as [t E].
  { intros; apply net_back. }
  erewrite sbind_eq_ok by (eapply (focus_ok "networks"); [reflexivity | exact E]).
  destruct (each_obj_to lpconv_from_json (lpconv_to_json x) (conv_read x) (lt_converters p)) as [t' E'].
  { intros; apply conv_back. }
  erewrite sbind_eq_ok by (eapply (focus_ok "converters"); [reflexivity | exact E']).
  ord. eexists. reflexivity.
Qed.

Lemma dmap_dmap {K U V W} (f : U -> V) (g : V -> W) (d : dict K U) : dmap g (dmap f d) = dmap (fun u => g (f u)) d.
Proof. unfold dmap. now rewrite map_map. Qed.

Lemma dmap_ext {K V W} (f g : V -> W) (d : dict K V) : (forall v, f v = g v) -> dmap f d = dmap g d.
Proof. intros H. unfold dmap. apply map_ext. intros [k v]. cbn. now rewrite H. Qed.

Lemma seen_read x p : seen (step_read x p) = step_answer x p.
Proof.
  unfold seen, step_read, step_answer. cbn [dt_networks dt_converters]. f_equal.
  - rewrite dmap_dmap. apply dmap_ext. intros ns. rewrite dmap_dmap. apply dmap_ext. intros n.
    unfold seen_node, node_with, node_answer. cbn. rewrite !map_map. reflexivity.
  - rewrite dmap_dmap. apply dmap_ext. intros v. unfold seen_conv, conv_read, conv_answer, rekeyed. cbn.
    f_equal. unfold dmap. rewrite map_map. reflexivity.
Qed.

Lemma map_rep {A B} (f : A -> B) a n : map f (repeat a n) = repeat (f a) n.
Proof. induction n; cbn; congruence. Qed.

(** ** C86: the time steps a worker packs are read back whole: every element with
    its name, cost, bounds and the values of its variables, each key with its
    converter's source. *)
Theorem C86_read_back x ps :
  (forall p name v, In p ps -> In (name, v) (lt_converters p) -> clear_sources v) ->
  unpack (JList (map (lpstep_to_json x) ps)) = Ok (map (step_with x) ps).
Proof.
  intros H. unfold unpack.
  destruct (each_list_to lpstep_from_json (lpstep_to_json x) (step_with x) ps) as [t E].
  - intros p J. destruct (step_back x p) as [t E]. exists t. rewrite E. do 2 f_equal.
    unfold step_read, step_with. f_equal. unfold dmap. apply map_ext_in. intros [k v] K.
    cbn. f_equal. apply conv_read_clear. eauto.
  - rewrite E. reflexivity.
Qed.

(** Nothing stops the reading, whatever the names are; the result written by the
    main process is the one of [solve_lp] of [LP.v], where values stand directly
    for variables. *)
Theorem C86_solve answer sched bench s : solve_packed answer sched bench s = solve_lp answer sched bench s.
Proof.
  set (rd := fun j => match unpack j with Ok vs => map seen vs | Err _ => [] end).
  set (good := fun j => exists vs, unpack j = Ok vs).
  assert (J : forall scn, match worker (answer scn) s scn with
                          | Ok j => good j /\ solve_batch (answer scn) s scn = Ok (rd j)
                          | Err e => solve_batch (answer scn) s scn = Err e
                          end).
  { intros scn. unfold worker, solve_batch. destruct (build s scn) as [p|e]; cbn [rbind]; auto.
    set (x := answer scn (fst p)).
    assert (E : unpack (JList (map (lpstep_to_json x) (snd p))) = Ok (map (step_read x) (snd p))).
    { unfold unpack.
      destruct (each_list_to lpstep_from_json (lpstep_to_json x) (step_read x) (snd p)) as [t E].
      - intros; apply step_back.
      - now rewrite E. }
    split; [eexists; exact E|]. unfold rd. rewrite E, map_map. f_equal. apply map_ext. intros.
    symmetry. apply seen_read. }
  assert (PM : forall l acc,
    (forall j, In (Some j) acc -> good j) ->
    match foldM (fun acc i => let* a := worker (answer i) s i in Ok (upd_nth i (fun _ => Some a) acc)) l acc with
    | Ok acc' => (forall j, In (Some j) acc' -> good j) /\
        foldM (fun acc i => let* a := solve_batch (answer i) s i in Ok (upd_nth i (fun _ => Some a) acc)) l
              (map (option_map rd) acc) = Ok (map (option_map rd) acc')
    | Err e =>
        foldM (fun acc i => let* a := solve_batch (answer i) s i in Ok (upd_nth i (fun _ => Some a) acc)) l
              (map (option_map rd) acc) = Err e
    end).
  { induction l as [|i l IH]; intros acc G; cbn [foldM]; auto.
    specialize (J i). destruct (worker (answer i) s i) as [j|e]; cbn [rbind].
    - destruct J as [Gj ->]. cbn [rbind].
      replace (upd_nth i (fun _ => Some (rd j)) (map (option_map rd) acc))
        with (map (option_map rd) (upd_nth i (fun _ => Some j) acc)).
      2: { clear. revert i. induction acc as [|a acc IH]; destruct i; cbn; auto. now rewrite IH. }
      apply IH. intros j' I'.
      assert (C : Some j' = Some j \/ In (Some j') acc).
      { clear - I'. revert i I'. induction acc as [|a acc IH]; destruct i; cbn; intros I'; auto.
        - destruct I' as [I'|I']; auto.
        - destruct I' as [I'|I']; auto. destruct (IH _ I'); auto. }
      destruct C as [C|C]; auto. inversion C; subst. exact Gj.
    - rewrite J. reflexivity. }
  unfold solve_packed, solve_lp, pool_map.
  specialize (PM sched (repeat None (st_nb_scn s))).
  destruct (foldM (fun acc i => let* a := worker (answer i) s i in Ok (upd_nth i (fun _ => Some a) acc)) sched
              (repeat None (st_nb_scn s))) as [acc|e].
  - destruct PM as [G E].
    { intros j I'. exfalso. revert I'. generalize (st_nb_scn s). induction n; cbn; [auto|].
      intros [D|D]; [discriminate | auto]. }
    rewrite map_rep in E. cbn [option_map] in E. rewrite E. cbn [rbind].
    assert (W : forall l o, foldM (write_packed s acc) l o = foldM (write_scn s (map (option_map rd) acc)) l o).
    { assert (W1 : forall scn o, write_packed s acc o scn = write_scn s (map (option_map rd) acc) o scn).
      { intros scn o. unfold write_packed, write_scn, lnth. rewrite nth_error_map.
        destruct (nth_error acc scn) as [[j|]|] eqn:N; cbn [option_map rbind]; auto.
        destruct (G j) as [vs V]. { eapply nth_error_In; eauto. }
        unfold rd. rewrite V. reflexivity. }
      induction l as [|i l IH]; intros o; cbn [foldM]; auto. rewrite W1.
      destruct (write_scn s (map (option_map rd) acc) o i); cbn [rbind]; auto. }
    rewrite W. reflexivity.
  - rewrite map_rep in PM. cbn [option_map] in PM. rewrite PM; auto.
    intros j I'. exfalso. revert I'. generalize (st_nb_scn s). induction n; cbn; [auto|].
    intros [D|D]; [discriminate | auto].
Qed.

(** For a study built by API calls whose sources are named without the separator
    the worker packs its answer and the main process reads it back whole. *)
Theorem C86_worker answer s scn :
  api_study s -> usable_converters s -> plain_sources s -> scn < st_nb_scn s ->
  exists j p, worker answer s scn = Ok j /\ build s scn = Ok p /\
    unpack j = Ok (map (step_with (answer (fst p))) (snd p)).
Proof.
  intros Api U PS L. pose proof (api_ready s Api U) as R.
  destruct (build_ok s scn L R) as (p & B & _).
  exists (JList (map (lpstep_to_json (answer p)) (map (pstep s scn) (seq 0 (st_horizon s))))).
  exists (p, map (pstep s scn) (seq 0 (st_horizon s))). unfold worker. rewrite B. split; [reflexivity|]. split; [reflexivity|].
  apply C86_read_back. intros st name lv I J. apply in_map_iff in I as (t & <- & I). cbn [pstep lt_converters] in J.
  apply in_map_iff in J as ([nm v] & E & J). cbn [fst snd] in E. inversion E; subst name lv.
  assert (C : conv_at s nm = Some v) by (apply In_dget; auto; apply wf_convs; apply R).
  assert (ND : NoDup (dkeys (v_src v))) by (apply (wf_once _ _ _ (wf_conv _ (rd_wf _ R) _ _ C))).
  unfold clear_sources, pconv. cbn [lv_ratios lv_src]. rewrite dkeys_dmap.
  assert (K : dkeys (map (fun kr : string * string * numval => (fst kr, vsrc nm t (fst kr))) (v_src v)) = dkeys (v_src v))
    by (unfold dkeys; rewrite map_map; reflexivity).
  rewrite K. split; [exact ND|]. split; [exact ND|]. split; intros k Ik; eapply PS; eauto.
Qed.

(** Sources whose joined names are the same come back as one. *)
Theorem C86_read_back_refuted : exists answer s scn j p,
  api_study s /\ usable_converters s /\ scn < st_nb_scn s /\
  worker answer s scn = Ok j /\ build s scn = Ok p /\
  unpack j <> Ok (map (step_with (answer (fst p))) (snd p)).
Proof.
  exists (fun _ => clash_x), clash, 0. do 2 eexists. split; [apply clash_api|].
  split; [apply usableb_ok; vm_compute; reflexivity|]. split; [vm_compute; lia|].
  split; [vm_compute; reflexivity|]. split; [vm_compute; reflexivity|]. vm_compute. discriminate.
Qed.

(** Two scenarios of a study with loads, productions, a storage, links and a converter. *)
Example C86_example :
  api_study mix /\ usable_converters mix /\ plain_sources mix /\
  exists j vs, worker (fun _ => mix_x 0) mix 0 = Ok j /\ unpack j = Ok vs /\ length vs = 2 /\
    (exists v, dget "plant" (match vs with d :: _ => dt_converters d | [] => [] end) = Some v /\
       dv_src v = [(["gas"; "g"], mix_x 0 (VSrc "plant" "gas" "g" 0))] /\
       dv_ratios v = [(["gas"; "g"], (1 # 2)%Q)]) /\
    exists r, solve_packed (fun scn _ => mix_x scn) [1; 0] no_bench mix = Ok r.
Proof.
  split; [apply mix_api|]. split; [apply mix_usable|]. split; [apply mix_plain|].
  do 2 eexists. split; [vm_compute; reflexivity|]. split; [vm_compute; reflexivity|]. split; [reflexivity|].
  split.
  - eexists. split; [vm_compute; reflexivity|]. split; vm_compute; reflexivity.
  - eexists. vm_compute. reflexivity.
Qed.

Print Assumptions C86_read_back.
Print Assumptions C86_solve.
Print Assumptions C86_worker.
Print Assumptions C86_read_back_refuted.
