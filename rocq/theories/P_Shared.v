(** C105: what a study has in common with the arrays of its caller. *)
From Coq Require Import String List ZArith QArith Bool Arith Lia.
From Verif Require Import Base BaseFacts Numeric Study Shared SpecStudy SpecShared.
Import ListNotations.
Open Scope nat_scope.

(** ** Reading commutes with the methods *)
Definition rmap {A B} (f : A -> B) (r : res A) : res B := match r with Ok a => Ok (f a) | Err e => Err e end.

Ltac flds := unfold rd_study, rset_networks, set_networks, rset_converters, set_converters;
  cbn [rst_version rst_networks rst_converters rst_horizon rst_nb_scn st_version st_networks st_converters st_horizon st_nb_scn].

Section Sim.
  Variable m : memory.
  Definition sim {A B} (f : A -> B) (x : ST rstudy A) (y : ST study B) : Prop :=
    forall s, y (rd_study m s) = (rd_study m (fst (x s)), rmap f (snd (x s))).

  Lemma sim_bind {A A' B B'} (f : A -> A') (g : B -> B') x y k l :
    sim f x y -> (forall a, sim g (k a) (l (f a))) -> sim g (sbind x k) (sbind y l).
  Proof.
    intros X K s. unfold sbind. rewrite X. destruct (x s) as [s' [a|e]]; cbn [fst snd rmap]; [apply K | reflexivity].
  Qed.
  Lemma sim_guard b b' e : b = b' -> sim (fun x => x) (sguard b e) (sguard b' e).
  Proof. intros -> s. unfold sguard. destruct b'; reflexivity. Qed.
  Lemma sim_lift {A B} (f : A -> B) r r' : r' = rmap f r -> sim f (slift r) (slift r').
  Proof. intros -> s. reflexivity. Qed.
  Lemma dmem_dmap {K V W} `{EqB K} (f : V -> W) (d : dict K V) k : dmem k (dmap f d) = dmem k d.
  Proof. unfold dmem. rewrite dget_dmap. now destruct (dget k d). Qed.
  Lemma dlook_dmap {K V W} `{EqB K} (f : V -> W) (d : dict K V) k : dlook k (dmap f d) = rmap f (dlook k d).
  Proof. unfold dlook. rewrite dget_dmap. now destruct (dget k d). Qed.
  Lemma dmap_dset {K V W} `{EqB K} (f : V -> W) (d : dict K V) k v : dmap f (dset k v d) = dset k (f v) (dmap f d).
  Proof. induction d as [|[k' v'] d IH]; simpl; [reflexivity|]. destruct (eqb k k'); simpl; [reflexivity|]. now rewrite <- IH. Qed.

  Lemma opt_case {A B} (f : A -> B) o (g : A -> bool) g' : (forall a, g' (f a) = g a) ->
    match option_map f o with Some a => g' a | None => true end = match o with Some a => g a | None => true end.
  Proof. intros G. destruct o; simpl; [apply G | reflexivity]. Qed.

  Lemma create_arr_sim h n x a : rd_held m a = x -> create_arr h n x = rmap (rd m) (rcreate_arr h n x a).
  Proof.
    intros <-. unfold create_arr, rcreate_arr. destruct (list_eqb _ _ [h]); [reflexivity|].
    destruct (list_eqb _ _ [n; 1]); [reflexivity|]. destruct (list_eqb _ _ [n; h]); [reflexivity|]. now destruct (shape _).
  Qed.
  Lemma create_json_sim h n j : create_json h n j = rmap (rd m) (rcreate_json h n j).
  Proof.
    destruct j; try reflexivity. unfold create_json, rcreate_json. destruct (np_array _) as [a|e]; [|reflexivity].
    simpl. now apply create_arr_sim.
  Qed.
  Lemma create_sim h n x : create h n (rd_arg m x) = rmap (rd m) (rcreate m h n x).
  Proof.
    destruct x; cbn [rd_arg create rcreate].
    - destruct j; try apply create_json_sim. destruct (dget _ _); [apply create_json_sim | reflexivity].
    - now apply create_arr_sim.
    - now apply create_arr_sim.
    - reflexivity.
    - reflexivity.
  Qed.
  Lemma sim_mk x : sim (rd m) (rmk m x) (mk (rd_arg m x)).
  Proof. intros s. unfold mk, rmk. cbn [fst snd]. f_equal. apply create_sim. Qed.
  Lemma sim_nodes net : sim (dmap (rd_node m)) (rnodes_of net) (nodes_of net).
  Proof. intros s. unfold nodes_of, rnodes_of. cbn [fst snd]. f_equal. apply dlook_dmap. Qed.
  Lemma sim_node net nd : sim (rd_node m) (rnode_of net nd) (node_of net nd).
  Proof. apply sim_bind with (f := dmap (rd_node m)); [apply sim_nodes|]. intros ns. apply sim_lift. apply dlook_dmap. Qed.
  Lemma sim_upd_node net nd f g : (forall n, rd_node m (f n) = g (rd_node m n)) -> sim (fun x => x) (rupd_node net nd f) (upd_node net nd g).
  Proof.
    intros Fg. apply sim_bind with (f := dmap (rd_node m)); [apply sim_nodes|]. intros ns.
    apply sim_bind with (f := rd_node m); [apply sim_lift; apply dlook_dmap|]. intros n s. cbn [fst snd rmap].
    f_equal. flds. rewrite !dmap_dset, Fg. reflexivity.
  Qed.
  Lemma sim_conv name : sim (rd_conv m) (rconv_of name) (conv_of name).
  Proof. intros s. unfold conv_of, rconv_of. cbn [fst snd]. f_equal. apply dlook_dmap. Qed.
  Lemma sim_upd_conv name f g : (forall v, rd_conv m (f v) = g (rd_conv m v)) -> sim (fun x => x) (rupd_conv name f) (upd_conv name g).
  Proof.
    intros Fg. apply sim_bind with (f := rd_conv m); [apply sim_conv|]. intros v s. cbn [fst snd rmap].
    f_equal. flds. rewrite !dmap_dset, Fg. reflexivity.
  Qed.
  Lemma sim_add_converter name : sim (fun x => x) (radd_converter name) (add_converter name).
  Proof.
    intros s. unfold add_converter, radd_converter. cbn [rd_study st_converters]. rewrite dmem_dmap. destruct (dmem _ _); [reflexivity|].
    cbn [fst snd rmap]. f_equal. flds. now rewrite dmap_dset.
  Qed.

  Ltac step_guard := apply sim_bind with (f := fun x : unit => x); [apply sim_guard | intros _].

  Lemma sim_declare d : sim (fun x => x) (rdeclare m d) (declare (map_decl (rd_arg m) d)).
  Proof.
    destruct d; cbn [rdeclare declare map_decl].
    - intros s. unfold add_network, radd_network. cbn [rd_study st_networks]. rewrite dmem_dmap. destruct (dmem _ _); [reflexivity|].
      cbn [fst snd rmap]. f_equal. flds. now rewrite dmap_dset.
    - apply sim_bind with (f := dmap (rd_node m)); [apply sim_nodes|]. intros ns. rewrite dmem_dmap. destruct (dmem nd ns); [intros s; reflexivity|].
      intros s. cbn [fst snd rmap]. f_equal. flds. rewrite dmap_dset. f_equal.
      f_equal. now rewrite dmap_dset.
    - apply sim_bind with (f := dmap (rd_node m)); [apply sim_nodes|]. intros ns. rewrite !dmem_dmap. step_guard; [reflexivity|]. step_guard; [reflexivity|].
      apply sim_bind with (f := rd_node m); [apply sim_lift; apply dlook_dmap|]. intros n.
      step_guard; [cbn [rd_node n_links]; rewrite map_map; reflexivity|]. apply sim_bind with (f := rd m); [apply sim_mk|]. intros q. step_guard; [reflexivity|].
      apply sim_bind with (f := rd m); [apply sim_mk|]. intros c. apply sim_upd_node. intros k. unfold rd_node, rpush_link, push_link. cbn. now rewrite map_app.
    - apply sim_bind with (f := rd_node m); [apply sim_node|]. intros n.
      step_guard; [cbn [rd_node n_cons]; rewrite map_map; reflexivity|]. apply sim_bind with (f := rd m); [apply sim_mk|]. intros q. step_guard; [reflexivity|].
      apply sim_bind with (f := rd m); [apply sim_mk|]. intros c. apply sim_upd_node. intros k. unfold rd_node, rpush_cons, push_cons. cbn. now rewrite map_app.
    - apply sim_bind with (f := rd_node m); [apply sim_node|]. intros n.
      step_guard; [cbn [rd_node n_prods]; rewrite map_map; reflexivity|]. apply sim_bind with (f := rd m); [apply sim_mk|]. intros q. step_guard; [reflexivity|].
      apply sim_bind with (f := rd m); [apply sim_mk|]. intros c. apply sim_upd_node. intros k. unfold rd_node, rpush_prod, push_prod. cbn. now rewrite map_app.
    - apply sim_bind with (f := rd_node m); [apply sim_node|]. intros n.
      step_guard; [cbn [rd_node n_stors]; rewrite map_map; reflexivity|]. apply sim_bind with (f := rd m); [apply sim_mk|]. intros a.
      apply sim_bind with (f := rd m); [apply sim_mk|]. intros b. step_guard; [reflexivity|]. apply sim_bind with (f := rd m); [apply sim_mk|]. intros c. step_guard; [reflexivity|].
      apply sim_bind with (f := rd m); [apply sim_mk|]. intros e. step_guard; [reflexivity|]. apply sim_bind with (f := rd m); [apply sim_mk|]. intros x.
      apply sim_upd_node. intros k. unfold rd_node, rpush_stor, push_stor. cbn. now rewrite map_app.
    - unfold do_converter. apply sim_bind with (f := fun x : unit => x); [apply sim_add_converter|]. intros _.
      apply sim_bind with (f := rd_conv m); [apply sim_conv|]. intros v. step_guard; [reflexivity|].
      apply sim_bind with (f := rd_study m); [intros s; reflexivity|]. intros s. step_guard.
      { unfold rd_study. cbn [st_networks]. rewrite dget_dmap. symmetry.
        exact (opt_case (dmap (rd_node m)) (dget to_net (rst_networks s)) (fun ns => negb (dmem to_nd ns)) (fun ns => negb (dmem to_nd ns))
          (fun ns => f_equal negb (dmem_dmap (rd_node m) ns to_nd))). }
      apply sim_bind with (f := fun x : unit => x); [apply sim_upd_conv; reflexivity|]. intros _. apply sim_bind with (f := fun x : unit => x); [apply sim_upd_conv; reflexivity|]. intros _.
      apply sim_bind with (f := rd m); [apply sim_mk|]. intros c. apply sim_bind with (f := fun x : unit => x); [apply sim_upd_conv; reflexivity|]. intros _.
      apply sim_bind with (f := rd m); [apply sim_mk|]. intros x. apply sim_upd_conv. reflexivity.
    - unfold do_to_converter. apply sim_bind with (f := fun x : unit => x); [apply sim_add_converter|]. intros _.
      apply sim_bind with (f := rd_conv m); [apply sim_conv|]. intros v. step_guard; [cbn [rd_conv v_src]; now rewrite dmem_dmap|].
      apply sim_bind with (f := rd m); [apply sim_mk|]. intros r. apply sim_upd_conv. intros w. unfold rd_conv. cbn [rv_name rv_src rv_dnet rv_dnode rv_cost rv_max v_name v_src v_dnet v_dnode v_cost v_max]. now rewrite dmap_dset.
  Qed.
End Sim.

(** ** What is declared *)
Theorem C105_as_values : forall m ds s,
  rd_study m (snd (session (m, s) (map Told ds))) = build_all (contents m ds) (rd_study m s) /\
  (forall d, snd (declare (map_decl (rd_arg m) d) (rd_study m s)) = snd (rdeclare m d s)).
Proof.
  intros m ds s. split.
  - revert s. induction ds as [|d ds IH]; intros s; [reflexivity|]. unfold session, build_all, contents in *. cbn [map fold_left happen fst snd].
    rewrite IH. f_equal. rewrite (sim_declare m d s). reflexivity.
  - intros d. rewrite (sim_declare m d s). cbn [snd]. now destruct (snd (rdeclare m d s)) as [[]|].
Qed.

(** ** When a study reads the same in two memories *)
Lemma rd_same m m' v : rd m' v = rd m v <-> forall p, in_hand p v -> m' p = m p.
Proof.
  split.
  - destruct v as [q h n|[a|p] h n|[a|p] h n|[a|p] h n]; simpl; intros E p'; try tauto; try discriminate; intros [= <-]; now injection E.
  - intros H. destruct v as [q h n|[a|p] h n|[a|p] h n|[a|p] h n]; simpl in *; try reflexivity; now rewrite (H p eq_refl).
Qed.
Lemma ext_in_dmap {K V W} (f g : V -> W) (d : dict K V) : dmap f d = dmap g d -> forall k v, In (k, v) d -> f v = g v.
Proof. unfold dmap. intros E k v I. pose proof (ext_in_map E _ I) as P. now injection P. Qed.
Lemma dmap_ext_in {K V W} (f g : V -> W) (d : dict K V) : (forall k v, In (k, v) d -> f v = g v) -> dmap f d = dmap g d.
Proof. intros E. unfold dmap. apply map_ext_in. intros [k v] I. simpl. now rewrite (E k v I). Qed.

Lemma same_data m m' s : rd_study m' s = rd_study m s <-> forall v, datum s v -> rd m' v = rd m v.
Proof.
  split.
  - intros E. unfold rd_study in E. injection E as En Ec. intros v D. destruct D as [net ns nd n c v I J X Y|net ns nd n c v I J X Y|net ns nd n c v I J X Y|net ns nd n c v I J X Y|name c k v I J|name c v I J].
    1-4: pose proof (ext_in_dmap _ _ _ En _ _ I) as E1; pose proof (ext_in_dmap _ _ _ E1 _ _ J) as E2; injection E2 as A1 A2 A3 A4.
    + pose proof (ext_in_map A1 _ X) as P. injection P as P1 P2. destruct Y as [<-|[<-|[]]]; assumption.
    + pose proof (ext_in_map A2 _ X) as P. injection P as P1 P2. destruct Y as [<-|[<-|[]]]; assumption.
    + pose proof (ext_in_map A3 _ X) as P. injection P as P1 P2 P3 P4 P5. destruct Y as [<-|[<-|[<-|[<-|[<-|[]]]]]]; assumption.
    + pose proof (ext_in_map A4 _ X) as P. injection P as P1 P2. destruct Y as [<-|[<-|[]]]; assumption.
    + pose proof (ext_in_dmap _ _ _ Ec _ _ I) as P. injection P as P1 P2 P3. exact (ext_in_dmap _ _ _ P1 _ _ J).
    + pose proof (ext_in_dmap _ _ _ Ec _ _ I) as P. injection P as P1 P2 P3. destruct J as [J|J]; rewrite J in *; simpl in *; congruence.
  - intros H. unfold rd_study. f_equal.
    + apply dmap_ext_in. intros net ns I. apply dmap_ext_in. intros nd n J. unfold rd_node. f_equal; apply map_ext_in; intros x X.
      * unfold rd_cons. f_equal; apply H; eapply D_cons; eauto; simpl; tauto.
      * unfold rd_prod. f_equal; apply H; eapply D_prod; eauto; simpl; tauto.
      * unfold rd_stor. f_equal; apply H; eapply D_stor; eauto; simpl; tauto.
      * unfold rd_link. f_equal; apply H; eapply D_link; eauto; simpl; tauto.
    + apply dmap_ext_in. intros name c I. unfold rd_conv. f_equal.
      * apply dmap_ext_in. intros k v J. apply H. eapply D_src; eauto.
      * destruct (rv_cost c) as [v|] eqn:E; [|reflexivity]. simpl. f_equal. apply H. eapply D_dest; eauto.
      * destruct (rv_max c) as [v|] eqn:E; [|reflexivity]. simpl. f_equal. apply H. eapply D_dest; eauto.
Qed.

Theorem C105_exact : forall m m' s,
  rd_study m' s = rd_study m s <-> forall p, holds_array s p -> m' p = m p.
Proof.
  intros m m' s. rewrite same_data. split.
  - intros H p (v & D & I). exact (proj1 (rd_same m m' v) (H v D) p I).
  - intros H v D. apply rd_same. intros p I. apply H. now exists v.
Qed.

(** ** Which arrays a study has in its hands *)
Lemma in_dset {K V} `{EqB K} (k : K) (v : V) d k' v' : In (k', v') (dset k v d) -> v' = v \/ In (k', v') d.
Proof.
  induction d as [|[a b] d IH]; simpl; [intros [[= _ <-]|[]]; now left|]. destruct (eqb k a).
  - intros [[= <- <-]|I]; [now left | right; now right].
  - intros [E|I]; [right; now left | destruct (IH I); [now left | right; now right]].
Qed.
Lemma dlook_in {K V} `{EqB K} (k : K) (d : dict K V) v : dlook k d = Ok v -> exists k', In (k', v) d.
Proof. unfold dlook. destruct (dget k d) as [x|] eqn:E; [|discriminate]. intros [= <-]. exists k. now apply dget_In. Qed.

Section Kept.
  Variables (m : memory) (P : rval -> Prop).
  Definition all_data (s : rstudy) : Prop := forall v, datum s v -> P v.
  Definition node_data (n : rnode) : Prop :=
    (forall c v, In c (rn_cons n) -> In v [rc_cost c; rc_qty c] -> P v) /\
    (forall c v, In c (rn_prods n) -> In v [rp_cost c; rp_qty c] -> P v) /\
    (forall x v, In x (rn_stors n) -> In v [rs_capacity x; rs_flow_in x; rs_flow_out x; rs_cost x; rs_eff x] -> P v) /\
    (forall l v, In l (rn_links n) -> In v [rl_qty l; rl_cost l] -> P v).
  Definition net_data (ns : rnetwork) : Prop := forall nd n, In (nd, n) ns -> node_data n.
  Definition conv_data (c : rconv) : Prop :=
    (forall k v, In (k, v) (rv_src c) -> P v) /\ (forall v, rv_cost c = Some v \/ rv_max c = Some v -> P v).
  Definition nets_data (d : dict string rnetwork) : Prop := forall net ns, In (net, ns) d -> net_data ns.
  Definition convs_data (d : dict string rconv) : Prop := forall name c, In (name, c) d -> conv_data c.
  Lemma all_data_parts s : all_data s <-> nets_data (rst_networks s) /\ convs_data (rst_converters s).
  Proof.
    split.
    - intros H. split.
      + intros net ns I nd n J. repeat split; intros x v X V; apply H; [eapply D_cons|eapply D_prod|eapply D_stor|eapply D_link]; eauto.
      + intros name c I. split; [intros k v J; apply H; eapply D_src; eauto | intros v J; apply H; eapply D_dest; eauto].
    - intros [N C] v D. destruct D as [net ns nd n c v I J X Y|net ns nd n c v I J X Y|net ns nd n c v I J X Y|net ns nd n c v I J X Y|name c k v I J|name c v I J].
      1-4: destruct (N _ _ I _ _ J) as (A1 & A2 & A3 & A4); eauto.
      + destruct (C _ _ I) as [A1 A2]; eauto.
      + destruct (C _ _ I) as [A1 A2]; eauto.
  Qed.

  Definition tri {A} (x : ST rstudy A) (R : A -> Prop) : Prop :=
    forall s s' r, x s = (s', r) -> all_data s -> all_data s' /\ forall a, r = Ok a -> R a.
  Lemma tri_bind {A B} (x : ST rstudy A) (k : A -> ST rstudy B) R T :
    tri x R -> (forall a, R a -> tri (k a) T) -> tri (sbind x k) T.
  Proof.
    intros X K s s' r E A0. unfold sbind in E. destruct (x s) as [s1 [a|e]] eqn:Ex.
    - destruct (X _ _ _ Ex A0) as [A1 R1]. exact (K a (R1 a eq_refl) _ _ _ E A1).
    - injection E as <- <-. destruct (X _ _ _ Ex A0) as [A1 _]. split; [assumption | discriminate].
  Qed.
  Lemma tri_guard b e : tri (sguard b e) (fun _ => True).
  Proof. intros s s' r E A0. unfold sguard in E. destruct b; injection E as <- <-; auto. Qed.
  Lemma tri_lift {A} (x : res A) (R : A -> Prop) : (forall a, x = Ok a -> R a) -> tri (slift x) R.
  Proof. intros H s s' r E A0. injection E as <- <-. auto. Qed.
  Lemma tri_mk x : (forall h n v, rcreate m h n x = Ok v -> P v) -> tri (rmk m x) P.
  Proof. intros H s s' r E A0. injection E as <- <-. split; [assumption|]. intros v. apply H. Qed.
  Lemma tri_nodes net : tri (rnodes_of net) net_data.
  Proof.
    intros s s' r E A0. injection E as <- <-. split; [assumption|]. intros ns E. apply dlook_in in E as [k I].
    exact (proj1 (proj1 (all_data_parts s) A0) _ _ I).
  Qed.
  Lemma look_node ns nd n : net_data ns -> dlook nd ns = Ok n -> node_data n.
  Proof. intros N E. apply dlook_in in E as [k I]. exact (N _ _ I). Qed.
  Lemma tri_node net nd : tri (rnode_of net nd) node_data.
  Proof.
    apply tri_bind with (R := net_data); [apply tri_nodes|]. intros ns N. apply tri_lift. intros n. now apply look_node.
  Qed.
  Lemma set_nets s d : all_data s -> nets_data d -> all_data (rset_networks s d).
  Proof. rewrite !all_data_parts. intros [_ C] N. now split. Qed.
  Lemma set_convs s d : all_data s -> convs_data d -> all_data (rset_converters s d).
  Proof. rewrite !all_data_parts. intros [N _] C. now split. Qed.
  Lemma put_node s net nd n ns : all_data s -> net_data ns -> node_data n -> all_data (rset_networks s (dset net (dset nd n ns) (rst_networks s))).
  Proof.
    intros A0 N D. apply set_nets; [assumption|]. intros net' ns' I nd' n' J. apply in_dset in I as [->|I].
    - apply in_dset in J as [->|J]; [assumption | exact (N _ _ J)].
    - exact (proj1 (proj1 (all_data_parts s) A0) _ _ I _ _ J).
  Qed.
  Lemma tri_upd_node net nd f : (forall n, node_data n -> node_data (f n)) -> tri (rupd_node net nd f) (fun _ => True).
  Proof.
    intros Hf. apply tri_bind with (R := net_data); [apply tri_nodes|]. intros ns N.
    apply tri_bind with (R := node_data); [apply tri_lift; intros n; now apply look_node|]. intros n D s s' r E A0.
    injection E as <- <-. split; [|auto]. apply put_node; auto.
  Qed.
  Lemma tri_conv name : tri (rconv_of name) conv_data.
  Proof.
    intros s s' r E A0. injection E as <- <-. split; [assumption|]. intros v E. apply dlook_in in E as [k I].
    exact (proj2 (proj1 (all_data_parts s) A0) _ _ I).
  Qed.
  Lemma put_conv s name c : all_data s -> conv_data c -> all_data (rset_converters s (dset name c (rst_converters s))).
  Proof.
    intros A0 D. apply set_convs; [assumption|]. intros k x I. apply in_dset in I as [->|I]; [assumption|].
    exact (proj2 (proj1 (all_data_parts s) A0) _ _ I).
  Qed.
  Lemma tri_upd_conv name f : (forall n, conv_data n -> conv_data (f n)) -> tri (rupd_conv name f) (fun _ => True).
  Proof.
    intros Hf. apply tri_bind with (R := conv_data); [apply tri_conv|]. intros v D s s' r E A0.
    injection E as <- <-. split; [|auto]. apply put_conv; auto.
  Qed.
  Lemma tri_add_converter name : tri (radd_converter name) (fun _ => True).
  Proof.
    intros s s' r E A0. unfold radd_converter in E. destruct (dmem name (rst_converters s)); injection E as <- <-; (split; [|auto]); [assumption|].
    apply put_conv; [assumption|]. split; simpl; [tauto|]. intros v [X|X]; discriminate.
  Qed.

  Ltac grd := apply tri_bind with (R := fun _ => True); [apply tri_guard | intros _ _].
  Ltac made created := apply tri_bind with (R := P); [apply tri_mk; intros; eapply created; [|eassumption]; simpl; tauto|].
  Ltac pushed := let I := fresh in intros ? ? I; apply in_app_or in I as [I|[<-|[]]]; [eauto|]; simpl; intuition (subst; auto).

  Lemma tri_declare d : (forall x h n v, In x (args d) -> rcreate m h n x = Ok v -> P v) -> tri (rdeclare m d) (fun _ => True).
  Proof.
    intros created. destruct d; cbn [rdeclare].
    - intros s s' r E A0. unfold radd_network in E. destruct (dmem net (rst_networks s)); injection E as <- <-; (split; [|auto]); [assumption|].
      apply set_nets; [assumption|]. intros k x I. apply in_dset in I as [->|I]; [intros ? ? []|].
      exact (proj1 (proj1 (all_data_parts s) A0) _ _ I).
    - apply tri_bind with (R := net_data); [apply tri_nodes|]. intros ns N. destruct (dmem nd ns).
      + intros s s' r E A0. injection E as <- <-. auto.
      + intros s s' r E A0. injection E as <- <-. split; [|auto]. apply put_node; try assumption.
        repeat split; simpl; intros; tauto.
    - apply tri_bind with (R := net_data); [apply tri_nodes|]. intros ns N. grd. grd.
      apply tri_bind with (R := node_data); [apply tri_lift; intros n; now apply look_node|]. intros n D. grd.
      made created. intros q Q. grd. made created. intros c C. apply tri_upd_node. intros k (A1 & A2 & A3 & A4). repeat split; cbn [rpush_link rn_cons rn_prods rn_stors rn_links]; try assumption. pushed.
    - apply tri_bind with (R := node_data); [apply tri_node|]. intros n D. grd.
      made created. intros q Q. grd. made created. intros c C. apply tri_upd_node. intros k (A1 & A2 & A3 & A4). repeat split; cbn [rpush_cons rn_cons rn_prods rn_stors rn_links]; try assumption. pushed.
    - apply tri_bind with (R := node_data); [apply tri_node|]. intros n D. grd.
      made created. intros q Q. grd. made created. intros c C. apply tri_upd_node. intros k (A1 & A2 & A3 & A4). repeat split; cbn [rpush_prod rn_cons rn_prods rn_stors rn_links]; try assumption. pushed.
    - apply tri_bind with (R := node_data); [apply tri_node|]. intros n D. grd.
      made created. intros a X1. made created. intros b X2. grd. made created. intros c X3. grd. made created. intros e X4. grd. made created. intros x X5.
      apply tri_upd_node. intros k (A1 & A2 & A3 & A4). repeat split; cbn [rpush_stor rn_cons rn_prods rn_stors rn_links]; try assumption. pushed.
    - apply tri_bind with (R := fun _ => True); [apply tri_add_converter|]. intros _ _.
      apply tri_bind with (R := conv_data); [apply tri_conv|]. intros v D. grd.
      apply tri_bind with (R := fun _ => True). { intros s s' r E A0. injection E as <- <-. auto. } intros s0 _. grd.
      apply tri_bind with (R := fun _ => True); [apply tri_upd_conv; intros n A0; exact A0|]. intros _ _.
      apply tri_bind with (R := fun _ => True); [apply tri_upd_conv; intros n A0; exact A0|]. intros _ _.
      made created. intros c C. apply tri_bind with (R := fun _ => True).
      { apply tri_upd_conv. intros n [A1 A2]. split; [exact A1|]. simpl. intros w [[= <-]|W]; auto. }
      intros _ _. made created. intros x X. apply tri_upd_conv. intros n [A1 A2]. split; [exact A1|]. simpl. intros w [W|[= <-]]; auto.
    - apply tri_bind with (R := fun _ => True); [apply tri_add_converter|]. intros _ _.
      apply tri_bind with (R := conv_data); [apply tri_conv|]. intros v D. grd. made created. intros r R.
      apply tri_upd_conv. intros n [A1 A2]. split; [|exact A2]. simpl. intros k w I. apply in_dset in I as [->|I]; eauto.
  Qed.
End Kept.

Lemma arr_given h n x a v p : rcreate_arr h n x a = Ok v -> in_hand p v -> a = Given p.
Proof.
  unfold rcreate_arr. destruct (list_eqb _ _ [h]); [intros [= <-]; auto|]. destruct (list_eqb _ _ [n; 1]); [intros [= <-]; auto|].
  destruct (list_eqb _ _ [n; h]); [intros [= <-]; auto|]. destruct (shape x); discriminate.
Qed.
Lemma json_given h n j v p : rcreate_json h n j = Ok v -> ~ in_hand p v.
Proof.
  destruct j; try discriminate; simpl.
  - intros [= <-]. auto.
  - match goal with |- context [rbind ?x _] => destruct x as [a|e] end; simpl; [|discriminate]. intros E I. apply arr_given with (1 := E) in I. discriminate.
Qed.
Lemma given_passed m h n x v p : rcreate m h n x = Ok v -> in_hand p v -> passes p x.
Proof.
  destruct x; cbn [rcreate passes].
  - destruct j; try (intros E I; exact (json_given _ _ _ _ _ E I)). destruct (dget _ _); [|discriminate]. intros E I. exact (json_given _ _ _ _ _ E I).
  - intros E I. apply arr_given with (1 := E) in I. discriminate.
  - intros E I. apply arr_given with (1 := E) in I. now injection I.
  - now intros [= <-].
  - discriminate.
Qed.

Theorem C105_held : forall m h n version es p,
  holds_array (snd (session (m, rnew h n version) es)) p -> passed es p.
Proof.
  intros m h n version es p.
  assert (G : forall st, (forall v, datum (snd st) v -> in_hand p v -> passed es p) -> forall l, incl l es ->
              forall v, datum (snd (session st l)) v -> in_hand p v -> passed es p).
  { intros st H l. revert st H. induction l as [|e l IH]; intros st H L; [exact H|]. apply (IH (happen st e)); [|intros x X; apply L; now right].
    destruct e as [d|q d]; cbn [happen snd]; [|exact H]. destruct (rdeclare (fst st) d (snd st)) as [s' r] eqn:E. cbn [fst].
    apply (tri_declare (fst st) (fun v => in_hand p v -> passed es p) d) with (2 := E); [|exact H].
    intros x h' n' v X C I. exists d, x. repeat split; [apply L; now left | assumption | eapply given_passed; eauto]. }
  intros (v & D & I). apply (G (m, rnew h n version)) with (l := es) (v := v); auto; [|apply incl_refl].
  cbn [snd]. intros w Dw. inversion Dw; simpl in *; contradiction.
Qed.

(** ** Writing after declaring *)
Lemma writes_other es : (forall d, ~ In (Told d) es) -> forall st p, ~ written es p -> fst (session st es) p = fst st p.
Proof.
  induction es as [|e es IH]; intros T st p W; [reflexivity|]. unfold session in *. cbn [fold_left]. rewrite IH.
  - destruct e as [d|q d]; cbn [happen fst]; [reflexivity|]. unfold write. destruct (Nat.eqb p q) eqn:E; [|reflexivity].
    apply Nat.eqb_eq in E. subst. exfalso. apply W. exists d. now left.
  - intros d I. apply (T d). now right.
  - intros [d I]. apply W. exists d. now right.
Qed.
Lemma writes_study es : (forall d, ~ In (Told d) es) -> forall st, snd (session st es) = snd st.
Proof.
  induction es as [|e es IH]; intros T st; [reflexivity|]. unfold session in *. cbn [fold_left]. rewrite IH; [|intros d I; apply (T d); now right].
  destruct e as [d|q d]; [|reflexivity]. exfalso. apply (T d). now left.
Qed.

Theorem C105_kept_partial : forall m h n version es es',
  (forall d, ~ In (Told d) es') -> (forall p, written es' p -> ~ passed es p) ->
  let st := session (m, rnew h n version) es in
  rd_study (fst (session st es')) (snd (session st es')) = rd_study (fst st) (snd st).
Proof.
  intros m h n version es es' T W st. rewrite (writes_study es' T). apply C105_exact. intros p H.
  apply (writes_other es' T). intros Wp. exact (W p Wp (C105_held _ _ _ _ _ _ H)).
Qed.

Theorem C105_copied : forall m h n version es, (forall p, ~ passed es p) ->
  forall m', rd_study m' (snd (session (m, rnew h n version) es)) = rd_study m (snd (session (m, rnew h n version) es)).
Proof. intros m h n version es N m'. apply C105_exact. intros p H. destruct (N p). exact (C105_held _ _ _ _ _ _ H). Qed.

Lemma create_shape m m' h n x : same_shapes m m' -> rcreate m' h n x = rcreate m h n x.
Proof. intros S. destruct x; try reflexivity. unfold rcreate, rcreate_arr. now rewrite S. Qed.

Ltac closed := solve [intros; reflexivity | let X := fresh in intros X; discriminate X].
Ltac cases S := repeat (cbv beta iota; cbn [fst snd]; try closed; rewrite ?(create_shape _ _ _ _ _ S);
  match goal with |- context [match ?x with _ => _ end] =>
    lazymatch x with context [match _ with _ => _ end] => fail | _ => first [match goal with H : x = _ |- _ => rewrite H end | destruct x eqn:?] end end); cbn [fst snd]; try closed.

Lemma same_accepted m m' d s : same_shapes m m' -> snd (rdeclare m' d s) = snd (rdeclare m d s) -> fst (rdeclare m' d s) = fst (rdeclare m d s).
Proof.
  intros S. destruct d; cbn [rdeclare]; try reflexivity.
  - unfold radd_link, rmk, rupd_node, rnodes_of, sguard, sret, sraise, slift, sbind. cases S.
  - unfold radd_consumption, rnode_of, rmk, rupd_node, rnodes_of, sguard, sret, sraise, slift, sbind. cases S.
  - unfold radd_production, rnode_of, rmk, rupd_node, rnodes_of, sguard, sret, sraise, slift, sbind. cases S.
  - unfold radd_storage, rnode_of, rmk, rupd_node, rnodes_of, sguard, sret, sraise, slift, sbind. cases S.
  - unfold radd_converter, rset_converter_dest, rupd_conv, rconv_of, rmk, sguard, sret, sraise, slift, sget, sbind. cases S.
  - unfold radd_converter, radd_converter_src, rupd_conv, rconv_of, rmk, sguard, sret, sraise, slift, sget, sbind. cases S.
Qed.

Theorem C105_late : forall m m' ds s, same_shapes m m' ->
  outcomes (contents m' ds) (rd_study m' s) = outcomes (contents m ds) (rd_study m s) ->
  rd_study m' (snd (session (m, s) (map Told ds))) = build_all (contents m' ds) (rd_study m' s).
Proof.
  intros m m' ds s S. revert s. induction ds as [|d ds IH]; intros s; [reflexivity|].
  unfold contents. cbn [map outcomes]. rewrite (sim_declare m' d s), (sim_declare m d s). intros E. injection E as E1 E2.
  assert (X : snd (rdeclare m' d s) = snd (rdeclare m d s)).
  { destruct (snd (rdeclare m' d s)) as [[]|], (snd (rdeclare m d s)) as [[]|]; simpl in E1; congruence. }
  pose proof (same_accepted m m' d s S X) as Y. rewrite Y in E2.
  unfold session, build_all in *. cbn [map fold_left happen fst snd]. rewrite (IH _ E2). unfold contents. f_equal.
  rewrite (sim_declare m' d s), Y. reflexivity.
Qed.

(** ** A production of ten in each of two hours, given as an array *)
Definition sh_m : memory := fun p => match p with O => ND [2] [10%Q; 10%Q] | _ => ND [2] [3%Q; 4%Q] end.
Definition sh_ds : list (decl rarg) :=
  [DNetwork "el"; DNode "el" "a"; DProd "el" "a" "coal" (RJson (JNum 5)) (RArr 0);
   DCons "el" "a" "load" (RJson (JNum 100)) (RJson (JList [JNum 6; JNum 8]))]%string.
Definition sh_st := session (sh_m, rnew 2 1 None) (map Told sh_ds).

(** What was accepted is not what the study tells after the caller has gone on using the array: it
    tells a negative production, which would have been refused. *)
Theorem C105_kept_refuted : exists m ds p data,
  outcomes (contents m ds) (new_study 2 1 None) = repeat (Ok tt) (length ds) /\
  let st := session (m, rnew 2 1 None) (map Told ds ++ [Write p data]) in
  rd_study (fst st) (snd st) <> build_all (contents m ds) (new_study 2 1 None) /\
  (exists n x, node_at (rd_study (fst st) (snd st)) "el" "a" = Some n /\ In x (n_prods n) /\
     forall q, In q (SpecStudy.entries (p_qty x)) -> (q < 0)%Q) /\
  exists e, In (Err e) (outcomes (contents (fst st) ds) (new_study 2 1 None)).
Proof.
  exists sh_m, sh_ds, 0, [(-5)%Q; (-5)%Q]. repeat split.
  - vm_compute. discriminate.
  - eexists. eexists. split; [vm_compute; reflexivity|]. split; [left; reflexivity|]. vm_compute. intros q [<-|[<-|[]]]; reflexivity.
  - exists ValueError. vm_compute. tauto.
Qed.

(** The arrays of the caller: as they were last written, whatever is declared. *)
Theorem C105_arrays : forall m s es p,
  (~ written es p -> fst (session (m, s) es) p = m p) /\
  (forall es1 d es2, es = es1 ++ Write p d :: es2 -> ~ written es2 p -> fst (session (m, s) es) p = ND (shape (m p)) d).
Proof.
  assert (K : forall es st p, shape (fst (session st es) p) = shape (fst st p)).
  { induction es as [| e es IH]; intros st p; [reflexivity |]. unfold session in *. cbn [fold_left]. rewrite IH. destruct e as [d | q d]; cbn [happen fst]; [reflexivity |].
    unfold write. destruct (Nat.eqb p q) eqn:E; [apply Nat.eqb_eq in E; subst; reflexivity | reflexivity]. }
  assert (W : forall es st p, ~ written es p -> fst (session st es) p = fst st p).
  { induction es as [| e es IH]; intros st p N; [reflexivity |]. unfold session in *. cbn [fold_left].
    rewrite IH by (intros (d & I); apply N; exists d; now right). destruct e as [d | q d]; cbn [happen fst]; [reflexivity |].
    unfold write. destruct (Nat.eqb p q) eqn:E; [| reflexivity]. apply Nat.eqb_eq in E. subst q. exfalso. apply N. exists d. now left. }
  intros m s es p. split; [apply W |]. intros es1 d es2 -> N. unfold session. rewrite fold_left_app. cbn [fold_left].
  change (fold_left happen es2 (happen (fold_left happen es1 (m, s)) (Write p d))) with (session (happen (session (m, s) es1) (Write p d)) es2).
  rewrite W by exact N. cbn [happen fst]. unfold write. rewrite Nat.eqb_refl. now rewrite K.
Qed.

(** Other numbers written into the array are as other numbers given; the list is copied, and the
    array that was not given may be written. *)
Example C105_late_example :
  outcomes (contents sh_m sh_ds) (new_study 2 1 None) = repeat (Ok tt) 4 /\
  rd_study (write sh_m 0 [7%Q; 2%Q]) (snd sh_st) = build_all (contents (write sh_m 0 [7%Q; 2%Q]) sh_ds) (new_study 2 1 None) /\
  rd_study (write sh_m 0 [7%Q; 2%Q]) (snd sh_st) <> rd_study sh_m (snd sh_st) /\
  holds_array (snd sh_st) 0 /\ ~ holds_array (snd sh_st) 1 /\
  rd_study (write sh_m 1 [0%Q; 0%Q]) (snd sh_st) = rd_study sh_m (snd sh_st).
Proof.
  assert (P : forall p, passed (map Told sh_ds) p -> p = 0).
  { intros p (d & x & I & X & Y). simpl in I. repeat (destruct I as [[= <-]|I]; [simpl in X; repeat (destruct X as [<-|X]; [simpl in Y; congruence || contradiction|]); contradiction|]). contradiction. }
  split; [vm_compute; reflexivity|]. split; [|split; [vm_compute; discriminate|]]; [|split; [|split]].
  - apply (C105_late sh_m (write sh_m 0 [7%Q; 2%Q]) sh_ds (rnew 2 1 None)).
    + intros p. unfold write. destruct (Nat.eqb p 0) eqn:E; [apply Nat.eqb_eq in E; now subst | reflexivity].
    + vm_compute. reflexivity.
  - eexists. split; [eapply D_prod|]; [left; reflexivity|left; reflexivity|left; reflexivity|right; left; reflexivity|]. reflexivity.
  - intros H. apply C105_held in H. apply P in H. discriminate.
  - apply C105_exact. intros p H. apply C105_held in H. apply P in H. now subst.
Qed.

Print Assumptions C105_as_values.
Print Assumptions C105_exact.
Print Assumptions C105_held.
Print Assumptions C105_kept_partial.
Print Assumptions C105_copied.
Print Assumptions C105_late.
Print Assumptions C105_arrays.
Print Assumptions C105_kept_refuted.
Print Assumptions C105_late_example.
