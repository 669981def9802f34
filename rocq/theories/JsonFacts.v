(** Facts about [Json.v]. *)
From Coq Require Import String Ascii List ZArith QArith Bool Arith Lia.
From Verif Require Import Base BaseFacts Numeric Study Fluent Output Json SpecNumeric SpecStudy SpecJson
  NumericFacts StudyFacts FluentFacts.
Import ListNotations.
Open Scope nat_scope.
Open Scope string_scope.
Open Scope list_scope.

(** ** Text keys *)
Fixpoint has_cc (s : string) : bool :=
  match s with
  | String c r => match r with
                  | String c' _ => (Ascii.eqb c ":" && Ascii.eqb c' ":") || has_cc r
                  | EmptyString => false
                  end
  | EmptyString => false
  end.

Lemma has_cc_spec s : has_cc s = true <-> contains_cc s.
Proof.
  split.
  - induction s as [|c r IH]; simpl; [discriminate|]. destruct r as [|c' r']; [discriminate|].
    intros H. apply orb_true_iff in H as [H|H].
    + apply andb_true_iff in H as [A B]. apply Ascii.eqb_eq in A, B. subst.
      exists "", r'. reflexivity.
    + destruct (IH H) as (p & q & E). exists (String c p), q. simpl. now rewrite E.
  - intros (p & q & ->). induction p as [|c p IH]; simpl; auto.
    destruct (p ++ String ":" (String ":" q))%string eqn:E.
    + destruct p; discriminate.
    + change (p ++ "::" ++ q)%string with (p ++ String ":" (String ":" q))%string in IH.
      rewrite E in IH. rewrite IH. apply orb_true_r.
Qed.

Lemma ncc s : ~ contains_cc s <-> has_cc s = false.
Proof. rewrite <- has_cc_spec. destruct (has_cc s); intuition congruence. Qed.

Fixpoint ends_c (s : string) : bool :=
  match s with
  | EmptyString => false
  | String c r => match r with EmptyString => Ascii.eqb c ":" | _ => ends_c r end
  end.

Lemma ends_c_spec s : ends_c s = true <-> ends_colon s.
Proof.
  split.
  - induction s as [|c r IH]; simpl; [discriminate|]. destruct r as [|c' r'].
    + intros H. apply Ascii.eqb_eq in H. subst. exists "". reflexivity.
    + intros H. destruct (IH H) as (p & E). exists (String c p). simpl. now rewrite E.
  - intros (p & ->). induction p as [|c p IH]; auto. simpl.
    destruct (p ++ ":")%string eqn:E; auto. destruct p; discriminate.
Qed.

Lemma nec s : ~ ends_colon s <-> ends_c s = false.
Proof. rewrite <- ends_c_spec. destruct (ends_c s); intuition congruence. Qed.

Lemma split_none s : has_cc s = false -> split_cc_ s = (s, []).
Proof.
  induction s as [|c r IH]; auto. destruct r as [|c' r']; auto.
  intros H. change (has_cc (String c (String c' r'))) with
    ((Ascii.eqb c ":" && Ascii.eqb c' ":") || has_cc (String c' r')) in H.
  apply orb_false_iff in H as [A B].
  change (split_cc_ (String c (String c' r'))) with
    (if Ascii.eqb c ":" && Ascii.eqb c' ":"
     then let (p, ps) := split_cc_ r' in ("", p :: ps)
     else let (p, ps) := split_cc_ (String c' r') in (String c p, ps)).
  rewrite A, (IH B). reflexivity.
Qed.

Lemma split_app a b : has_cc a = false -> ends_c a = false ->
  split_cc_ (a ++ "::" ++ b) = (a, split_cc b).
Proof.
  induction a as [|c r IH]; intros H E.
  - simpl. unfold split_cc. destruct (split_cc_ b); reflexivity.
  - destruct r as [|c' r'].
    + simpl in E. change (String c "" ++ "::" ++ b)%string with (String c (String ":" (String ":" b))).
      change (split_cc_ (String c (String ":" (String ":" b)))) with
        (if Ascii.eqb c ":" && Ascii.eqb ":" ":"
         then let (p, ps) := split_cc_ (String ":" b) in ("", p :: ps)
         else let (p, ps) := split_cc_ ("" ++ "::" ++ b)%string in (String c p, ps)).
      rewrite E. simpl andb. cbv iota. rewrite IH by auto. reflexivity.
    + change (has_cc (String c (String c' r'))) with
        ((Ascii.eqb c ":" && Ascii.eqb c' ":") || has_cc (String c' r')) in H.
      apply orb_false_iff in H as [A B].
      change (ends_c (String c (String c' r'))) with (ends_c (String c' r')) in E.
      change (String c (String c' r') ++ "::" ++ b)%string with (String c (String c' (r' ++ "::" ++ b))).
      change (split_cc_ (String c (String c' (r' ++ "::" ++ b)))) with
        (if Ascii.eqb c ":" && Ascii.eqb c' ":"
         then let (p, ps) := split_cc_ (r' ++ "::" ++ b)%string in ("", p :: ps)
         else let (p, ps) := split_cc_ (String c' r' ++ "::" ++ b)%string in (String c p, ps)).
      rewrite A, (IH B E). reflexivity.
Qed.

Lemma string_ind2 (P : string -> Prop) :
  P "" -> (forall c, P (String c "")) ->
  (forall c c' r, P r -> P (String c' r) -> P (String c (String c' r))) -> forall s, P s.
Proof.
  intros H0 H1 H2 s. assert (G : P s /\ forall c, P (String c s)); [|tauto].
  induction s as [|c r [IH1 IH2]]; split; auto.
Qed.

Lemma split_pieces s : let (p, ps) := split_cc_ s in
  has_cc p = false /\ Forall (fun x => has_cc x = false) ps /\
  match p with String c _ => exists r, s = String c r | EmptyString => True end.
Proof.
  induction s as [|c|c c' r IHr IHs] using string_ind2; simpl split_cc_.
  - split; [reflexivity|]. split; [constructor|exact I].
  - split; [reflexivity|]. split; [constructor|]. eauto.
  - destruct (Ascii.eqb c ":" && Ascii.eqb c' ":") eqn:E.
    + destruct (split_cc_ r) as [p ps]. destruct IHr as (A & B & _). auto.
    + match goal with |- context [let (p, ps) := ?m in _] => change m with (split_cc_ (String c' r)) end.
      destruct (split_cc_ (String c' r)) as [p ps]. destruct IHs as (A & B & C).
      split; [|split; eauto]. destruct p as [|d p']; auto.
      destruct C as [r' C]. inversion C; subst d.
      change (has_cc (String c (String c' p'))) with
        ((Ascii.eqb c ":" && Ascii.eqb c' ":") || has_cc (String c' p')).
      now rewrite E, A.
Qed.

Lemma append_assoc (a b c : string) : ((a ++ b) ++ c = a ++ (b ++ c))%string.
Proof. induction a; simpl; congruence. Qed.

Lemma append_length (a b : string) : String.length (a ++ b)%string = String.length a + String.length b.
Proof. induction a; simpl; auto. Qed.

Lemma has_cc_app_l p q : has_cc (p ++ q) = false -> has_cc p = false.
Proof.
  rewrite <- !ncc. intros H (x & y & ->). apply H. exists x, (y ++ q)%string.
  now rewrite !append_assoc.
Qed.

Lemma key_of_join k : split_cc (join_cc k) = [fst k; snd k] <-> plain_key k.
Proof.
  destruct k as [a b]. unfold join_cc, plain_key; simpl fst; simpl snd. rewrite !ncc, nec. split.
  - intros H.
    pose proof (split_pieces (a ++ "::" ++ b)) as SP. unfold split_cc in H.
    destruct (split_cc_ (a ++ "::" ++ b)%string) as [p ps] eqn:E. inversion H; subst.
    destruct SP as (A & B & _). inversion B; subst. repeat split; auto.
    destruct (ends_c a) eqn:EC; auto. exfalso.
    apply ends_c_spec in EC as [p ->].
    rewrite append_assoc in E.
    assert (NE : ends_c p = false).
    { apply nec. intros [x ->]. rewrite append_assoc in A. apply ncc in A. apply A.
      exists x, "". reflexivity. }
    change (":" ++ "::" ++ b)%string with ("::" ++ (":" ++ b))%string in E.
    rewrite split_app in E; auto.
    + inversion E. apply (f_equal String.length) in H1. rewrite append_length in H1. simpl in H1. lia.
    + eapply has_cc_app_l; eauto.
  - intros (A & E & B). unfold split_cc at 1. rewrite split_app by auto.
    unfold split_cc. now rewrite split_none.
Qed.

Lemma key_of_ok k : plain_key k -> key_of (join_cc k) = Ok k.
Proof. intros P. unfold key_of. rewrite (proj2 (key_of_join k) P). now destruct k. Qed.

Lemma join_cc_inj k k' : plain_key k -> plain_key k' -> join_cc k = join_cc k' -> k = k'.
Proof.
  intros P P' E. apply key_of_join in P. apply key_of_join in P'. rewrite E, P' in P.
  inversion P. destruct k, k'; simpl in *; congruence.
Qed.

(** ** Trees *)
Lemma as_nat_jnat n : as_nat (jnat n) = Ok n.
Proof.
  unfold as_nat, jnat, qnat. simpl. replace (0 <=? Z.of_nat n)%Z with true by (symmetry; apply Z.leb_le; lia).
  simpl. now rewrite Nat2Z.id.
Qed.

Lemma mapJ_ok {A} (m : ST json A) (f : A -> json) (g : A -> json) l :
  (forall x, In x l -> m (f x) = (g x, Ok x)) -> mapJ m (map f l) = (map g l, Ok l).
Proof.
  induction l as [|x r IH]; simpl; intros H; auto.
  rewrite H by auto. rewrite IH by auto. reflexivity.
Qed.

Lemma each_list_ok {A} (m : ST json A) (f g : A -> json) l :
  (forall x, In x l -> m (f x) = (g x, Ok x)) ->
  each_list m (JList (map f l)) = (JList (map g l), Ok l).
Proof. intros H. unfold each_list. now rewrite (mapJ_ok m f g). Qed.

Lemma focus_ok {A} k (m : ST json A) d c c' r : dget k d = Some c -> m c = (c', r) ->
  focus k m (JObj d) = (JObj (dset k c' d), r).
Proof. intros G E. unfold focus, jfield, dlook. rewrite G, E. reflexivity. Qed.

Lemma dvalues_dmap {V W} (f : V -> W) (d : dict string V) : dvalues (dmap f d) = map f (dvalues d).
Proof. unfold dvalues, dmap. rewrite !map_map. auto. Qed.

Lemma combine_keys_values {V} (d : dict string V) : combine (dkeys d) (dvalues d) = d.
Proof. induction d as [|[k v] r IH]; simpl; congruence. Qed.

Lemma combine_keys_map {V W} (f : V -> W) (d : dict string V) : combine (dkeys d) (map f (dvalues d)) = dmap f d.
Proof. induction d as [|[k v] r IH]; simpl; congruence. Qed.

Lemma each_obj_ok {A} (m : ST json A) (f g : A -> json) (d : dict string A) :
  (forall k x, In (k, x) d -> m (f x) = (g x, Ok x)) ->
  each_obj m (JObj (dmap f d)) = (JObj (dmap g d), Ok d).
Proof.
  intros H. unfold each_obj. rewrite dvalues_dmap, (mapJ_ok m f g).
  - simpl. rewrite dkeys_dmap, combine_keys_map, combine_keys_values. auto.
  - intros x Hx. unfold dvalues in Hx. apply in_map_iff in Hx as ([k y] & E & I). simpl in E; subst. eauto.
Qed.

(** ** Values *)
Definition nv_canon (h n : nat) (v : numval) : Prop :=
  match v with
  | Scalar _ h' n' => h' = h /\ n' = n
  | Matrix a _ _ | Row a _ _ | Column a _ _ => create_arr h n a = Ok v /\ nd_wf a
  end.

Lemma create_arr_canon h n a v : create_arr h n a = Ok v -> nd_wf a -> nv_canon h n v.
Proof.
  intros E W. pose proof E as E0. unfold create_arr in E.
  destruct (list_eqb Nat.eqb (shape a) [h]); [inversion E; subst; simpl; auto|].
  destruct (list_eqb Nat.eqb (shape a) [n; 1]); [inversion E; subst; simpl; auto|].
  destruct (list_eqb Nat.eqb (shape a) [n; h]); [inversion E; subst; simpl; auto|].
  destruct (shape a); discriminate.
Qed.

Lemma create_json_canon h n j v : create_json h n j = Ok v -> nv_canon h n v.
Proof.
  destruct j; simpl; intros E; try discriminate.
  - inversion E; subst. simpl; auto.
  - match type of E with rbind ?m _ = _ => destruct m as [a|] eqn:A end; simpl in E; try discriminate.
    eapply create_arr_canon; eauto. eapply (np_array_wf (JList l)). exact A.
Qed.

Lemma create_canon h n x v : create h n x = Ok v -> plain_arg x -> nv_canon h n v.
Proof.
  intros E [R S]. destruct x as [j | a | a | w | ]; simpl in E.
  - destruct j; try (eapply create_json_canon; eauto; fail).
    destruct (dget "value" d); [eapply create_json_canon; eauto | discriminate].
  - eapply create_arr_canon; eauto.
  - eapply create_arr_canon; eauto.
  - exfalso; eapply R; eauto.
  - discriminate.
Qed.

Lemma create_arr_shape h n a v : create_arr h n a = Ok v -> 0 < h -> 0 < n -> Forall (fun k => 0 < k) (shape a).
Proof.
  intros E H N. unfold create_arr in E.
  destruct (list_eqb Nat.eqb (shape a) [h]) eqn:E1; [apply list_eqb_nat in E1; rewrite E1; auto|].
  destruct (list_eqb Nat.eqb (shape a) [n; 1]) eqn:E2; [apply list_eqb_nat in E2; rewrite E2; auto|].
  destruct (list_eqb Nat.eqb (shape a) [n; h]) eqn:E3; [apply list_eqb_nat in E3; rewrite E3; auto|].
  destruct (shape a); discriminate.
Qed.

Lemma create_tolist h n a v : create_arr h n a = Ok v -> nd_wf a -> 0 < h -> 0 < n ->
  create_json h n (nd_tolist a) = Ok v.
Proof.
  intros E W H N. pose proof (nd_array_tolist a W (create_arr_shape _ _ _ _ E H N)) as T.
  unfold nd_tolist in *. destruct (shape a) as [|k s] eqn:S.
  - unfold create_arr in E. rewrite S in E. discriminate.
  - change (tolist (k :: s) (data a)) with
      (JList (map (fun i => tolist s (firstn (size_of s) (skipn (i * size_of s) (data a)))) (seq 0 k))) in *.
    unfold create_json. rewrite T. exact E.
Qed.

Lemma create_nv_to_json h n v : nv_canon h n v -> 0 < h -> 0 < n -> create h n (PJson (nv_to_json v)) = Ok v.
Proof.
  intros C H N. destruct v as [q h' n'|a h' n'|a h' n'|a h' n']; simpl in C.
  - destruct C; subst. reflexivity.
  - destruct C. cbn [create nv_to_json dget]. simpl. apply create_tolist; auto.
  - destruct C. cbn [create nv_to_json dget]. simpl. apply create_tolist; auto.
  - destruct C. cbn [create nv_to_json dget]. simpl. apply create_tolist; auto.
Qed.

(** ** Canonical studies *)
Record node_canon (h n : nat) (nd : node) : Prop := {
  nc_cons : forall c, In c (n_cons nd) -> nv_canon h n (c_cost c) /\ nv_canon h n (c_qty c);
  nc_prods : forall p, In p (n_prods nd) -> nv_canon h n (p_cost p) /\ nv_canon h n (p_qty p);
  nc_stors : forall s, In s (n_stors nd) -> nv_canon h n (s_capacity s) /\ nv_canon h n (s_flow_in s) /\
      nv_canon h n (s_flow_out s) /\ nv_canon h n (s_cost s) /\ nv_canon h n (s_eff s);
  nc_links : forall l, In l (n_links nd) -> nv_canon h n (l_qty l) /\ nv_canon h n (l_cost l)
}.

Definition onv_canon (h n : nat) (v : option numval) : Prop :=
  match v with Some x => nv_canon h n x | None => True end.

Record conv_canon (h n : nat) (v : converter) : Prop := {
  vc_src : forall k r, In (k, r) (v_src v) -> nv_canon h n r;
  vc_cost : onv_canon h n (v_cost v);
  vc_max : onv_canon h n (v_max v)
}.

Record study_canon (s : study) : Prop := {
  sc_node : forall net nd n, node_at s net nd = Some n -> node_canon (st_horizon s) (st_nb_scn s) n;
  sc_conv : forall name v, conv_at s name = Some v -> conv_canon (st_horizon s) (st_nb_scn s) v
}.

(** Decoding what was encoded. The tree left behind is [post_...]. *)
Section RoundTrip.
  Variables h n : nat.
  Hypothesis Hh : 0 < h.
  Hypothesis Hn : 0 < n.

  Local Ltac rd := unfold sbind, jcreate, jread, jwrite, slift, sret, kwargs, jstr_opt, jstr, jnum; cbn.
  Local Notation rt := (fun v (H : nv_canon h n v) => create_nv_to_json h n v H Hh Hn).

  Lemma jcreate_ok k d v : dget k d = Some (nv_to_json v) -> nv_canon h n v ->
    jcreate h n k (JObj d) = (JObj (dset k JPy d), Ok v).
  Proof.
    intros G C. unfold jcreate, jread, jfield, dlook, sbind, slift, jwrite, sret. rewrite G.
    rewrite (create_nv_to_json h n v C Hh Hn). reflexivity.
  Qed.

  Definition post_cons (c : consumption) : json :=
    JObj [("cost", JPy); ("quantity", JPy); ("name", JStr (c_name c))].
  Lemma cons_rt c : nv_canon h n (c_cost c) -> nv_canon h n (c_qty c) ->
    cons_from_json h n (cons_to_json c) = (post_cons c, Ok c).
  Proof.
    intros C Qc. unfold cons_from_json, cons_to_json.
    erewrite sbind_eq_ok by (apply (jcreate_ok "cost"); [reflexivity | exact C]). cbn [dset].
    erewrite sbind_eq_ok by (apply (jcreate_ok "quantity"); [reflexivity | exact Qc]).
    rd. destruct c; reflexivity.
  Qed.

  Definition post_prod (p : production) : json :=
    JObj [("name", JStr (p_name p)); ("cost", JPy); ("quantity", JPy)].
  Lemma prod_rt p : nv_canon h n (p_cost p) -> nv_canon h n (p_qty p) ->
    prod_from_json h n (prod_to_json p) = (post_prod p, Ok p).
  Proof.
    intros C Qc. unfold prod_from_json, prod_to_json.
    erewrite sbind_eq_ok by (apply (jcreate_ok "cost"); [reflexivity | exact C]).
    erewrite sbind_eq_ok by (apply (jcreate_ok "quantity"); [reflexivity | exact Qc]).
    rd. destruct p; reflexivity.
  Qed.

  Definition post_stor (s : storage) : json :=
    JObj [("name", JStr (s_name s)); ("capacity", JPy); ("flow_in", JPy); ("flow_out", JPy);
          ("cost", JPy); ("init_capacity", JNum (s_init s)); ("eff", JPy)].
  Lemma stor_rt s : nv_canon h n (s_capacity s) -> nv_canon h n (s_flow_in s) -> nv_canon h n (s_flow_out s) ->
    nv_canon h n (s_cost s) -> nv_canon h n (s_eff s) ->
    stor_from_json h n (stor_to_json s) = (post_stor s, Ok s).
  Proof.
    intros A B C D E. unfold stor_from_json, stor_to_json.
    erewrite sbind_eq_ok by (apply (jcreate_ok "cost"); [reflexivity | exact D]).
    erewrite sbind_eq_ok by (apply (jcreate_ok "capacity"); [reflexivity | exact A]).
    erewrite sbind_eq_ok by (apply (jcreate_ok "flow_in"); [reflexivity | exact B]).
    erewrite sbind_eq_ok by (apply (jcreate_ok "flow_out"); [reflexivity | exact C]).
    erewrite sbind_eq_ok by (apply (jcreate_ok "eff"); [reflexivity | exact E]).
    rd. destruct s; reflexivity.
  Qed.

  Definition post_link (l : link) : json :=
    JObj [("dest", JStr (l_dest l)); ("quantity", JPy); ("cost", JPy)].
  Lemma link_rt l : nv_canon h n (l_qty l) -> nv_canon h n (l_cost l) ->
    link_from_json h n (link_to_json l) = (post_link l, Ok l).
  Proof.
    intros A B. unfold link_from_json, link_to_json.
    erewrite sbind_eq_ok by (apply (jcreate_ok "cost"); [reflexivity | exact B]).
    erewrite sbind_eq_ok by (apply (jcreate_ok "quantity"); [reflexivity | exact A]).
    rd. destruct l; reflexivity.
  Qed.

  Lemma map_JPy {A B} (f : A -> B) l : map (fun _ => JPy) (map f l) = map (fun _ => JPy) l.
  Proof. apply map_map. Qed.

  Lemma jeach_ok {A} k (m : ST json A) (f g : A -> json) l d :
    dget k d = Some (JList (map f l)) ->
    (forall x, In x l -> m (f x) = (g x, Ok x)) ->
    jeach k m (JObj d) = (JObj (dset k (JList (map (fun _ => JPy) l)) d), Ok l).
  Proof.
    intros G H. unfold jeach, focus, jfield, dlook, sbind, sret, jwrite. rewrite G.
    rewrite (each_list_ok m f g l H). cbn [jset]. now rewrite dset_dset.
  Qed.

  Definition post_node (nd : node) : json :=
    JObj [("consumptions", JList (map (fun _ => JPy) (n_cons nd)));
          ("productions", JList (map (fun _ => JPy) (n_prods nd)));
          ("storages", JList (map (fun _ => JPy) (n_stors nd)));
          ("links", JList (map (fun _ => JPy) (n_links nd)))].
  Lemma node_rt nd : node_canon h n nd -> node_from_json h n (node_to_json nd) = (post_node nd, Ok nd).
  Proof.
    intros [A B C D]. unfold node_from_json, node_to_json.
    erewrite sbind_eq_ok by (apply (jeach_ok "consumptions" _ cons_to_json post_cons);
      [reflexivity | intros x I; destruct (A x I); now apply cons_rt]).
    erewrite sbind_eq_ok by (apply (jeach_ok "productions" _ prod_to_json post_prod);
      [reflexivity | intros x I; destruct (B x I); now apply prod_rt]).
    erewrite sbind_eq_ok by (apply (jeach_ok "storages" _ stor_to_json post_stor);
      [reflexivity | intros x I; destruct (C x I) as (? & ? & ? & ? & ?); now apply stor_rt]).
    erewrite sbind_eq_ok by (apply (jeach_ok "links" _ link_to_json post_link);
      [reflexivity | intros x I; destruct (D x I); now apply link_rt]).
    rd. destruct nd; reflexivity.
  Qed.

  Definition post_network (ns : network) : json := JObj [("nodes", JObj (dmap (fun _ => JPy) ns))].
  Lemma network_rt ns : (forall k nd, In (k, nd) ns -> node_canon h n nd) ->
    network_from_json h n (network_to_json ns) = (post_network ns, Ok ns).
  Proof.
    intros H. unfold network_from_json, network_to_json.
    erewrite sbind_eq_ok.
    2: { eapply (focus_ok "nodes"); [reflexivity|]. apply (each_obj_ok (node_from_json h n) node_to_json post_node ns).
         intros k x I. apply node_rt. eauto. }
    rd. reflexivity.
  Qed.

  Lemma mapM_ok_map {A B C} (f : B -> res C) (g : A -> B) (k : A -> C) l :
    (forall x, In x l -> f (g x) = Ok (k x)) -> mapM f (map g l) = Ok (map k l).
  Proof.
    induction l as [|x r IH]; simpl; intros H; auto. rewrite H by auto. simpl. rewrite IH by auto. auto.
  Qed.

  Definition post_conv (v : converter) : json :=
    JObj [("name", JStr (v_name v)); ("src_ratios", JPy); ("dest_network", JStr (v_dnet v));
          ("dest_node", JStr (v_dnode v)); ("cost", JPy); ("max", JPy)].

  Lemma join_keys_NoDup {V W} (f : V -> W) (d : dict (string * string) V) : NoDup (dkeys d) ->
    (forall k, In k (dkeys d) -> plain_key k) ->
    NoDup (map fst (map (fun kv => (join_cc (fst kv), f (snd kv))) d)).
  Proof.
    intros ND P. rewrite map_map. simpl.
    induction d as [|[k v] r IH]; simpl in *; [constructor|]. inversion ND; subst.
    constructor; auto. intros I. apply in_map_iff in I as ([k' v'] & E & I). simpl in E.
    apply join_cc_inj in E.
    - subst. apply H1. change k with (fst (k, v')). now apply in_map.
    - apply P. right. change k' with (fst (k', v')). now apply in_map.
    - apply P. auto.
  Qed.

  Lemma conv_rt v c m : conv_canon h n v -> v_cost v = Some c -> v_max v = Some m ->
    NoDup (dkeys (v_src v)) -> (forall k, In k (dkeys (v_src v)) -> plain_key k) ->
    conv_from_json h n (conv_to_json v) = (post_conv v, Ok v).
  Proof.
    intros [CS CC CM] EC EM ND P. rewrite EC in CC. rewrite EM in CM. simpl in CC, CM.
    unfold conv_from_json, conv_to_json. rewrite EC, EM. unfold onv_to_json.
    erewrite sbind_eq_ok by (apply (jcreate_ok "cost"); [reflexivity | exact CC]).
    erewrite sbind_eq_ok by (apply (jcreate_ok "max"); [reflexivity | exact CM]).
    rewrite dict_of_NoDup by now apply join_keys_NoDup.
    erewrite sbind_eq_ok by reflexivity.
    erewrite sbind_eq_ok.
    2: { unfold slift. rewrite (mapM_ok_map _ _ (fun kv => kv) (v_src v)).
         - rewrite map_id. reflexivity.
         - intros [k r] I. simpl fst; simpl snd. rewrite key_of_ok.
           + cbn [rbind]. rewrite (create_nv_to_json h n r); auto. eapply CS; eauto.
           + apply P. change k with (fst (k, r)). now apply in_map. }
    rd. rewrite dict_of_NoDup by auto. unfold post_conv. rewrite <- EC, <- EM. destruct v; reflexivity.
  Qed.
End RoundTrip.

Lemma In_node_at s net ns nd x : study_wf s -> In (net, ns) (st_networks s) -> In (nd, x) ns ->
  node_at s net nd = Some x.
Proof.
  intros W I J. pose proof (In_dget net ns (st_networks s) (wf_networks _ W) I) as G.
  unfold node_at. rewrite G. apply In_dget; auto. eapply (wf_nodes _ W); eauto.
Qed.

Lemma study_rt s : study_wf s -> study_canon s -> 0 < st_horizon s -> 0 < st_nb_scn s ->
  st_version s <> "" -> complete_converters s ->
  snd (study_from_json_ (study_to_json s)) = Ok s.
Proof.
  intros W C Hh Hn V CC. unfold study_from_json_, study_to_json.
  erewrite sbind_eq_ok by reflexivity.
  erewrite sbind_eq_ok by (unfold slift; rewrite as_nat_jnat; reflexivity).
  erewrite sbind_eq_ok by reflexivity.
  erewrite sbind_eq_ok by (unfold slift; rewrite as_nat_jnat; reflexivity).
  erewrite sbind_eq_ok by reflexivity.
  erewrite sbind_eq_ok by reflexivity.
  erewrite sbind_eq_ok.
  2: { eapply (focus_ok "networks"); [reflexivity|].
       apply (each_obj_ok (network_from_json (st_horizon s) (st_nb_scn s)) network_to_json post_network (st_networks s)).
       intros k ns I. apply network_rt; auto. intros nd x J. eapply (sc_node _ C).
         eapply In_node_at; eauto. }
  erewrite sbind_eq_ok.
  2: { eapply (focus_ok "converters"); [reflexivity|].
       apply (each_obj_ok (conv_from_json (st_horizon s) (st_nb_scn s)) conv_to_json post_conv (st_converters s)).
       intros k v I. assert (G : conv_at s k = Some v) by (apply In_dget; auto; apply (wf_convs _ W)).
         destruct (CC _ _ G) as (C1 & C2 & K). destruct (v_cost v) as [c|] eqn:E1; [|congruence].
         destruct (v_max v) as [m|] eqn:E2; [|congruence].
         eapply conv_rt; eauto. apply (sc_conv _ C _ _ G). apply (wf_conv _ W _ _ G). }
  unfold sret. cbn. apply String.eqb_neq in V. rewrite V. destruct s; reflexivity.
Qed.

(** ** Plain programs build canonical studies *)
Lemma canon_node_update s s' net nd n n' : study_canon s -> only_node s s' net nd -> node_at s net nd = Some n ->
  node_at s' net nd = Some n' -> node_canon (st_horizon s) (st_nb_scn s) n' -> study_canon s'.
Proof.
  intros [A B] O E E' C. destruct O as [K N OT CV (R1 & R2 & R3)]. constructor.
  - intros m d x H. rewrite R2, R3.
    destruct (string_dec m net) as [->|]; [destruct (string_dec d nd) as [->|]|].
    + congruence.
    + rewrite OT in H by congruence. eauto.
    + rewrite OT in H by congruence. eauto.
  - intros name v H. rewrite R2, R3. unfold conv_at in H. rewrite CV in H. eauto.
Qed.

Lemma canon_updn s net nd n f : study_canon s -> node_at s net nd = Some n ->
  node_canon (st_horizon s) (st_nb_scn s) (f n) -> study_canon (updn s net nd f).
Proof.
  intros C E CN. eapply canon_node_update; eauto; [apply updn_only | now apply updn_node].
Qed.

Lemma canon_updc s name f v : study_canon s -> conv_at s name = Some v ->
  conv_canon (st_horizon s) (st_nb_scn s) (f v) -> study_canon (updc s name f).
Proof.
  intros [A B] E C. pose proof (updc_only s name f) as [N O (R1 & R2 & R3)]. constructor.
  - intros m d x H. rewrite R2, R3. unfold node_at in H. rewrite N in H. eauto.
  - intros m x H. rewrite R2, R3. destruct (string_dec m name) as [->|NE].
    + rewrite (updc_conv _ _ _ _ E) in H. inversion H; subst; auto.
    + rewrite O in H by auto. eauto.
Qed.

Lemma canon_add_network s net : study_canon s -> study_canon (add_network_eff s net).
Proof.
  intros [A B]. unfold add_network_eff. destruct (dmem net (st_networks s)) eqn:E; [constructor; auto|].
  constructor; simpl; auto. intros m d x H. apply (A m d). unfold node_at in *; simpl in H.
  rewrite dget_app in H. destruct (dget m (st_networks s)); auto.
  simpl in H. destruct (String.eqb m net); simpl in H; discriminate.
Qed.

Lemma add_node_dims s net nd : st_horizon (add_node_eff s net nd) = st_horizon s /\
  st_nb_scn (add_node_eff s net nd) = st_nb_scn s /\ st_converters (add_node_eff s net nd) = st_converters s.
Proof.
  unfold add_node_eff. destruct (dget net (st_networks s)) as [ns|]; auto. destruct (dmem nd ns); auto.
Qed.

Lemma canon_add_node s net nd : study_canon s -> study_canon (add_node_eff s net nd).
Proof.
  intros [A B]. pose proof (add_node_dims s net nd) as (D1 & D2 & D3). constructor.
  - intros m d x. rewrite add_node_node, D1, D2. destruct (node_at s m d) eqn:E.
    + intros H; inversion H; subst; eauto.
    + destruct (dget net (st_networks s)); try discriminate.
      destruct (String.eqb m net && String.eqb d nd); try discriminate.
      intros H; inversion H; subst. constructor; simpl; tauto.
  - intros m v H. unfold conv_at in H. rewrite D3 in H. rewrite D1, D2. eauto.
Qed.

Lemma canon_add_converter s name : study_canon s -> study_canon (add_converter_eff s name).
Proof.
  intros [A B]. pose proof (add_converter_only s name) as [N O (R1 & R2 & R3)]. constructor.
  - intros m d x H. rewrite R2, R3. unfold node_at in H. rewrite N in H. eauto.
  - intros m v. rewrite add_converter_conv, R2, R3. destruct (conv_at s m) eqn:E.
    + intros H; inversion H; subst; eauto.
    + destruct (String.eqb m name); try discriminate. intros H; inversion H; subst.
      constructor; simpl; auto. tauto.
Qed.

(** Methods that keep canonical studies. *)
Definition ckeeps {A} (m : ST study A) : Prop := forall s s' r, m s = (s', r) -> study_canon s -> study_canon s'.

Lemma ckeeps_bind {A B} (m : ST study A) (k : A -> ST study B) :
  ckeeps m -> (forall a, ckeeps (k a)) -> ckeeps (sbind m k).
Proof.
  intros M K s s' r H C. unfold sbind in H. destruct (m s) as [s1 [a|e]] eqn:E.
  - eapply K; eauto.
  - inversion H; subst. eauto.
Qed.

Lemma add_link_ckeeps net src dest c q : plain_arg c -> plain_arg q -> ckeeps (add_link net src dest c q).
Proof.
  intros Pc Pq s s' [[]|e] H C.
  - apply add_link_ok in H as (n & vq & vc & N & D & F & Eq & _ & Ec & ->).
    eapply canon_updn; eauto. destruct C as [A _]. destruct (A _ _ _ N).
    constructor; simpl; auto. intros l. rewrite in_app_iff. simpl. intros [|[<-|[]]]; auto.
    simpl. split; eapply create_canon; eauto.
  - apply add_link_atomic in H; subst; auto.
Qed.
Lemma add_production_ckeeps net nd name c q : plain_arg c -> plain_arg q -> ckeeps (add_production net nd name c q).
Proof.
  intros Pc Pq s s' [[]|e] H C.
  - apply add_production_ok in H as (n & vq & vc & N & F & Eq & _ & Ec & ->).
    eapply canon_updn; eauto. destruct C as [A _]. destruct (A _ _ _ N).
    constructor; simpl; auto. intros l. rewrite in_app_iff. simpl. intros [|[<-|[]]]; auto.
    simpl. split; eapply create_canon; eauto.
  - apply add_production_atomic in H; subst; auto.
Qed.
Lemma add_consumption_ckeeps net nd name c q : plain_arg c -> plain_arg q -> ckeeps (add_consumption net nd name c q).
Proof.
  intros Pc Pq s s' [[]|e] H C.
  - apply add_consumption_ok in H as (n & vq & vc & N & F & Eq & _ & Ec & ->).
    eapply canon_updn; eauto. destruct C as [A _]. destruct (A _ _ _ N).
    constructor; simpl; auto. intros l. rewrite in_app_iff. simpl. intros [|[<-|[]]]; auto.
    simpl. split; eapply create_canon; eauto.
  - apply add_consumption_atomic in H; subst; auto.
Qed.
Lemma add_storage_ckeeps net nd name ca fi fo c i e :
  plain_arg ca -> plain_arg fi -> plain_arg fo -> plain_arg c -> plain_arg e ->
  ckeeps (add_storage net nd name ca fi fo c i e).
Proof.
  intros P1 P2 P3 P4 P5 s s' [[]|x] H C.
  - apply add_storage_ok in H as (n & vca & vfi & vfo & vc & ve & N & F & E1 & E2 & E3 & E4 & E5 & _ & _ & _ & _ & _ & _ & ->).
    eapply canon_updn; eauto. destruct C as [A _]. destruct (A _ _ _ N).
    constructor; simpl; auto. intros l. rewrite in_app_iff. simpl. intros [|[<-|[]]]; auto.
    simpl. repeat split; eapply create_canon; eauto.
  - apply add_storage_atomic in H; subst; auto.
Qed.
Lemma add_network_ckeeps net : ckeeps (add_network net).
Proof. intros s s' r H C. rewrite add_network_eq in H. inversion H; subst. now apply canon_add_network. Qed.
Lemma add_node_ckeeps net nd : ckeeps (add_node net nd).
Proof.
  intros s s' r H C. destruct (dget net (st_networks s)) eqn:E.
  - rewrite add_node_eq in H by (unfold has_network; congruence). inversion H; subst. now apply canon_add_node.
  - rewrite add_node_err in H by (unfold has_network; congruence). inversion H; subst. auto.
Qed.
Lemma add_converter_ckeeps name : ckeeps (add_converter name).
Proof. intros s s' r H C. rewrite add_converter_eq in H. inversion H; subst. now apply canon_add_converter. Qed.

Lemma In_dset {K V} `{EqB K} k k' v (w : V) d : In (k, w) (dset k' v d) -> (k = k' /\ w = v) \/ In (k, w) d.
Proof.
  induction d as [|[k1 v1] r IH]; simpl.
  - intros [E|[]]; inversion E; auto.
  - destruct (eqb k' k1) eqn:E; simpl.
    + intros [X|X]; auto. inversion X; subst. left. split; auto. symmetry. now apply eqb_eq.
    + intros [X|X]; auto. destruct (IH X); auto.
Qed.

Lemma add_converter_src_ckeeps name net nd r : plain_arg r -> ckeeps (add_converter_src name net nd r).
Proof.
  intros P s s' [[]|e] H C.
  - apply add_converter_src_ok in H as (v & vr & E & F & B & ->).
    eapply canon_updc; eauto. destruct C as [_ A]. destruct (A _ _ E). constructor; simpl; auto.
    intros k x I. apply In_dset in I as [[_ ->]|I]; eauto. eapply create_canon; eauto.
  - apply add_converter_src_atomic in H; subst; auto.
Qed.
Lemma set_converter_dest_ckeeps name net nd c m : plain_arg c -> plain_arg m ->
  ckeeps (set_converter_dest name net nd c m).
Proof.
  intros Pc Pm s s' r H C. apply set_converter_dest_state in H.
  destruct H as [[-> _] | (v & E & N & _ & H)]; auto. pose proof C as [_ A]. destruct (A _ _ E).
  destruct H as [(e & _ & ->) | [(e & vc & _ & Ec & ->) | (vc & vm & _ & Ec & Em & ->)]];
    (eapply canon_updc; eauto; constructor; simpl; eauto; eapply create_canon; eauto).
Qed.

Lemma onstudy_canon {A} (m : ST study A) fs : ckeeps m -> study_canon (f_study fs) ->
  study_canon (f_study (fst (onstudy m fs))).
Proof.
  intros K C. unfold onstudy. destruct (m (f_study fs)) as [s' r] eqn:E. simpl. eapply K; eauto.
Qed.

(** Computations on selectors that keep canonical studies. *)
Definition fkeeps {A} (m : ST fstate A) : Prop := forall fs, study_canon (f_study fs) -> study_canon (f_study (fst (m fs))).
Lemma fkeeps_bind {A B} (m : ST fstate A) (k : A -> ST fstate B) :
  fkeeps m -> (forall a, fkeeps (k a)) -> fkeeps (sbind m k).
Proof.
  intros M K fs C. specialize (M fs C). unfold sbind. destruct (m fs) as [fs1 [a|e]]; simpl in *; auto. now apply K.
Qed.
Lemma fkeeps_onstudy {A} (m : ST study A) : ckeeps m -> fkeeps (onstudy m).
Proof. intros K fs C. now apply onstudy_canon. Qed.
Lemma fkeeps_key a : fkeeps (key_network a).
Proof. intros fs C. now rewrite key_network_eq. Qed.
Lemma fkeeps_keyn a : fkeeps (key_node a).
Proof. intros fs C. now rewrite key_node_eq. Qed.
Lemma fkeeps_ret {A} (x : A) : fkeeps (sret x).
Proof. intros fs C; auto. Qed.
Lemma fkeeps_raise {A} e : fkeeps (@sraise _ A e).
Proof. intros fs C; auto. Qed.
Lemma fkeeps_newsel x : fkeeps (new_sel x).
Proof. intros fs C; auto. Qed.
Lemma fkeeps_setnode a x : fkeeps (set_node_key a x).
Proof. intros fs C; auto. Qed.
Global Hint Resolve fkeeps_bind fkeeps_onstudy fkeeps_key fkeeps_keyn fkeeps_ret fkeeps_raise fkeeps_newsel
  fkeeps_setnode add_link_ckeeps add_production_ckeeps add_consumption_ckeeps add_storage_ckeeps
  add_network_ckeeps add_node_ckeeps add_converter_ckeeps add_converter_src_ckeeps
  set_converter_dest_ckeeps ckeeps_bind : canon.

Lemma fl_call_canon h m : (forall x, In x (meth_args m) -> plain_arg x) -> fkeeps (fl_call h m).
Proof.
  intros P. destruct m; simpl in P; destruct h; cbn [fl_call];
    unfold fl_network, fl_node, fl_link, fl_converter, fl_consumption, fl_production, fl_storage, fl_to_converter, do_converter;
    repeat first [apply fkeeps_key | apply fkeeps_keyn | apply fkeeps_bind; [|intros]]; auto 10 with canon.
Qed.

Lemma step_canon w c : (forall x, In x (call_args c) -> plain_arg x) ->
  study_canon (w_study w) -> study_canon (w_study (fst (step w c))).
Proof.
  intros P C. unfold w_study in *.
  assert (PH : forall r, study_canon (f_study (fst r)) -> study_canon (f_study (w_fs (fst (push_handle w r))))).
  { intros [fs [h|e]]; auto. }
  destruct c; simpl in P; simpl step.
  - apply PH. assert (F : fkeeps (fl_network name)) by (unfold fl_network; auto with canon). now apply F.
  - simpl. apply onstudy_canon; auto. apply add_link_ckeeps; auto.
  - simpl. apply onstudy_canon; auto with canon.
  - simpl. apply onstudy_canon; auto with canon.
  - destruct (nth_error (w_handles w) i) as [h|]; auto. apply PH. now apply fl_call_canon.
Qed.

Lemma run_canon cs : forall w, plain_program cs -> study_canon (w_study w) -> study_canon (w_study (run w cs)).
Proof.
  induction cs as [|c cs IH]; simpl; intros w P C; auto.
  apply IH.
  - intros d x I J. eapply P; eauto. now right.
  - apply step_canon; auto. intros x I. eapply P; eauto. now left.
Qed.

Lemma start_canon h n v : study_canon (w_study (start h n v)).
Proof. constructor; simpl; discriminate. Qed.

Lemma run_dims h n v cs : let s := w_study (run (start h n v) cs) in
  st_horizon s = h /\ st_nb_scn s = n /\ st_version s = st_version (new_study h n v).
Proof.
  destruct (si_grows _ _ (run_ok cs (start h n v) (start_inv h n v))) as [_ _ _ (A & B & C)].
  simpl in *. auto.
Qed.

Lemma new_study_version h n v : st_version (new_study h n v) <> "".
Proof.
  unfold new_study; simpl. destruct v as [s|]; [|discriminate].
  destruct (String.eqb s "") eqn:E; [discriminate|]. now apply String.eqb_neq.
Qed.

(** ** Results *)
Lemma np_rt a : full_array a -> np_array (nd_tolist a) = Ok a.
Proof. intros [W P]. now apply nd_array_tolist. Qed.

Local Ltac ord := unfold sbind, jread, jwrite, slift, sret, kwargs, jstr_opt, jstr, jnum, jarr; cbn.

Lemma ocons_rt c : full_array (oc_qty c) -> ocons_from_json (ocons_to_json c) = (ocons_to_json c, Ok c).
Proof.
  intros F. unfold ocons_from_json, ocons_to_json. ord. rewrite np_rt by auto. destruct c; reflexivity.
Qed.
Lemma oprod_rt p : full_array (op_qty p) -> oprod_from_json (oprod_to_json p) = (oprod_to_json p, Ok p).
Proof.
  intros F. unfold oprod_from_json, oprod_to_json. ord. rewrite np_rt by auto. destruct p; reflexivity.
Qed.
Lemma ostor_rt s : full_array (os_capacity s) -> full_array (os_flow_in s) -> full_array (os_flow_out s) ->
  ostor_from_json (ostor_to_json s) = (ostor_to_json s, Ok s).
Proof.
  intros A B C. unfold ostor_from_json, ostor_to_json. ord.
  rewrite (np_rt (os_capacity s)), (np_rt (os_flow_in s)), (np_rt (os_flow_out s)) by auto. destruct s; reflexivity.
Qed.
Lemma olink_rt l : full_array (ol_qty l) -> olink_from_json (olink_to_json l) = (olink_to_json l, Ok l).
Proof.
  intros F. unfold olink_from_json, olink_to_json. ord. rewrite np_rt by auto. destruct l; reflexivity.
Qed.

Definition post_onode (nd : onode) : json :=
  JObj [("consumptions", JList (map (fun _ => JPy) (on_cons nd)));
        ("productions", JList (map (fun _ => JPy) (on_prods nd)));
        ("storages", JList (map (fun _ => JPy) (on_stors nd)));
        ("links", JList (map (fun _ => JPy) (on_links nd)))].

Lemma onode_rt nd : (forall a, In a (node_arrays nd) -> full_array a) ->
  onode_from_json (onode_to_json nd) = (post_onode nd, Ok nd).
Proof.
  intros F. unfold node_arrays in F. unfold onode_from_json, onode_to_json.
  erewrite sbind_eq_ok by (apply (jeach_ok "consumptions" _ ocons_to_json ocons_to_json);
    [reflexivity | intros x I; apply ocons_rt; apply F; rewrite !in_app_iff; left; now apply in_map]).
  erewrite sbind_eq_ok by (apply (jeach_ok "productions" _ oprod_to_json oprod_to_json);
    [reflexivity | intros x I; apply oprod_rt; apply F; rewrite !in_app_iff; right; left; now apply in_map]).
  erewrite sbind_eq_ok.
  2: { apply (jeach_ok "storages" _ ostor_to_json ostor_to_json); [reflexivity|].
       intros x I. apply ostor_rt; apply F; rewrite !in_app_iff; right; right; left; apply in_flat_map;
         exists x; (split; [exact I | simpl; auto]). }
  erewrite sbind_eq_ok by (apply (jeach_ok "links" _ olink_to_json olink_to_json);
    [reflexivity | intros x I; apply olink_rt; apply F; rewrite !in_app_iff; right; right; right; now apply in_map]).
  ord. destruct nd; reflexivity.
Qed.

Definition post_onetwork (ns : onetwork) : json := JObj [("nodes", JObj (dmap (fun _ => JPy) ns))].
Lemma onetwork_rt ns : (forall k nd a, In (k, nd) ns -> In a (node_arrays nd) -> full_array a) ->
  onetwork_from_json (onetwork_to_json ns) = (post_onetwork ns, Ok ns).
Proof.
  intros H. unfold onetwork_from_json, onetwork_to_json.
  erewrite sbind_eq_ok.
  2: { eapply (focus_ok "nodes"); [reflexivity|]. apply (each_obj_ok onode_from_json onode_to_json post_onode ns).
       intros k x I. apply onode_rt. eauto. }
  ord. reflexivity.
Qed.

Definition post_oconv (v : oconverter) : json :=
  JObj [("name", JStr (ov_name v)); ("flow_src", match ov_src v with [] => JObj [] | _ => JPy end);
        ("flow_dest", nd_tolist (ov_dest v))].

Lemma mapM_map_ok {A B} (f : A -> res B) (g : A -> B) l :
  (forall x, In x l -> f x = Ok (g x)) -> mapM f l = Ok (map g l).
Proof.
  induction l as [|x r IH]; simpl; intros H; auto. rewrite H by auto. simpl. rewrite IH by auto. auto.
Qed.

Lemma combine_fst_map {K V W} (d : dict K V) (f : V -> W) : combine (dkeys d) (map f (dvalues d)) = dmap f d.
Proof. induction d as [|[k v] r IH]; simpl; congruence. Qed.

Lemma oconv_rt v : (forall a, In a (conv_arrays v) -> full_array a) -> NoDup (dkeys (ov_src v)) ->
  (forall k, In k (dkeys (ov_src v)) -> plain_key k) ->
  oconv_from_json (oconv_to_json v) = (post_oconv v, Ok v).
Proof.
  intros F ND P. unfold conv_arrays in F. unfold oconv_from_json, oconv_to_json.
  rewrite dict_of_NoDup by now apply (join_keys_NoDup nd_tolist).
  erewrite sbind_eq_ok by reflexivity.
  erewrite sbind_eq_ok by reflexivity.
  erewrite sbind_eq_ok.
  2: { unfold slift. rewrite (mapM_ok_map _ _ fst (ov_src v)).
       - reflexivity.
       - intros [k a] I. simpl. apply key_of_ok. apply P. change k with (fst (k, a)). now apply in_map. }
  ord.
  replace (dvalues (map (fun kv : string * string * ndarray => (join_cc (fst kv), nd_tolist (snd kv))) (ov_src v)))
    with (map nd_tolist (dvalues (ov_src v))) by (unfold dvalues; rewrite !map_map; reflexivity).
  change (map fst (ov_src v)) with (dkeys (ov_src v)).
  rewrite combine_fst_map.
  rewrite dict_of_NoDup by (change (NoDup (dkeys (dmap nd_tolist (ov_src v)))); now rewrite dkeys_dmap).
  unfold dmap at 1. rewrite mapM_map.
  rewrite (mapM_map_ok _ (fun kv => kv)).
  2: { intros [k a] I. simpl. rewrite np_rt; auto. apply F. right. change a with (snd (k, a)). now apply in_map. }
  rewrite map_id. rewrite np_rt by (apply F; now left).
  unfold post_oconv. destruct v as [nm [|x s] de]; reflexivity.
Qed.

Lemma mapM_as_num l : mapM as_num (map JNum l) = Ok l.
Proof. rewrite mapM_map, (mapM_map_ok _ (fun x => x)); auto. now rewrite map_id. Qed.

Lemma bench_rt b : bench_from_json (bench_to_json b) = (bench_to_json b, Ok b).
Proof.
  unfold bench_from_json, bench_to_json. unfold sbind, kwargs. cbn. rewrite !mapM_as_num. destruct b; reflexivity.
Qed.

Definition post_result (r : result) : json :=
  JObj [("networks", JObj (dmap post_onetwork (r_networks r)));
        ("converters", JObj (dmap post_oconv (r_converters r)));
        ("benchmark", bench_to_json (r_benchmark r))].

Lemma result_rt r : full_result r ->
  (forall name v k, In (name, v) (r_converters r) -> In k (dkeys (ov_src v)) -> plain_key k) ->
  result_from_json (result_to_json r) = (post_result r, Ok r).
Proof.
  intros [F1 F2 F3] P. unfold result_from_json, result_to_json.
  erewrite sbind_eq_ok.
  2: { eapply (focus_ok "networks"); [reflexivity|].
       apply (each_obj_ok onetwork_from_json onetwork_to_json post_onetwork (r_networks r)).
       intros k ns I. apply onetwork_rt. intros nd x a J L. eapply F1; eauto. }
  erewrite sbind_eq_ok.
  2: { eapply (focus_ok "converters"); [reflexivity|].
       apply (each_obj_ok oconv_from_json oconv_to_json post_oconv (r_converters r)).
       intros k v I. apply oconv_rt; eauto. }
  erewrite sbind_eq_ok.
  2: { eapply (focus_ok "benchmark"); [reflexivity|]. apply bench_rt. }
  unfold sret. cbn. destruct r; reflexivity.
Qed.

(** Reading a second time. *)
Lemma onetwork_second ns : ns <> [] -> snd (onetwork_from_json (post_onetwork ns)) = Err TypeError.
Proof. destruct ns as [|[k nd] r]; [congruence|]. intros _. reflexivity. Qed.
Lemma onetwork_second_nil : onetwork_from_json (post_onetwork []) = (post_onetwork [], Ok []).
Proof. reflexivity. Qed.

Lemma result_second r : (exists net ns, In (net, ns) (r_networks r) /\ ns <> []) ->
  snd (result_from_json (post_result r)) = Err TypeError.
Proof.
  intros (net & ns & I & NE). unfold result_from_json, post_result.
  assert (M : snd (mapJ onetwork_from_json (map post_onetwork (dvalues (r_networks r)))) = Err TypeError).
  { assert (J : In ns (dvalues (r_networks r))) by (change ns with (snd (net, ns)); now apply in_map).
    revert J. generalize (dvalues (r_networks r)). induction l as [|x l IH]; [intros []|].
    intros J. cbn [map mapJ]. destruct x as [|y x].
    - rewrite onetwork_second_nil. destruct J as [J|J]; [congruence|]. specialize (IH J).
      destruct (mapJ onetwork_from_json (map post_onetwork l)) as [l' o]. simpl in *. subst. reflexivity.
    - pose proof (onetwork_second (y :: x)) as S. destruct (onetwork_from_json (post_onetwork (y :: x))) as [t o].
      simpl in S. rewrite S by congruence. reflexivity. }
  assert (E : exists t, each_obj onetwork_from_json (JObj (dmap post_onetwork (r_networks r))) = (t, Err TypeError)).
  { unfold each_obj. rewrite dvalues_dmap.
    destruct (mapJ onetwork_from_json (map post_onetwork (dvalues (r_networks r)))) as [l' o]. simpl in M. subst o.
    simpl. eauto. }
  destruct E as [t E].
  erewrite sbind_eq_err; [reflexivity|]. eapply (focus_ok "networks"); [reflexivity | exact E].
Qed.
