(** Properties C78 and C79: encoding and text of objects. *)
From Coq Require Import String Ascii List ZArith QArith Bool Arith Lia Lqa Permutation.
From Verif Require Import Base BaseFacts Numeric Study Fluent SpecStudy Output Json JsonFacts SpecLP Objects SpecObjects Text P_LP.
Import ListNotations.
Open Scope nat_scope.
Open Scope string_scope.
Open Scope list_scope.

(** ** Specification *)

(** The letter does not occur in the text. *)
Fixpoint lacks (c : ascii) (s : string) : Prop :=
  match s with EmptyString => True | String x r => x <> c /\ lacks c r end.
(** How Python and numpy write numbers and arrays: without parentheses, numbers also without
    commas and equal signs; different numbers differ, as do arrays [shown] in full. *)
Record leaves (num_str : Q -> string) (arr_str : ndarray -> string) (shown : ndarray -> Prop) : Prop := {
  lf_num : forall q, lacks "(" (num_str q) /\ lacks ")" (num_str q) /\ lacks "," (num_str q) /\ lacks "=" (num_str q);
  lf_num_inj : forall p q, num_str p = num_str q -> (p == q)%Q;
  lf_arr : forall a, lacks "(" (arr_str a) /\ lacks ")" (arr_str a);
  lf_arr_inj : forall a b, shown a -> shown b -> arr_str a = arr_str b -> same_array a b
}.
Definition value_shown (shown : ndarray -> Prop) (v : numval) : Prop :=
  match v with Scalar _ _ _ => True | Matrix a _ _ | Row a _ _ | Column a _ _ => shown a end.

(** ** C78 *)
Fixpoint sequence {A} (l : list (option A)) : option (list A) :=
  match l with
  | [] => Some []
  | Some x :: r => option_map (cons x) (sequence r)
  | None :: _ => None
  end.
Lemma convert_list l : convert (OList l) = option_map JList (sequence (map convert l)).
Proof.
  cbn [convert]. f_equal. induction l as [| x l IH]; [reflexivity |]. cbn [map sequence]. rewrite IH. destruct (convert x); [| reflexivity].
  destruct (sequence (map convert l)); reflexivity.
Qed.
Lemma convert_map {A} (f : A -> pobj) (g : A -> json) l : (forall a, In a l -> convert (f a) = Some (g a)) ->
  convert (OList (map f l)) = Some (JList (map g l)).
Proof.
  intros H. rewrite convert_list, map_map. assert (E : sequence (map (fun a => convert (f a)) l) = Some (map g l)); [| now rewrite E].
  induction l as [| a l IH]; [reflexivity |]. cbn [map sequence]. rewrite (H a (or_introl eq_refl)), IH; [reflexivity |].
  intros b I. apply H. now right.
Qed.
Lemma convert_named {V} (f : V -> pobj) (g : V -> json) (d : dict string V) : (forall k v, In (k, v) d -> convert (f v) = Some (g v)) ->
  convert (ODict (named f d)) = Some (JObj (dmap g d)).
Proof.
  intros H. cbn [convert].
  match goal with |- match ?X with Some _ => _ | None => _ end = _ => assert (E : X = Some (named g d)) end.
  { induction d as [| [k v] d IH]; [reflexivity |]. unfold named in *. cbn [map fst snd]. rewrite (H k v (or_introl eq_refl)), IH; [reflexivity |].
    intros k' v' I. apply (H k'). now right. }
  rewrite E. clear. assert (E : name_keys (named g d) = Some (dmap g d)); [| now rewrite E].
  induction d as [| [k v] d IH]; [reflexivity |]. unfold named, dmap in *. cbn [map fst snd name_keys]. now rewrite IH.
Qed.
Lemma entries_keyed {V} (f : V -> pobj) (g : V -> json) (d : dict (string * string) V) : (forall k v, In (k, v) d -> convert (f v) = Some (g v)) ->
  (fix entries (d : list (pkey * pobj)) := match d with
     | [] => Some []
     | (k, x) :: r => match convert x, entries r with Some y, Some z => Some ((k, y) :: z) | _, _ => None end
     end) (keyed f d) = Some (keyed g d).
Proof.
  intros H. induction d as [| [k v] d IH]; [reflexivity |]. unfold keyed in *. cbn [map fst snd]. rewrite (H k v (or_introl eq_refl)), IH; [reflexivity |].
  intros k' v' I. apply (H k'). now right.
Qed.
Lemma pair_keys_keyed {V} (g : V -> json) (d : dict (string * string) V) : pair_keys (keyed g d) = Some (map (fun kv => (join_cc (fst kv), g (snd kv))) d).
Proof. induction d as [| [[a b] v] d IH]; [reflexivity |]. unfold keyed in *. cbn [map fst snd pair_keys]. now rewrite IH. Qed.

Lemma convert_val v : convert (val_obj v) = Some (nv_to_json v).
Proof. destruct v; reflexivity. Qed.
Lemma convert_opt v : convert (opt_val_obj v) = Some (onv_to_json v).
Proof. destruct v; [apply convert_val | reflexivity]. Qed.
Ltac conv_attrs := cbn -[convert val_obj opt_val_obj dict_of nd_tolist].

Lemma convert_cons c : convert (cons_obj c) = Some (cons_to_json c).
Proof. unfold cons_obj. cbn [convert]. conv_attrs. now rewrite !convert_val. Qed.
Lemma convert_prod c : convert (prod_obj c) = Some (prod_to_json c).
Proof. unfold prod_obj. cbn [convert]. conv_attrs. now rewrite !convert_val. Qed.
Lemma convert_stor c : convert (stor_obj c) = Some (stor_to_json c).
Proof. unfold stor_obj. cbn [convert]. conv_attrs. now rewrite !convert_val. Qed.
Lemma convert_link c : convert (link_obj c) = Some (link_to_json c).
Proof. unfold link_obj. cbn [convert]. conv_attrs. now rewrite !convert_val. Qed.
Lemma convert_conv v : convert (conv_obj v) = Some (conv_to_json v).
Proof.
  unfold conv_obj. cbn [convert].
  change (hidden_attr "Converter" "name") with false. change (hidden_attr "Converter" "src_ratios") with false.
  change (joined_attr "Converter" "src_ratios") with true. conv_attrs.
  rewrite (entries_keyed val_obj nv_to_json) by (intros; apply convert_val). rewrite pair_keys_keyed, !convert_opt. reflexivity.
Qed.
Lemma convert_node n : convert (node_obj n) = Some (node_to_json n).
Proof.
  unfold node_obj. pose proof (convert_map cons_obj cons_to_json (n_cons n) (fun a _ => convert_cons a)) as E1.
  pose proof (convert_map prod_obj prod_to_json (n_prods n) (fun a _ => convert_prod a)) as E2.
  pose proof (convert_map stor_obj stor_to_json (n_stors n) (fun a _ => convert_stor a)) as E3.
  pose proof (convert_map link_obj link_to_json (n_links n) (fun a _ => convert_link a)) as E4.
  remember (OList (map cons_obj (n_cons n))) as o1. remember (OList (map prod_obj (n_prods n))) as o2.
  remember (OList (map stor_obj (n_stors n))) as o3. remember (OList (map link_obj (n_links n))) as o4.
  cbn. now rewrite E1, E2, E3, E4.
Qed.
Lemma convert_network ns : convert (network_obj ns) = Some (network_to_json ns).
Proof.
  unfold network_obj. pose proof (convert_named node_obj node_to_json ns (fun _ v _ => convert_node v)) as E1.
  remember (ODict (named node_obj ns)) as o1. cbn. now rewrite E1.
Qed.

Theorem C78_study_encoding : forall s, convert (study_obj s) = Some (study_to_json s).
Proof.
  intros s. unfold study_obj. pose proof (convert_named network_obj network_to_json (st_networks s) (fun _ v _ => convert_network v)) as E1.
  pose proof (convert_named conv_obj conv_to_json (st_converters s) (fun _ v _ => convert_conv v)) as E2.
  remember (ODict (named network_obj (st_networks s))) as o1. remember (ODict (named conv_obj (st_converters s))) as o2.
  cbn. now rewrite E1, E2.
Qed.

Lemma convert_onode n : convert (onode_obj n) = Some (onode_to_json n).
Proof.
  unfold onode_obj. pose proof (convert_map ocons_obj ocons_to_json (on_cons n) (fun a _ => eq_refl)) as E1.
  pose proof (convert_map oprod_obj oprod_to_json (on_prods n) (fun a _ => eq_refl)) as E2.
  pose proof (convert_map ostor_obj ostor_to_json (on_stors n) (fun a _ => eq_refl)) as E3.
  pose proof (convert_map olink_obj olink_to_json (on_links n) (fun a _ => eq_refl)) as E4.
  remember (OList (map ocons_obj (on_cons n))) as o1. remember (OList (map oprod_obj (on_prods n))) as o2.
  remember (OList (map ostor_obj (on_stors n))) as o3. remember (OList (map olink_obj (on_links n))) as o4.
  cbn. now rewrite E1, E2, E3, E4.
Qed.
Lemma convert_onetwork ns : convert (onetwork_obj ns) = Some (onetwork_to_json ns).
Proof.
  unfold onetwork_obj. pose proof (convert_named onode_obj onode_to_json ns (fun _ v _ => convert_onode v)) as E1.
  remember (ODict (named onode_obj ns)) as o1. cbn. now rewrite E1.
Qed.
Lemma convert_oconv v : convert (oconv_obj v) = Some (oconv_to_json v).
Proof.
  unfold oconv_obj. cbn [convert].
  change (hidden_attr "OutputConverter" "name") with false. change (joined_attr "OutputConverter" "flow_src") with true.
  change (hidden_attr "OutputConverter" "flow_src") with false. conv_attrs.
  rewrite (entries_keyed fresh nd_tolist) by (intros; reflexivity). rewrite pair_keys_keyed. reflexivity.
Qed.
Lemma convert_bench b : convert (bench_obj b) = Some (bench_to_json b).
Proof.
  unfold bench_obj. pose proof (convert_map ONum JNum (b_modeler b) (fun a _ => eq_refl)) as E1.
  pose proof (convert_map ONum JNum (b_solver b) (fun a _ => eq_refl)) as E2.
  remember (OList (map ONum (b_modeler b))) as o1. remember (OList (map ONum (b_solver b))) as o2.
  cbn. now rewrite E1, E2.
Qed.
Theorem C78_result_encoding : forall r, convert (result_obj r) = Some (result_to_json r).
Proof.
  intros r. unfold result_obj. pose proof (convert_named onetwork_obj onetwork_to_json (r_networks r) (fun _ v _ => convert_onetwork v)) as E1.
  pose proof (convert_named oconv_obj oconv_to_json (r_converters r) (fun _ v _ => convert_oconv v)) as E2. pose proof (convert_bench (r_benchmark r)) as E3.
  remember (ODict (named onetwork_obj (r_networks r))) as o1. remember (ODict (named oconv_obj (r_converters r))) as o2.
  remember (bench_obj (r_benchmark r)) as o3.
  cbn. now rewrite E1, E2, E3.
Qed.

(** The encoding of an object of any class but the three that change it has its attributes,
    in their order. *)
Theorem C78_attributes : forall cls f j, cls <> "Study" -> convert (OObj cls f) = Some j -> exists d, j = JObj d /\ map fst d = map fst f.
Proof.
  intros cls f j NS. cbn [convert]. destruct (String.eqb cls "NumericalValueFactory"); [discriminate |].
  match goal with |- option_map _ (?F f) = _ -> _ => destruct (F f) as [d|] eqn:E end; [| discriminate]. cbn [option_map]. intros H. inversion H; subst j.
  exists d. split; auto. clear H. revert d E. induction f as [| [k x] f IH]; intros d E; [inversion E; reflexivity |].
  unfold hidden_attr in E at 1. destruct (String.eqb_spec cls "Study") as [X |_]; [contradiction |]. cbn [andb] in E.
  match type of E with match ?A with Some _ => _ | None => _ end = _ => destruct A as [y|] end; [| discriminate].
  match type of E with match ?A with Some _ => _ | None => _ end = _ => destruct A as [z|] eqn:EZ end; [| discriminate].
  inversion E; subst d. cbn [map fst]. f_equal. now apply IH.
Qed.

(** ** C79 *)

(** Sorting attributes forgets their order. *)
Lemma str_leb_refl a : str_leb a a = true.
Proof. induction a as [| x a IH]; [reflexivity |]. cbn [str_leb orb andb]. rewrite Nat.ltb_irrefl, Nat.eqb_refl. exact IH. Qed.
Lemma str_leb_total a : forall b, str_leb a b = false -> str_leb b a = true.
Proof.
  induction a as [| x a IH]; intros [| y b]; cbn [str_leb]; try discriminate; auto.
  destruct (Nat.ltb_spec (nat_of_ascii x) (nat_of_ascii y)); [discriminate |].
  destruct (Nat.eqb_spec (nat_of_ascii x) (nat_of_ascii y)) as [E|N]; cbn [str_leb orb andb].
  - rewrite E, Nat.ltb_irrefl, Nat.eqb_refl. cbn [str_leb orb andb]. apply IH.
  - intros _. destruct (Nat.ltb_spec (nat_of_ascii y) (nat_of_ascii x)); [reflexivity | lia].
Qed.
Lemma str_leb_anti a : forall b, str_leb a b = true -> str_leb b a = true -> a = b.
Proof.
  induction a as [| x a IH]; intros [| y b]; cbn [str_leb]; try discriminate; auto. rewrite !orb_true_iff, !andb_true_iff, !Nat.ltb_lt, !Nat.eqb_eq.
  intros [L | [E L]] [M | [F M]]; try lia. f_equal; [| now apply IH]. rewrite <- (ascii_nat_embedding x), <- (ascii_nat_embedding y), E. reflexivity.
Qed.
Lemma str_leb_trans a : forall b c, str_leb a b = true -> str_leb b c = true -> str_leb a c = true.
Proof.
  induction a as [| x a IH]; intros [| y b] [| z c]; cbn [str_leb]; try discriminate; auto. rewrite !orb_true_iff, !andb_true_iff, !Nat.ltb_lt, !Nat.eqb_eq.
  intros [L | [E L]] [M | [F M]]; try (left; lia). right. split; [lia |]. eapply IH; eauto.
Qed.
Lemma insert_comm {V} (x y : string * V) l : fst x <> fst y -> insert_item x (insert_item y l) = insert_item y (insert_item x l).
Proof.
  intros N. induction l as [| z l IH]; cbn.
  - destruct (str_leb (fst x) (fst y)) eqn:L, (str_leb (fst y) (fst x)) eqn:M; auto.
    + exfalso. apply N. now apply str_leb_anti.
    + apply str_leb_total in L. congruence.
  - destruct (str_leb (fst y) (fst z)) eqn:YZ; destruct (str_leb (fst x) (fst z)) eqn:XZ; cbn; rewrite ?YZ, ?XZ.
    + destruct (str_leb (fst x) (fst y)) eqn:L, (str_leb (fst y) (fst x)) eqn:M; rewrite ?YZ, ?XZ; auto.
      * exfalso. apply N. now apply str_leb_anti.
      * apply str_leb_total in L. congruence.
    + destruct (str_leb (fst x) (fst y)) eqn:L; [| now rewrite ?XZ]. rewrite (str_leb_trans _ _ _ L YZ) in XZ. discriminate.
    + destruct (str_leb (fst y) (fst x)) eqn:L; [| now rewrite ?YZ]. rewrite (str_leb_trans _ _ _ L XZ) in YZ. discriminate.
    + now rewrite IH.
Qed.
Lemma sort_perm {V} (l m : list (string * V)) : Permutation l m -> NoDup (map fst l) -> sort_items l = sort_items m.
Proof.
  induction 1 as [| x l m P IH | x y l | l m n P IH Q IH2]; intros ND; auto.
  - unfold sort_items in *. cbn. rewrite IH; auto. now inversion ND.
  - cbn. apply insert_comm. inversion ND as [| ? ? NI]; subst. intros E. apply NI. left. auto.
  - rewrite IH, IH2; auto. eapply Permutation_NoDup; [apply Permutation_map, P | exact ND].
Qed.

(** Texts cut at a letter. *)
Lemma sapp_assoc a b c : ((a ++ b) ++ c)%string = (a ++ (b ++ c))%string.
Proof. induction a as [| x a IH]; cbn; [reflexivity | now rewrite IH]. Qed.
Lemma lacks_app c a b : lacks c a -> lacks c b -> lacks c (a ++ b)%string.
Proof. induction a as [| x a IH]; cbn; auto. intros [N L] M. auto. Qed.
Lemma cut_first c a : forall b r r', lacks c a -> lacks c b -> (a ++ String c r)%string = (b ++ String c r')%string -> a = b /\ r = r'.
Proof.
  induction a as [| x a IH]; intros [| y b] r r' LA LB E; cbn in *; inversion E; subst; auto.
  - destruct LB as [N _]. now destruct N.
  - destruct LA as [N _]. now destruct N.
  - destruct LA as [_ LA], LB as [_ LB]. destruct (IH b r r' LA LB H1) as [-> ->]. auto.
Qed.
Lemma lacks_not c a r : lacks c (a ++ String c r)%string -> False.
Proof. induction a as [| x a IH]; cbn; intros [N L]; auto. Qed.
Lemma cut_last c a : forall b r r', lacks c r -> lacks c r' -> (a ++ String c r)%string = (b ++ String c r')%string -> a = b /\ r = r'.
Proof.
  induction a as [| x a IH]; intros [| y b] r r' LA LB E; cbn in *; inversion E; subst; auto.
  - exfalso. eapply lacks_not; eauto.
  - exfalso. eapply lacks_not; eauto.
  - destruct (IH b r r' LA LB H1) as [-> ->]. auto.
Qed.

Section Text.
Variables (num_str num_repr : Q -> string) (arr_str arr_repr : ndarray -> string) (quote : string -> string) (addr : string).
Notation txt := (text num_str num_repr arr_str arr_repr quote addr false).

(** The order in which attributes were set does not show. *)
Theorem C79_attribute_order : forall inner cls f f', Permutation f f' -> NoDup (map fst f) ->
  text num_str num_repr arr_str arr_repr quote addr inner (OObj cls f) = text num_str num_repr arr_str arr_repr quote addr inner (OObj cls f').
Proof.
  intros inner cls f f' P ND. cbn [text]. destruct (String.eqb cls "NumericalValueFactory"); auto.
  rewrite (sort_perm _ (map (fun kv => (fst kv, txt (snd kv))) f')); [reflexivity | now apply Permutation_map |]. rewrite map_map. cbn [fst]. exact ND.
Qed.

(** What the text of each object shows. *)
Definition value_text (v : numval) : string :=
  match v with
  | Scalar q h n => "ScalarNumericalValue(horizon=" ++ num_str (qnat h) ++ ", nb_scn=" ++ num_str (qnat n) ++ ", value=" ++ num_str q ++ ")"
  | Matrix a h n => "MatrixNumericalValue(horizon=" ++ num_str (qnat h) ++ ", nb_scn=" ++ num_str (qnat n) ++ ", value=" ++ arr_str a ++ ")"
  | Row a h n => "RowNumericValue(horizon=" ++ num_str (qnat h) ++ ", nb_scn=" ++ num_str (qnat n) ++ ", value=" ++ arr_str a ++ ")"
  | Column a h n => "ColumnNumericValue(horizon=" ++ num_str (qnat h) ++ ", nb_scn=" ++ num_str (qnat n) ++ ", value=" ++ arr_str a ++ ")"
  end%string.
Definition option_text (v : option numval) : string := match v with Some v => value_text v | None => num_str 0 end.
Definition listed {A} (f : A -> string) (l : list A) : string := ("[" ++ commas (map f l) ++ "]")%string.
Definition braced {V} (f : V -> string) (d : dict string V) : string :=
  ("{" ++ commas (map (fun kv : string * V => (quote (fst kv) ++ ": " ++ f (snd kv))%string) d) ++ "}")%string.
Ltac order := repeat (cbn -[qnat val_obj opt_val_obj value_text option_text str_leb];
  match goal with |- context [str_leb ?a ?b] => let r := eval vm_compute in (str_leb a b) in change (str_leb a b) with r end).
Lemma text_value inner v : text num_str num_repr arr_str arr_repr quote addr inner (val_obj v) = value_text v.
Proof. destruct v; cbn [val_obj value_text]; order; cbn -[qnat]; repeat (rewrite ?sapp_assoc; cbn -[qnat]); reflexivity. Qed.
Lemma text_option v : txt (opt_val_obj v) = option_text v.
Proof. destruct v; [apply text_value | reflexivity]. Qed.
Ltac show := order; cbn -[qnat val_obj opt_val_obj value_text option_text]; rewrite ?text_value, ?text_option; repeat (rewrite ?sapp_assoc; cbn -[qnat value_text option_text]); reflexivity.

Theorem C79_element_texts :
  (forall c, txt (cons_obj c) = "Consumption(cost=" ++ value_text (c_cost c) ++ ", name=" ++ c_name c ++ ", quantity=" ++ value_text (c_qty c) ++ ")")%string /\
  (forall p, txt (prod_obj p) = "Production(cost=" ++ value_text (p_cost p) ++ ", name=" ++ p_name p ++ ", quantity=" ++ value_text (p_qty p) ++ ")")%string /\
  (forall y, txt (stor_obj y) = "Storage(capacity=" ++ value_text (s_capacity y) ++ ", cost=" ++ value_text (s_cost y) ++ ", eff=" ++ value_text (s_eff y) ++
     ", flow_in=" ++ value_text (s_flow_in y) ++ ", flow_out=" ++ value_text (s_flow_out y) ++ ", init_capacity=" ++ num_str (s_init y) ++ ", name=" ++ s_name y ++ ")")%string /\
  (forall l, txt (link_obj l) = "Link(cost=" ++ value_text (l_cost l) ++ ", dest=" ++ l_dest l ++ ", quantity=" ++ value_text (l_qty l) ++ ")")%string /\
  (forall v, txt (conv_obj v) = "Converter(cost=" ++ option_text (v_cost v) ++ ", dest_network=" ++ v_dnet v ++ ", dest_node=" ++ v_dnode v ++
     ", max=" ++ option_text (v_max v) ++ ", name=" ++ v_name v ++ ", src_ratios=" ++ txt (ODict (keyed val_obj (v_src v))) ++ ")")%string.
Proof. split; [| split; [| split; [| split]]]; intros x; show. Qed.

(** An instance is shown alike alone and inside a list or a dictionary. *)
Lemma text_inner inner cls f : text num_str num_repr arr_str arr_repr quote addr inner (OObj cls f) = txt (OObj cls f).
Proof. reflexivity. Qed.
Lemma text_list {V} (f : V -> pobj) l : (forall v, text num_str num_repr arr_str arr_repr quote addr true (f v) = txt (f v)) ->
  txt (OList (map f l)) = listed (fun v => txt (f v)) l.
Proof. intros H. cbn [text]. unfold listed. rewrite map_map. now rewrite (map_ext _ _ H). Qed.
Lemma text_named {V} (f : V -> pobj) d : (forall v, text num_str num_repr arr_str arr_repr quote addr true (f v) = txt (f v)) ->
  txt (ODict (named f d)) = braced (fun v => txt (f v)) d.
Proof.
  intros H. cbn [text]. unfold braced, named. rewrite map_map. cbn [fst snd key_text]. do 2 f_equal. f_equal. apply map_ext. intros kv. now rewrite H.
Qed.
Ltac parts := repeat match goal with
  | |- context [OList (map ?f ?l)] => let E := fresh in pose proof (text_list f l (fun _ => eq_refl)) as E; remember (OList (map f l)) in *
  | |- context [ODict (named ?f ?l)] => let E := fresh in pose proof (text_named f l (fun _ => eq_refl)) as E; remember (ODict (named f l)) in *
  end.
Ltac show_all := repeat match goal with E : text _ _ _ _ _ _ _ _ = _ |- _ => rewrite <- E; clear E end;
  order; cbn -[qnat]; repeat (rewrite ?sapp_assoc; cbn -[qnat]); reflexivity.

Theorem C79_container_texts :
  (forall n, txt (node_obj n) = "InputNode(consumptions=" ++ listed (fun c => txt (cons_obj c)) (n_cons n) ++ ", links=" ++ listed (fun l => txt (link_obj l)) (n_links n) ++
     ", productions=" ++ listed (fun p => txt (prod_obj p)) (n_prods n) ++ ", storages=" ++ listed (fun y => txt (stor_obj y)) (n_stors n) ++ ")")%string /\
  (forall ns, txt (network_obj ns) = "InputNetwork(nodes=" ++ braced (fun n => txt (node_obj n)) ns ++ ")")%string /\
  (forall s, txt (study_obj s) = "Study(converters=" ++ braced (fun v => txt (conv_obj v)) (st_converters s) ++ ", factory=" ++ addr ++
     ", horizon=" ++ num_str (qnat (st_horizon s)) ++ ", nb_scn=" ++ num_str (qnat (st_nb_scn s)) ++
     ", networks=" ++ braced (fun ns => txt (network_obj ns)) (st_networks s) ++ ", version=" ++ st_version s ++ ")")%string.
Proof.
  split; [| split]; intros x.
  - unfold node_obj. parts. show_all.
  - unfold network_obj. parts. show_all.
  - unfold study_obj. parts. show_all.
Qed.

(** What the text of a result shows. *)
Theorem C79_result_texts :
  (forall c, txt (ocons_obj c) = "OutputConsumption(name=" ++ oc_name c ++ ", quantity=" ++ arr_str (oc_qty c) ++ ")")%string /\
  (forall p, txt (oprod_obj p) = "OutputProduction(name=" ++ op_name p ++ ", quantity=" ++ arr_str (op_qty p) ++ ")")%string /\
  (forall y, txt (ostor_obj y) = "OutputStorage(capacity=" ++ arr_str (os_capacity y) ++ ", flow_in=" ++ arr_str (os_flow_in y) ++
     ", flow_out=" ++ arr_str (os_flow_out y) ++ ", name=" ++ os_name y ++ ")")%string /\
  (forall l, txt (olink_obj l) = "OutputLink(dest=" ++ ol_dest l ++ ", quantity=" ++ arr_str (ol_qty l) ++ ")")%string /\
  (forall v, txt (oconv_obj v) = "OutputConverter(flow_dest=" ++ arr_str (ov_dest v) ++ ", flow_src=" ++ txt (ODict (keyed fresh (ov_src v))) ++ ", name=" ++ ov_name v ++ ")")%string /\
  (forall n, txt (onode_obj n) = "OutputNode(consumptions=" ++ listed (fun c => txt (ocons_obj c)) (on_cons n) ++ ", links=" ++ listed (fun l => txt (olink_obj l)) (on_links n) ++
     ", productions=" ++ listed (fun p => txt (oprod_obj p)) (on_prods n) ++ ", storages=" ++ listed (fun y => txt (ostor_obj y)) (on_stors n) ++ ")")%string /\
  (forall ns, txt (onetwork_obj ns) = "OutputNetwork(nodes=" ++ braced (fun n => txt (onode_obj n)) ns ++ ")")%string /\
  (forall b, txt (bench_obj b) = "Benchmark(mapper=" ++ num_str (b_mapper b) ++ ", modeler=" ++ listed num_repr (b_modeler b) ++
     ", solver=" ++ listed num_repr (b_solver b) ++ ", total=" ++ num_str (b_total b) ++ ")")%string /\
  (forall r, txt (result_obj r) = "Result(benchmark=" ++ txt (bench_obj (r_benchmark r)) ++ ", converters=" ++ braced (fun v => txt (oconv_obj v)) (r_converters r) ++
     ", networks=" ++ braced (fun ns => txt (onetwork_obj ns)) (r_networks r) ++ ")")%string.
Proof.
  split; [| split; [| split; [| split; [| split; [| split; [| split; [| split]]]]]]]; intros x.
  - unfold ocons_obj. show_all.
  - unfold oprod_obj. show_all.
  - unfold ostor_obj. show_all.
  - unfold olink_obj. show_all.
  - unfold oconv_obj. remember (ODict (keyed fresh (ov_src x))). show_all.
  - unfold onode_obj. parts. show_all.
  - unfold onetwork_obj. parts. show_all.
  - assert (E : forall l, txt (OList (map ONum l)) = listed num_repr l) by (intros l; cbn [text]; unfold listed; now rewrite map_map).
    unfold bench_obj. pose proof (E (b_modeler x)) as E1. pose proof (E (b_solver x)) as E2. clear E.
    remember (OList (map ONum (b_modeler x))). remember (OList (map ONum (b_solver x))). show_all.
  - unfold result_obj. parts. remember (bench_obj (r_benchmark x)). show_all.
Qed.

(** Two values with the same text are the same. *)
Variable shown : ndarray -> Prop.
Hypothesis LF : leaves num_str arr_str shown.

Definition value_class (v : numval) : string :=
  match v with Scalar _ _ _ => "ScalarNumericalValue" | Matrix _ _ _ => "MatrixNumericalValue" | Row _ _ _ => "RowNumericValue" | Column _ _ _ => "ColumnNumericValue" end.
Definition value_dims (v : numval) : nat * nat :=
  match v with Scalar _ h n | Matrix _ h n | Row _ h n | Column _ h n => (h, n) end.
Definition value_data (v : numval) : string := match v with Scalar q _ _ => num_str q | Matrix a _ _ | Row a _ _ | Column a _ _ => arr_str a end.
Definition value_body (v : numval) : string :=
  ("horizon=" ++ num_str (qnat (fst (value_dims v))) ++ String "," (" nb_scn=" ++ num_str (qnat (snd (value_dims v))) ++ String "," (" value=" ++ value_data v)))%string.
Lemma value_text_parts v : value_text v = (value_class v ++ String "(" (value_body v ++ ")"))%string.
Proof. destruct v; unfold value_body; cbn -[qnat]; repeat (rewrite ?sapp_assoc; cbn -[qnat]); reflexivity. Qed.
Lemma class_lacks v : lacks "(" (value_class v) /\ lacks "=" (value_class v) /\ lacks ")" (value_class v).
Proof. destruct v; cbn; repeat split; intros X; discriminate X. Qed.
Lemma data_lacks v : lacks "(" (value_data v) /\ lacks ")" (value_data v).
Proof. destruct v as [q ? ? | | |]; cbn; try apply (lf_arr _ _ _ LF). pose proof (lf_num _ _ _ LF q). tauto. Qed.
Lemma body_lacks v : lacks "(" (value_body v) /\ lacks ")" (value_body v).
Proof.
  pose proof (lf_num _ _ _ LF (qnat (fst (value_dims v)))) as (A & B & _). pose proof (lf_num _ _ _ LF (qnat (snd (value_dims v)))) as (C & D & _).
  pose proof (data_lacks v) as (E & F). unfold value_body. split; cbn -[qnat]; repeat split; try (intros X; discriminate X);
    (apply lacks_app; [assumption |]); cbn -[qnat]; repeat split; try (intros X; discriminate X); (apply lacks_app; [assumption |]); cbn -[qnat];
    repeat split; try (intros X; discriminate X); assumption.
Qed.
Lemma qnat_inj n m : (qnat n == qnat m)%Q -> n = m.
Proof. unfold qnat, Qeq. cbn. lia. Qed.
Lemma same_parts v w : value_shown shown v -> value_shown shown w -> value_class v = value_class w -> value_body v = value_body w -> same_value v w.
Proof.
  intros SV SW EC EB. unfold value_body in EB. cbn [append] in EB. injection EB as EB.
  apply cut_first in EB as [E1 EB]; [| apply (lf_num _ _ _ LF) ..]. cbn [append] in EB. injection EB as EB.
  apply cut_first in EB as [E2 EB]; [| apply (lf_num _ _ _ LF) ..]. cbn [append] in EB. injection EB as EB.
  apply (lf_num_inj _ _ _ LF), qnat_inj in E1, E2. destruct v, w; cbn in *; try discriminate EC; subst; split; auto.
  all: try (apply (lf_num_inj _ _ _ LF); assumption). all: apply (lf_arr_inj _ _ _ LF); assumption.
Qed.
Lemma value_first v w r r' : value_shown shown v -> value_shown shown w -> (value_text v ++ r)%string = (value_text w ++ r')%string -> same_value v w /\ r = r'.
Proof.
  intros SV SW. rewrite !value_text_parts, !sapp_assoc. cbn [append]. rewrite !sapp_assoc. cbn [append]. intros E.
  apply cut_first in E as [EC E]; [| apply class_lacks ..]. apply cut_first in E as [EB E]; [| apply body_lacks ..]. split; auto. now apply same_parts.
Qed.
Lemma value_last a b v w : value_shown shown v -> value_shown shown w ->
  (a ++ String "=" (value_text v ++ ")"))%string = (b ++ String "=" (value_text w ++ ")"))%string -> same_value v w /\ a = b.
Proof.
  intros SV SW. rewrite !value_text_parts, !sapp_assoc. cbn [append]. rewrite !sapp_assoc. cbn [append].
  intros E. assert (E' : ((a ++ String "=" (value_class v)) ++ String "(" (value_body v ++ "))"))%string = ((b ++ String "=" (value_class w)) ++ String "(" (value_body w ++ "))"))%string).
  { rewrite !sapp_assoc. cbn [append]. exact E. }
  apply cut_last in E' as [EC EB].
  - apply cut_last in EC as [EA EC]; [| apply class_lacks ..]. apply cut_first in EB as [EB _]; [| apply body_lacks ..]. split; auto. now apply same_parts.
  - apply lacks_app; [apply body_lacks | cbn; repeat split; intros X; discriminate X].
  - apply lacks_app; [apply body_lacks | cbn; repeat split; intros X; discriminate X].
Qed.
Lemma append_split a b c : (a ++ String b c)%string = ((a ++ String b "") ++ c)%string.
Proof. rewrite sapp_assoc. reflexivity. Qed.
Lemma drop_end a b c : (a ++ c)%string = (b ++ c)%string -> a = b.
Proof.
  intros E. assert (L : String.length a = String.length b).
  { apply (f_equal String.length) in E. assert (X : forall s t, String.length (s ++ t)%string = String.length s + String.length t) by (induction s; cbn; auto). rewrite !X in E. lia. }
  revert b E L. induction a as [| x a IH]; intros [| y b] E L; cbn in *; try discriminate; auto. inversion E. f_equal. apply IH; auto.
Qed.
Lemma name_between a b va vb wa wb k1 k2 : value_shown shown va -> value_shown shown vb -> value_shown shown wa -> value_shown shown wb ->
  (value_text va ++ k1 ++ a ++ (k2 ++ String "=" (value_text wa ++ ")")))%string = (value_text vb ++ k1 ++ b ++ (k2 ++ String "=" (value_text wb ++ ")")))%string ->
  a = b /\ same_value va vb /\ same_value wa wb.
Proof.
  intros S1 S2 S3 S4 E. apply value_first in E as [EV E]; auto.
  assert (E' : (((k1 ++ a) ++ k2) ++ String "=" (value_text wa ++ ")"))%string = (((k1 ++ b) ++ k2) ++ String "=" (value_text wb ++ ")"))%string) by (rewrite !sapp_assoc; exact E).
  apply value_last in E' as [EW E']; auto. apply drop_end in E'. split; auto.
  clear - E'. induction k1 as [| x k IH]; cbn in E'; [exact E' | inversion E'; auto].
Qed.

(** The text of a consumption, production, link or storage tells all its data. *)
Theorem C79_text_tells_partial :
  (forall c d, value_shown shown (c_cost c) -> value_shown shown (c_qty c) -> value_shown shown (c_cost d) -> value_shown shown (c_qty d) ->
     txt (cons_obj c) = txt (cons_obj d) -> same_cons c d) /\
  (forall c d, value_shown shown (p_cost c) -> value_shown shown (p_qty c) -> value_shown shown (p_cost d) -> value_shown shown (p_qty d) ->
     txt (prod_obj c) = txt (prod_obj d) -> same_prod c d) /\
  (forall c d, value_shown shown (l_cost c) -> value_shown shown (l_qty c) -> value_shown shown (l_cost d) -> value_shown shown (l_qty d) ->
     txt (link_obj c) = txt (link_obj d) -> same_link c d) /\
  (forall c d, (forall v, In v [s_capacity c; s_cost c; s_eff c; s_flow_in c; s_flow_out c; s_capacity d; s_cost d; s_eff d; s_flow_in d; s_flow_out d] -> value_shown shown v) ->
     txt (stor_obj c) = txt (stor_obj d) -> same_stor c d).
Proof.
  destruct C79_element_texts as (TC & TP & TS & TL & _). split; [| split; [| split]].
  - intros c d S1 S2 S3 S4. rewrite !TC. cbn [append]. intros E. injection E as E.
    destruct (name_between (c_name c) (c_name d) (c_cost c) (c_cost d) (c_qty c) (c_qty d) ", name=" ", quantity") as (EN & EV & EW); auto.
    unfold same_cons. auto.
  - intros c d S1 S2 S3 S4. rewrite !TP. cbn [append]. intros E. injection E as E.
    destruct (name_between (p_name c) (p_name d) (p_cost c) (p_cost d) (p_qty c) (p_qty d) ", name=" ", quantity") as (EN & EV & EW); auto.
    unfold same_prod. auto.
  - intros c d S1 S2 S3 S4. rewrite !TL. cbn [append]. intros E. injection E as E.
    destruct (name_between (l_dest c) (l_dest d) (l_cost c) (l_cost d) (l_qty c) (l_qty d) ", dest=" ", quantity") as (EN & EV & EW); auto.
    unfold same_link. auto.
  - intros c d S. rewrite !TS. cbn [append]. intros E. injection E as E.
    apply value_first in E as [E1 E]; [| apply S; cbn; tauto ..]. injection E as E.
    apply value_first in E as [E2 E]; [| apply S; cbn; tauto ..]. injection E as E.
    apply value_first in E as [E3 E]; [| apply S; cbn; tauto ..]. injection E as E.
    apply value_first in E as [E4 E]; [| apply S; cbn; tauto ..]. injection E as E.
    apply value_first in E as [E5 E]; [| apply S; cbn; tauto ..]. injection E as E.
    apply cut_first in E as [E6 E]; [| apply (lf_num _ _ _ LF) ..]. injection E as E. apply drop_end in E. apply (lf_num_inj _ _ _ LF) in E6.
    unfold same_stor. repeat (split; auto).
Qed.
End Text.

(** ** Printers that write everything *)
Fixpoint strokes (n : nat) : string := match n with O => "" | Datatypes.S n => String "1" (strokes n) end.
Definition write_num (q : Q) : string :=
  ((if (Qnum q <? 0)%Z then "-" else "") ++ strokes (Z.abs_nat (Qnum q)) ++ String "/" (strokes (Pos.to_nat (Qden q))))%string.
Fixpoint ended {A} (f : A -> string) (l : list A) : string := match l with [] => "" | x :: r => (f x ++ String ";" (ended f r))%string end.
Definition write_arr (a : ndarray) : string := (ended strokes (shape a) ++ String "[" (ended write_num (data a)))%string.
Definition write_name (s : string) : string := ("'" ++ s ++ "'")%string.

Lemma strokes_lacks c n : c <> "1"%char -> lacks c (strokes n).
Proof. intros N. induction n; cbn; auto. Qed.
Lemma strokes_inj n : forall m, strokes n = strokes m -> n = m.
Proof. induction n as [| n IH]; intros [| m] E; cbn in *; try discriminate; auto. inversion E. f_equal. auto. Qed.
Lemma num_lacks c q : c <> "1"%char -> c <> "-"%char -> c <> "/"%char -> lacks c (write_num q).
Proof.
  intros N1 N2 N3. unfold write_num. apply lacks_app; [destruct (Qnum q <? 0)%Z; cbn; auto |]. apply lacks_app; [now apply strokes_lacks |].
  cbn. split; auto. now apply strokes_lacks.
Qed.
Lemma ended_lacks {A} (f : A -> string) c l : (forall x, lacks c (f x)) -> c <> ";"%char -> lacks c (ended f l).
Proof. intros F N. induction l as [| x l IH]; cbn; auto. apply lacks_app; [apply F |]. cbn. auto. Qed.
Lemma write_num_inj p q : write_num p = write_num q -> (p == q)%Q.
Proof.
  unfold write_num. intros E.
  assert (Z : Qnum p = Qnum q /\ Qden p = Qden q).
  { rewrite <- !sapp_assoc in E. apply cut_first in E as [E1 E2].
    - apply strokes_inj in E2. apply Pos2Nat.inj in E2. split; auto.
      destruct (Z.ltb_spec (Qnum p) 0), (Z.ltb_spec (Qnum q) 0); cbn [append] in E1.
      + inversion E1 as [E1']. apply strokes_inj in E1'. lia.
      + destruct (Z.abs_nat (Qnum q)); discriminate E1.
      + destruct (Z.abs_nat (Qnum p)); discriminate E1.
      + apply strokes_inj in E1. lia.
    - apply lacks_app; [destruct (Qnum p <? 0)%Z; cbn; auto; split; auto; discriminate | apply strokes_lacks; discriminate].
    - apply lacks_app; [destruct (Qnum q <? 0)%Z; cbn; auto; split; auto; discriminate | apply strokes_lacks; discriminate]. }
  destruct Z as [E1 E2]. unfold Qeq. now rewrite E1, E2.
Qed.
Lemma ended_inj {A} (f : A -> string) : (forall x, lacks ";" (f x)) -> forall l m, ended f l = ended f m -> Forall2 (fun x y => f x = f y) l m.
Proof.
  intros F. induction l as [| x l IH]; intros [| y m] E; cbn in E.
  - constructor.
  - destruct (f y); discriminate E.
  - destruct (f x); discriminate E.
  - apply cut_first in E as [E1 E2]; auto.
Qed.
Lemma write_leaves : leaves write_num write_arr (fun _ => True).
Proof.
  constructor.
  - intros q. split; [| split; [| split]]; apply num_lacks; discriminate.
  - exact write_num_inj.
  - intros a. unfold write_arr. split; (apply lacks_app; [apply ended_lacks; [intros x; apply strokes_lacks |]; discriminate |]; cbn; split; [discriminate |];
      apply ended_lacks; [intros x; apply num_lacks |]; discriminate).
  - intros a b _ _ E. unfold write_arr in E. apply cut_first in E as [E1 E2].
    + apply ended_inj in E1; [| intros x; apply strokes_lacks; discriminate]. apply ended_inj in E2; [| intros x; apply num_lacks; discriminate].
      split.
      * revert E1. generalize (shape a), (shape b). intros l m F. induction F as [| x y l m E F IH]; auto. f_equal; auto. now apply strokes_inj.
      * revert E2. generalize (data a), (data b). intros l m F. induction F; constructor; auto. now apply write_num_inj.
    + apply ended_lacks; [intros x; apply strokes_lacks |]; discriminate.
    + apply ended_lacks; [intros x; apply strokes_lacks |]; discriminate.
Qed.
Notation wtxt := (text write_num write_num write_arr write_arr write_name "<factory>" false).

(** ** What a text does not tell *)

(** Names are not quoted: studies whose converters lead to different nodes may have the same
    text, whatever the printers. *)
Definition way_calls (dnet dnode : string) : list call :=
  [ OnStudy_network "gas"; OnSel 0 (MNode "g"); OnSel 1 (MToConverter "c" (PJson (JNum 1)));
    OnStudy_network "a, dest_node=b"; OnSel 3 (MNode "d"); OnStudy_network "a"; OnSel 5 (MNode "b, dest_node=d");
    OnSel 6 (MConverter "c" dnet dnode (jn 0) (jn 4)) ].
Definition way1 : study := Eval vm_compute in w_study (run (start 1 1 None) (way_calls "a, dest_node=b" "d")).
Definition way2 : study := Eval vm_compute in w_study (run (start 1 1 None) (way_calls "a" "b, dest_node=d")).
Lemma way1_api : api_study way1.
Proof. exists 1, 1, None, (way_calls "a, dest_node=b" "d"). split; [lia|]. split; [lia|]. split; [plain_tac | vm_compute; reflexivity]. Qed.
Lemma way2_api : api_study way2.
Proof. exists 1, 1, None, (way_calls "a" "b, dest_node=d"). split; [lia|]. split; [lia|]. split; [plain_tac | vm_compute; reflexivity]. Qed.
Theorem C79_text_tells_refuted : exists s s', api_study s /\ api_study s' /\ ~ same_study s s' /\
  forall ns nr ars arr q ad, text ns nr ars arr q ad false (study_obj s) = text ns nr ars arr q ad false (study_obj s').
Proof.
  exists way1, way2. split; [exact way1_api |]. split; [exact way2_api |]. split.
  - intros (_ & _ & _ & _ & E). specialize (E "c"). destruct E as (_ & _ & E & _). discriminate E.
  - intros. reflexivity.
Qed.
(** Even the number of elements may stay hidden: a node with one consumption and a node with
    two may have the same text. *)
Definition shown_one : string := value_text write_num write_arr (Scalar 1 1 1).
Definition sly : string := Eval vm_compute in ("a, quantity=" ++ shown_one ++ "), Consumption(cost=" ++ shown_one ++ ", name=b")%string.
Definition sly1_calls : list call := [ OnStudy_network "n"; OnSel 0 (MNode "x"); OnSel 1 (MConsumption sly (jn 1) (jn 1)) ].
Definition sly2_calls : list call := [ OnStudy_network "n"; OnSel 0 (MNode "x"); OnSel 1 (MConsumption "a" (jn 1) (jn 1)); OnSel 2 (MConsumption "b" (jn 1) (jn 1)) ].
Definition sly1 : study := Eval vm_compute in w_study (run (start 1 1 None) sly1_calls).
Definition sly2 : study := Eval vm_compute in w_study (run (start 1 1 None) sly2_calls).
Lemma sly1_api : api_study sly1.
Proof. exists 1, 1, None, sly1_calls. split; [lia|]. split; [lia|]. split; [plain_tac | vm_compute; reflexivity]. Qed.
Lemma sly2_api : api_study sly2.
Proof. exists 1, 1, None, sly2_calls. split; [lia|]. split; [lia|]. split; [plain_tac | vm_compute; reflexivity]. Qed.
Theorem C79_counts_refuted : exists s s' ns ns' m n, api_study s /\ api_study s' /\ wtxt (study_obj s) = wtxt (study_obj s') /\
  dget "n" (st_networks s) = Some ns /\ dget "x" ns = Some m /\ dget "n" (st_networks s') = Some ns' /\ dget "x" ns' = Some n /\
  List.length (n_cons m) <> List.length (n_cons n).
Proof.
  exists sly1, sly2. do 4 eexists. split; [exact sly1_api |]. split; [exact sly2_api |]. split; [vm_compute; reflexivity |].
  do 4 (split; [reflexivity |]). cbn. lia.
Qed.
(** The same study described in another order has another text. *)
Definition fore_calls : list call := [ OnStudy_network "n"; OnSel 0 (MNode "a"); OnSel 1 (MNode "b") ].
Definition back_calls : list call := [ OnStudy_network "n"; OnSel 0 (MNode "b"); OnSel 1 (MNode "a") ].
Definition fore : study := Eval vm_compute in w_study (run (start 1 1 None) fore_calls).
Definition back : study := Eval vm_compute in w_study (run (start 1 1 None) back_calls).
Lemma fore_api : api_study fore.
Proof. exists 1, 1, None, fore_calls. split; [lia|]. split; [lia|]. split; [plain_tac | vm_compute; reflexivity]. Qed.
Lemma back_api : api_study back.
Proof. exists 1, 1, None, back_calls. split; [lia|]. split; [lia|]. split; [plain_tac | vm_compute; reflexivity]. Qed.
Theorem C79_same_text_refuted : exists s s', api_study s /\ api_study s' /\ same_study s s' /\ wtxt (study_obj s) <> wtxt (study_obj s').
Proof.
  exists fore, back. split; [exact fore_api |]. split; [exact back_api |].
  split; [| intros E; vm_compute in E; discriminate E].
  split; [reflexivity |]. split; [reflexivity |]. split; [reflexivity |]. split; [| intros k; exact Logic.I].
  intros k. unfold fore, back. cbn [st_networks dget]. destruct (eqb k "n"); [| exact Logic.I]. intros k'. cbn [dget].
  change (@eqb string _) with String.eqb. destruct (String.eqb_spec k' "a") as [-> |]; [cbn; repeat split; constructor |].
  destruct (String.eqb_spec k' "b") as [-> |]; [cbn; repeat split; constructor | exact Logic.I].
Qed.

(** ** Examples *)
Definition heap_cons : consumption := Cons "load" (Scalar 1000 2 2) (Matrix (ND [2; 2] [10; 20; 5; 7]%Q) 2 2).
Definition heap_stor : storage := Stor "cell" (Scalar 6 2 2) (Scalar 4 2 2) (Row (ND [2] [4; 3]%Q) 2 2) (Scalar 1 2 2) 2 (Column (ND [2; 1] [1 # 2; 1]%Q) 2 2).
Example C78_example : convert (study_obj mix) = Some (study_to_json mix) /\
  (exists d, convert (cons_obj heap_cons) = Some (JObj d) /\ map fst d = ["cost"; "quantity"; "name"]).
Proof. split; [apply C78_study_encoding |]. eexists. split; vm_compute; reflexivity. Qed.
Example C79_example :
  wtxt (cons_obj heap_cons) = ("Consumption(cost=" ++ value_text write_num write_arr (Scalar 1000 2 2) ++ ", name=load, quantity=" ++
    value_text write_num write_arr (Matrix (ND [2; 2] [10; 20; 5; 7]%Q) 2 2) ++ ")")%string /\
  (forall c, wtxt (cons_obj c) = wtxt (cons_obj heap_cons) -> c_name c = "load" /\ same_value (c_cost c) (Scalar 1000 2 2)) /\
  (forall y, wtxt (stor_obj y) = wtxt (stor_obj heap_stor) -> s_name y = "cell" /\ (s_init y == 2)%Q).
Proof.
  destruct (C79_text_tells_partial write_num write_num write_arr write_arr write_name "<factory>" (fun _ => True) write_leaves) as (TC & _ & _ & TS).
  split; [apply C79_element_texts |]. split.
  - intros c E. destruct (TC c heap_cons) as (N & V & _); auto; try (unfold value_shown; match goal with |- match ?v with _ => _ end => destruct v end; exact Logic.I).
  - intros y E. destruct (TS y heap_stor) as (N & _ & _ & _ & _ & V & _); auto. intros v _. destruct v; exact Logic.I.
Qed.
Example C79_order_example : wtxt (OObj "Link" [("quantity", ONum 1); ("dest", OStr "b"); ("cost", ONum 2)]) = wtxt (OObj "Link" [("dest", OStr "b"); ("quantity", ONum 1); ("cost", ONum 2)]).
Proof. apply C79_attribute_order; [apply perm_swap |]. cbn. repeat constructor; cbn; intuition discriminate. Qed.

Print Assumptions C78_study_encoding.
Print Assumptions C78_result_encoding.
Print Assumptions C78_attributes.
Print Assumptions C79_attribute_order.
Print Assumptions C79_element_texts.
Print Assumptions C79_container_texts.
Print Assumptions C79_result_texts.
Print Assumptions C79_text_tells_partial.
Print Assumptions C79_text_tells_refuted.
Print Assumptions C79_counts_refuted.
Print Assumptions C79_same_text_refuted.
