(** Property C96: reading the tree of a result, exactly. *)
From Coq Require Import String Ascii List ZArith QArith Bool Arith Lia.
From Verif Require Import Base BaseFacts Numeric NumericFacts Study SpecNumeric SpecStudy Output Json SpecJson JsonFacts P_Json
  LP SpecLP P_LP P_Plain SpecReach SpecRead P_Read SpecReadResult.
Import ListNotations.
Open Scope nat_scope.
Open Scope string_scope.
Open Scope list_scope.

Section Steps.
  Context {B : Type}.
  Variables (d : dict string json) (b : B).
  Lemma rd_arr k (f : ndarray -> ST json B) : snd (sbind (jarr k) f (JObj d)) = Ok b <->
    exists x a, dget k d = Some x /\ spells (shape a) x (data a) /\ snd (f a (JObj d)) = Ok b.
  Proof.
    unfold jarr. unfold sbind at 1. unfold sbind at 1. unfold jread, slift. cbn [jfield]. unfold dlook. destruct (dget k d) as [x|].
    - destruct (np_array x) as [a|e] eqn:A.
      + split; [intros H; exists x, a; split; [reflexivity|]; split; [now apply np_spells | exact H]|].
        intros (y & a' & E & P & H). injection E as <-. apply np_spells in P. rewrite A in P. injection P as <-. exact H.
      + split; [discriminate|]. intros (y & a' & E & P & H). injection E as <-. apply np_spells in P. congruence.
    - split; [discriminate | intros (y & w & E & _); discriminate].
  Qed.
  Lemma rd_at {A} k (m : ST json A) (f : A -> ST json B) : snd (sbind (focus k m) f (JObj d)) = Ok b <->
    exists x a, dget k d = Some x /\ snd (m x) = Ok a /\ snd (f a (JObj (dset k (fst (m x)) d))) = Ok b.
  Proof.
    unfold sbind, focus. cbn [jfield]. unfold dlook. destruct (dget k d) as [x|].
    - destruct (m x) as [c' [o|e]] eqn:E; cbn [jset].
      + split.
        * intros H. exists x, o. split; [reflexivity|]. rewrite E. split; [reflexivity | exact H].
        * intros (y & o' & X & F & H). injection X as <-. rewrite E in F, H. injection F as <-. exact H.
      + split; [discriminate|]. intros (y & o' & X & F & H). injection X as <-. rewrite E in F. discriminate.
    - split; [discriminate | intros (y & o & E & _); discriminate].
  Qed.
End Steps.

Ltac nod := rewrite ?dget_dset_neq by discriminate.
Ltac fset := erewrite ?fields_set by (nod; eauto).

Lemma ocons_iff j c : snd (ocons_from_json j) = Ok c <-> told_ocons j c.
Proof.
  split.
  - intros H. destruct j as [| | | | |d|]; try discriminate. unfold ocons_from_json in H.
    apply rd_kwargs in H as [F H]. apply rd_arr in H as (x & a & G & T & H). apply rd_name in H as (s & N & H).
    unfold sret in H. simpl in H. injection H as <-. split; [exact F|]. split; [exists x; now rewrite at_field | exact N].
  - intros (F & (x & G & T) & N). destruct F as (d & -> & F). apply at_field in G. unfold ocons_from_json.
    apply rd_kwargs. split; [exists d; auto|]. apply rd_arr. exists x, (oc_qty c). split; [exact G|]. split; [exact T|].
    apply rd_name. exists (oc_name c). split; [exact N | destruct c; reflexivity].
Qed.
Lemma oprod_iff j c : snd (oprod_from_json j) = Ok c <-> told_oprod j c.
Proof.
  split.
  - intros H. destruct j as [| | | | |d|]; try discriminate. unfold oprod_from_json in H.
    apply rd_kwargs in H as [F H]. apply rd_name in H as (s & N & H). apply rd_arr in H as (x & a & G & T & H).
    unfold sret in H. simpl in H. injection H as <-. split; [exact F|]. split; [exists x; now rewrite at_field | exact N].
  - intros (F & (x & G & T) & N). destruct F as (d & -> & F). apply at_field in G. unfold oprod_from_json.
    apply rd_kwargs. split; [exists d; auto|]. apply rd_name. exists (op_name c). split; [exact N|].
    apply rd_arr. exists x, (op_qty c). split; [exact G|]. split; [exact T | destruct c; reflexivity].
Qed.
Lemma olink_iff j c : snd (olink_from_json j) = Ok c <-> told_olink j c.
Proof.
  split.
  - intros H. destruct j as [| | | | |d|]; try discriminate. unfold olink_from_json in H.
    apply rd_kwargs in H as [F H]. apply rd_str in H as (s & N & H). apply rd_arr in H as (x & a & G & T & H).
    unfold sret in H. simpl in H. injection H as <-. split; [exact F|]. split; [now rewrite at_field | exists x; now rewrite at_field].
  - intros (F & N & (x & G & T)). destruct F as (d & -> & F). apply at_field in G, N. unfold olink_from_json.
    apply rd_kwargs. split; [exists d; auto|]. apply rd_str. exists (ol_dest c). split; [exact N|].
    apply rd_arr. exists x, (ol_qty c). split; [exact G|]. split; [exact T | destruct c; reflexivity].
Qed.
Lemma ostor_iff j c : snd (ostor_from_json j) = Ok c <-> told_ostor j c.
Proof.
  split.
  - intros H. destruct j as [| | | | |d|]; try discriminate. unfold ostor_from_json in H.
    apply rd_kwargs in H as [F H]. apply rd_str in H as (s & N & H). apply rd_arr in H as (x & a & G & T & H).
    apply rd_arr in H as (x2 & a2 & G2 & T2 & H). apply rd_arr in H as (x3 & a3 & G3 & T3 & H).
    unfold sret in H. simpl in H. injection H as <-. split; [exact F|]. split; [now rewrite at_field|].
    split; [|split]; eexists; rewrite at_field; eauto.
  - intros (F & N & (x & G & T) & (x2 & G2 & T2) & (x3 & G3 & T3)). destruct F as (d & -> & F). apply at_field in G, G2, G3, N. unfold ostor_from_json.
    apply rd_kwargs. split; [exists d; auto|]. apply rd_str. exists (os_name c). split; [exact N|].
    apply rd_arr. exists x, (os_capacity c). split; [exact G|]. split; [exact T|].
    apply rd_arr. exists x2, (os_flow_in c). split; [exact G2|]. split; [exact T2|].
    apply rd_arr. exists x3, (os_flow_out c). split; [exact G3|]. split; [exact T3 | destruct c; reflexivity].
Qed.
Lemma onode_iff j x : snd (onode_from_json j) = Ok x <-> told_onode j x.
Proof.
  split.
  - intros H. destruct j as [| | | | |d|]; try discriminate. unfold onode_from_json in H.
    apply rd_each in H as (x1 & v1 & G1 & T1 & H). apply rd_each in H as (x2 & v2 & G2 & T2 & H).
    apply rd_each in H as (x3 & v3 & G3 & T3 & H). apply rd_each in H as (x4 & v4 & G4 & T4 & H).
    rewrite !dget_dset_neq in G2 by discriminate. rewrite !dget_dset_neq in G3 by discriminate. rewrite !dget_dset_neq in G4 by discriminate.
    apply rd_kwargs in H as [F H]. unfold sret in H. simpl in H. injection H as <-. erewrite !fields_set in F by (nod; eauto).
    rewrite (list_iff _ _ _ _ ocons_iff) in T1. rewrite (list_iff _ _ _ _ oprod_iff) in T2.
    rewrite (list_iff _ _ _ _ ostor_iff) in T3. rewrite (list_iff _ _ _ _ olink_iff) in T4.
    split; [exact F|]. split; [|split; [|split]]; eexists; rewrite at_field; eauto.
  - intros (F & (x1 & G1 & T1) & (x2 & G2 & T2) & (x3 & G3 & T3) & (x4 & G4 & T4)).
    destruct F as (d & -> & F). apply at_field in G1, G2, G3, G4. unfold onode_from_json.
    rewrite <- (list_iff _ _ _ _ ocons_iff) in T1. rewrite <- (list_iff _ _ _ _ oprod_iff) in T2.
    rewrite <- (list_iff _ _ _ _ ostor_iff) in T3. rewrite <- (list_iff _ _ _ _ olink_iff) in T4.
    apply rd_each. exists x1, (on_cons x). split; [exact G1|]. split; [exact T1|].
    apply rd_each. exists x2, (on_prods x). split; [now nod|]. split; [exact T2|].
    apply rd_each. exists x3, (on_stors x). split; [now nod|]. split; [exact T3|].
    apply rd_each. exists x4, (on_links x). split; [now nod|]. split; [exact T4|].
    apply rd_kwargs. split; [fset; exists d; auto | destruct x; reflexivity].
Qed.
Lemma onetwork_iff j ns : snd (onetwork_from_json j) = Ok ns <-> told_onetwork j ns.
Proof.
  unfold told_onetwork. split.
  - intros H. destruct j as [| | | | |d|]; try discriminate. unfold onetwork_from_json in H.
    apply rd_focus in H as (x & l & G & T & H). unfold sbind at 1, jwrite, jset in H. apply rd_kwargs in H as [F H].
    unfold sret in H. simpl in H. injection H as <-. rewrite (dict_iff _ _ _ _ onode_iff) in T.
    rewrite dset_dset in F. rewrite (fields_set _ _ _ _ _ _ G) in F. split; [exact F | exists x; now rewrite at_field].
  - intros (F & x & G & T). destruct F as (d & -> & F). apply at_field in G. rewrite <- (dict_iff _ _ _ _ onode_iff) in T.
    unfold onetwork_from_json. apply rd_focus. exists x, ns. split; [exact G|]. split; [exact T|]. unfold sbind at 1, jwrite, jset.
    apply rd_kwargs. split; [|reflexivity]. rewrite dset_dset. rewrite (fields_set _ _ _ _ _ _ G). exists d. auto.
Qed.

Lemma keys_iff (d : dict string json) ks : mapM (fun kv => key_of (fst kv)) d = Ok ks <->
  Forall2 (fun kj k => fst kj = join_cc k /\ plain_key k) d ks.
Proof.
  revert ks. induction d as [|[t x] d IH]; intros ks; cbn [mapM fst].
  - split; [intros H; inversion H; constructor | intros H; inversion H; reflexivity].
  - split.
    + intros H. destruct (key_of t) as [k|] eqn:K; [|discriminate]. cbn [rbind] in H.
      match type of H with rbind ?m _ = _ => destruct m as [o|] eqn:M; [|discriminate] end. cbn [rbind] in H. injection H as <-.
      constructor; [|now apply IH]. now apply key_of_iff in K.
    + intros H. inversion H as [|? k ? o H1 H2]; subst. cbn [fst] in H1. apply key_of_iff in H1. rewrite H1. cbn [rbind].
      apply IH in H2. rewrite H2. reflexivity.
Qed.
Lemma arrs_iff (l : list ((string * string) * json)) src :
  mapM (fun kv => let* a := np_array (snd kv) in Ok (fst kv, a)) l = Ok src <->
  Forall2 (fun kx ka => fst kx = fst ka /\ spells (shape (snd ka)) (snd kx) (data (snd ka))) l src.
Proof.
  revert src. induction l as [|[k x] l IH]; intros src; cbn [mapM fst snd].
  - split; [intros H; inversion H; constructor | intros H; inversion H; reflexivity].
  - split.
    + intros H. destruct (np_array x) as [a|] eqn:K; [|discriminate]. cbn [rbind] in H.
      match type of H with rbind ?m _ = _ => destruct m as [o|] eqn:M; [|discriminate] end. cbn [rbind] in H. injection H as <-.
      constructor; [|now apply IH]. cbn [fst snd]. split; [reflexivity | now apply np_spells].
    + intros H. inversion H as [|? [k' a] ? o [H0 H1] H2]; subst. cbn [fst snd] in *. subst k'. apply np_spells in H1. rewrite H1. cbn [rbind].
      apply IH in H2. rewrite H2. reflexivity.
Qed.
Lemma keyed_combine (d : dict string json) ks : Forall2 (fun kj k => fst kj = join_cc k /\ plain_key k) d ks ->
  Forall2 (fun kj kx => fst kj = join_cc (fst kx) /\ plain_key (fst kx) /\ snd kj = snd kx) d (combine ks (dvalues d)).
Proof. induction 1 as [|[t x] k d ks [H1 H2] F IH]; simpl; constructor; auto. Qed.
Lemma combine_keyed (d : dict string json) kjs : Forall2 (fun kj kx => fst kj = join_cc (fst kx) /\ plain_key (fst kx) /\ snd kj = snd kx) d kjs ->
  Forall2 (fun kj k => fst kj = join_cc k /\ plain_key k) d (map fst kjs) /\ combine (map fst kjs) (dvalues d) = kjs.
Proof.
  induction 1 as [|[t x] [k y] d kjs (H1 & H2 & H3) F [IH1 IH2]]; simpl in *; [split; [constructor | reflexivity]|].
  subst. split; [constructor; auto | now f_equal].
Qed.

Lemma oconv_iff j v : snd (oconv_from_json j) = Ok v <-> told_oconv j v.
Proof.
  split.
  - intros H. destruct j as [| | | | |d|]; try discriminate. unfold oconv_from_json in H.
    unfold sbind at 1, jread at 1, jfield, dlook in H. destruct (dget "flow_src" d) as [z|] eqn:G; [|discriminate].
    unfold sbind at 1, slift at 1 in H. destruct z as [| | | | |src|]; try discriminate.
    unfold sbind at 1, slift at 1 in H. destruct (mapM (fun kv => key_of (fst kv)) src) as [ks|] eqn:K; [|discriminate].
    apply keys_iff in K. unfold sbind at 1, jwrite at 1, jset in H. apply rd_kwargs in H as [F H].
    apply rd_str in H as (s & N & H). unfold sbind at 1, slift at 1 in H.
    match type of H with context [mapM ?g ?l] => destruct (mapM g l) as [srcs|] eqn:M; [|discriminate] end.
    apply arrs_iff in M. apply rd_arr in H as (x & a & G2 & T & H). unfold sret in H. simpl in H. injection H as <-.
    rewrite dget_dset_neq in N by discriminate. rewrite dget_dset_neq in G2 by discriminate. rewrite (fields_set _ _ _ _ _ _ G) in F.
    split; [exact F|]. split; [now rewrite at_field|]. split; [|exists x; now rewrite at_field].
    exists (JObj src). rewrite at_field. split; [exact G|]. exists src, (combine ks (dvalues src)). split; [reflexivity|].
    split; [now apply keyed_combine | exact M].
  - intros (F & N & (z & G & src & kjs & -> & K & M) & (x & G2 & T)). destruct F as (d & -> & F). apply at_field in N, G, G2.
    apply combine_keyed in K as [K C]. apply keys_iff in K. unfold oconv_from_json.
    unfold sbind at 1, jread at 1, jfield, dlook. rewrite G. unfold sbind at 1, slift at 1. unfold sbind at 1, slift at 1. rewrite K.
    unfold sbind at 1, jwrite at 1, jset. apply rd_kwargs. split; [rewrite (fields_set _ _ _ _ _ _ G); exists d; auto|].
    apply rd_str. exists (ov_name v). split; [now nod|]. unfold sbind at 1, slift at 1. rewrite C. apply arrs_iff in M. rewrite M.
    apply rd_arr. exists x, (ov_dest v). split; [now nod|]. split; [exact T | destruct v; reflexivity].
Qed.

Lemma as_nums_iff x l : as_nums x = Ok l <-> x = JList (map JNum l).
Proof.
  unfold as_nums. destruct x as [| | | |js| |]; try (split; [discriminate | intros X; discriminate]).
  transitivity (js = map JNum l); [|split; congruence]. revert l. induction js as [|y js IH]; intros l; cbn [mapM].
  - destruct l; split; simpl; congruence.
  - destruct y; simpl; try (split; [discriminate | destruct l; simpl; discriminate]).
    destruct (mapM as_num js) as [o|] eqn:M; cbn [rbind].
    + destruct l as [|p l]; simpl; [split; discriminate|]. specialize (IH l). split.
      * intros H. inversion H; subst. f_equal. now apply IH.
      * intros H. inversion H; subst. destruct IH as [_ IH]. specialize (IH eq_refl). inversion IH. reflexivity.
    + split; [discriminate|]. destruct l as [|p l]; simpl; [discriminate|]. intros H. inversion H; subst. specialize (IH l). destruct IH as [_ IH]. specialize (IH eq_refl). discriminate.
Qed.
Lemma lst_iff d k l : match jfield k (JObj d) with Ok JNull => Ok [] | Ok x => as_nums x | Err _ => Ok [] end = Ok l <-> times_or_none k (JObj d) l.
Proof.
  unfold times_or_none. rewrite !at_field. cbn [jfield]. unfold dlook. destruct (dget k d) as [x|] eqn:G.
  - transitivity ((x = JNull /\ l = []) \/ x = JList (map JNum l)).
    + destruct x as [| | | |js| |]; try (rewrite as_nums_iff; split; [auto | intros [[X _]|X]; [discriminate | exact X]]).
      split; [intros H; inversion H; auto | intros [[_ ->]|X]; [reflexivity | discriminate]].
    + split.
      * intros [[-> ->]| ->]; auto.
      * intros [E|[-> [E|N]]]; [right; congruence | left; split; congruence |]. exfalso. apply (N x). now apply at_field.
  - split.
    + intros H. inversion H; subst. right. split; [reflexivity|]. right. intros x X. apply at_field in X. congruence.
    + intros [E|[-> _]]; [congruence | reflexivity].
Qed.
Lemma num_iff d k q : match jfield k (JObj d) with Ok x => as_num x | Err _ => Ok 0%Q end = Ok q <-> number_or_zero k (JObj d) q.
Proof.
  unfold number_or_zero. rewrite !at_field. cbn [jfield]. unfold dlook. destruct (dget k d) as [x|] eqn:G.
  - transitivity (x = JNum q); [destruct x; simpl; split; congruence|]. split.
    + intros ->. auto.
    + intros [E|[_ N]]; [congruence|]. exfalso. apply (N x). now apply at_field.
  - split.
    + intros H. inversion H; subst. right. split; [reflexivity|]. intros x X. apply at_field in X. congruence.
    + intros [E|[-> _]]; [congruence | reflexivity].
Qed.
Lemma bench_iff j b : snd (bench_from_json j) = Ok b <-> told_bench j b.
Proof.
  unfold told_bench. split.
  - intros H. destruct j as [| | | | |d|]; try discriminate. unfold bench_from_json in H. apply rd_kwargs in H as [F H]. cbn [snd] in H.
    match type of H with rbind ?m _ = _ => destruct m as [l1|] eqn:E1; [|discriminate] end. cbn [rbind] in H.
    match type of H with rbind ?m _ = _ => destruct m as [l2|] eqn:E2; [|discriminate] end. cbn [rbind] in H.
    match type of H with rbind ?m _ = _ => destruct m as [q1|] eqn:E3; [|discriminate] end. cbn [rbind] in H.
    match type of H with rbind ?m _ = _ => destruct m as [q2|] eqn:E4; [|discriminate] end. cbn [rbind] in H. injection H as <-.
    apply lst_iff in E1, E2. apply num_iff in E3, E4. auto.
  - intros (F & E1 & E2 & E3 & E4). destruct F as (d & -> & F). apply lst_iff in E1, E2. apply num_iff in E3, E4.
    unfold bench_from_json. apply rd_kwargs. split; [exists d; auto|]. cbn [snd].
    rewrite E1. cbn [rbind]. rewrite E2. cbn [rbind]. rewrite E3. cbn [rbind]. rewrite E4. cbn [rbind]. destruct b; reflexivity.
Qed.

(** A tree is read as a result exactly when it tells that result. *)
Theorem C96_read_exact : forall j r, snd (result_from_json j) = Ok r <-> told_result j r.
Proof.
  intros j r. unfold told_result. split.
  - intros H. destruct j as [| | | | |d|]; try discriminate. unfold result_from_json in H.
    apply rd_focus in H as (x & nets & G1 & T1 & H). apply rd_focus in H as (y & convs & G2 & T2 & H). apply rd_at in H as (z & b & G3 & T3 & H).
    rewrite !dget_dset_neq in G2 by discriminate. rewrite !dget_dset_neq in G3 by discriminate.
    rewrite (dict_iff _ _ _ _ onetwork_iff) in T1. rewrite (dict_iff _ _ _ _ oconv_iff) in T2. apply bench_iff in T3.
    unfold sret in H. simpl in H. injection H as <-. split; [|split]; eexists; rewrite at_field; eauto.
  - intros ((x & G1 & T1) & (y & G2 & T2) & (z & G3 & T3)). destruct G1 as (d & -> & G1). apply at_field in G2, G3.
    rewrite <- (dict_iff _ _ _ _ onetwork_iff) in T1. rewrite <- (dict_iff _ _ _ _ oconv_iff) in T2. apply bench_iff in T3.
    unfold result_from_json. apply rd_focus. exists x, (r_networks r). split; [exact G1|]. split; [exact T1|].
    apply rd_focus. exists y, (r_converters r). split; [now nod|]. split; [exact T2|].
    apply rd_at. exists z, (r_benchmark r). split; [now nod|]. split; [exact T3 | destruct r; reflexivity].
Qed.

(** ** What can be told *)
Lemma spells_size sh : forall x d, spells sh x d -> List.length d = size_of sh /\ spellable_shape sh.
Proof.
  induction sh as [|k sh IH]; intros x d; simpl.
  - intros (q & _ & ->). auto.
  - intros (js & ds & _ & L & Z & F & ->). assert (S : List.length (concat ds) = List.length js * size_of sh /\ (js <> [] -> spellable_shape sh)).
    { clear L Z. induction F as [|y e js ds H F [IH1 IH2]]; simpl; [split; [reflexivity | congruence]|].
      apply IH in H as [H1 H2]. rewrite app_length, IH1, H1. split; [reflexivity | auto]. }
    destruct S as [S1 S2]. rewrite S1, L. split; [reflexivity|]. split; [exact Z|]. destruct js as [|y js].
    + simpl in L. rewrite (Z (eq_sym L)). exact I.
    + apply S2. discriminate.
Qed.
Lemma spells_text sh : forall d, List.length d = size_of sh -> spellable_shape sh -> spells sh (tolist sh d) d.
Proof.
  induction sh as [|k sh IH]; intros d L P.
  - simpl in *. destruct d as [|q [|]]; try discriminate. exists q. auto.
  - simpl in L, P. destruct P as [Z P]. cbn [tolist spells].
    exists (map (fun i => tolist sh (firstn (size_of sh) (skipn (i * size_of sh) d))) (seq 0 k)), (map (fun i => firstn (size_of sh) (skipn (i * size_of sh) d)) (seq 0 k)).
    split; [reflexivity|]. split; [now rewrite map_length, seq_length|]. split; [exact Z|]. split.
    + assert (G : forall i, In i (seq 0 k) -> spells sh (tolist sh (firstn (size_of sh) (skipn (i * size_of sh) d))) (firstn (size_of sh) (skipn (i * size_of sh) d))).
      { intros i J. apply in_seq in J. apply IH; [|exact P]. rewrite firstn_length, skipn_length. change (fold_right Nat.mul 1 sh) with (size_of sh) in L. rewrite L. nia. }
      revert G. generalize (seq 0 k) as l. induction l as [|i l IHl]; intros G; simpl; constructor; [apply G; now left | apply IHl; intros; apply G; now right].
    + rewrite <- flat_map_concat_map. symmetry. apply concat_chunks. exact L.
Qed.
Lemma spell_iff a : spellable a <-> spells (shape a) (nd_tolist a) (data a).
Proof.
  unfold spellable, nd_wf, nd_tolist. split; [intros [L P]; now apply spells_text | apply spells_size].
Qed.
Lemma array_spellable k j a : array_at k j a -> spellable a.
Proof. intros (x & _ & S). exact (spells_size _ _ _ S). Qed.

Lemma told_readable_result j r : told_result j r -> readable_result r.
Proof.
  intros ((y & _ & N) & (z & _ & C) & _). constructor.
  - intros net ns nd x I J. refine (dict_right _ (fun ns : onetwork => forall nd x, In (nd, x) ns -> spellable_node x) _ _ _ _ N _ I nd x J).
    intros t ns' (_ & y' & _ & T) nd' x' I'. refine (dict_right _ spellable_node _ _ _ _ T _ I').
    clear. intros t x (_ & (y1 & _ & T1) & (y2 & _ & T2) & (y3 & _ & T3) & (y4 & _ & T4)). split; [|split; [|split]].
    + eapply list_right; eauto. intros y c (_ & A & _). eapply array_spellable; eauto.
    + eapply list_right; eauto. intros y c (_ & A & _). eapply array_spellable; eauto.
    + eapply list_right; eauto. intros y c (_ & _ & A1 & A2 & A3). split; [|split]; eapply array_spellable; eauto.
    + eapply list_right; eauto. intros y c (_ & _ & A). eapply array_spellable; eauto.
  - intros name v I. refine (dict_right _ spellable_conv _ _ _ _ C _ I). clear.
    intros t v (_ & _ & (x & _ & js & kjs & _ & K & M) & D). split; [eapply array_spellable; eauto|].
    assert (E : dkeys (ov_src v) = dkeys (dict_of kjs)).
    { unfold dkeys. clear - M. induction M as [|a b l m [H _] F IH]; simpl; [reflexivity|]. now rewrite H, IH. }
    split; [rewrite E; apply dict_of_once|]. apply Forall_forall. intros ka I. split.
    + assert (P : Forall (fun kx : (string * string) * json => plain_key (fst kx)) kjs) by (eapply Forall2_right; eauto; intros a b (_ & H & _); exact H).
      assert (J : In (fst ka) (dkeys (dict_of kjs))) by (rewrite <- E; now apply in_map).
      unfold dkeys in J. apply in_map_iff in J as (kx & X & J). apply dict_of_sub in J. rewrite Forall_forall in P. rewrite <- X. now apply P.
    + assert (P : Forall (fun ka : (string * string) * ndarray => spellable (snd ka)) (ov_src v)).
      { eapply Forall2_right; eauto. intros a b (_ & H). exact (spells_size _ _ _ H). }
      rewrite Forall_forall in P. now apply P.
Qed.

Ltac keys := eexists; (split; [reflexivity|]); (split; intros k K; simpl in K |- *; tauto).
Lemma array_text k d a : dget k d = Some (nd_tolist a) -> spellable a -> array_at k (JObj d) a.
Proof. intros G S. exists (nd_tolist a). rewrite at_field. split; [exact G | now apply spell_iff]. Qed.
Lemma oconv_text v : spellable (ov_dest v) -> NoDup (dkeys (ov_src v)) -> Forall (fun ka => plain_key (fst ka) /\ spellable (snd ka)) (ov_src v) ->
  told_oconv (oconv_to_json v) v.
Proof.
  intros D N F. split; [keys|]. split; [now apply at_field|]. split; [|now apply array_text].
  eexists. split; [apply at_field; reflexivity|]. rewrite Forall_forall in F.
  eexists. exists (map (fun kv => (fst kv, nd_tolist (snd kv))) (ov_src v)). split; [reflexivity|].
  assert (N' : NoDup (map fst (map (fun kv : (string * string) * ndarray => (fst kv, nd_tolist (snd kv))) (ov_src v)))) by (rewrite map_map; exact N).
  rewrite (dict_of_NoDup _ N'). rewrite dict_of_NoDup.
  - split.
    + clear N N'. induction (ov_src v) as [|[k r] l IH]; simpl; constructor.
      * split; [reflexivity|]. split; [apply (F (k, r)); now left | reflexivity].
      * apply IH. intros kr I. apply F. now right.
    + clear N N'. induction (ov_src v) as [|[k r] l IH]; simpl; constructor.
      * split; [reflexivity|]. apply spell_iff. apply (F (k, r)). now left.
      * apply IH. intros kr I. apply F. now right.
  - clear N' D. unfold dkeys in *. rewrite map_map. simpl. induction (ov_src v) as [|[k r] l IH]; simpl in *; constructor.
    + intros I. apply in_map_iff in I as ([k' r'] & E & I). simpl in E. inversion N; subst.
      apply join_cc_inj in E; [| apply (F (k', r')); now right | apply (F (k, r)); now left].
      subst k'. apply H1. apply in_map_iff. exists (k, r'). auto.
    + inversion N; subst. apply IH; auto.
Qed.
Lemma readable_result_told r : readable_result r -> told_result (result_to_json r) r.
Proof.
  intros [N C]. unfold told_result. split; [|split].
  - eexists. split; [apply at_field; reflexivity|]. apply dict_text. intros net ns I. split; [keys|].
    eexists. split; [apply at_field; reflexivity|]. apply dict_text. intros nd x J. destruct (N net ns nd x I J) as (A1 & A2 & A3 & A4).
    rewrite Forall_forall in A1, A2, A3, A4. split; [keys|].
    split; [|split; [|split]]; (eexists; split; [apply at_field; reflexivity|]); apply list_text; intros a Ia.
    + split; [keys|]. split; [apply array_text; [reflexivity | now apply A1]|]. left. now apply at_field.
    + split; [keys|]. split; [apply array_text; [reflexivity | now apply A2]|]. left. now apply at_field.
    + destruct (A3 a Ia) as (S1 & S2 & S3). split; [keys|]. split; [now apply at_field|].
      split; [|split]; now apply array_text.
    + split; [keys|]. split; [now apply at_field|]. apply array_text; [reflexivity | now apply A4].
  - eexists. split; [apply at_field; reflexivity|]. apply dict_text. intros name v I. destruct (C name v I) as (D & U & F). now apply oconv_text.
  - eexists. split; [apply at_field; reflexivity|]. split; [keys|].
    split; [left; now apply at_field|]. split; [left; now apply at_field|]. split; left; now apply at_field.
Qed.

(** A result can be told by some tree exactly when it is readable; its own text then tells it. *)
Theorem C96_readable : forall r, (exists j, snd (result_from_json j) = Ok r) <-> readable_result r.
Proof.
  intros r. split; [intros (j & H); apply C96_read_exact in H; eapply told_readable_result; eauto|].
  intros R. exists (result_to_json r). apply C96_read_exact. now apply readable_result_told.
Qed.
Theorem C96_stable : forall j r, snd (result_from_json j) = Ok r -> snd (result_from_json (result_to_json r)) = Ok r.
Proof. intros j r H. apply C96_read_exact in H. apply C96_read_exact, readable_result_told. eapply told_readable_result; eauto. Qed.

(** Of the results of studies built by the API, the readable ones are those of plain sources. *)
Theorem C96_solved : forall answer s r, api_study s -> solved answer s r -> (readable_result r <-> plain_sources s).
Proof.
  intros answer s r A S. rewrite <- (C13_solved_exact answer s r A S), <- C96_readable. split.
  - intros (j & H). now apply (C96_stable j).
  - intros H. now exists (result_to_json r).
Qed.

(** A tree written by hand: names and times left out, another order, an empty array. *)
Definition result_tree : json :=
  JObj [("benchmark", JObj [("modeler", JNull); ("total", JNum 3)]); ("seen", JNull);
        ("converters", JObj [("plant", JObj [("flow_dest", JList [JList [JNum 2]]); ("name", JStr "plant");
                                             ("flow_src", JObj [("gas::g:", JList [JList [JNum 4]]); ("elec::a", JList [])])])]);
        ("networks", JObj [("elec", JObj [("nodes", JObj
          [("a", JObj [("links", JList [JObj [("quantity", JList [JList [JNum 8]]); ("dest", JStr "b")]]); ("storages", JList []);
                       ("productions", JList [JObj [("quantity", JList [JNum 5; JNum 6])]]); ("consumptions", JList [])])])])])].
Definition result_told : result :=
  Result [("elec", [("a", ONode [] [OProd "in" (ND [2] [5; 6]%Q)] [] [OLnk "b" (ND [1; 1] [8%Q])])])]
    [("plant", OConv "plant" [(("gas", "g:"), ND [1; 1] [4%Q]); (("elec", "a"), ND [0] [])] (ND [1; 1] [2%Q]))] (Bench [] [] 0 3).
Example C96_read_exact_example : told_result result_tree result_told.
Proof. apply C96_read_exact. vm_compute. reflexivity. Qed.
Example C96_readable_example : readable_result result_told /\ ~ readable_result (Result [] [("v", OConv "v" [(("a:", "b"), ND [1] [1%Q])] (ND [1] [1%Q]))] (Bench [] [] 0 0)) /\
  ~ readable_result (Result [("n", [("a", ONode [OCons (ND [0; 2] []) "c"] [] [] [])])] [] (Bench [] [] 0 0)).
Proof.
  split; [apply C96_readable; exists result_tree; vm_compute; reflexivity|]. split.
  - intros R. destruct (rr_conv _ R "v" _ (or_introl eq_refl)) as (_ & _ & F). inversion F as [|? ? [P _] _]; subst. destruct P as (_ & P & _).
    apply P. exists "a". reflexivity.
  - intros R. destruct (rr_node _ R "n" _ "a" _ (or_introl eq_refl) (or_introl eq_refl)) as (F & _). apply Forall_inv in F. destruct F as [_ F]. simpl in F. destruct F as [P _].
    specialize (P eq_refl). discriminate.
Qed.
Example C96_stable_example : snd (result_from_json result_tree) = Ok result_told /\ result_to_json result_told <> result_tree.
Proof. split; [vm_compute; reflexivity | vm_compute; discriminate]. Qed.

Print Assumptions C96_read_exact.
Print Assumptions C96_readable.
Print Assumptions C96_stable.
Print Assumptions C96_solved.
