(** Property C95: reading the tree of a study, exactly. *)
From Coq Require Import String Ascii List ZArith QArith Bool Arith Lia.
From Verif Require Import Base BaseFacts Numeric Study Fluent SpecNumeric NumericFacts SpecStudy StudyFacts FluentFacts Output Json SpecJson JsonFacts P_Json
  LP SpecLP LPFacts P_LP P_Plain SpecReach P_Reach SpecRead.
Import ListNotations.
Open Scope nat_scope.
Open Scope string_scope.
Open Scope list_scope.

(** ** Texts of pairs *)
Lemma split_rebuild s : let (p, ps) := split_cc_ s in s = fold_left (fun a b => (a ++ "::" ++ b)%string) ps p.
Proof.
  assert (L : forall ps a b, fold_left (fun a b => (a ++ "::" ++ b)%string) ps (a ++ b)%string = (a ++ fold_left (fun a b => (a ++ "::" ++ b)%string) ps b)%string).
  { induction ps as [|q ps IH]; intros a b; simpl; [reflexivity|]. rewrite append_assoc. apply (IH a (b ++ String ":" (String ":" q)))%string. }
  induction s as [|c|c c' r IHr IHs] using string_ind2; simpl split_cc_; try reflexivity.
  destruct (Ascii.eqb c ":" && Ascii.eqb c' ":") eqn:E.
  - destruct (split_cc_ r) as [p ps]. apply andb_prop in E as [E1 E2]. apply Ascii.eqb_eq in E1, E2. subst c c'.
    simpl. change (String ":" (String ":" p)) with ("::" ++ p)%string. rewrite L. rewrite <- IHr. reflexivity.
  - match goal with |- context [let (p, ps) := ?m in _] => change m with (split_cc_ (String c' r)) end.
    destruct (split_cc_ (String c' r)) as [p ps]. change (String c p) with (String c "" ++ p)%string. rewrite L. rewrite <- IHs. reflexivity.
Qed.
Lemma key_of_iff t k : key_of t = Ok k <-> t = join_cc k /\ plain_key k.
Proof.
  split; [|intros [-> P]; now apply key_of_ok]. intros H. split; [|now apply C12_only_plain_read in H].
  unfold key_of, split_cc in H. pose proof (split_rebuild t) as R. destruct (split_cc_ t) as [p [|q [|]]]; inversion H; subst k. exact R.
Qed.

Lemma Forall2_len {A B} (R : A -> B -> Prop) l m : Forall2 R l m -> List.length l = List.length m.
Proof. induction 1; simpl; auto. Qed.
Lemma Forall2_iff {A B} (R R' : A -> B -> Prop) l m : (forall a b, R a b <-> R' a b) -> (Forall2 R l m <-> Forall2 R' l m).
Proof. intros E. split; induction 1; constructor; auto; now apply E. Qed.

(** ** Arrays and values *)
Lemma np_spells j : forall a, np_array j = Ok a <-> spells (shape a) j (data a).
Proof.
  induction j as [ | | q | | l IH | d IH | ] using json_ind2; intros [sh d0]; cbn [shape data];
    try (split; [discriminate | destruct sh; [intros (q0 & X & _); discriminate | intros (js & ds & X & _); discriminate]]).
  - simpl. split.
    + intros H. inversion H; subst. exists q. auto.
    + destruct sh as [|k sh]; [intros (q0 & X & ->); inversion X; subst; reflexivity | intros (js & ds & X & _); discriminate].
  - rewrite np_array_list.
    assert (M : forall l sub, Forall (fun j => forall a, np_array j = Ok a <-> spells (shape a) j (data a)) l ->
              (mapM np_array l = Ok sub <-> Forall2 (fun j a => spells (shape a) j (data a)) l sub)).
    { clear. induction l as [|x l IHl]; intros sub F; cbn [mapM].
      - split; [intros H; inversion H; constructor | intros H; inversion H; reflexivity].
      - inversion F as [|? ? F1 F2]; subst. split.
        + intros H. destruct (np_array x) as [a|] eqn:A; [|discriminate]. cbn [rbind] in H.
          destruct (mapM np_array l) as [o|] eqn:O; [|discriminate]. cbn [rbind] in H. injection H as <-.
          constructor; [now apply F1 | now apply IHl].
        + intros H. inversion H as [|? a ? o H1 H2]; subst. apply F1 in H1. rewrite H1. cbn [rbind].
          apply (IHl _ F2) in H2. rewrite H2. reflexivity. }
    split.
    + intros H. destruct (mapM np_array l) as [sub|] eqn:E; [|discriminate]. cbn [rbind] in H.
      apply (M l sub IH) in E. destruct sub as [|a rest].
      * inversion H; subst. inversion E; subst. exists [], []. auto.
      * destruct (forallb (fun b => list_eqb Nat.eqb (shape b) (shape a)) rest) eqn:F; [|discriminate]. inversion H; subst sh d0.
        exists l, (map data (a :: rest)). split; [reflexivity|]. split; [now apply Forall2_len in E|]. split; [discriminate|].
        split; [|now rewrite flat_map_concat_map].
        assert (S : forall b, In b (a :: rest) -> shape b = shape a).
        { intros b [<-|I]; [reflexivity|]. rewrite forallb_forall in F. apply list_eqb_nat. now apply F. }
        clear - E S. induction E as [|x b l sub H F IHF]; simpl; constructor.
        -- rewrite <- (S b) by now left. exact H.
        -- apply IHF. intros c I. apply S. now right.
    + destruct sh as [|k sh]; [intros (q & X & _); discriminate|]. intros (js & ds & X & L & Z & F & ->). inversion X; subst js. clear X.
      assert (E : mapM np_array l = Ok (map (ND sh) ds)).
      { apply M; [exact IH|]. clear - F. induction F; simpl; constructor; auto. }
      rewrite E. cbn [rbind]. apply Forall2_len in F. destruct ds as [|b ds].
      * simpl in *. subst k. rewrite (Z F), F. reflexivity.
      * cbn [map]. assert (FB : forallb (fun b0 => list_eqb Nat.eqb (shape b0) (shape (ND sh b))) (map (ND sh) ds) = true).
        { apply forallb_forall. intros c I. apply in_map_iff in I as (e & <- & _). apply list_eqb_nat. reflexivity. }
        rewrite FB. f_equal. f_equal.
        -- simpl in *. rewrite map_length. f_equal. lia.
        -- rewrite flat_map_concat_map. cbn [map data]. rewrite map_map. simpl. now rewrite map_id.
Qed.
Lemma tells_iff h n x v : tells h n x v <-> create h n (PJson x) = Ok v.
Proof.
  assert (G : forall y, create_json h n y = Ok v <->
    match v with
    | Scalar q h' n' => h' = h /\ n' = n /\ y = JNum q
    | Row a h' n' => h' = h /\ n' = n /\ shape a = [h] /\ spells [h] y (data a)
    | Column a h' n' => h' = h /\ n' = n /\ shape a = [n; 1] /\ spells [n; 1] y (data a)
    | Matrix a h' n' => h' = h /\ n' = n /\ h <> 1 /\ shape a = [n; h] /\ spells [n; h] y (data a)
    end).
  { intros y. split.
    - intros E. assert (F : fits h n v) by (apply canon_fits; eapply create_json_canon; eauto).
      destruct y as [|q| | |l| |]; simpl in E; try discriminate.
      + inversion E; subst. auto.
      + change (rbind (np_array (JList l)) (fun a => create_arr h n a) = Ok v) in E.
        destruct (np_array (JList l)) as [a|] eqn:A; [|discriminate]. cbn [rbind] in E. apply np_spells in A.
        unfold create_arr in E. destruct (list_eqb Nat.eqb (shape a) [h]) eqn:E1; [|destruct (list_eqb Nat.eqb (shape a) [n; 1]) eqn:E2; [|destruct (list_eqb Nat.eqb (shape a) [n; h]) eqn:E3; [|destruct (shape a); discriminate]]];
          injection E as <-; simpl in F.
        * apply list_eqb_nat in E1. rewrite E1 in A. auto.
        * apply list_eqb_nat in E2. rewrite E2 in A. auto.
        * apply list_eqb_nat in E3. rewrite E3 in A. tauto.
    - destruct v as [q h' n'|a h' n'|a h' n'|a h' n'].
      + intros (-> & -> & ->). reflexivity.
      + intros (-> & -> & H1 & S & P). rewrite <- S in P. pose proof P as P'. apply np_spells in P.
        rewrite S in P'. destruct P' as (js & ds & -> & _). unfold create_json. rewrite P. cbn [rbind].
        apply (arg_value h n (Matrix a h n)). simpl. split; [auto|]. split; [auto|]. split; [auto|]. split; [exact S|].
        apply np_array_wf in P. unfold nd_wf in P. rewrite P, S. simpl. lia.
      + intros (-> & -> & S & P). rewrite <- S in P. pose proof P as P'. apply np_spells in P.
        rewrite S in P'. destruct P' as (js & ds & -> & _). unfold create_json. rewrite P. cbn [rbind].
        apply (arg_value h n (Row a h n)). simpl. split; [auto|]. split; [auto|]. split; [exact S|].
        apply np_array_wf in P. unfold nd_wf in P. rewrite P, S. simpl. lia.
      + intros (-> & -> & S & P). rewrite <- S in P. pose proof P as P'. apply np_spells in P.
        rewrite S in P'. destruct P' as (js & ds & -> & _). unfold create_json. rewrite P. cbn [rbind].
        apply (arg_value h n (Column a h n)). simpl. split; [auto|]. split; [auto|]. split; [exact S|].
        apply np_array_wf in P. unfold nd_wf in P. rewrite P, S. simpl. lia. }
  unfold tells, create. destruct x as [| | | | |d|]; try (split;
    [intros (y & [(d' & X & _)|[_ ->]] & H); [discriminate | now apply G] | intros H; eexists; split; [right; split; [intros; discriminate | reflexivity] | now apply G]]).
  destruct (dget "value" d) as [y|] eqn:D.
  - rewrite G. split.
    + intros (y' & [(d' & X & E)|[X _]] & H); [|exfalso; eapply X; reflexivity]. inversion X; subst d'. rewrite D in E. injection E as <-. exact H.
    + intros H. exists y. split; [left; exists d; auto | exact H].
  - split; [|discriminate]. intros (y' & [(d' & X & E)|[X _]] & H); [|exfalso; eapply X; reflexivity]. inversion X; subst d'. congruence.
Qed.

(** ** One field at a time *)
Section Steps.
  Context {B : Type}.
  Variables (d : dict string json) (b : B).

  Lemma jcreate_at h n k : jcreate h n k (JObj d) =
    match dget k d with
    | Some x => match create h n (PJson x) with Ok v => (JObj (dset k JPy d), Ok v) | Err e => (JObj d, Err e) end
    | None => (JObj d, Err KeyError)
    end.
  Proof.
    unfold jcreate, sbind, jread, slift. cbn [jfield]. unfold dlook. destruct (dget k d) as [x|]; [|reflexivity].
    destruct (create h n (PJson x)); reflexivity.
  Qed.
  Lemma rd_create h n k (f : numval -> ST json B) : snd (sbind (jcreate h n k) f (JObj d)) = Ok b <->
    exists x v, dget k d = Some x /\ tells h n x v /\ snd (f v (JObj (dset k JPy d))) = Ok b.
  Proof.
    unfold sbind. setoid_rewrite tells_iff. rewrite jcreate_at. destruct (dget k d) as [x|] eqn:G.
    - destruct (create h n (PJson x)) as [v|e] eqn:C.
      + split; [intros H; exists x, v; auto|]. intros (y & w & E & C' & H). injection E as <-. rewrite C in C'. injection C' as <-. exact H.
      + split; [discriminate|]. intros (y & w & E & C' & _). injection E as <-. congruence.
    - split; [discriminate | intros (y & w & E & _); discriminate].
  Qed.
  Lemma rd_kwargs req opt (f : unit -> ST json B) : snd (sbind (kwargs req opt) f (JObj d)) = Ok b <->
    fields req opt (JObj d) /\ snd (f tt (JObj d)) = Ok b.
  Proof.
    unfold sbind, kwargs. destruct (forallb (fun k => dmem k d) req && forallb (fun k => mem k (req ++ opt)) (dkeys d)) eqn:E.
    - apply andb_prop in E as [E1 E2]. rewrite forallb_forall in E1, E2. split; [|intros [_ H]; exact H]. intros H. split; [|exact H].
      exists d. split; [reflexivity|]. split; intros k I.
      + apply dmem_In. now apply E1.
      + apply E2, mem_In, in_app_or in I. exact I.
    - split; [discriminate|]. intros [(d' & X & A & C) _]. inversion X; subst d'. exfalso.
      apply not_true_iff_false in E. apply E. apply andb_true_intro. split; apply forallb_forall; intros k I.
      + apply dmem_In. auto.
      + apply mem_In. apply in_or_app. auto.
  Qed.
  Lemma rd_str k (f : string -> ST json B) : snd (sbind (jstr k) f (JObj d)) = Ok b <->
    exists s, dget k d = Some (JStr s) /\ snd (f s (JObj d)) = Ok b.
  Proof.
    unfold sbind, jstr, jread, jfield, dlook, slift. unfold sbind. destruct (dget k d) as [x|].
    - destruct x; simpl; (split; [try discriminate; eauto | intros (s0 & E & H); inversion E; subst; auto]).
    - simpl. split; [discriminate | intros (s & E & _); discriminate].
  Qed.
  Lemma rd_num k (f : Q -> ST json B) : snd (sbind (jnum k) f (JObj d)) = Ok b <->
    exists q, dget k d = Some (JNum q) /\ snd (f q (JObj d)) = Ok b.
  Proof.
    unfold sbind, jnum, jread, jfield, dlook, slift. unfold sbind. destruct (dget k d) as [x|].
    - destruct x; simpl; (split; [try discriminate; eauto | intros (s0 & E & H); inversion E; subst; auto]).
    - simpl. split; [discriminate | intros (s & E & _); discriminate].
  Qed.
  Lemma rd_name dflt (f : string -> ST json B) : snd (sbind (jstr_opt "name" dflt) f (JObj d)) = Ok b <->
    exists s, name_or dflt (JObj d) s /\ snd (f s (JObj d)) = Ok b.
  Proof.
    unfold sbind, jstr_opt, jfield, dlook, name_or, field. destruct (dget "name" d) as [x|] eqn:G.
    - destruct x; simpl; try (split; [discriminate | intros (s0 & [(d' & X & E)|(_ & N)] & _);
        [inversion X; subst d'; congruence | exfalso; eapply N; eauto]]).
      split; [intros H; eexists; split; [left; eauto | exact H]|].
      intros (s0 & [(d' & X & E)|(_ & N)] & H); [inversion X; subst d'; rewrite G in E; inversion E; subst; auto | exfalso; eapply N; eauto].
    - split.
      + intros H. exists dflt. split; [|exact H]. right. split; [reflexivity|]. intros x (d' & X & E). inversion X; subst. congruence.
      + intros (s0 & [(d' & X & E)|(-> & N)] & H); [inversion X; subst; congruence | exact H].
  Qed.
  Lemma mapJ_iff {A} (m : ST json A) l o : snd (mapJ m l) = Ok o <-> Forall2 (fun j a => snd (m j) = Ok a) l o.
  Proof.
    revert o. induction l as [|x l IH]; intros o; simpl.
    - split; [intros H; inversion H; constructor | intros H; inversion H; reflexivity].
    - destruct (m x) as [x' [a|e]] eqn:E.
      + specialize (IH). destruct (mapJ m l) as [l' p]. simpl in *. destruct p as [p|e]; simpl.
        * split.
          -- intros H. inversion H; subst. constructor; [now rewrite E | now apply IH].
          -- intros H. inversion H as [|? a' ? o' H1 H2]; subst. rewrite E in H1. simpl in H1. inversion H1; subst.
             apply IH in H2. inversion H2; subst. reflexivity.
        * split; [discriminate|]. intros H. inversion H as [|? a' ? o' H1 H2]; subst. apply IH in H2. discriminate.
      + split; [discriminate|]. intros H. inversion H as [|? a' ? o' H1 H2]; subst. rewrite E in H1. discriminate.
  Qed.
  Lemma rd_each {A} k (m : ST json A) (f : list A -> ST json B) : snd (sbind (jeach k m) f (JObj d)) = Ok b <->
    exists x l, dget k d = Some x /\ told_list (fun j a => snd (m j) = Ok a) x l /\
      snd (f l (JObj (dset k (JList (map (fun _ => JPy) l)) d))) = Ok b.
  Proof.
    unfold jeach, focus, jfield, dlook, jwrite, sret, told_list. unfold sbind at 1 2. destruct (dget k d) as [x|] eqn:G.
    - destruct x as [| | | |l| |]; simpl; try (split; [discriminate | intros (y & o & E & (js & X & _) & _); inversion E; subst; discriminate]).
      pose proof (mapJ_iff m l) as M. destruct (mapJ m l) as [l' [o|e]]; simpl in *.
      + rewrite dset_dset. split.
        * intros H. exists (JList l), o. split; [reflexivity|]. split; [exists l; split; [reflexivity | now apply M] | exact H].
        * intros (y & o' & E & (js & X & F) & H). injection E as <-. injection X as <-. apply M in F. inversion F; subst. exact H.
      + split; [discriminate|]. intros (y & o' & E & (js & X & F) & _). injection E as <-. injection X as <-. apply M in F. discriminate.
    - simpl. split; [discriminate | intros (y & o & E & _); discriminate].
  Qed.
  Lemma each_obj_iff {A} (m : ST json A) x l : snd (each_obj m x) = Ok l <-> told_dict (fun j a => snd (m j) = Ok a) x l.
  Proof.
    unfold each_obj, told_dict. destruct x as [| | | | |js|]; simpl; try (split; [discriminate | intros (js' & X & _); discriminate]).
    assert (G : snd (mapJ m (dvalues js)) = Ok (dvalues l) /\ dkeys js = dkeys l <-> Forall2 (fun kj ka => fst kj = fst ka /\ snd (m (snd kj)) = Ok (snd ka)) js l).
    { rewrite mapJ_iff. revert l. unfold dvalues, dkeys. induction js as [|[k j] js IH]; intros [|[k' a] l]; simpl.
      - split; [constructor | split; constructor].
      - split; [intros [H _]; inversion H | intros H; inversion H].
      - split; [intros [H _]; inversion H | intros H; inversion H].
      - split.
        + intros [H E]. inversion H; subst. inversion E; subst. constructor; [auto | now apply IH].
        + intros H. inversion H as [|? ? ? ? [X Y] Z]; subst. simpl in *. apply IH in Z as [Z1 Z2]. split; [now constructor | now f_equal]. }
    destruct (mapJ m (dvalues js)) as [l' [o|e]] eqn:E; simpl in *.
    - assert (L : List.length o = List.length js).
      { assert (F : snd (mapJ m (dvalues js)) = Ok o) by (now rewrite E). apply mapJ_iff in F. apply Forall2_len in F. unfold dvalues in F. rewrite map_length in F. auto. }
      split.
      + intros H. inversion H; subst. exists js. split; [reflexivity|]. apply G.
        assert (K : forall (ks : list string) (vs : list A), List.length vs = List.length ks -> map snd (combine ks vs) = vs /\ map fst (combine ks vs) = ks).
        { induction ks as [|k0 ks IH]; intros [|v0 vs] Q; simpl in *; try discriminate; auto. destruct (IH vs) as [I1 I2]; [lia|]. split; f_equal; auto. }
        destruct (K (dkeys js) o) as [K1 K2]; [unfold dkeys; now rewrite map_length|]. unfold dvalues at 1, dkeys at 3. rewrite K1, K2. auto.
      + intros (js' & X & F). inversion X; subst js'. apply G in F as [F1 F2]. inversion F1; subst. f_equal. rewrite F2.
        unfold dkeys, dvalues. clear. induction l as [|[k a] l IH]; simpl; [reflexivity | now rewrite IH].
    - split; [discriminate|]. intros (js' & X & F). inversion X; subst js'. apply G in F as [F1 _]. discriminate.
  Qed.
  Lemma rd_focus {A} k (m : ST json A) (f : dict string A -> ST json B) : snd (sbind (focus k (each_obj m)) f (JObj d)) = Ok b <->
    exists x l, dget k d = Some x /\ told_dict (fun j a => snd (m j) = Ok a) x l /\
      snd (f l (JObj (dset k (fst (each_obj m x)) d))) = Ok b.
  Proof.
    unfold sbind, focus, jfield, dlook. destruct (dget k d) as [x|] eqn:G.
    - pose proof (each_obj_iff m x) as M. destruct (each_obj m x) as [c' [o|e]] eqn:E; simpl in *.
      + split.
        * intros H. exists x, o. split; [reflexivity|]. split; [now apply M |]. rewrite E. exact H.
        * intros (y & o' & X & F & H). inversion X; subst. apply M in F. inversion F; subst. rewrite E in H. exact H.
      + split; [discriminate|]. intros (y & o' & X & F & H). inversion X; subst. apply M in F. discriminate.
    - simpl. split; [discriminate | intros (y & o & E & _); discriminate].
  Qed.
End Steps.

Lemma keys_same (k : string) (v x : json) (d : dict string json) : dget k d = Some x -> dkeys (dset k v d) = dkeys d.
Proof. intros G. apply dkeys_dset_mem. now apply dget_In_keys in G. Qed.
Lemma fields_set req opt (k : string) (v x : json) (d : dict string json) : dget k d = Some x -> (fields req opt (JObj (dset k v d)) <-> fields req opt (JObj d)).
Proof.
  intros G. pose proof (keys_same k v x d G) as K. unfold fields. split; intros (d' & E & A & C); inversion E; subst d'; eexists; (split; [reflexivity|]).
  - now rewrite K in A, C.
  - now rewrite K.
Qed.
Lemma at_field k d x : field k (JObj d) x <-> dget k d = Some x.
Proof. unfold field. split; [intros (d' & E & G); inversion E; subst; exact G | intros G; eauto]. Qed.
Lemma field_set k k' v d x : k <> k' -> (field k (JObj (dset k' v d)) x <-> field k (JObj d) x).
Proof. intros N. rewrite !at_field, dget_dset_neq by auto. tauto. Qed.
Lemma name_set dflt k v d s : "name" <> k -> (name_or dflt (JObj (dset k v d)) s <-> name_or dflt (JObj d) s).
Proof.
  intros N. unfold name_or. rewrite field_set by auto. split; (intros [H|[H1 H2]]; [now left | right; split; [exact H1|]]); intros x; specialize (H2 x).
  - now rewrite field_set in H2 by auto.
  - now rewrite field_set by auto.
Qed.
Section Read.
  Variables h n : nat.

  Ltac nod := rewrite ?dget_dset_neq by discriminate.
  Ltac fset := erewrite ?fields_set by (nod; eauto).

  Lemma cons_iff j c : snd (cons_from_json h n j) = Ok c <-> told_cons h n j c.
  Proof.
    split.
    - intros H. destruct j as [| | | | |d|]; try discriminate. unfold cons_from_json in H.
      apply rd_create in H as (x & v & G1 & T1 & H). apply rd_create in H as (y & w & G2 & T2 & H).
      rewrite dget_dset_neq in G2 by discriminate. apply rd_kwargs in H as [F H]. apply rd_name in H as (s & N & H).
      unfold sret in H. simpl in H. injection H as <-.
      rewrite !name_set in N by discriminate. erewrite !fields_set in F by (nod; eauto).
      split; [exact F|]. split; [exists x; now rewrite at_field|]. split; [exists y; now rewrite at_field | exact N].
    - intros (F & (x & G1 & T1) & (y & G2 & T2) & N). destruct F as (d & -> & F). apply at_field in G1, G2. unfold cons_from_json.
      apply rd_create. exists x, (c_cost c). split; [exact G1|]. split; [exact T1|].
      apply rd_create. exists y, (c_qty c). split; [now nod|]. split; [exact T2|].
      apply rd_kwargs. split; [fset; exists d; auto|].
      apply rd_name. exists (c_name c). split; [now rewrite !name_set by discriminate | destruct c; reflexivity].
  Qed.
  Lemma prod_iff j c : snd (prod_from_json h n j) = Ok c <-> told_prod h n j c.
  Proof.
    split.
    - intros H. destruct j as [| | | | |d|]; try discriminate. unfold prod_from_json in H.
      apply rd_create in H as (x & v & G1 & T1 & H). apply rd_create in H as (y & w & G2 & T2 & H).
      rewrite dget_dset_neq in G2 by discriminate. apply rd_kwargs in H as [F H]. apply rd_name in H as (s & N & H).
      unfold sret in H. simpl in H. injection H as <-.
      rewrite !name_set in N by discriminate. erewrite !fields_set in F by (nod; eauto).
      split; [exact F|]. split; [exists x; now rewrite at_field|]. split; [exists y; now rewrite at_field | exact N].
    - intros (F & (x & G1 & T1) & (y & G2 & T2) & N). destruct F as (d & -> & F). apply at_field in G1, G2. unfold prod_from_json.
      apply rd_create. exists x, (p_cost c). split; [exact G1|]. split; [exact T1|].
      apply rd_create. exists y, (p_qty c). split; [now nod|]. split; [exact T2|].
      apply rd_kwargs. split; [fset; exists d; auto|].
      apply rd_name. exists (p_name c). split; [now rewrite !name_set by discriminate | destruct c; reflexivity].
  Qed.
  Lemma link_iff j c : snd (link_from_json h n j) = Ok c <-> told_link h n j c.
  Proof.
    split.
    - intros H. destruct j as [| | | | |d|]; try discriminate. unfold link_from_json in H.
      apply rd_create in H as (x & v & G1 & T1 & H). apply rd_create in H as (y & w & G2 & T2 & H).
      rewrite dget_dset_neq in G2 by discriminate. apply rd_kwargs in H as [F H]. apply rd_str in H as (s & N & H).
      unfold sret in H. simpl in H. injection H as <-.
      rewrite !dget_dset_neq in N by discriminate. erewrite !fields_set in F by (nod; eauto).
      split; [exact F|]. split; [exists x; now rewrite at_field|]. split; [exists y; now rewrite at_field | now rewrite at_field].
    - intros (F & (x & G1 & T1) & (y & G2 & T2) & N). destruct F as (d & -> & F). apply at_field in G1, G2, N. unfold link_from_json.
      apply rd_create. exists x, (l_cost c). split; [exact G1|]. split; [exact T1|].
      apply rd_create. exists y, (l_qty c). split; [now nod|]. split; [exact T2|].
      apply rd_kwargs. split; [fset; exists d; auto|].
      apply rd_str. exists (l_dest c). split; [now nod | destruct c; reflexivity].
  Qed.
  Lemma stor_iff j c : snd (stor_from_json h n j) = Ok c <-> told_stor h n j c.
  Proof.
    split.
    - intros H. destruct j as [| | | | |d|]; try discriminate. unfold stor_from_json in H.
      apply rd_create in H as (x1 & v1 & G1 & T1 & H). apply rd_create in H as (x2 & v2 & G2 & T2 & H).
      apply rd_create in H as (x3 & v3 & G3 & T3 & H). apply rd_create in H as (x4 & v4 & G4 & T4 & H).
      apply rd_create in H as (x5 & v5 & G5 & T5 & H).
      rewrite !dget_dset_neq in G2 by discriminate. rewrite !dget_dset_neq in G3 by discriminate.
      rewrite !dget_dset_neq in G4 by discriminate. rewrite !dget_dset_neq in G5 by discriminate.
      apply rd_kwargs in H as [F H]. apply rd_str in H as (s & N & H). apply rd_num in H as (q & M & H).
      unfold sret in H. simpl in H. injection H as <-.
      rewrite !dget_dset_neq in N by discriminate. rewrite !dget_dset_neq in M by discriminate. erewrite !fields_set in F by (nod; eauto).
      split; [exact F|]. repeat (split; [now (eexists; rewrite at_field; eauto) || now rewrite at_field|]). now rewrite at_field.
    - intros (F & (x1 & G1 & T1) & (x2 & G2 & T2) & (x3 & G3 & T3) & (x4 & G4 & T4) & (x5 & G5 & T5) & N & M).
      destruct F as (d & -> & F). apply at_field in G1, G2, G3, G4, G5, N, M. unfold stor_from_json.
      apply rd_create. exists x1, (s_cost c). split; [exact G1|]. split; [exact T1|].
      apply rd_create. exists x2, (s_capacity c). split; [now nod|]. split; [exact T2|].
      apply rd_create. exists x3, (s_flow_in c). split; [now nod|]. split; [exact T3|].
      apply rd_create. exists x4, (s_flow_out c). split; [now nod|]. split; [exact T4|].
      apply rd_create. exists x5, (s_eff c). split; [now nod|]. split; [exact T5|].
      apply rd_kwargs. split; [fset; exists d; auto|].
      apply rd_str. exists (s_name c). split; [now nod|]. apply rd_num. exists (s_init c). split; [now nod | destruct c; reflexivity].
  Qed.

  Lemma list_iff {A} (R R' : json -> A -> Prop) x l : (forall j a, R j a <-> R' j a) -> (told_list R x l <-> told_list R' x l).
  Proof. intros E. unfold told_list. split; intros (js & -> & F); exists js; (split; [reflexivity|]); revert F; apply Forall2_iff; auto; intros; now rewrite E. Qed.
  Lemma dict_iff {A} (R R' : json -> A -> Prop) x (l : dict string A) : (forall j a, R j a <-> R' j a) -> (told_dict R x l <-> told_dict R' x l).
  Proof.
    intros E. unfold told_dict. split; intros (js & -> & F); exists js; (split; [reflexivity|]); revert F; apply Forall2_iff;
      intros kj ka; rewrite E; tauto.
  Qed.

  Lemma node_iff j x : snd (node_from_json h n j) = Ok x <-> told_node h n j x.
  Proof.
    split.
    - intros H. destruct j as [| | | | |d|]; try discriminate. unfold node_from_json in H.
      apply rd_each in H as (x1 & v1 & G1 & T1 & H). apply rd_each in H as (x2 & v2 & G2 & T2 & H).
      apply rd_each in H as (x3 & v3 & G3 & T3 & H). apply rd_each in H as (x4 & v4 & G4 & T4 & H).
      rewrite !dget_dset_neq in G2 by discriminate. rewrite !dget_dset_neq in G3 by discriminate. rewrite !dget_dset_neq in G4 by discriminate.
      apply rd_kwargs in H as [F H]. unfold sret in H. simpl in H. injection H as <-. erewrite !fields_set in F by (nod; eauto).
      rewrite (list_iff _ _ _ _ cons_iff) in T1. rewrite (list_iff _ _ _ _ prod_iff) in T2.
      rewrite (list_iff _ _ _ _ stor_iff) in T3. rewrite (list_iff _ _ _ _ link_iff) in T4.
      split; [exact F|]. split; [|split; [|split]]; eexists; rewrite at_field; eauto.
    - intros (F & (x1 & G1 & T1) & (x2 & G2 & T2) & (x3 & G3 & T3) & (x4 & G4 & T4)).
      destruct F as (d & -> & F). apply at_field in G1, G2, G3, G4. unfold node_from_json.
      rewrite <- (list_iff _ _ _ _ cons_iff) in T1. rewrite <- (list_iff _ _ _ _ prod_iff) in T2.
      rewrite <- (list_iff _ _ _ _ stor_iff) in T3. rewrite <- (list_iff _ _ _ _ link_iff) in T4.
      apply rd_each. exists x1, (n_cons x). split; [exact G1|]. split; [exact T1|].
      apply rd_each. exists x2, (n_prods x). split; [now nod|]. split; [exact T2|].
      apply rd_each. exists x3, (n_stors x). split; [now nod|]. split; [exact T3|].
      apply rd_each. exists x4, (n_links x). split; [now nod|]. split; [exact T4|].
      apply rd_kwargs. split; [fset; exists d; auto | destruct x; reflexivity].
  Qed.
  Lemma network_iff j ns : snd (network_from_json h n j) = Ok ns <-> told_network h n j ns.
  Proof.
    unfold told_network. split.
    - intros H. destruct j as [| | | | |d|]; try discriminate. unfold network_from_json in H.
      apply rd_focus in H as (x & l & G & T & H). unfold sbind at 1, jwrite, jset in H. apply rd_kwargs in H as [F H].
      unfold sret in H. simpl in H. injection H as <-. rewrite (dict_iff _ _ _ _ node_iff) in T.
      rewrite dset_dset in F. rewrite (fields_set _ _ _ _ _ _ G) in F. split; [|exists x; now rewrite at_field].
      destruct F as (d' & E & _ & F). injection E as <-. exists d. split; [reflexivity|]. split.
      + intros k [<-|[]]. now apply dget_In_keys in G.
      + intros k I. destruct (F k I) as [[]|[<-|[]]]. left. now left.
    - intros (F & x & G & T). destruct F as (d & -> & F). apply at_field in G. rewrite <- (dict_iff _ _ _ _ node_iff) in T.
      unfold network_from_json. apply rd_focus. exists x, ns. split; [exact G|]. split; [exact T|]. unfold sbind at 1, jwrite, jset.
      apply rd_kwargs. split; [|reflexivity]. rewrite dset_dset. rewrite (fields_set _ _ _ _ _ _ G).
      exists d. split; [reflexivity|]. split; [intros k []|]. intros k I. right. destruct F as [_ F]. destruct (F k I) as [X|[]]. exact X.
  Qed.
  Lemma sources_iff (d : dict string json) kvs :
    mapM (fun kv => let* k := key_of (fst kv) in let* v := create h n (PJson (snd kv)) in Ok (k, v)) d = Ok kvs <->
    Forall2 (fun kj kv => fst kj = join_cc (fst kv) /\ plain_key (fst kv) /\ tells h n (snd kj) (snd kv)) d kvs.
  Proof.
    revert kvs. induction d as [|[t x] d IH]; intros kvs; cbn [mapM].
    - split; [intros H; inversion H; constructor | intros H; inversion H; reflexivity].
    - cbn [fst snd]. split.
      + intros H. destruct (key_of t) as [k|] eqn:K; [|discriminate]. cbn [rbind] in H.
        destruct (create h n (PJson x)) as [v|] eqn:C; [|discriminate]. cbn [rbind] in H.
        match type of H with rbind ?m _ = _ => destruct m as [o|] eqn:M; [|discriminate] end. cbn [rbind] in H. injection H as <-.
        constructor; [|now apply IH]. apply key_of_iff in K as [K1 K2]. cbn [fst snd]. rewrite tells_iff. auto.
      + intros H. inversion H as [|? [k v] ? o (H1 & H2 & H3) H4]; subst. cbn [fst snd] in *.
        rewrite (proj2 (key_of_iff t k)) by auto. cbn [rbind]. apply tells_iff in H3. rewrite H3. cbn [rbind].
        apply IH in H4. rewrite H4. reflexivity.
  Qed.
  Lemma conv_iff j v : snd (conv_from_json h n j) = Ok v <-> told_conv h n j v.
  Proof.
    split.
    - intros H. destruct j as [| | | | |d|]; try discriminate. unfold conv_from_json in H.
      apply rd_create in H as (x & c & G1 & T1 & H). apply rd_create in H as (y & m & G2 & T2 & H).
      rewrite dget_dset_neq in G2 by discriminate. unfold sbind at 1, jread at 1, jfield, dlook in H.
      rewrite !dget_dset_neq in H by discriminate. destruct (dget "src_ratios" d) as [z|] eqn:G3; [|discriminate].
      unfold sbind at 1, slift at 1 in H. destruct z as [| | | | |src|]; try discriminate.
      match type of H with context [mapM ?g src] => destruct (mapM g src) as [kvs|e] eqn:M; [|discriminate] end.
      apply sources_iff in M. unfold sbind at 1, jwrite at 1, jset in H. apply rd_kwargs in H as [F H].
      apply rd_str in H as (s1 & N1 & H). apply rd_str in H as (s2 & N2 & H). apply rd_str in H as (s3 & N3 & H).
      unfold sret in H. simpl in H. injection H as <-.
      rewrite !dget_dset_neq in N1 by discriminate. rewrite !dget_dset_neq in N2 by discriminate. rewrite !dget_dset_neq in N3 by discriminate.
      erewrite !fields_set in F by (nod; eauto). split; [exact F|].
      split; [exists c; split; [reflexivity | exists x; now rewrite at_field]|].
      split; [exists m; split; [reflexivity | exists y; now rewrite at_field]|].
      split; [exists (JObj src); rewrite at_field; split; [exact G3 | exists src, kvs; auto]|]. rewrite !at_field. auto.
    - intros (F & (c & Ec & x & G1 & T1) & (m & Em & y & G2 & T2) & (z & G3 & src & kvs & -> & Es & T3) & N1 & N2 & N3).
      destruct F as (d & -> & F). apply at_field in G1, G2, G3, N1, N2, N3. unfold conv_from_json.
      apply rd_create. exists x, c. split; [exact G1|]. split; [exact T1|].
      apply rd_create. exists y, m. split; [now nod|]. split; [exact T2|].
      unfold sbind at 1, jread at 1, jfield, dlook. nod. rewrite G3. unfold sbind at 1, slift at 1. apply sources_iff in T3. rewrite T3.
      unfold sbind at 1, jwrite at 1, jset. apply rd_kwargs. split; [fset; exists d; auto|].
      apply rd_str. exists (v_name v). split; [now nod|]. apply rd_str. exists (v_dnet v). split; [now nod|].
      apply rd_str. exists (v_dnode v). split; [now nod|]. destruct v; simpl in *. subst. reflexivity.
  Qed.
End Read.

Lemma as_nat_iff j k : as_nat j = Ok k <-> j = jnat k.
Proof.
  split; [|intros ->; apply as_nat_jnat]. destruct j as [|q| | | | |]; unfold as_nat; try discriminate.
  destruct (Z.leb 0 (Qnum q) && Pos.eqb (Qden q) 1) eqn:E; intros H; [injection H as <-|discriminate].
  apply andb_prop in E as [E1 E2]. apply Z.leb_le in E1. apply Pos.eqb_eq in E2. destruct q as [a b]. simpl in *. subst b.
  unfold jnat, qnat. rewrite Z2Nat.id by exact E1. reflexivity.
Qed.

Lemma version_or v : st_version (new_study 0 0 v) = match v with Some s => if String.eqb s "" then hadar_version else s | None => hadar_version end.
Proof. destruct v as [s|]; reflexivity. Qed.

(** A tree is read as a study exactly when it tells that study. *)
Theorem C95_read_exact : forall j s, snd (study_from_json j) = Ok s <-> told_study j s.
Proof.
  intros j s. unfold study_from_json. transitivity (snd (study_from_json_ j) = Ok s); [destruct (study_from_json_ j); tauto|].
  unfold study_from_json_, told_study. split.
  - intros H. destruct j as [| | | | |d|]; try discriminate. unfold sbind at 1, jread at 1, jfield at 1, dlook in H.
    destruct (dget "horizon" d) as [jh|] eqn:G1; [|discriminate]. unfold sbind at 1, slift at 1 in H.
    destruct (as_nat jh) as [h|] eqn:E1; [|discriminate]. apply as_nat_iff in E1. subst jh.
    unfold sbind at 1, jread at 1, jfield at 1, dlook in H.
    destruct (dget "nb_scn" d) as [jn'|] eqn:G2; [|discriminate]. unfold sbind at 1, slift at 1 in H.
    destruct (as_nat jn') as [n|] eqn:E2; [|discriminate]. apply as_nat_iff in E2. subst jn'.
    unfold sbind at 1, jread at 1, jfield at 1, dlook in H.
    destruct (dget "version" d) as [jv|] eqn:G3; [|discriminate]. unfold sbind at 1, slift at 1 in H.
    match type of H with context [match jv with _ => _ end] => idtac end.
    destruct (match jv with JStr s => Ok (Some s) | JNull => Ok None | _ => Err TypeError end) as [v|] eqn:E3; [|discriminate].
    apply rd_focus in H as (x & nets & G4 & T4 & H). apply rd_focus in H as (y & convs & G5 & T5 & H).
    rewrite dget_dset_neq in G5 by discriminate. unfold sret in H. simpl in H. injection H as <-. cbn [st_horizon st_nb_scn st_networks st_converters].
    rewrite (dict_iff _ _ _ _ (network_iff h n)) in T4. rewrite (dict_iff _ _ _ _ (conv_iff h n)) in T5. rewrite !at_field.
    split; [exact G1|]. split; [exact G2|]. split; [|split; [exists x; now rewrite at_field | exists y; now rewrite at_field]].
    destruct jv; try discriminate; injection E3 as <-.
    + right. auto.
    + left. eexists. rewrite at_field. split; [exact G3 | reflexivity].
  - intros (G1 & G2 & V & (x & G4 & T4) & (y & G5 & T5)). destruct G1 as (d & -> & G1). apply at_field in G2, G4, G5.
    rewrite <- (dict_iff _ _ _ _ (network_iff _ _)) in T4. rewrite <- (dict_iff _ _ _ _ (conv_iff _ _)) in T5.
    unfold sbind at 1, jread at 1, jfield at 1, dlook. rewrite G1. unfold sbind at 1, slift at 1. rewrite as_nat_jnat.
    unfold sbind at 1, jread at 1, jfield at 1, dlook. rewrite G2. unfold sbind at 1, slift at 1. rewrite as_nat_jnat.
    unfold sbind at 1, jread at 1, jfield at 1, dlook.
    assert (W : exists jv v, dget "version" d = Some jv /\ match jv with JStr s => Ok (Some s) | JNull => Ok None | _ => Err TypeError end = Ok v /\
                st_version s = st_version (new_study (st_horizon s) (st_nb_scn s) v)).
    { destruct V as [(v & V & E)|[V E]]; apply at_field in V; eexists; eexists; (split; [exact V|]); (split; [reflexivity | exact E]). }
    destruct W as (jv & v & V1 & V2 & V3). rewrite V1. unfold sbind at 1, slift at 1. rewrite V2.
    apply rd_focus. exists x, (st_networks s). split; [exact G4|]. split; [exact T4|].
    apply rd_focus. exists y, (st_converters s). split; [now rewrite dget_dset_neq by discriminate|]. split; [exact T5|].
    destruct s; simpl in *. unfold sret. simpl. now rewrite <- V3.
Qed.

(** ** What can be told *)
Lemma dict_of_once {K V} `{EqB K} (l : list (K * V)) : NoDup (dkeys (dict_of l)).
Proof.
  unfold dict_of. assert (G : forall d : dict K V, NoDup (dkeys d) -> NoDup (dkeys (fold_left (fun d kv => dset (fst kv) (snd kv) d) l d))).
  { induction l as [|kv l IH]; simpl; intros d N; auto. apply IH. now apply NoDup_dset. }
  apply G. constructor.
Qed.
Lemma dict_of_sub {K V} `{EqB K} (l : list (K * V)) kv : In kv (dict_of l) -> In kv l.
Proof.
  unfold dict_of. assert (G : forall d : dict K V, In kv (fold_left (fun d kv => dset (fst kv) (snd kv) d) l d) -> In kv d \/ In kv l).
  { induction l as [|x l IH]; simpl; intros d I; auto. apply IH in I as [I|I]; auto. destruct kv as [k v].
    apply In_dset in I as [[-> ->]|I]; auto. right. left. now destruct x. }
  intros I. destruct (G [] I) as [[]|J]; exact J.
Qed.
Lemma tells_fits h n x v : tells h n x v -> fits h n v.
Proof. intros T. apply tells_iff in T. apply canon_fits. apply (create_canon _ _ _ _ T). split; [intros w; discriminate | exact I]. Qed.
Lemma value_fits h n k j v : value_at h n k j v -> fits h n v.
Proof. intros (x & _ & T). eapply tells_fits; eauto. Qed.
Lemma Forall2_right {A B} (R : A -> B -> Prop) (P : B -> Prop) l m : Forall2 R l m -> (forall a b, R a b -> P b) -> Forall P m.
Proof. induction 1; intros Q; constructor; eauto. Qed.
Lemma list_right {A} (R : json -> A -> Prop) (P : A -> Prop) j l : told_list R j l -> (forall x a, R x a -> P a) -> Forall P l.
Proof. intros (js & _ & F) Q. eapply Forall2_right; eauto. Qed.
Lemma dict_right {A} (R : json -> A -> Prop) (P : A -> Prop) j (l : dict string A) k a : told_dict R j l -> (forall x a, R x a -> P a) -> In (k, a) l -> P a.
Proof.
  intros (js & _ & F) Q I. assert (G : Forall (fun ka => P (snd ka)) l) by (eapply Forall2_right; eauto; intros x b (_ & H); eauto).
  rewrite Forall_forall in G. exact (G _ I).
Qed.
Lemma node_sized h n j x : told_node h n j x -> sized_node h n x.
Proof.
  intros (_ & (y1 & _ & T1) & (y2 & _ & T2) & (y3 & _ & T3) & (y4 & _ & T4)). constructor.
  - eapply list_right; eauto. intros y c (_ & A & B & _). split; eapply value_fits; eauto.
  - eapply list_right; eauto. intros y c (_ & A & B & _). split; eapply value_fits; eauto.
  - eapply list_right; eauto. intros y c (_ & V1 & V2 & V3 & V4 & V5 & _). repeat (split; [eapply value_fits; eauto|]). eapply value_fits; eauto.
  - eapply list_right; eauto. intros y c (_ & A & B & _). split; eapply value_fits; eauto.
Qed.
Lemma conv_sized h n j v : told_conv h n j v -> sized_conv h n v.
Proof.
  intros (_ & (c & Ec & C) & (m & Em & M) & (x & _ & js & kvs & _ & E & F) & _). constructor.
  - exists c. split; [exact Ec | eapply value_fits; eauto].
  - exists m. split; [exact Em | eapply value_fits; eauto].
  - rewrite E. apply dict_of_once.
  - rewrite E. assert (G : Forall (fun kr => plain_key (fst kr) /\ fits h n (snd kr)) kvs).
    { eapply Forall2_right; eauto. intros a b (_ & H1 & H2). split; [exact H1 | eapply tells_fits; eauto]. }
    rewrite Forall_forall in *. intros kr I. apply G. now apply dict_of_sub.
Qed.

(** Only readable studies are told. *)
Lemma told_readable j s : told_study j s -> readable s.
Proof.
  intros (_ & _ & V & (y & _ & N) & (z & _ & C)). constructor.
  - destruct V as [(v & _ & E)|(_ & E)]; rewrite E; [|discriminate]. destruct (String.eqb v "") eqn:X; [discriminate | now apply String.eqb_neq].
  - intros net ns nd x I J. refine (dict_right _ (fun ns => forall nd x, In (nd, x) ns -> sized_node _ _ x) _ _ _ _ N _ I nd x J).
    intros t ns' (_ & y' & _ & T) nd' x' I'. refine (dict_right _ (fun x => sized_node _ _ x) _ _ _ _ T _ I'). intros. eapply node_sized; eauto.
  - intros name v I. refine (dict_right _ (fun v => sized_conv _ _ v) _ _ _ _ C _ I). intros. eapply conv_sized; eauto.
Qed.

(** ** The text of a readable study tells it *)
Section Text.
  Variables h n : nat.
  Hypothesis Hh : 0 < h.
  Hypothesis Hn : 0 < n.
  Lemma fits_canon v : fits h n v -> nv_canon h n v.
  Proof. intros F. exact (create_canon _ _ _ _ (arg_value _ _ _ F) (arg_plain _ _ _ F)). Qed.
  Lemma tells_text v : fits h n v -> tells h n (nv_to_json v) v.
  Proof. intros F. apply tells_iff, create_nv_to_json; auto. now apply fits_canon. Qed.
  Lemma value_text k d v : dget k d = Some (nv_to_json v) -> fits h n v -> value_at h n k (JObj d) v.
  Proof. intros G F. exists (nv_to_json v). rewrite at_field. split; [exact G | now apply tells_text]. Qed.
  Ltac keys := eexists; (split; [reflexivity|]); (split; intros k K; simpl in K |- *; tauto).
  Lemma cons_text c : fits h n (c_cost c) -> fits h n (c_qty c) -> told_cons h n (cons_to_json c) c.
  Proof.
    intros A B. split; [keys|]. split; [now apply value_text|]. split; [now apply value_text|]. left. now apply at_field.
  Qed.
  Lemma prod_text c : fits h n (p_cost c) -> fits h n (p_qty c) -> told_prod h n (prod_to_json c) c.
  Proof.
    intros A B. split; [keys|]. split; [now apply value_text|]. split; [now apply value_text|]. left. now apply at_field.
  Qed.
  Lemma link_text c : fits h n (l_cost c) -> fits h n (l_qty c) -> told_link h n (link_to_json c) c.
  Proof.
    intros A B. split; [keys|]. split; [now apply value_text|]. split; [now apply value_text|]. now apply at_field.
  Qed.
  Lemma stor_text c : fits h n (s_capacity c) -> fits h n (s_flow_in c) -> fits h n (s_flow_out c) -> fits h n (s_cost c) -> fits h n (s_eff c) ->
    told_stor h n (stor_to_json c) c.
  Proof.
    intros. split; [keys|]. repeat (split; [now apply value_text || now apply at_field|]). now apply at_field.
  Qed.
  Lemma list_text {A} (R : json -> A -> Prop) (w : A -> json) l : (forall a, In a l -> R (w a) a) -> told_list R (JList (map w l)) l.
  Proof. intros H. eexists. split; [reflexivity|]. induction l as [|a l IH]; simpl; constructor; [apply H; now left | apply IH; intros; apply H; now right]. Qed.
  Lemma dict_text {A} (R : json -> A -> Prop) (w : A -> json) (l : dict string A) : (forall k a, In (k, a) l -> R (w a) a) -> told_dict R (JObj (dmap w l)) l.
  Proof.
    intros H. eexists. split; [reflexivity|]. induction l as [|[k a] l IH]; simpl; constructor.
    - split; [reflexivity|]. apply (H k). now left.
    - apply IH. intros k' a' I. apply (H k'). now right.
  Qed.
  Lemma node_text x : sized_node h n x -> told_node h n (node_to_json x) x.
  Proof.
    intros [C P S L]. rewrite Forall_forall in C, P, S, L. split; [keys|].
    split; [|split; [|split]]; (eexists; split; [apply at_field; reflexivity|]); apply list_text; intros a I.
    - destruct (C a I). now apply cons_text.
    - destruct (P a I). now apply prod_text.
    - destruct (S a I) as (? & ? & ? & ? & ?). now apply stor_text.
    - destruct (L a I). now apply link_text.
  Qed.
  Lemma network_text ns : (forall nd x, In (nd, x) ns -> sized_node h n x) -> told_network h n (network_to_json ns) ns.
  Proof.
    intros H. split; [keys|]. eexists. split; [apply at_field; reflexivity|]. apply dict_text. intros nd x I. apply node_text. eauto.
  Qed.
  Lemma conv_text v : sized_conv h n v -> told_conv h n (conv_to_json v) v.
  Proof.
    intros [(c & Ec & C) (m & Em & M) N F]. split; [keys|].
    split; [exists c; split; [exact Ec|]; apply value_text; [simpl; now rewrite Ec | exact C]|].
    split; [exists m; split; [exact Em|]; apply value_text; [simpl; now rewrite Em | exact M]|].
    split; [|split; [now apply at_field|]; split; now apply at_field].
    eexists. split; [apply at_field; reflexivity|]. rewrite Forall_forall in F.
    eexists. exists (v_src v). split; [reflexivity|]. split; [symmetry; now apply dict_of_NoDup|].
    rewrite dict_of_NoDup.
    - clear N. induction (v_src v) as [|[k r] l IH]; simpl; constructor.
      + destruct (F (k, r)) as [P G]; [now left|]. split; [reflexivity|]. split; [exact P | now apply tells_text].
      + apply IH. intros kr I. apply F. now right.
    - unfold dkeys in *. rewrite map_map. simpl. clear M C. induction (v_src v) as [|[k r] l IH]; simpl in *; constructor.
      + intros I. apply in_map_iff in I as ([k' r'] & E & I). simpl in E. inversion N; subst.
        apply join_cc_inj in E; [| apply (F (k', r')); now right | apply (F (k, r)); now left].
        subst k'. apply H1. apply in_map_iff. exists (k, r'). auto.
      + inversion N; subst. apply IH; auto.
  Qed.
End Text.
Lemma readable_told s : 0 < st_horizon s -> 0 < st_nb_scn s -> readable s -> told_study (study_to_json s) s.
Proof.
  intros Hh Hn [V N C]. unfold told_study, study_to_json. rewrite !at_field. split; [reflexivity|]. split; [reflexivity|].
  split; [|split].
  - left. exists (st_version s). rewrite at_field. split; [reflexivity|]. apply String.eqb_neq in V. now rewrite V.
  - eexists. split; [apply at_field; reflexivity|]. apply dict_text. intros net ns I. apply network_text; auto. intros nd x J. eauto.
  - eexists. split; [apply at_field; reflexivity|]. apply dict_text. intros name v I. apply conv_text; eauto.
Qed.

(** A study can be told by some tree exactly when it is readable; its own text then tells it. *)
Theorem C95_readable : forall s, 0 < st_horizon s -> 0 < st_nb_scn s ->
  (exists j, snd (study_from_json j) = Ok s) <-> readable s.
Proof.
  intros s Hh Hn. split; [intros (j & H); apply C95_read_exact in H; eapply told_readable; eauto|].
  intros R. exists (study_to_json s). apply C95_read_exact. now apply readable_told.
Qed.
Theorem C95_stable : forall j s, 0 < st_horizon s -> 0 < st_nb_scn s ->
  snd (study_from_json j) = Ok s -> snd (study_from_json (study_to_json s)) = Ok s.
Proof. intros j s Hh Hn H. apply C95_read_exact in H. apply C95_read_exact. apply readable_told; auto. eapply told_readable; eauto. Qed.

(** Of the studies built by the API, the readable ones are those with complete converters. *)
Theorem C95_built_readable : forall s, api_study s -> (readable s <-> complete_converters s).
Proof.
  intros s A. pose proof (C94_built_is_valid s A) as V. pose proof (C95_readable s (vs_horizon _ V) (vs_nb_scn _ V)) as R.
  rewrite <- (C11_exact s A). rewrite <- R. split.
  - intros (j & H). apply (C95_stable j); auto; apply V.
  - intros H. now exists (study_to_json s).
Qed.

(** ** A tree written by hand: names left out, numbers in place of values, fields in another order *)
Definition hand_tree (q : Q) (dest : string) : json :=
  JObj [("horizon", JNum 2); ("nb_scn", JNum 1); ("comment", JStr "not looked at"); ("version", JNull); ("converters", JObj []);
        ("networks", JObj [("elec", JObj [("nodes", JObj
          [("a", JObj [("links", JList [JObj [("dest", JStr dest); ("cost", JNum 2); ("quantity", JNum 8)]]); ("storages", JList []);
                       ("productions", JList [JObj [("cost", JNum 3); ("quantity", JList [JNum 5; JNum 6])]]);
                       ("consumptions", JList [JObj [("quantity", JNum q); ("cost", JNum 1000)]])]);
           ("b", JObj [("links", JList []); ("storages", JList []); ("productions", JList []); ("consumptions", JList [])])])])])].
Definition hand_study (q : Q) (dest : string) : study :=
  let k (x : Q) := Scalar x 2 1 in
  Study hadar_version [("elec", [("a", Node [Cons "" (k 1000%Q) (k q)] [Prod "in" (k 3%Q) (Row (ND [2] [5; 6]%Q) 2 1)] [] [Lnk dest (k 8%Q) (k 2%Q)]);
                                 ("b", Node [] [] [] [])])] [] 2 1.
Example C95_read_exact_example : told_study (hand_tree 10%Q "b") (hand_study 10%Q "b") /\ api_study (hand_study 10%Q "b").
Proof. split; [apply C95_read_exact; vm_compute; reflexivity | apply C94_decided; vm_compute; reflexivity]. Qed.
Example C95_stable_example : snd (study_from_json (hand_tree 10%Q "b")) = Ok (hand_study 10%Q "b") /\
  study_to_json (hand_study 10%Q "b") <> hand_tree 10%Q "b" /\ readable (hand_study 10%Q "b").
Proof.
  assert (E : snd (study_from_json (hand_tree 10%Q "b")) = Ok (hand_study 10%Q "b")) by (vm_compute; reflexivity).
  split; [exact E|]. split; [vm_compute; discriminate|]. apply C95_readable; [simpl; lia | simpl; lia | eauto].
Qed.
Example C95_built_readable_example : api_study mix /\ complete_converters mix /\ readable mix.
Proof.
  split; [exact mix_api|]. assert (R : readable mix).
  { apply C95_readable; [simpl; lia | simpl; lia |]. exists (study_to_json mix). vm_compute. reflexivity. }
  split; [|exact R]. now apply (C95_built_readable mix mix_api).
Qed.

(** Reading a text makes none of the checks of the building methods: negative quantities
    and links to nodes that are not there are read. *)
Theorem C95_checked_refuted : exists j j' s s',
  snd (study_from_json j) = Ok s /\ snd (study_from_json j') = Ok s' /\ ~ api_study s /\ ~ api_study s' /\
  (exists x c, node_at s "elec" "a" = Some x /\ In c (n_cons x) /\ forall e, In e (entries (c_qty c)) -> (e < 0)%Q) /\
  (exists x l, node_at s' "elec" "a" = Some x /\ In l (n_links x) /\ ~ has_node s' "elec" (l_dest l)).
Proof.
  exists (hand_tree (-10)%Q "b"), (hand_tree 10%Q "zz"), (hand_study (-10)%Q "b"), (hand_study 10%Q "zz").
  split; [vm_compute; reflexivity|]. split; [vm_compute; reflexivity|].
  split; [rewrite <- C94_decided; vm_compute; discriminate|]. split; [rewrite <- C94_decided; vm_compute; discriminate|].
  split.
  - eexists. eexists. split; [reflexivity|]. split; [left; reflexivity|]. intros e [<-|[]]. reflexivity.
  - eexists. eexists. split; [reflexivity|]. split; [left; reflexivity|]. intros H. apply H. reflexivity.
Qed.

Print Assumptions C95_read_exact.
Print Assumptions C95_readable.
Print Assumptions C95_stable.
Print Assumptions C95_built_readable.
Print Assumptions C95_checked_refuted.
