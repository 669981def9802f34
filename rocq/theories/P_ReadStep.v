(** Property C98: reading the tree of a solved time step, exactly. *)
From Coq Require Import String Ascii List ZArith QArith Bool Arith Lia.
From Verif Require Import Base BaseFacts Numeric Study SpecStudy Output Json SpecJson JsonFacts P_Json
  LP SpecLP StudyFacts LPBuild LPSolve LPReady P_LP SpecRead P_Read P_ReadResult Transport P_Transport SpecReadStep.
Import ListNotations.
Open Scope nat_scope.
Open Scope string_scope.
Open Scope list_scope.

(** ** Parts of a text *)
Lemma parts_split t : parts t (split_cc t).
Proof.
  unfold split_cc. induction t as [|c|c c' r IHr IHs] using string_ind2.
  - apply parts_last. rewrite ncc. reflexivity.
  - apply parts_last. rewrite ncc. reflexivity.
  - simpl split_cc_. destruct (Ascii.eqb c ":" && Ascii.eqb c' ":") eqn:E.
    + apply andb_prop in E as [E1 E2]. apply Ascii.eqb_eq in E1, E2. subst c c'. destruct (split_cc_ r) as [p ps].
      apply (parts_more "" r (p :: ps)); [rewrite ncc; reflexivity | rewrite nec; reflexivity | exact IHr].
    + match goal with |- context [let (p, ps) := ?m in _] => change m with (split_cc_ (String c' r)) end.
      destruct (split_cc_ (String c' r)) as [p ps]. inversion IHs as [t N E1 E2|q t l N C P E1 E2]; subst.
      * apply parts_last. rewrite ncc in *. change (has_cc (String c (String c' r))) with ((Ascii.eqb c ":" && Ascii.eqb c' ":") || has_cc (String c' r)).
        rewrite E. exact N.
      * destruct p as [|a p].
        -- cbn in E1. injection E1 as <- <-. apply (parts_more (String c "") t ps); [rewrite ncc; reflexivity| |exact P]. rewrite nec. cbn. rewrite Ascii.eqb_refl, andb_true_r in E. exact E.
        -- cbn in E1. injection E1 as <- <-. apply (parts_more (String c (String a p)) t ps); [| |exact P].
           ++ rewrite ncc in *. change (has_cc (String c (String a p))) with ((Ascii.eqb c ":" && Ascii.eqb a ":") || has_cc (String a p)). rewrite E. exact N.
           ++ rewrite nec in *. exact C.
Qed.
Lemma parts_iff t l : split_cc t = l <-> parts t l.
Proof.
  split; [intros <-; apply parts_split|]. induction 1 as [t N|p t l N C P IH].
  - unfold split_cc. rewrite split_none; [reflexivity|]. now rewrite <- ncc.
  - unfold split_cc. rewrite split_app; [now rewrite IH | now rewrite <- ncc | now rewrite <- nec].
Qed.

(** ** One field at a time *)
Section Steps.
  Context {B : Type}.
  Variables (d : dict string json) (b : B).
  Lemma rd_num_opt k dflt (f : Q -> ST json B) : snd (sbind (jnum_opt k dflt) f (JObj d)) = Ok b <->
    exists q, number_or k dflt (JObj d) q /\ snd (f q (JObj d)) = Ok b.
  Proof.
    unfold sbind, jnum_opt, number_or. cbn [jfield]. unfold dlook. destruct (dget k d) as [x|] eqn:G.
    - split.
      + intros H. destruct x as [| |q| | | |]; try discriminate. exists q. rewrite at_field. auto.
      + intros (q & [F|[_ N]] & H).
        * apply at_field in F. rewrite G in F. injection F as ->. exact H.
        * exfalso. apply (N x). now apply at_field.
    - split.
      + intros H. exists dflt. split; [|exact H]. right. split; [reflexivity|]. intros x X. apply at_field in X. congruence.
      + intros (q & [F|[-> _]] & H); [|exact H]. apply at_field in F. congruence.
  Qed.
  Lemma rd_split k (f : dict (list string) json -> ST json B) : snd (sbind (split_keys k) f (JObj d)) = Ok b <->
    exists js, dget k d = Some (JObj js) /\ snd (f (dict_of (map (fun kv => (split_cc (fst kv), snd kv)) js)) (JObj (dset k JPy d))) = Ok b.
  Proof.
    unfold split_keys. unfold sbind at 1. unfold sbind at 1. unfold jread, jfield, dlook. destruct (dget k d) as [x|].
    - destruct x as [| | | | |js|]; try (split; [discriminate | intros (js & X & _); discriminate]).
      split; [intros H; exists js; auto|]. intros (js' & X & H). injection X as <-. exact H.
    - split; [discriminate | intros (js & X & _); discriminate].
  Qed.
End Steps.

Lemma lpcons_iff j c : snd (lpcons_from_json j) = Ok c <-> told_lpcons j c.
Proof.
  split.
  - intros H. destruct j as [| | | | |d|]; try discriminate. unfold lpcons_from_json in H.
    apply rd_kwargs in H as [F H]. apply rd_num in H as (q & G1 & H). apply rd_num in H as (v & G2 & H).
    apply rd_num_opt in H as (co & G3 & H). apply rd_name in H as (s & N & H). unfold sret in H. simpl in H. injection H as <-.
    unfold told_lpcons. rewrite !at_field. auto.
  - intros (F & G1 & G2 & G3 & N). destruct F as (d & -> & F). apply at_field in G1, G2. unfold lpcons_from_json.
    apply rd_kwargs. split; [exists d; auto|]. apply rd_num. eexists. split; [exact G1|]. apply rd_num. eexists. split; [exact G2|].
    apply rd_num_opt. eexists. split; [exact G3|]. apply rd_name. eexists. split; [exact N | destruct c; reflexivity].
Qed.
Lemma lpprod_iff j c : snd (lpprod_from_json j) = Ok c <-> told_lpprod j c.
Proof.
  split.
  - intros H. destruct j as [| | | | |d|]; try discriminate. unfold lpprod_from_json in H.
    apply rd_kwargs in H as [F H]. apply rd_num in H as (q & G1 & H). apply rd_num in H as (v & G2 & H).
    apply rd_num_opt in H as (co & G3 & H). apply rd_name in H as (s & N & H). unfold sret in H. simpl in H. injection H as <-.
    unfold told_lpprod. rewrite !at_field. auto.
  - intros (F & G1 & G2 & G3 & N). destruct F as (d & -> & F). apply at_field in G1, G2. unfold lpprod_from_json.
    apply rd_kwargs. split; [exists d; auto|]. apply rd_num. eexists. split; [exact G1|]. apply rd_num. eexists. split; [exact G2|].
    apply rd_num_opt. eexists. split; [exact G3|]. apply rd_name. eexists. split; [exact N | destruct c; reflexivity].
Qed.
Lemma lplink_iff j c : snd (lplink_from_json j) = Ok c <-> told_lplink j c.
Proof.
  split.
  - intros H. destruct j as [| | | | |d|]; try discriminate. unfold lplink_from_json in H.
    apply rd_kwargs in H as [F H]. apply rd_str in H as (s & G1 & H). apply rd_str in H as (e & G2 & H).
    apply rd_num in H as (q & G3 & H). apply rd_num in H as (v & G4 & H). apply rd_num_opt in H as (co & G5 & H).
    unfold sret in H. simpl in H. injection H as <-. unfold told_lplink. rewrite !at_field. auto 10.
  - intros (F & G1 & G2 & G3 & G4 & G5). destruct F as (d & -> & F). apply at_field in G1, G2, G3, G4. unfold lplink_from_json.
    apply rd_kwargs. split; [exists d; auto|]. apply rd_str. eexists. split; [exact G1|]. apply rd_str. eexists. split; [exact G2|].
    apply rd_num. eexists. split; [exact G3|]. apply rd_num. eexists. split; [exact G4|].
    apply rd_num_opt. eexists. split; [exact G5 | destruct c; reflexivity].
Qed.
Lemma lpstor_iff j c : snd (lpstor_from_json j) = Ok c <-> told_lpstor j c.
Proof.
  split.
  - intros H. destruct j as [| | | | |d|]; try discriminate. unfold lpstor_from_json in H.
    apply rd_kwargs in H as [F H]. apply rd_str in H as (s & G0 & H).
    apply rd_num in H as (q1 & G1 & H). apply rd_num in H as (q2 & G2 & H). apply rd_num in H as (q3 & G3 & H).
    apply rd_num in H as (q4 & G4 & H). apply rd_num in H as (q5 & G5 & H). apply rd_num in H as (q6 & G6 & H).
    apply rd_num_opt in H as (q7 & G7 & H). apply rd_num_opt in H as (q8 & G8 & H). apply rd_num_opt in H as (q9 & G9 & H).
    unfold sret in H. simpl in H. injection H as <-. unfold told_lpstor. rewrite !at_field. auto 15.
  - intros (F & G0 & G1 & G2 & G3 & G4 & G5 & G6 & G7 & G8 & G9). destruct F as (d & -> & F). apply at_field in G0, G1, G2, G3, G4, G5, G6. unfold lpstor_from_json.
    apply rd_kwargs. split; [exists d; auto|]. apply rd_str. eexists. split; [exact G0|].
    apply rd_num. eexists. split; [exact G1|]. apply rd_num. eexists. split; [exact G2|]. apply rd_num. eexists. split; [exact G3|].
    apply rd_num. eexists. split; [exact G4|]. apply rd_num. eexists. split; [exact G5|]. apply rd_num. eexists. split; [exact G6|].
    apply rd_num_opt. eexists. split; [exact G7|]. apply rd_num_opt. eexists. split; [exact G8|]. apply rd_num_opt. eexists. split; [exact G9|].
    destruct c; reflexivity.
Qed.
Lemma lpnode_iff j x : snd (lpnode_from_json j) = Ok x <-> told_lpnode j x.
Proof.
  split.
  - intros H. destruct j as [| | | | |d|]; try discriminate. unfold lpnode_from_json in H.
    apply rd_each in H as (x1 & v1 & G1 & T1 & H). apply rd_each in H as (x2 & v2 & G2 & T2 & H).
    apply rd_each in H as (x3 & v3 & G3 & T3 & H). apply rd_each in H as (x4 & v4 & G4 & T4 & H).
    rewrite !dget_dset_neq in G2 by discriminate. rewrite !dget_dset_neq in G3 by discriminate. rewrite !dget_dset_neq in G4 by discriminate.
    apply rd_kwargs in H as [F H]. unfold sret in H. simpl in H. injection H as <-. erewrite !fields_set in F by (nod; eauto).
    rewrite (list_iff _ _ _ _ lpcons_iff) in T1. rewrite (list_iff _ _ _ _ lpprod_iff) in T2.
    rewrite (list_iff _ _ _ _ lpstor_iff) in T3. rewrite (list_iff _ _ _ _ lplink_iff) in T4.
    split; [exact F|]. split; [|split; [|split]]; eexists; rewrite at_field; eauto.
  - intros (F & (x1 & G1 & T1) & (x2 & G2 & T2) & (x3 & G3 & T3) & (x4 & G4 & T4)).
    destruct F as (d & -> & F). apply at_field in G1, G2, G3, G4. unfold lpnode_from_json.
    rewrite <- (list_iff _ _ _ _ lpcons_iff) in T1. rewrite <- (list_iff _ _ _ _ lpprod_iff) in T2.
    rewrite <- (list_iff _ _ _ _ lpstor_iff) in T3. rewrite <- (list_iff _ _ _ _ lplink_iff) in T4.
    apply rd_each. exists x1, (dn_cons x). split; [exact G1|]. split; [exact T1|].
    apply rd_each. exists x2, (dn_prods x). split; [now nod|]. split; [exact T2|].
    apply rd_each. exists x3, (dn_stors x). split; [now nod|]. split; [exact T3|].
    apply rd_each. exists x4, (dn_links x). split; [now nod|]. split; [exact T4|].
    apply rd_kwargs. split; [fset; exists d; auto | destruct x; reflexivity].
Qed.
Lemma lpnet_iff j ns : snd (lpnet_from_json j) = Ok ns <-> told_lpnet j ns.
Proof.
  unfold told_lpnet. split.
  - intros H. destruct j as [| | | | |d|]; try discriminate. unfold lpnet_from_json in H.
    apply rd_focus in H as (x & l & G & T & H). unfold sbind at 1, jwrite, jset in H. apply rd_kwargs in H as [F H].
    unfold sret in H. simpl in H. injection H as <-. rewrite (dict_iff _ _ _ _ lpnode_iff) in T.
    rewrite dset_dset in F. rewrite (fields_set _ _ _ _ _ _ G) in F.
    split; [|exists x; now rewrite at_field]. destruct F as (d' & E & _ & F2). injection E as <-.
    exists d. split; [reflexivity|]. split.
    + intros k [<-|[]]. now apply dget_In_keys in G.
    + intros k K. destruct (F2 k K) as [[]|X]. now left.
  - intros (F & x & G & T). destruct F as (d & -> & F1 & F2). apply at_field in G. rewrite <- (dict_iff _ _ _ _ lpnode_iff) in T.
    unfold lpnet_from_json. apply rd_focus. exists x, ns. split; [exact G|]. split; [exact T|]. unfold sbind at 1, jwrite, jset.
    apply rd_kwargs. split; [|reflexivity]. rewrite dset_dset. rewrite (fields_set _ _ _ _ _ _ G). exists d. split; [reflexivity|].
    split; [intros k []|]. intros k K. destruct (F2 k K) as [X|[]]. now right.
Qed.

(** ** Converters *)
Lemma numbers_iff (js : dict string json) (d : dict (list string) Q) :
  dmapM as_num (dict_of (map (fun kv => (split_cc (fst kv), snd kv)) js)) = Ok d <-> told_numbers (JObj js) d.
Proof.
  assert (M : forall (l : dict (list string) json) o, dmapM as_num l = Ok o <-> Forall2 (fun kx kq => fst kx = fst kq /\ snd kx = JNum (snd kq)) l o).
  { unfold dmapM. induction l as [|[k x] l IH]; intros o; cbn [mapM fst snd].
    - split; [intros H; inversion H; constructor | intros H; inversion H; reflexivity].
    - split.
      + intros H. destruct x as [| |q| | | |]; try discriminate. cbn [as_num rbind] in H.
        match type of H with rbind ?m _ = _ => destruct m as [o'|] eqn:Z; [|discriminate] end. cbn [rbind] in H. injection H as <-.
        constructor; [cbn; auto | now apply IH].
      + intros H. inversion H as [|? [k' q] ? o' [H0 H1] H2]; subst. cbn [fst snd] in *. subst k' x. cbn [as_num rbind].
        apply IH in H2. rewrite H2. reflexivity. }
  rewrite M. unfold told_numbers. split.
  - intros H. exists js, (map (fun kv => (split_cc (fst kv), snd kv)) js). split; [reflexivity|]. split; [|exact H].
    clear H. induction js as [|[k x] js IH]; cbn [map]; constructor; [|exact IH]. cbn. split; [apply parts_split | reflexivity].
  - intros (js' & kjs & X & K & H). injection X as <-. replace (map (fun kv => (split_cc (fst kv), snd kv)) js) with kjs; [exact H|].
    clear H. induction K as [|[k x] [l y] js kjs [H1 H2] K IH]; cbn [map]; [reflexivity|]. cbn [fst snd] in *. apply parts_iff in H1. subst l y. now rewrite IH.
Qed.
Lemma lpconv_iff j v : snd (lpconv_from_json j) = Ok v <-> told_lpconv j v.
Proof.
  split.
  - intros H. destruct j as [| | | | |d|]; try discriminate. unfold lpconv_from_json in H.
    apply rd_split in H as (r & G1 & H). apply rd_split in H as (s & G2 & H). rewrite dget_dset_neq in G2 by discriminate.
    apply rd_kwargs in H as [F H]. erewrite !fields_set in F by (nod; eauto).
    apply rd_str in H as (n & G0 & H). unfold sbind at 1, slift at 1 in H.
    match type of H with context [dmapM as_num ?l] => destruct (dmapM as_num l) as [rs|] eqn:M1; [|discriminate] end.
    unfold sbind at 1, slift at 1 in H.
    match type of H with context [dmapM as_num ?l] => destruct (dmapM as_num l) as [ss|] eqn:M2; [|discriminate] end.
    apply numbers_iff in M1, M2. apply rd_str in H as (dn & G3 & H). apply rd_str in H as (dd & G4 & H).
    apply rd_num in H as (q & G5 & H). apply rd_num in H as (c & G6 & H). apply rd_num in H as (m & G7 & H).
    unfold sret in H. simpl in H. injection H as <-.
    rewrite !dget_dset_neq in G0, G3, G4, G5, G6, G7 by discriminate.
    unfold told_lpconv. cbn [dv_name dv_ratios dv_src dv_dnet dv_dnode dv_dest dv_cost dv_max]. rewrite !at_field. split; [exact F|]. split; [exact G0|].
    split; [exists (JObj r); rewrite at_field; auto|]. split; [exists (JObj s); rewrite at_field; auto|]. auto.
  - intros (F & G0 & (x & G1 & T1) & (y & G2 & T2) & G3 & G4 & G5 & G6 & G7). destruct F as (d & -> & F). apply at_field in G0, G1, G2, G3, G4, G5, G6, G7.
    pose proof T1 as (r & _ & -> & _). pose proof T2 as (s & _ & -> & _). apply numbers_iff in T1, T2. unfold lpconv_from_json.
    apply rd_split. exists r. split; [exact G1|]. apply rd_split. exists s. split; [now nod|].
    apply rd_kwargs. split; [fset; exists d; auto|]. apply rd_str. eexists. split; [nod; exact G0|].
    unfold sbind at 1, slift at 1. rewrite T1. unfold sbind at 1, slift at 1. rewrite T2.
    apply rd_str. eexists. split; [nod; exact G3|]. apply rd_str. eexists. split; [nod; exact G4|].
    apply rd_num. eexists. split; [nod; exact G5|]. apply rd_num. eexists. split; [nod; exact G6|]. apply rd_num. eexists. split; [nod; exact G7|].
    destruct v; reflexivity.
Qed.

(** A tree is read as a step exactly when it tells that step; so for all the steps of a worker. *)
Theorem C98_read_exact : forall j p, snd (lpstep_from_json j) = Ok p <-> told_lpstep j p.
Proof.
  intros j p. unfold told_lpstep. split.
  - intros H. destruct j as [| | | | |d|]; try discriminate. unfold lpstep_from_json in H.
    apply rd_focus in H as (x & nets & G1 & T1 & H). apply rd_focus in H as (y & convs & G2 & T2 & H).
    rewrite !dget_dset_neq in G2 by discriminate.
    rewrite (dict_iff _ _ _ _ lpnet_iff) in T1. rewrite (dict_iff _ _ _ _ lpconv_iff) in T2.
    unfold sret in H. simpl in H. injection H as <-. split; eexists; rewrite at_field; eauto.
  - intros ((x & G1 & T1) & (y & G2 & T2)). destruct G1 as (d & -> & G1). apply at_field in G2.
    rewrite <- (dict_iff _ _ _ _ lpnet_iff) in T1. rewrite <- (dict_iff _ _ _ _ lpconv_iff) in T2.
    unfold lpstep_from_json. apply rd_focus. exists x, (dt_networks p). split; [exact G1|]. split; [exact T1|].
    apply rd_focus. exists y, (dt_converters p). split; [now nod|]. split; [exact T2 | destruct p; reflexivity].
Qed.
Theorem C98_unpack_exact : forall j ps, unpack j = Ok ps <-> told_list told_lpstep j ps.
Proof.
  intros j ps. unfold unpack, each_list, told_list. destruct j as [| | | |js| |]; try (split; [discriminate | intros (l & X & _); discriminate]).
  pose proof (mapJ_iff lpstep_from_json js ps) as M. destruct (mapJ lpstep_from_json js) as [l r]. cbn [snd] in *. rewrite M.
  rewrite (Forall2_iff _ told_lpstep _ _ C98_read_exact). split; [intros H; exists js; auto | intros (l' & X & H); injection X as <-; exact H].
Qed.

(** ** What can be told *)
Lemma told_keyed x d : told_numbers x d -> keyed d.
Proof.
  intros (js & kjs & _ & K & F). assert (E : dkeys d = dkeys (dict_of kjs)).
  { clear K. unfold dkeys. induction F as [|[k x'] [k' q] l m [H _] F IH]; [reflexivity|]. cbn in *. now rewrite H, IH. }
  split; rewrite E; [apply dict_of_once|]. intros k I. apply in_map_iff in I as ([k' y] & <- & I). apply dict_of_sub in I. cbn [fst].
  clear - K I. induction K as [|[t x] [l z] js kjs [H _] K IH]; [destruct I|]. destruct I as [I|I]; [|auto]. injection I as -> ->. eauto.
Qed.
Lemma told_readable_step j p : told_lpstep j p -> readable_step p.
Proof.
  intros (_ & y & _ & T) name v I.
  apply (dict_right _ (fun v => keyed (dv_ratios v) /\ keyed (dv_src v)) _ _ _ _ T) in I; [exact I|].
  intros x a (_ & _ & (r & _ & T1) & (s & _ & T2) & _). split; eapply told_keyed; eauto.
Qed.

(** A text for each step. *)
Fixpoint join_parts (l : list string) : string :=
  match l with [] => "" | [p] => p | p :: r => (p ++ "::" ++ join_parts r)%string end.
Lemma join_of t l : parts t l -> join_parts l = t.
Proof.
  induction 1 as [t N|p t l N C P IH]; [reflexivity|]. cbn [join_parts]. rewrite IH. destruct P; reflexivity.
Qed.
Definition numbers_text (d : dict (list string) Q) : json := JObj (map (fun kq => (join_parts (fst kq), JNum (snd kq))) d).
Lemma numbers_told d : keyed d -> told_numbers (numbers_text d) d.
Proof.
  intros [N P]. exists (map (fun kq => (join_parts (fst kq), JNum (snd kq))) d), (dmap JNum d). split; [reflexivity|].
  rewrite dict_of_NoDup by (change (NoDup (dkeys (dmap JNum d))); now rewrite dkeys_dmap). split.
  - clear N. induction d as [|[k q] d IH]; cbn; constructor; [|apply IH; intros k' I; apply P; now right].
    cbn. split; [|reflexivity]. destruct (P k (or_introl eq_refl)) as [t T]. now rewrite (join_of _ _ T).
  - clear. induction d as [|[k q] d IH]; cbn; constructor; auto.
Qed.
Definition dcons_text (c : dcons) : json :=
  JObj [("cost", JNum (dc_cost c)); ("quantity", JNum (dc_qty c)); ("name", JStr (dc_name c)); ("variable", JNum (dc_val c))].
Definition dprod_text (c : dprod) : json :=
  JObj [("cost", JNum (dp_cost c)); ("quantity", JNum (dp_qty c)); ("name", JStr (dp_name c)); ("variable", JNum (dp_val c))].
Definition dstor_text (s : dstor) : json :=
  JObj [("name", JStr (ds_name s)); ("capacity", JNum (ds_capacity s)); ("var_capacity", JNum (ds_vcap s));
        ("flow_in", JNum (ds_flow_in s)); ("var_flow_in", JNum (ds_vin s)); ("flow_out", JNum (ds_flow_out s)); ("var_flow_out", JNum (ds_vout s));
        ("cost", JNum (ds_cost s)); ("init_capacity", JNum (ds_init s)); ("eff", JNum (ds_eff s))].
Definition dlink_text (l : dlink) : json :=
  JObj [("src", JStr (dl_src l)); ("dest", JStr (dl_dest l)); ("quantity", JNum (dl_qty l)); ("variable", JNum (dl_val l)); ("cost", JNum (dl_cost l))].
Definition dconv_text (v : dconv) : json :=
  JObj [("name", JStr (dv_name v)); ("src_ratios", numbers_text (dv_ratios v)); ("var_flow_src", numbers_text (dv_src v));
        ("dest_network", JStr (dv_dnet v)); ("dest_node", JStr (dv_dnode v)); ("var_flow_dest", JNum (dv_dest v)); ("cost", JNum (dv_cost v)); ("max", JNum (dv_max v))].
Definition dnode_text (x : dnode) : json :=
  JObj [("consumptions", JList (map dcons_text (dn_cons x))); ("productions", JList (map dprod_text (dn_prods x)));
        ("storages", JList (map dstor_text (dn_stors x))); ("links", JList (map dlink_text (dn_links x)))].
Definition dstep_text (p : dstep) : json :=
  JObj [("networks", JObj (dmap (fun ns => JObj [("nodes", JObj (dmap dnode_text ns))]) (dt_networks p)));
        ("converters", JObj (dmap dconv_text (dt_converters p)))].
Ltac opt := left; now apply at_field.
Lemma readable_step_told p : readable_step p -> told_lpstep (dstep_text p) p.
Proof.
  intros R. split.
  - eexists. split; [apply at_field; reflexivity|]. apply dict_text. intros net ns _. split; [keys|].
    eexists. split; [apply at_field; reflexivity|]. apply dict_text. intros nd x _. split; [keys|].
    split; [|split; [|split]]; (eexists; split; [apply at_field; reflexivity|]); apply list_text; intros a _.
    + split; [keys|]. split; [now apply at_field|]. split; [now apply at_field|]. split; opt.
    + split; [keys|]. split; [now apply at_field|]. split; [now apply at_field|]. split; opt.
    + split; [keys|]. do 7 (split; [now apply at_field|]). split; [opt|]. split; opt.
    + split; [keys|]. do 4 (split; [now apply at_field|]). opt.
  - eexists. split; [apply at_field; reflexivity|]. apply dict_text. intros name v J. destruct (R name v J) as [R1 R2].
    split; [keys|]. split; [now apply at_field|]. split; [eexists; split; [apply at_field; reflexivity | now apply numbers_told]|].
    split; [eexists; split; [apply at_field; reflexivity | now apply numbers_told]|]. do 4 (split; [now apply at_field|]). now apply at_field.
Qed.
Theorem C98_readable : forall p, (exists j, snd (lpstep_from_json j) = Ok p) <-> readable_step p.
Proof.
  intros p. split; [intros (j & H); apply C98_read_exact in H; eapply told_readable_step; eauto|].
  intros R. exists (dstep_text p). apply C98_read_exact. now apply readable_step_told.
Qed.

(** What a worker packs comes back whole exactly when the sources are named plainly. *)
Theorem C98_worker_exact : forall answer s scn j p,
  api_study s -> usable_converters s -> scn < st_nb_scn s -> worker answer s scn = Ok j -> build s scn = Ok p ->
  (unpack j = Ok (map (step_with (answer (fst p))) (snd p)) <-> plain_sources s).
Proof.
  intros answer s scn j p Api U L W Bp. split.
  - intros H. apply C98_unpack_exact in H. destruct H as (js & _ & F).
    pose proof (api_ready s Api U) as R. destruct (build_ok s scn L R) as (q & B & _). rewrite Bp in B. injection B as ->. cbn [fst snd] in F.
    intros name v k C K. destruct (api_facts s Api) as (_ & _ & H0 & _).
    assert (P0 : In (step_with (answer q) (pstep s scn 0)) (map (step_with (answer q)) (map (pstep s scn) (seq 0 (st_horizon s))))).
    { apply in_map, in_map, in_seq. lia. }
    assert (T : exists x, told_lpstep x (step_with (answer q) (pstep s scn 0))).
    { clear - F P0. induction F as [|x y l m H F IH]; [destruct P0|]. destruct P0 as [->|P0]; eauto. }
    destruct T as (x & T). apply told_readable_step in T.
    assert (I0 : In (name, conv_with (answer q) (pconv name 0 scn v)) (dt_converters (step_with (answer q) (pstep s scn 0)))).
    { cbn [step_with dt_converters pstep lt_converters]. unfold dmap. apply in_map_iff. exists (name, pconv name 0 scn v). split; [reflexivity|].
      apply in_map_iff. exists (name, v). split; [reflexivity|]. now apply dget_In. }
    apply T in I0 as [_ (_ & I0)]. destruct k as [a b]. destruct (I0 [a; b]) as (t & Pt).
    + cbn [conv_with dv_src pconv lv_src]. unfold dkeys. rewrite map_map, map_map. cbn [fst snd]. unfold dkeys in K.
      apply in_map_iff in K as ([k q0] & E & K). cbn in E. subst k. apply in_map_iff. exists (a, b, q0). auto.
    + apply parts_iff in Pt. assert (KO : key_of t = Ok (a, b)) by (unfold key_of; now rewrite Pt). apply key_of_iff in KO. apply KO.
  - intros P. destruct (C86_worker answer s scn Api U P L) as (j' & p' & W' & B' & H). rewrite W in W'. injection W' as <-. rewrite Bp in B'. injection B' as <-. exact H.
Qed.

(** A tree with fields left out and in another order, with a key of three parts; and one refused
    for a field too many. *)
Definition small_step (more : list (string * json)) : json :=
  JObj [("converters", JObj [("plant", JObj [("max", JNum 9); ("name", JStr "plant"); ("src_ratios", JObj [("gas::g", JNum (1 # 2))]);
          ("var_flow_src", JObj [("gas::g::x:", JNum 4)]); ("dest_network", JStr "elec"); ("dest_node", JStr "a"); ("var_flow_dest", JNum 2); ("cost", JNum 0)])]);
        ("networks", JObj [("elec", JObj [("nodes", JObj [("a", JObj [
          ("links", JList [JObj [("dest", JStr "b"); ("src", JStr "a"); ("variable", JNum 1); ("quantity", JNum 3)]]);
          ("storages", JList [JObj [("name", JStr "cell"); ("capacity", JNum 5); ("var_capacity", JNum 1); ("flow_in", JNum 2); ("var_flow_in", JNum 1);
             ("flow_out", JNum 2); ("var_flow_out", JNum 0)]]);
          ("consumptions", JList [JObj ([("quantity", JNum 7); ("variable", JNum 1)] ++ more)]);
          ("productions", JList [JObj [("variable", JNum 6); ("quantity", JNum 6)]])])])])])].
Definition small_read : dstep :=
  DStep [("elec", [("a", DNode [DCons 7 1 0 ""] [DProd 6 6 0 "in"] [DStor "cell" 5 1 2 1 2 0 0 0 (99 # 100)] [DLink "a" "b" 3 1 0])])]
        [("plant", DConv "plant" [(["gas"; "g"], (1 # 2)%Q)] [(["gas"; "g"; "x:"], 4%Q)] "elec" "a" 2 0 9)].
Example C98_example : told_lpstep (small_step []) small_read /\ told_list told_lpstep (JList [small_step []]) [small_read] /\ readable_step small_read /\
  (forall p, ~ told_lpstep (small_step [("unit", JStr "MW")]) p).
Proof.
  assert (T : told_lpstep (small_step []) small_read) by (apply C98_read_exact; vm_compute; reflexivity).
  split; [exact T|]. split; [apply C98_unpack_exact; vm_compute; reflexivity|]. split; [eapply told_readable_step; eauto|].
  intros p H. apply C98_read_exact in H. vm_compute in H. discriminate.
Qed.
Example C98_worker_example : exists j p, api_study mix /\ usable_converters mix /\ worker (fun _ => mix_x 0) mix 0 = Ok j /\ build mix 0 = Ok p /\ plain_sources mix.
Proof.
  do 2 eexists. split; [apply mix_api|]. split; [apply mix_usable|]. split; [vm_compute; reflexivity|]. split; [vm_compute; reflexivity | apply mix_plain].
Qed.

Print Assumptions C98_read_exact.
Print Assumptions C98_unpack_exact.
Print Assumptions C98_readable.
Print Assumptions C98_worker_exact.
