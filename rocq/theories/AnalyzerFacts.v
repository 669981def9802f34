(** Lemmas on the flat tables. *)
From Coq Require Import String Ascii List ZArith QArith Bool Arith Lia Permutation.
From Verif Require Import Base BaseFacts Numeric SpecNumeric NumericFacts Study Fluent SpecStudy StudyFacts FluentFacts
  Output Json SpecJson JsonFacts LP SpecLP LPFacts LPResult LPReady Analyzer SpecAnalyzer.
Import ListNotations.
Open Scope nat_scope.
Open Scope string_scope.
Open Scope list_scope.

(** ** Assignments of a block *)
Fixpoint mapi_from {A B} (j : nat) (f : nat -> A -> B) (l : list A) : list B :=
  match l with [] => [] | x :: r => f j x :: mapi_from (S j) f r end.

Lemma mapi_from_length {A B} (f : nat -> A -> B) l : forall j, List.length (mapi_from j f l) = List.length l.
Proof. induction l; simpl; auto. Qed.
Lemma mapi_from_comp {A B C} (f : nat -> A -> B) (g : nat -> B -> C) l : forall j,
  mapi_from j g (mapi_from j f l) = mapi_from j (fun i x => g i (f i x)) l.
Proof. induction l; simpl; intros; f_equal; auto. Qed.
Lemma mapi_from_ext {A B} (f g : nat -> A -> B) l : forall j, (forall i x, j <= i < j + List.length l -> In x l -> f i x = g i x) ->
  mapi_from j f l = mapi_from j g l.
Proof. induction l as [|a l IH]; simpl; intros j H; f_equal; [apply H; auto; lia|]. apply IH. intros i x Hi I. apply H; auto; lia. Qed.
Lemma mapi_from_map {A B C} (f : nat -> B -> C) (g : A -> B) l : forall j, mapi_from j f (map g l) = mapi_from j (fun i x => f i (g x)) l.
Proof. induction l; simpl; intros; f_equal; auto. Qed.
Lemma mapi_from_seq {B} (f : nat -> nat -> B) n : forall j k, mapi_from j f (seq k n) = map (fun i => f (j + i) (k + i)) (seq 0 n).
Proof.
  induction n as [|n IH]; simpl; intros j k; auto. rewrite !Nat.add_0_r, IH. f_equal. rewrite <- seq_shift, map_map.
  apply map_ext. intros i. f_equal; lia.
Qed.
Lemma mapi_from_id {A} (l : list A) : forall j, mapi_from j (fun _ x => x) l = l.
Proof. induction l; simpl; intros; f_equal; auto. Qed.

Lemma set_from_app k a b col v l1 l2 :
  set_from k a b col v (l1 ++ l2) = set_from k a b col v l1 ++ set_from (k + List.length l1) a b col v l2.
Proof.
  revert k. induction l1 as [|r l1 IH]; simpl; intros k; [now rewrite Nat.add_0_r|]. rewrite IH. do 3 f_equal. lia.
Qed.
Lemma set_from_before k a b col v l : k + List.length l <= a -> set_from k a b col v l = l.
Proof.
  revert k. induction l as [|r l IH]; simpl; intros k H; auto. rewrite IH by lia.
  destruct (Nat.leb a k) eqn:E; auto. apply Nat.leb_le in E. lia.
Qed.
Lemma set_from_after k a b col v l : b <= k -> set_from k a b col v l = l.
Proof.
  revert k. induction l as [|r l IH]; simpl; intros k H; auto. rewrite IH by lia.
  destruct (Nat.ltb k b) eqn:E; [apply Nat.ltb_lt in E; lia|]. now rewrite andb_false_r.
Qed.
Lemma set_from_in k a b col v l : a <= k -> k + List.length l <= b ->
  set_from k a b col v l = mapi_from (k - a) (fun j (r : trow) => dset col (v j) r) l.
Proof.
  revert k. induction l as [|r l IH]; cbn [set_from mapi_from]; intros k H1 H2; auto. cbn [List.length] in H2. rewrite IH by lia.
  rewrite (proj2 (Nat.leb_le a k)) by lia. rewrite (proj2 (Nat.ltb_lt k b)) by lia. simpl. f_equal.
  now rewrite <- Nat.sub_succ_l by lia.
Qed.

Definition val_at (v : colval) (j : nat) : cell := match v with VScalar c => c | VArray l => nth j l CNaN end.
Definition val_fits (m : nat) (v : colval) : Prop := match v with VScalar _ => True | VArray l => List.length l = m end.

Lemma loc_set_block bcast cols A B C asg : mem (fst asg) cols = true -> val_fits (List.length B) (snd asg) ->
  loc_set bcast (List.length A) (List.length A + List.length B) (Table cols (A ++ B ++ C)) asg =
  Ok (Table cols (A ++ mapi_from 0 (fun j (r : trow) => dset (fst asg) (val_at (snd asg) j) r) B ++ C)).
Proof.
  destruct asg as [col v]. simpl. intros M F. rewrite M. cbn [tb_rows tb_cols].
  assert (E : forall f, set_from 0 (List.length A) (List.length A + List.length B) col f (A ++ B ++ C) =
                        A ++ mapi_from 0 (fun j (r : trow) => dset col (f j) r) B ++ C).
  { intros f. rewrite !set_from_app. rewrite set_from_before by lia. rewrite set_from_in by lia. rewrite set_from_after by lia.
    do 3 f_equal. lia. }
  destruct v as [c|l]; simpl in *; rewrite E; auto.
  rewrite !app_length. replace (Nat.min _ _ - _) with (List.length B) by lia. rewrite F, Nat.eqb_refl. reflexivity.
Qed.

Definition apply_asg (l : list (string * colval)) (j : nat) (r : trow) : trow :=
  fold_left (fun r asg => dset (fst asg) (val_at (snd asg) j) r) l r.

Lemma loc_sets_block bcast cols A C l : forall B,
  Forall (fun asg => mem (fst asg) cols = true /\ val_fits (List.length B) (snd asg)) l ->
  loc_sets bcast (List.length A) (List.length A + List.length B) (Table cols (A ++ B ++ C)) l =
  Ok (Table cols (A ++ mapi_from 0 (apply_asg l) B ++ C)).
Proof.
  unfold loc_sets. induction l as [|asg l IH]; intros B F; cbn [foldM].
  - unfold apply_asg. simpl. now rewrite mapi_from_id.
  - inversion F as [|? ? [M V] F']; subst. rewrite loc_set_block by auto. cbn [rbind].
    specialize (IH (mapi_from 0 (fun j (r : trow) => dset (fst asg) (val_at (snd asg) j) r) B)). rewrite mapi_from_length in IH.
    etransitivity; [apply IH; auto|]. rewrite mapi_from_comp. reflexivity.
Qed.

(** ** Folds *)
Lemma foldM_app {A S} (f : S -> A -> res S) l m s : foldM f (l ++ m) s = rbind (foldM f l s) (foldM f m).
Proof. revert s. induction l as [|a l IH]; simpl; intros s; auto. destruct (f s a); simpl; auto. Qed.
Lemma foldM_flat_map {A B S} (f : S -> B -> res S) (g : A -> list B) l s :
  foldM f (flat_map g l) s = foldM (fun s a => foldM f (g a) s) l s.
Proof. revert s. induction l as [|a l IH]; simpl; intros s; auto. rewrite foldM_app. destruct (foldM f (g a) s); simpl; auto. Qed.
Lemma foldM_map {A B S} (f : S -> B -> res S) (g : A -> B) l s : foldM f (map g l) s = foldM (fun s a => f s (g a)) l s.
Proof. revert s. induction l as [|a l IH]; simpl; intros s; auto. destruct (f s (g a)); simpl; auto. Qed.
Lemma foldM_ext {A S} (f g : S -> A -> res S) l : (forall s a, In a l -> f s a = g s a) -> forall s, foldM f l s = foldM g l s.
Proof.
  induction l as [|a l IH]; simpl; intros H s; auto. rewrite (H s a) by auto. destruct (g s a); simpl; auto.
Qed.

Lemma Forall2_combine {A C} (P : A -> C -> Prop) l m x y : Forall2 P l m -> In (x, y) (combine l m) -> P x y.
Proof. induction 1; simpl; [tauto|]. intros [E|I]; [injection E as -> ->; auto | auto]. Qed.

(** ** Elements *)
Section Elements.
  Context {E F : Type} (gets : node -> list E) (getr : onode -> list F) (s : study) (r : result).

  Definition elements : list (string * string * E * F) :=
    flat_map (fun kk : (string * network) * (string * onetwork) =>
      flat_map (fun dd : (string * node) * (string * onode) =>
        map (fun eo => (fst (fst kk), fst (fst dd), fst eo, snd eo)) (combine (gets (snd (fst dd))) (getr (snd (snd dd)))))
        (combine (snd (fst kk)) (snd (snd kk)))) (combine (st_networks s) (r_networks r)).

  (** The elements in the order of the loops, by position. *)
  Definition positions : list (string * string * nat * F) :=
    flat_map (fun kn : string * onetwork => flat_map (fun kd : string * onode =>
      map (fun ie => (fst kn, fst kd, fst ie, snd ie)) (combine (seq 0 (List.length (getr (snd kd)))) (getr (snd kd)))) (snd kn)) (r_networks r).

  Lemma each_element_flat {S} (body : string -> string -> nat -> F -> S -> res S) s0 :
    each_element getr body r s0 = foldM (fun st p => body (fst (fst (fst p))) (snd (fst (fst p))) (snd (fst p)) (snd p) st) positions s0.
  Proof.
    unfold each_element, positions. rewrite foldM_flat_map. apply foldM_ext. intros st kn _.
    rewrite foldM_flat_map. apply foldM_ext. intros st' kd _. now rewrite foldM_map.
  Qed.

  Hypotheses (W : study_wf s) (M : mirrors s r)
    (L : forall n rn, node_like s n rn -> List.length (gets n) = List.length (getr rn)).

  Definition at_position (p : string * string * nat * F) (e : string * string * E * F) : Prop :=
    fst (fst (fst p)) = fst (fst (fst e)) /\ snd (fst (fst p)) = snd (fst (fst e)) /\
    snd p = snd e /\ study_element gets s (fst (fst (fst e))) (snd (fst (fst e))) (snd (fst p)) = Ok (snd (fst e)).

  Lemma at_position_list net nd (l : list E) : forall (m : list F) z,
    (forall i e, nth_error l i = Some e -> study_element gets s net nd (z + i) = Ok e) -> List.length l = List.length m ->
    Forall2 at_position (map (fun ie => (net, nd, fst ie, snd ie)) (combine (seq z (List.length m)) m))
                        (map (fun eo => (net, nd, fst eo, snd eo)) (combine l m)).
  Proof.
    induction l as [|e l IH]; destruct m as [|o m]; intros z X H; try discriminate; [constructor|].
    cbn [List.length seq combine map]. constructor.
    - unfold at_position. cbn [fst snd]. repeat split. specialize (X 0 e eq_refl). now rewrite Nat.add_0_r in X.
    - apply IH; [|now injection H]. intros i e' I. specialize (X (Datatypes.S i) e' I). now rewrite <- plus_n_Sm in X.
  Qed.

  Lemma positions_elements : Forall2 at_position positions elements.
  Proof.
    unfold positions, elements. pose proof (mr_nodes _ _ M) as N.
    assert (D : forall net ns, In (net, ns) (st_networks s) -> dget net (st_networks s) = Some ns) by (intros; apply In_dget; auto; apply W).
    assert (G : forall l m, Forall2 (fun (kn : string * network) (ko : string * onetwork) => fst ko = fst kn /\
               Forall2 (fun (kd : string * node) (kr : string * onode) =>
                          fst kr = fst kd /\ node_like s (snd kd) (snd kr)) (snd kn) (snd ko)) l m ->
       (forall net ns, In (net, ns) l -> dget net (st_networks s) = Some ns) ->
       Forall2 at_position
         (flat_map (fun kn : string * onetwork => flat_map (fun kd : string * onode =>
            map (fun ie => (fst kn, fst kd, fst ie, snd ie)) (combine (seq 0 (List.length (getr (snd kd)))) (getr (snd kd)))) (snd kn)) m)
         (flat_map (fun kk : (string * network) * (string * onetwork) =>
            flat_map (fun dd : (string * node) * (string * onode) =>
              map (fun eo => (fst (fst kk), fst (fst dd), fst eo, snd eo)) (combine (gets (snd (fst dd))) (getr (snd (snd dd)))))
              (combine (snd (fst kk)) (snd (snd kk)))) (combine l m))).
    2:{ apply G; auto. }
    clear N D. induction 1 as [|[net ns] [net' rns] l m [K N] _ IH]; intros D; [constructor|].
    cbn [combine flat_map fst snd] in *. subst net'. apply Forall2_app; [|apply IH; intros; apply D; simpl; auto].
    specialize (D net ns (or_introl eq_refl)). clear IH.
    assert (DD : forall nd n, In (nd, n) ns -> dget nd ns = Some n) by (intros; apply In_dget; auto; eapply wf_nodes; eauto).
    assert (G : forall ns' rns', Forall2 (fun (kd : string * node) (kr : string * onode) =>
                          fst kr = fst kd /\ node_like s (snd kd) (snd kr)) ns' rns' ->
       (forall nd n, In (nd, n) ns' -> dget nd ns = Some n) ->
       Forall2 at_position
         (flat_map (fun kd : string * onode =>
            map (fun ie => (net, fst kd, fst ie, snd ie)) (combine (seq 0 (List.length (getr (snd kd)))) (getr (snd kd)))) rns')
         (flat_map (fun dd : (string * node) * (string * onode) =>
              map (fun eo => (net, fst (fst dd), fst eo, snd eo)) (combine (gets (snd (fst dd))) (getr (snd (snd dd))))) (combine ns' rns'))).
    2:{ apply G; auto. }
    clear DD N. induction 1 as [|[nd n] [nd' rn] ns' rns' [K LK] _ IH]; intros DD; [constructor|].
    cbn [combine flat_map fst snd] in *. subst nd'. apply Forall2_app; [|apply IH; intros; apply DD; simpl; auto].
    specialize (DD nd n (or_introl eq_refl)). apply at_position_list; [|now apply L].
    intros i e I. unfold study_element, dlook. rewrite D. cbn [rbind]. rewrite DD. cbn [rbind]. unfold lnth. rewrite Nat.add_0_l. now rewrite I.
  Qed.

  Lemma count_elements_eq : count_elements gets s = List.length elements.
  Proof.
    unfold count_elements, elements. pose proof (mr_nodes _ _ M) as N. revert N. generalize (st_networks s) (r_networks r).
    intros l m N. induction N as [|[net ns] [net' rns] l m [K N] _ IH]; auto.
    cbn [map fst snd combine flat_map list_sum fold_right]. rewrite app_length. unfold list_sum in *. rewrite IH. f_equal. clear - N L.
    cbn [fst snd] in *. induction N as [|[nd n] [nd' rn] ns rns [K LK] _ IH]; auto.
    cbn [map fst snd combine flat_map fold_right]. rewrite app_length, map_length, combine_length, IH. rewrite (L n rn LK). lia.
  Qed.

  Lemma is_element_In net nd e o : is_element gets getr s r net nd e o <-> In (net, nd, e, o) elements.
  Proof.
    unfold is_element, elements, node_at, rnode_at. pose proof (mr_nodes _ _ M) as N.
    pose proof (Forall2_keys (fun (k : string) (ns : network) (rns : onetwork) => Forall2 (fun (kd : string * node) (kr : string * onode) =>
                          fst kr = fst kd /\ node_like s (snd kd) (snd kr)) ns rns) _ _ N) as KE.
    assert (ND : NoDup (dkeys (st_networks s))) by apply W.
    split.
    - intros (n & rn & i & A & B & C & D).
      destruct (dget net (st_networks s)) as [ns|] eqn:G; [|discriminate].
      destruct (dget net (r_networks r)) as [rns|] eqn:G'; [|discriminate].
      assert (NDn : NoDup (dkeys ns)) by (eapply wf_nodes; eauto).
      apply in_flat_map. exists ((net, ns), (net, rns)). 
      assert (IC : In ((net, ns), (net, rns)) (combine (st_networks s) (r_networks r)) /\ Forall2 (fun (kd : string * node) (kr : string * onode) =>
                          fst kr = fst kd /\ node_like s (snd kd) (snd kr)) ns rns).
      { clear - N G G' ND. revert G G' ND. induction N as [|[k x] [k' y] l m [K F2] _ IH]; cbn [dget combine]; [discriminate|].
        cbn [fst snd] in *. subst k'. intros G G' ND. destruct (eqb net k) eqn:Ek.
        - apply eqb_eq in Ek. subst. injection G as ->. injection G' as ->. auto using in_eq.
        - destruct IH as [I1 I2]; auto using in_cons. now inversion ND. }
      destruct IC as [IC F2]. split; auto. cbn [fst snd]. apply in_flat_map. exists ((nd, n), (nd, rn)).
      assert (ID : In ((nd, n), (nd, rn)) (combine ns rns) /\ node_like s n rn).
      { clear - F2 A B NDn. revert A B NDn. induction F2 as [|[k x] [k' y] l m [K LK] _ IH]; cbn [dget combine]; [discriminate|].
        cbn [fst snd] in *. subst k'. intros G G' ND. destruct (eqb nd k) eqn:Ek.
        - apply eqb_eq in Ek. subst. injection G as ->. injection G' as ->. auto using in_eq.
        - destruct IH as [I1 I2]; auto using in_cons. now inversion ND. }
      destruct ID as [ID LK]. split; auto. cbn [fst snd]. apply in_map_iff. exists (e, o). split; auto.
      clear - C D. revert i C D. generalize (gets n) (getr rn). induction l as [|x l IH]; intros m [|i] C D; try discriminate; destruct m as [|y m]; try discriminate.
      + simpl in *. left. congruence.
      + simpl in *. right. eauto.
    - intros I. apply in_flat_map in I as ([[k ns] [k' rns]] & I & J). cbn [fst snd] in J.
      apply in_flat_map in J as ([[d n] [d' rn]] & J & K). cbn [fst snd] in K. apply in_map_iff in K as ([e' o'] & K & C). injection K as -> -> -> ->.
      assert (X : k' = net /\ Forall2 (fun (kd : string * node) (kr : string * onode) =>
                          fst kr = fst kd /\ node_like s (snd kd) (snd kr)) ns rns).
      { apply (Forall2_combine _ _ _ _ _ N I). }
      destruct X as [-> F2].
      assert (Y : d' = nd /\ node_like s n rn) by (apply (Forall2_combine _ _ _ _ _ F2 J)).
      destruct Y as [-> LK].
      pose proof (in_combine_l _ _ _ _ I) as I1. pose proof (in_combine_r _ _ _ _ I) as I2.
      pose proof (in_combine_l _ _ _ _ J) as J1. pose proof (in_combine_r _ _ _ _ J) as J2.
      rewrite (In_dget _ _ _ ND I1). rewrite (In_dget net rns (r_networks r)) by (auto; rewrite KE; auto).
      assert (NDn : NoDup (dkeys ns)) by (apply (wf_nodes _ W net ns); now apply In_dget).
      assert (KN : dkeys rns = dkeys ns) by (apply (Forall2_keys (fun _ n rn => node_like s n rn) ns rns F2)).
      rewrite (In_dget _ _ _ NDn J1). rewrite (In_dget nd rn rns) by (auto; rewrite KN; auto).
      assert (exists i, nth_error (gets n) i = Some e /\ nth_error (getr rn) i = Some o) as (i & X1 & X2).
      { clear - C. revert C. generalize (getr rn). generalize (gets n). induction l as [|x l IH]; intros [|y m] C; simpl in C; try tauto.
        destruct C as [C|C]; [injection C as -> ->; exists 0; auto|]. destruct (IH _ C) as (i & A & B). exists (S i). auto. }
      exists n, rn, i. auto.
  Qed.
End Elements.

(** ** Blocks *)
Definition grid {A} (n h : nat) (f : nat -> nat -> A) : list A := flat_map (fun scn => map (f scn) (seq 0 h)) (seq 0 n).

Lemma seq_from a n : seq a n = map (fun i => a + i) (seq 0 n).
Proof.
  revert a. induction n as [|n IH]; intros a; simpl; auto. rewrite Nat.add_0_r. f_equal. rewrite IH, <- seq_shift, map_map.
  apply map_ext. intros i. lia.
Qed.
Lemma grid_seq {A} (f : nat -> A) h n : map f (seq 0 (h * n)) = grid n h (fun scn t => f (scn * h + t)).
Proof.
  unfold grid. rewrite Nat.mul_comm. induction n as [|n IH]; [reflexivity|].
  replace (S n * h) with (n * h + h) by lia. rewrite seq_app, map_app, IH.
  rewrite (seq_S n), flat_map_app. cbn [flat_map Nat.add]. rewrite app_nil_r. f_equal.
  rewrite (seq_from (n * h) h), map_map. reflexivity.
Qed.

Lemma grid_length {A} n h (f : nat -> nat -> A) : List.length (grid n h f) = n * h.
Proof.
  unfold grid. generalize 0 at 2. induction n as [|n IH]; intros k; cbn [seq flat_map]; auto. rewrite app_length, map_length, seq_length, IH. reflexivity.
Qed.
Lemma grid_ext {A} n h (f g : nat -> nat -> A) : (forall scn t, scn < n -> t < h -> f scn t = g scn t) -> grid n h f = grid n h g.
Proof.
  intros H. unfold grid. rewrite !flat_map_concat_map. f_equal. apply map_ext_in. intros scn I. apply map_ext_in. intros t J.
  apply in_seq in I, J. apply H; lia.
Qed.
Lemma grid_In {A} n h (f : nat -> nat -> A) x : In x (grid n h f) <-> exists scn t, scn < n /\ t < h /\ x = f scn t.
Proof.
  unfold grid. rewrite in_flat_map. split.
  - intros (scn & I & J). apply in_map_iff in J as (t & <- & J). apply in_seq in I, J. exists scn, t. repeat split; auto; lia.
  - intros (scn & t & A1 & A2 & ->). exists scn. split; [apply in_seq; lia|]. apply in_map, in_seq. lia.
Qed.
Lemma map_grid {A B} n h (f : nat -> nat -> A) (g : A -> B) : map g (grid n h f) = grid n h (fun scn t => g (f scn t)).
Proof.
  unfold grid. rewrite !flat_map_concat_map, concat_map, map_map. f_equal. apply map_ext. intros scn. apply map_map.
Qed.

Section Build.
  Context {E F : Type} (gets : node -> list E) (getr : onode -> list F) (s : study) (r : result).
  Variables (bcast : bool) (junk : nat -> string -> nat -> cell) (j : nat) (cols : list string)
    (asg : string -> string -> E -> F -> list (string * colval)) (row : string -> string -> E -> F -> nat -> nat -> trow).
  Let h := st_horizon s.
  Let n := st_nb_scn s.

  Definition block (e : string * string * E * F) : list trow :=
    grid n h (row (fst (fst (fst e))) (snd (fst (fst e))) (snd (fst e)) (snd e)).

  Hypotheses (W : study_wf s) (M : mirrors s r)
    (L : forall n rn, node_like s n rn -> List.length (gets n) = List.length (getr rn))
    (A1 : forall net nd e o, In (net, nd, e, o) (elements gets getr s r) ->
       Forall (fun x => mem (fst x) cols = true /\ val_fits (h * n) (snd x)) (asg net nd e o))
    (A2 : forall net nd e o scn t k, In (net, nd, e, o) (elements gets getr s r) -> scn < n -> t < h ->
       apply_asg (asg net nd e o) (scn * h + t) (map (fun c => (c, junk j c k)) cols) = row net nd e o scn t).

  Let jr (k : nat) : trow := map (fun c => (c, junk j c k)) cols.

  Definition fill (st : table * nat) (p : string * string * nat * F) (step : nat) : res (table * nat) :=
    let '(net, nd, i, o) := p in let '(tb, k) := st in
    let* e := study_element gets s net nd i in
    let* tb' := loc_sets bcast (k * h * n) ((k + 1) * h * n) tb (asg net nd e o) in
    Ok (tb', k + step).

  Lemma fill_step p e done C k step : at_position gets s p e -> In e (elements gets getr s r) ->
    List.length done = k * h * n -> forall a, 
    fill (Table cols (done ++ map jr (seq a (h * n)) ++ C), k) p step = Ok (Table cols (done ++ block e ++ C), k + step).
  Proof.
    intros (P1 & P2 & P3 & P4) I LD a. destruct p as [[[net nd] i] o], e as [[[net' nd'] e] o']. cbn [fst snd] in *. subst net' nd' o'.
    unfold fill. rewrite P4. cbn [rbind].
    set (B := map jr (seq a (h * n))). assert (LB : List.length B = h * n) by (subst B; now rewrite map_length, seq_length).
    replace ((k + 1) * h * n) with (List.length done + List.length B) by (rewrite LB, LD; lia). rewrite <- LD.
    rewrite loc_sets_block by (rewrite LB; now apply A1). cbn [rbind]. do 5 f_equal.
    unfold block. subst B. rewrite mapi_from_map, mapi_from_seq, grid_seq. cbn [fst snd]. apply grid_ext. intros scn t H1 H2.
    rewrite Nat.add_0_l. unfold jr. now apply A2.
  Qed.

  Lemma fill_all : forall ps els, Forall2 (at_position gets s) ps els -> incl els (elements gets getr s r) ->
    forall done k, List.length done = k * h * n ->
    foldM (fun st p => fill st p 1) ps (Table cols (done ++ map jr (seq (k * h * n) (h * n * List.length els))), k) =
    Ok (Table cols (done ++ flat_map block els), k + List.length els).
  Proof.
    induction 1 as [|p e ps els P _ IH]; intros I done k LD.
    - cbn [List.length foldM flat_map]. rewrite Nat.mul_0_r, Nat.add_0_r. reflexivity.
    - cbn [List.length foldM flat_map]. replace (h * n * Datatypes.S (List.length els)) with (h * n + h * n * List.length els) by lia.
      rewrite seq_app, map_app. rewrite (fill_step p e) by (auto; apply I; simpl; auto). cbn [rbind].
      replace (k * h * n + h * n) with ((k + 1) * h * n) by lia. rewrite app_assoc.
      rewrite IH.
      + rewrite <- app_assoc. do 2 f_equal. lia.
      + intros x Hx. apply I. simpl. auto.
      + rewrite app_length, LD. unfold block. rewrite grid_length. lia.
  Qed.

  Lemma foldM_fill step ps st :
    foldM (fun st p => (fun net nd i o '(tb, k) =>
      let* e := study_element gets s net nd i in
      let* tb' := loc_sets bcast (k * h * n) ((k + 1) * h * n) tb (asg net nd e o) in
      Ok (tb', k + step)) (fst (fst (fst p))) (snd (fst (fst p))) (snd (fst p)) (snd p) st) ps st =
    foldM (fun st p => fill st p step) ps st.
  Proof. apply foldM_ext. intros [tb k] [[[net nd] i] o] _. reflexivity. Qed.

  Theorem build_table_eq : build_table bcast junk j cols 1 gets getr asg s r = Ok (Table cols (flat_map block (elements gets getr s r))).
  Proof.
    unfold build_table. rewrite each_element_flat. fold h n.
    rewrite (foldM_fill 1). unfold new_table.
    rewrite (count_elements_eq gets getr s r M L). fold (jr). replace (n * h * List.length (elements gets getr s r)) with (h * n * List.length (elements gets getr s r)) by lia.
    pose proof (fill_all _ _ (positions_elements gets getr s r W M L) (incl_refl _) [] 0 eq_refl) as X. cbn [Nat.mul app] in X.
    refine (eq_trans (f_equal (fun x => let* out := x in Ok (fst out)) X) _). reflexivity.
  Qed.

  Theorem build_table_one : List.length (elements gets getr s r) <= 1 ->
    build_table bcast junk j cols 0 gets getr asg s r = Ok (Table cols (flat_map block (elements gets getr s r))).
  Proof.
    intros L1. unfold build_table. rewrite each_element_flat. fold h n.
    rewrite (foldM_fill 0). unfold new_table.
    rewrite (count_elements_eq gets getr s r M L). fold (jr). replace (n * h * List.length (elements gets getr s r)) with (h * n * List.length (elements gets getr s r)) by lia.
    pose proof (positions_elements gets getr s r W M L) as X. pose proof (fill_step) as FS.
    inversion X as [E1 E2|p e ps els P R E1 E2].
    - cbn. rewrite Nat.mul_0_r. reflexivity.
    - rewrite <- E2 in *. destruct els as [|e' els]; [|simpl in L1; lia]. inversion R; subst ps. cbn [List.length foldM]. rewrite Nat.mul_1_r.
      specialize (FS p e [] [] 0 0 P (or_introl eq_refl) eq_refl 0). rewrite !app_nil_r in FS. cbn [app] in FS.
      refine (eq_trans (f_equal (fun x => let* out := (let* st := x in Ok st) in Ok (fst out)) FS) _). cbn. now rewrite app_nil_r.
  Qed.
End Build.

(** ** Cells of a block *)
Lemma nth_error_default {A} (l : list A) k d x : nth_error l k = Some x -> nth k l d = x.
Proof. revert k. induction l as [|a l IH]; intros [|k] H; try discriminate; simpl in *; [congruence | auto]. Qed.
Lemma val_floats l k q : nth_error l k = Some q -> val_at (floats l) k = CNum q.
Proof. intros H. unfold floats, val_at. apply nth_error_default. now rewrite nth_error_map, H. Qed.
Lemma val_ints l k x : nth_error l k = Some x -> val_at (ints l) k = CInt (Z.of_nat x).
Proof. intros H. unfold ints, val_at. apply nth_error_default. now rewrite nth_error_map, H. Qed.

Lemma flatten_at h n v scn t : nv_ok h n v -> scn < n -> t < h -> val_at (floats (flatten v)) (scn * h + t) = CNum (value v scn t).
Proof.
  intros O S T. destruct (getn_nth h n v scn t O S T) as (q & G & N). unfold value. rewrite G. now apply val_floats.
Qed.
Lemma data_at s a scn t : has_dims s a -> scn < st_nb_scn s -> t < st_horizon s ->
  val_at (floats (data a)) (scn * st_horizon s + t) = CNum (entry a scn t).
Proof.
  intros [D W] S T. unfold entry, nd_get2. rewrite D, !pyindex_nat by auto. unfold lnth.
  assert (X : scn * st_horizon s + t < List.length (data a)) by (unfold nd_wf in W; rewrite W, D; simpl; nia).
  destruct (nth_error (data a) (scn * st_horizon s + t)) as [q|] eqn:Q; [now apply val_floats|].
  apply nth_error_None in Q. lia.
Qed.
Lemma nth_error_seq0 n i : i < n -> nth_error (seq 0 n) i = Some i.
Proof. intros H. rewrite (nth_error_nth' _ 0) by (rewrite seq_length; auto). now rewrite seq_nth. Qed.
Lemma t_at h n scn t : scn < n -> t < h -> val_at (ints (tile (seq 0 h) n)) (scn * h + t) = CInt (Z.of_nat t).
Proof.
  intros S T. apply val_ints. rewrite <- (seq_length h 0) at 2. rewrite nth_error_tile by (rewrite ?seq_length; auto).
  now apply nth_error_seq0.
Qed.
Lemma scn_at h n scn t : scn < n -> t < h -> val_at (ints (nprepeat (seq 0 n) h)) (scn * h + t) = CInt (Z.of_nat scn).
Proof. intros S T. apply val_ints. rewrite nth_error_nprepeat by auto. now apply nth_error_seq0. Qed.

Lemma fits_flatten h n v : nv_ok h n v -> val_fits (h * n) (floats (flatten v)).
Proof. intros O. simpl. rewrite map_length, (flatten_length h n v O). lia. Qed.
Lemma fits_data s a : has_dims s a -> val_fits (st_horizon s * st_nb_scn s) (floats (data a)).
Proof. intros [D W]. simpl. rewrite map_length. unfold nd_wf in W. rewrite W, D. simpl. lia. Qed.
Lemma fits_t h n : val_fits (h * n) (ints (tile (seq 0 h) n)).
Proof. simpl. rewrite map_length, length_tile, seq_length. lia. Qed.
Lemma fits_scn h n : val_fits (h * n) (ints (nprepeat (seq 0 n) h)).
Proof. simpl. rewrite map_length, length_nprepeat, seq_length. lia. Qed.

(** ** The four tables of elements *)
Section Four.
  Variables (s : study) (r : result) (bcast : bool) (junk : nat -> string -> nat -> cell).
  Hypotheses (Api : api_study s) (M : mirrors s r).

  Let W : study_wf s := proj1 (api_facts s Api).
  Let C : study_canon s := proj1 (proj2 (api_facts s Api)).

  Lemma like_cons n rn : node_like s n rn -> List.length (n_cons n) = List.length (on_cons rn).
  Proof. intros [H _ _ _]. eapply Forall2_len; eauto. Qed.
  Lemma like_prods n rn : node_like s n rn -> List.length (n_prods n) = List.length (on_prods rn).
  Proof. intros [_ H _ _]. eapply Forall2_len; eauto. Qed.
  Lemma like_stors n rn : node_like s n rn -> List.length (n_stors n) = List.length (on_stors rn).
  Proof. intros [_ _ H _]. eapply Forall2_len; eauto. Qed.
  Lemma like_links n rn : node_like s n rn -> List.length (n_links n) = List.length (on_links rn).
  Proof. intros [_ _ _ H]. eapply Forall2_len; eauto. Qed.

  Lemma mirror_like net nd n rn : node_at s net nd = Some n -> rnode_at r net nd = Some rn -> node_like s n rn.
  Proof.
    intros A B. unfold node_at, rnode_at in *.
    pose proof (Forall2_dget (fun (k : string) (ns : network) (rns : onetwork) => Forall2 (fun (kd : string * node) (kr : string * onode) =>
                          fst kr = fst kd /\ node_like s (snd kd) (snd kr)) ns rns) _ _ net (mr_nodes _ _ M)) as X.
    destruct (dget net (st_networks s)) as [ns|]; [|discriminate]. destruct (dget net (r_networks r)) as [rns|]; [|discriminate].
    pose proof (Forall2_dget (fun _ n rn => node_like s n rn) _ _ nd X) as Y. now rewrite A, B in Y.
  Qed.

  Lemma element_facts {E F} (gets : node -> list E) (getr : onode -> list F) net nd e o (P : E -> F -> Prop) (R : E -> Prop) :
    (forall n rn, node_like s n rn -> Forall2 P (gets n) (getr rn)) ->
    (forall n, node_canon (st_horizon s) (st_nb_scn s) n -> forall e, In e (gets n) -> R e) ->
    (forall n rn, node_like s n rn -> List.length (gets n) = List.length (getr rn)) ->
    In (net, nd, e, o) (elements gets getr s r) -> P e o /\ R e.
  Proof.
    intros H1 H2 H3 I. apply (is_element_In gets getr s r W M) in I. destruct I as (n & rn & i & A & B & X & Y).
    split; [|apply (H2 n); [apply (sc_node _ C _ _ _ A) | eapply nth_error_In; eauto]].
    pose proof (H1 n rn (mirror_like _ _ _ _ A B)) as Z. destruct (Forall2_get _ _ _ _ _ Z X) as (o' & O & Q). congruence.
  Qed.

  Ltac cell_tac := rewrite ?flatten_at with (h := st_horizon s) (n := st_nb_scn s) by (auto using canon_ok);
                   rewrite ?data_at by auto; rewrite ?t_at, ?scn_at by auto.

  Definition cons_of := elements n_cons on_cons s r.
  Definition prods_of := elements n_prods on_prods s r.
  Definition stors_of := elements n_stors on_stors s r.
  Definition links_of := elements n_links on_links s r.

  Theorem build_consumption_eq : build_consumption bcast junk s r =
    Ok (Table ["cost"; "asked"; "given"; "name"; "node"; "network"; "t"; "scn"] (flat_map (block s cons_row) cons_of)).
  Proof.
    assert (K : forall net nd e o, In (net, nd, e, o) cons_of ->
       (oc_name o = c_name e /\ has_dims s (oc_qty o)) /\ nv_canon (st_horizon s) (st_nb_scn s) (c_cost e) /\ nv_canon (st_horizon s) (st_nb_scn s) (c_qty e)).
    { intros net nd e o I. apply (element_facts _ _ _ _ _ _ (fun e o => oc_name o = c_name e /\ has_dims s (oc_qty o))
        (fun e => nv_canon (st_horizon s) (st_nb_scn s) (c_cost e) /\ nv_canon (st_horizon s) (st_nb_scn s) (c_qty e))) in I; auto.
      - intros n rn [H _ _ _]; exact H.
      - intros n [H _ _ _]; exact H.
      - apply like_cons. }
    unfold build_consumption. apply build_table_eq; auto.
    - apply like_cons.
    - intros net nd e o I. destruct (K net nd e o I) as ((N & D) & C1 & C2).
      repeat constructor; cbn [fst snd]; auto using fits_flatten, fits_data, fits_t, fits_scn, canon_ok.
    - intros net nd e o scn t k I S T. destruct (K net nd e o I) as ((N & D) & C1 & C2).
      unfold labels, cons_row, when. cbn -[val_at floats ints tile nprepeat Nat.mul Nat.add Z.of_nat].
      cell_tac. cbn [val_at]. rewrite N. reflexivity.
  Qed.

  Theorem build_production_eq : build_production bcast junk s r =
    Ok (Table ["cost"; "avail"; "used"; "name"; "node"; "network"; "t"; "scn"] (flat_map (block s prod_row) prods_of)).
  Proof.
    assert (K : forall net nd e o, In (net, nd, e, o) prods_of -> (op_name o = p_name e /\ has_dims s (op_qty o)) /\ (nv_canon (st_horizon s) (st_nb_scn s) (p_cost e) /\ nv_canon (st_horizon s) (st_nb_scn s) (p_qty e))).
    { intros net nd e o I. apply (element_facts _ _ _ _ _ _ (fun e o => op_name o = p_name e /\ has_dims s (op_qty o)) (fun e => nv_canon (st_horizon s) (st_nb_scn s) (p_cost e) /\ nv_canon (st_horizon s) (st_nb_scn s) (p_qty e))) in I; auto.
      - intros n rn [_ H _ _]; exact H.
      - intros n [_ H _ _]; exact H.
      - apply like_prods. }
    unfold build_production. apply build_table_eq; auto.
    - apply like_prods.
    - intros net nd e o I. destruct (K net nd e o I) as ((N & D) & C1 & C2).
      repeat constructor; cbn [fst snd]; auto using fits_flatten, fits_data, fits_t, fits_scn, canon_ok.
    - intros net nd e o scn t k I S T. destruct (K net nd e o I) as ((N & D) & C1 & C2).
      unfold labels, prod_row, when. cbn -[val_at floats ints tile nprepeat Nat.mul Nat.add Z.of_nat].
      cell_tac. cbn [val_at]. rewrite N. reflexivity.
  Qed.

  Theorem build_link_eq : build_link bcast junk s r =
    Ok (Table ["cost"; "avail"; "used"; "node"; "dest"; "network"; "t"; "scn"] (flat_map (block s link_row) links_of)).
  Proof.
    assert (K : forall net nd e o, In (net, nd, e, o) links_of -> (ol_dest o = l_dest e /\ has_dims s (ol_qty o)) /\ (nv_canon (st_horizon s) (st_nb_scn s) (l_qty e) /\ nv_canon (st_horizon s) (st_nb_scn s) (l_cost e))).
    { intros net nd e o I. apply (element_facts _ _ _ _ _ _ (fun e o => ol_dest o = l_dest e /\ has_dims s (ol_qty o)) (fun e => nv_canon (st_horizon s) (st_nb_scn s) (l_qty e) /\ nv_canon (st_horizon s) (st_nb_scn s) (l_cost e))) in I; auto.
      - intros n rn [_ _ _ H]; exact H.
      - intros n [_ _ _ H]; exact H.
      - apply like_links. }
    unfold build_link. apply build_table_eq; auto.
    - apply like_links.
    - intros net nd e o I. destruct (K net nd e o I) as ((N & D) & C1 & C2).
      repeat constructor; cbn [fst snd]; auto using fits_flatten, fits_data, fits_t, fits_scn, canon_ok.
    - intros net nd e o scn t k I S T. destruct (K net nd e o I) as ((N & D) & C1 & C2).
      unfold labels, link_row, when. cbn -[val_at floats ints tile nprepeat Nat.mul Nat.add Z.of_nat].
      cell_tac. cbn [val_at]. rewrite N. reflexivity.
  Qed.

  Theorem build_storage_eq : List.length stors_of <= 1 -> build_storage bcast junk s r =
    Ok (Table ["max_capacity"; "capacity"; "max_flow_in"; "flow_in"; "max_flow_out"; "flow_out"; "cost";
      "init_capacity"; "eff"; "name"; "node"; "network"; "t"; "scn"] (flat_map (block s stor_row) stors_of)).
  Proof.
    intros L1. assert (K : forall net nd e o, In (net, nd, e, o) stors_of -> (os_name o = s_name e /\ has_dims s (os_capacity o) /\ has_dims s (os_flow_in o) /\ has_dims s (os_flow_out o)) /\ (nv_canon (st_horizon s) (st_nb_scn s) (s_capacity e) /\ nv_canon (st_horizon s) (st_nb_scn s) (s_flow_in e) /\ nv_canon (st_horizon s) (st_nb_scn s) (s_flow_out e) /\ nv_canon (st_horizon s) (st_nb_scn s) (s_cost e) /\ nv_canon (st_horizon s) (st_nb_scn s) (s_eff e))).
    { intros net nd e o I. apply (element_facts _ _ _ _ _ _ (fun e o => os_name o = s_name e /\ has_dims s (os_capacity o) /\ has_dims s (os_flow_in o) /\ has_dims s (os_flow_out o)) (fun e => nv_canon (st_horizon s) (st_nb_scn s) (s_capacity e) /\ nv_canon (st_horizon s) (st_nb_scn s) (s_flow_in e) /\ nv_canon (st_horizon s) (st_nb_scn s) (s_flow_out e) /\ nv_canon (st_horizon s) (st_nb_scn s) (s_cost e) /\ nv_canon (st_horizon s) (st_nb_scn s) (s_eff e))) in I; auto.
      - intros n rn [_ _ H _]; exact H.
      - intros n [_ _ H _]; exact H.
      - apply like_stors. }
    unfold build_storage. apply build_table_one; auto.
    - apply like_stors.
    - intros net nd e o I. destruct (K net nd e o I) as ((N & D & D1 & D2) & C1 & C2 & C3 & C4 & C5).
      repeat constructor; cbn [fst snd]; auto using fits_flatten, fits_data, fits_t, fits_scn, canon_ok.
    - intros net nd e o scn t k I S T. destruct (K net nd e o I) as ((N & D & D1 & D2) & C1 & C2 & C3 & C4 & C5).
      unfold labels, stor_row, when. cbn -[val_at floats ints tile nprepeat Nat.mul Nat.add Z.of_nat].
      cell_tac. cbn [val_at]. rewrite N. reflexivity.
  Qed.
End Four.

(** ** New columns *)
Definition ext (col : string) (r : trow) : trow := r ++ [(col, CNaN)].

Lemma dset_ext c v col (r : trow) : In c (dkeys r) -> dset c v (ext col r) = ext col (dset c v r).
Proof.
  unfold ext. induction r as [|[k x] r IH]; simpl; [tauto|]. intros I. destruct (String.eqb c k) eqn:E; [reflexivity|].
  cbn [app]. f_equal. apply IH. destruct I as [->|I]; auto. now rewrite String.eqb_refl in E.
Qed.
Lemma dkeys_dset_in {V} c (v : V) (r : dict string V) : In c (dkeys r) -> dkeys (dset c v r) = dkeys r.
Proof.
  induction r as [|[k x] r IH]; simpl; [tauto|]. intros I. destruct (String.eqb c k) eqn:E; [reflexivity|].
  unfold dkeys in *. cbn [map fst]. f_equal. apply IH. destruct I as [->|I]; auto. now rewrite String.eqb_refl in E.
Qed.
Lemma set_from_ext k a b c v col cols rows : In c cols -> Forall (fun r => dkeys r = cols) rows ->
  set_from k a b c v (map (ext col) rows) = map (ext col) (set_from k a b c v rows).
Proof.
  intros I F. revert k. induction F as [|r rows K F IH]; intros k; cbn [map set_from]; auto. rewrite IH. f_equal.
  destruct (_ && _); auto. apply dset_ext. now rewrite K.
Qed.
Lemma set_from_keys k a b c v cols rows : In c cols -> Forall (fun r => dkeys r = cols) rows ->
  Forall (fun r => dkeys r = cols) (set_from k a b c v rows).
Proof.
  intros I F. revert k. induction F as [|r rows K F IH]; intros k; cbn [set_from]; constructor; auto.
  destruct (_ && _); auto. rewrite dkeys_dset_in; auto. now rewrite K.
Qed.

Lemma loc_sets_ext bcast a b cols col v l1 l2 : mem col cols = false -> forall rows,
  Forall (fun r => dkeys r = cols) rows -> Forall (fun x => mem (fst x) cols = true) l1 ->
  loc_sets bcast a b (Table cols rows) (l1 ++ (col, v) :: l2) =
  loc_sets bcast a b (Table (cols ++ [col]) (map (ext col) rows)) (l1 ++ (col, v) :: l2).
Proof.
  intros N. unfold loc_sets. induction l1 as [|[c w] l1 IH]; intros rows F G.
  - cbn [app foldM]. f_equal. unfold loc_set. cbn [tb_cols tb_rows]. rewrite N.
    assert (X : mem col (cols ++ [col]) = true) by (apply mem_In, in_or_app; right; simpl; auto). rewrite X, map_length. reflexivity.
  - inversion G as [|? ? Hc G']; subst. cbn [fst] in Hc. cbn [app foldM]. unfold loc_set at 1 3. cbn [tb_cols tb_rows]. rewrite Hc.
    assert (X : mem c (cols ++ [col]) = true) by (apply mem_In, in_or_app; left; now apply mem_In). rewrite X. cbn [tb_cols tb_rows]. rewrite map_length.
    assert (I : In c cols) by now apply mem_In.
    assert (Y : forall f, foldM (loc_set bcast a b) (l1 ++ (col, v) :: l2) (Table cols (set_from 0 a b c f rows)) =
        foldM (loc_set bcast a b) (l1 ++ (col, v) :: l2) (Table (cols ++ [col]) (set_from 0 a b c f (map (ext col) rows)))).
    { intros f. rewrite (set_from_ext _ _ _ _ _ _ cols) by auto. apply IH; auto. now apply set_from_keys. }
    destruct w as [x|l]; cbn [rbind]; auto.
    destruct (Nat.eqb (List.length l) _); cbn [rbind]; auto. destruct (bcast && _); cbn [rbind]; auto.
Qed.

(** ** The table of destinations *)
Section Dest.
  Variables (s : study) (r : result) (bcast : bool) (junk : nat -> string -> nat -> cell).
  Hypotheses (Api : api_study s) (M : mirrors s r).
  Local Notation h := (st_horizon s).
  Local Notation n := (st_nb_scn s).
  Let W : study_wf s := proj1 (api_facts s Api).
  Let C : study_canon s := proj1 (proj2 (api_facts s Api)).

  Definition convs_of : list (string * converter * oconverter) :=
    map (fun vv => (fst (fst vv), snd (fst vv), snd (snd vv))) (combine (st_converters s) (r_converters r)).

  Definition complete (s : study) : Prop := forall name v, conv_at s name = Some v -> v_cost v <> None /\ v_max v <> None.

  Record conv_facts (x : string * converter * oconverter) : Prop := {
    cf_conv : conv_at s (fst (fst x)) = Some (snd (fst x));
    cf_rconv : rconv_at r (fst (fst x)) = Some (snd x);
    cf_like : conv_like s (fst (fst x)) (snd (fst x)) (snd x);
    cf_canon : conv_canon h n (snd (fst x))
  }.
  Lemma convs_facts : Forall conv_facts convs_of /\ st_converters s = map fst convs_of.
  Proof.
    unfold convs_of. pose proof (mr_convs _ _ M) as N.
    assert (KE : dkeys (r_converters r) = dkeys (st_converters s)) by (eapply (Forall2_keys (fun k v rv => conv_like s k v rv)); exact N).
    assert (ND : NoDup (dkeys (st_converters s))) by apply W. split.
    - apply Forall_map, Forall_forall. intros [[name v] [name' rv]] I. cbn [fst snd].
      pose proof (Forall2_combine _ _ _ _ _ N I) as [K L]. cbn [fst snd] in *. subst name'.
      assert (V : conv_at s name = Some v) by (apply In_dget; auto; eapply in_combine_l; eauto).
      constructor; cbn [fst snd]; auto.
      + apply In_dget; [now rewrite KE|]. eapply in_combine_r; eauto.
      + apply (sc_conv _ C _ _ V).
    - rewrite map_map. cbn [fst snd]. clear - N. induction N as [|[k v] [k' v'] l m H _ IH]; auto. simpl. now rewrite <- IH.
  Qed.
  Lemma convs_In name v rv : conv_at s name = Some v -> rconv_at r name = Some rv -> In (name, v, rv) convs_of.
  Proof.
    intros V R. destruct convs_facts as [F E]. apply dget_In in V. rewrite E in V. apply in_map_iff in V as ([[name' v'] rv'] & X & I).
    injection X as -> ->. rewrite Forall_forall in F. destruct (F _ I) as [_ R' _ _]. cbn [fst snd] in R'. assert (rv' = rv) by congruence. now subst.
  Qed.

  Definition cols6 := ["name"; "network"; "node"; "flow"; "cost"; "max"].
  Definition cols8 := ["name"; "network"; "node"; "flow"; "cost"; "max"; "t"; "scn"].
  Definition dest_asg (v : converter) (rv : oconverter) (co mx : list Q) : list (string * colval) :=
    [("name", VScalar (CStr (v_name v))); ("cost", floats co); ("max", floats mx); ("network", VScalar (CStr (v_dnet v)));
     ("node", VScalar (CStr (v_dnode v))); ("flow", floats (data (ov_dest rv)));
     ("t", ints (tile (seq 0 h) n)); ("scn", ints (nprepeat (seq 0 n) h))].
  Definition dest_body (tb : table) (ikv : nat * (string * converter)) : res table :=
    let i := fst ikv in let v := snd (snd ikv) in
    let a := i * h * n in let b := (i + 1) * h * n in
    let* tb := loc_sets bcast a b tb [("name", VScalar (CStr (v_name v)))] in
    let* co := oflatten (v_cost v) in
    let* tb := loc_sets bcast a b tb [("cost", floats co)] in
    let* mx := oflatten (v_max v) in
    let* tb := loc_sets bcast a b tb
      [("max", floats mx); ("network", VScalar (CStr (v_dnet v))); ("node", VScalar (CStr (v_dnode v)))] in
    let* rv := dlook (fst (snd ikv)) (r_converters r) in
    loc_sets bcast a b tb (("flow", floats (data (ov_dest rv))) :: labels s).

  Lemma loc_sets_app a b l1 l2 tb : loc_sets bcast a b tb (l1 ++ l2) = let* tb := loc_sets bcast a b tb l1 in loc_sets bcast a b tb l2.
  Proof. apply foldM_app. Qed.

  Lemma dest_body_eq i name v rv co mx tb : conv_facts (name, v, rv) -> v_cost v = Some co -> v_max v = Some mx ->
    dest_body tb (i, (name, v)) = loc_sets bcast (i * h * n) ((i + 1) * h * n) tb (dest_asg v rv (flatten co) (flatten mx)).
  Proof.
    intros [_ R _ _] Ec Em. cbn [fst snd] in *. unfold dest_body. cbn [fst snd]. rewrite Ec, Em. cbn [oflatten].
    unfold dlook. unfold rconv_at in R. rewrite R.
    change (dest_asg v rv (flatten co) (flatten mx)) with
      ([("name", VScalar (CStr (v_name v)))] ++ [("cost", floats (flatten co))] ++
       [("max", floats (flatten mx)); ("network", VScalar (CStr (v_dnet v))); ("node", VScalar (CStr (v_dnode v)))] ++
       (("flow", floats (data (ov_dest rv))) :: labels s)).
    rewrite !loc_sets_app. destruct (loc_sets _ _ _ tb _) as [tb1|e1]; auto.
    cbn [rbind]. rewrite !loc_sets_app. destruct (loc_sets _ _ _ tb1 _) as [tb2|e2]; auto.
    cbn [rbind]. rewrite !loc_sets_app. destruct (loc_sets _ _ _ tb2 _) as [tb3|e3]; auto.
  Qed.

  Definition dblock (x : string * converter * oconverter) : list trow := grid n h (dest_row (snd (fst x)) (snd x)).
  Definition jr8 (k : nat) : trow := map (fun c => (c, junk 4 c k)) cols6 ++ [("t", CNaN); ("scn", CNaN)].

  Hypothesis Co : complete s.

  Lemma dest_step i x done D tb : conv_facts x -> List.length done = i * h * n -> forall a,
    tb = Table cols8 (done ++ map jr8 (seq a (h * n)) ++ D) ->
    dest_body tb (i, fst x) = Ok (Table cols8 (done ++ dblock x ++ D)).
  Proof.
    intros X LD a ->. destruct x as [[name v] rv]. cbn [fst].
    assert (exists co mx, v_cost v = Some co /\ v_max v = Some mx) as (co & mx & Ec & Em).
    { destruct (Co name v (cf_conv _ X)) as [A B]. destruct (v_cost v), (v_max v); try congruence. eauto. }
    rewrite (dest_body_eq i name v rv co mx) by auto.
    destruct X as [V R (N1 & N2 & N3) [_ K1 K2]]. cbn [fst snd] in *. rewrite Ec in K1. rewrite Em in K2. cbn [onv_canon] in *.
    set (B := map jr8 (seq a (h * n))). assert (LB : List.length B = h * n) by (subst B; now rewrite map_length, seq_length).
    replace ((i + 1) * h * n) with (List.length done + List.length B) by (rewrite LB, LD; lia). rewrite <- LD.
    rewrite loc_sets_block.
    - do 4 f_equal. unfold dblock. subst B. rewrite mapi_from_map, mapi_from_seq, grid_seq. cbn [fst snd]. apply grid_ext. intros scn t H1 H2.
      unfold jr8, dest_row, when, dest_asg, cols6. rewrite Nat.add_0_l. rewrite Ec, Em.
      cbn -[val_at floats ints tile nprepeat Nat.mul Nat.add Z.of_nat].
      rewrite ?flatten_at with (h := h) (n := n) by (auto using canon_ok). rewrite ?data_at by auto. rewrite ?t_at, ?scn_at by auto.
      cbn [val_at ovalue]. reflexivity.
    - rewrite LB. repeat constructor; cbn [fst snd]; auto using fits_flatten, fits_data, fits_t, fits_scn, canon_ok.
  Qed.

  Lemma dest_all : forall xs, Forall conv_facts xs -> forall i done D, List.length done = i * h * n ->
    foldM dest_body (combine (seq i (List.length xs)) (map fst xs)) (Table cols8 (done ++ map jr8 (seq (i * h * n) (h * n * List.length xs)) ++ D)) =
    Ok (Table cols8 (done ++ flat_map dblock xs ++ D)).
  Proof.
    induction 1 as [|x xs X _ IH]; intros i done D LD.
    - cbn. now rewrite Nat.mul_0_r.
    - cbn [List.length map seq combine foldM flat_map]. 
      replace (h * n * Datatypes.S (List.length xs)) with (h * n + h * n * List.length xs) by lia.
      rewrite seq_app, map_app, <- app_assoc. rewrite (dest_step i x done (map jr8 (seq (i * h * n + h * n) (h * n * List.length xs)) ++ D)) with (a := i * h * n) by auto.
      cbn [rbind]. rewrite (app_assoc done). replace (i * h * n + h * n) with (Datatypes.S i * h * n) by lia.
      rewrite IH; [now rewrite <- !app_assoc|].
      rewrite app_length, LD. unfold dblock. rewrite grid_length. lia.
  Qed.

  Theorem build_dest_eq : List.length (st_converters s) <= count_sources s -> exists cols,
    build_dest_converter bcast junk s r = Ok (Table cols (flat_map dblock convs_of ++
      map jr8 (seq (h * n * List.length convs_of) (h * n * (count_sources s - List.length convs_of))))) /\ (convs_of <> [] -> cols = cols8).
  Proof.
    intros Le. destruct convs_facts as [F E]. unfold build_dest_converter.
    fold cols6. set (tb0 := new_table _ _ _). fold dest_body.
    assert (EL : List.length (st_converters s) = List.length convs_of) by (rewrite E; apply map_length). rewrite EL in *.
    destruct convs_of as [|x xs] eqn:EC.
    - exists cols6. split; [|congruence]. cbn [List.length]. rewrite E. cbn [map List.length]. cbn. unfold tb0, new_table.
      assert (Z : count_sources s = 0) by (unfold count_sources; now rewrite E). rewrite Z, !Nat.mul_0_r. reflexivity.
    - exists cols8. split; [|auto]. rewrite E.
      transitivity (foldM dest_body (combine (seq 0 (List.length (x :: xs))) (map fst (x :: xs)))
         (Table cols8 (map jr8 (seq 0 (h * n * List.length (x :: xs))) ++ map jr8 (seq (h * n * List.length (x :: xs)) (h * n * (count_sources s - List.length (x :: xs))))))).
      + cbn [List.length map seq combine foldM]. f_equal. destruct x as [[name v] rv]. inversion F as [|? ? X _]; subst.
        assert (exists co mx, v_cost v = Some co /\ v_max v = Some mx) as (co & mx & Ec & Em).
        { destruct (Co name v (cf_conv _ X)) as [A B]. destruct (v_cost v), (v_max v); try congruence. eauto. }
        cbn [fst]. rewrite !(dest_body_eq 0 name v rv co mx) by auto.
        unfold tb0, new_table. rewrite <- map_app, <- seq_app. rewrite <- Nat.mul_add_distr_l. cbn [List.length] in Le. rewrite (Nat.add_comm (Datatypes.S _)), Nat.sub_add by auto.
        set (sq := seq 0 _). unfold dest_asg.
        refine (eq_trans (loc_sets_ext bcast _ _ cols6 "t" _ [_; _; _; _; _; _] _ eq_refl _ _ _) _);
          [apply Forall_map, Forall_forall; intros; reflexivity | repeat constructor|].
        refine (eq_trans (loc_sets_ext bcast _ _ (cols6 ++ ["t"]) "scn" _ [_; _; _; _; _; _; _] _ eq_refl _ _ _) _);
          [apply Forall_map, Forall_map, Forall_forall; intros; reflexivity | repeat constructor|].
        rewrite !map_map. reflexivity.
      + exact (dest_all (x :: xs) F 0 [] (map jr8 (seq (h * n * List.length (x :: xs)) (h * n * (count_sources s - List.length (x :: xs))))) eq_refl).
  Qed.
End Dest.

(** ** The table of sources *)
Section Src.
  Variables (s : study) (r : result) (bcast : bool) (junk : nat -> string -> nat -> cell).
  Hypotheses (Api : api_study s) (M : mirrors s r).
  Local Notation h := (st_horizon s).
  Local Notation n := (st_nb_scn s).

  Definition srcs_of (x : string * converter * oconverter) : list (string * string * numval * ndarray) :=
    map (fun ko => (fst (fst ko), snd (fst ko), snd (snd ko))) (combine (v_src (snd (fst x))) (ov_src (snd x))).

  Definition scols6 := ["name"; "network"; "node"; "ratio"; "flow"; "max"].
  Definition scols8 := ["name"; "network"; "node"; "ratio"; "flow"; "max"; "t"; "scn"].
  Definition src_inner (kv : string * converter) : table * nat -> nat * (string * string * numval) -> res (table * nat) :=
    let v := snd kv in
    fun '(tb, st) ik =>
        let k := fst (snd ik) in
        let e := st + h * n * (fst ik + 1) in
        let* tb := loc_sets bcast st e tb [("network", VScalar (CStr (fst k))); ("node", VScalar (CStr (snd k)))] in
        let* mx := oflatten (v_max v) in
        let* tb := loc_sets bcast st e tb [("max", floats mx); ("ratio", floats (flatten (snd (snd ik))))] in
        let* rv := dlook (fst kv) (r_converters r) in
        let* a := dlook k (ov_src rv) in
        let* tb := loc_sets bcast st e tb [("flow", floats (data a))] in
        Ok (tb, e).
  Definition src_head (v : converter) : list (string * colval) :=
    [("name", VScalar (CStr (v_name v))); ("t", ints (tile (seq 0 h) (n * List.length (v_src v))));
     ("scn", ints (nprepeat (seq 0 n) (h * List.length (v_src v))))].
  Definition src_body : table * nat -> string * converter -> res (table * nat) :=
    fun '(tb, st) kv =>
      let v := snd kv in
      let* tb := loc_sets bcast st (st + h * n * List.length (v_src v)) tb (src_head v) in
      foldM (src_inner kv) (combine (seq 0 (List.length (v_src v))) (v_src v)) (tb, st).

  (** The rows before the division of [max]. *)
  Definition src_row0 (v : converter) (net nd : string) (ratio : numval) (flow : ndarray) (scn t : nat) : trow :=
    [("name", CStr (v_name v)); ("network", CStr net); ("node", CStr nd); ("ratio", CNum (value ratio scn t));
     ("flow", CNum (entry flow scn t)); ("max", CNum (ovalue (v_max v) scn t))] ++ when scn t.
  Definition sblock0 (x : string * converter * oconverter) : list trow :=
    flat_map (fun ka : string * string * numval * ndarray =>
      grid n h (src_row0 (snd (fst x)) (fst (fst (fst ka))) (snd (fst (fst ka))) (snd (fst ka)) (snd ka))) (srcs_of x).
  Definition sblock (x : string * converter * oconverter) : list trow :=
    flat_map (fun ka : string * string * numval * ndarray =>
      grid n h (src_row (snd (fst x)) (fst (fst (fst ka))) (snd (fst (fst ka))) (snd (fst ka)) (snd ka))) (srcs_of x).
  Definition jr8s (k : nat) : trow := map (fun c => (c, junk 5 c k)) scols6 ++ [("t", CNaN); ("scn", CNaN)].

  Hypothesis Co : complete s.

  Lemma src_step x done D a : conv_facts s r x -> List.length (v_src (snd (fst x))) <= 1 ->
    src_body (Table scols8 (done ++ map jr8s (seq a (h * n * List.length (v_src (snd (fst x))))) ++ D), List.length done) (fst x) =
    Ok (Table scols8 (done ++ sblock0 x ++ D), List.length done + h * n * List.length (v_src (snd (fst x)))).
  Proof.
    intros X L1. destruct x as [[name v] rv]. cbn [fst snd] in *.
    destruct (Co name v (cf_conv _ _ _ X)) as [_ NM].
    destruct X as [V R (N1 & N2 & N3) [K0 K1 K2]]. cbn [fst snd] in *.
    unfold src_body, sblock0, srcs_of. cbn [fst snd].
    remember (v_src v) as l eqn:El. remember (ov_src rv) as l0 eqn:El0. destruct N3 as [|[k q] [k' o] l l' [Ek Dm] N3].
    - cbn [List.length]. rewrite !Nat.mul_0_r. cbn [seq map combine flat_map foldM app]. rewrite Nat.add_0_r.
      pose proof (loc_sets_block bcast scols8 done D (src_head v) []) as Y. cbn [List.length app] in Y. rewrite Nat.add_0_r in Y.
      rewrite Y; [reflexivity|]. unfold src_head. rewrite <- El. cbn [List.length]. rewrite !Nat.mul_0_r.
      repeat constructor; cbn [fst snd]; auto.
      + exact (fits_scn 0 n).
    - cbn [fst snd] in *. subst k'. destruct l; [|cbn [List.length] in L1; lia]. inversion N3; subst l'. clear N3 L1. destruct k as [net nd].
      destruct (v_max v) as [mx|] eqn:Em; [|congruence]. cbn [onv_canon] in K2.
      cbn [List.length]. rewrite Nat.mul_1_r. cbn [seq combine map flat_map foldM fst snd]. rewrite app_nil_r.
      set (B := map jr8s (seq a (h * n))). assert (LB : List.length B = h * n) by (subst B; now rewrite map_length, seq_length).
      assert (Kq : nv_canon h n q) by (apply (K0 (net, nd)); left; auto).
      set (asg := src_head v ++ [("network", VScalar (CStr net)); ("node", VScalar (CStr nd)); ("max", floats (flatten mx)); ("ratio", floats (flatten q)); ("flow", floats (data o))]).
      transitivity (let* tb := loc_sets bcast (List.length done) (List.length done + h * n) (Table scols8 (done ++ B ++ D)) asg in Ok (tb, List.length done + h * n)).
      { unfold asg. rewrite loc_sets_app. destruct (loc_sets _ _ _ _ (src_head v)) as [tb1|]; auto. cbn [rbind].
        unfold src_inner. cbn [fst snd]. rewrite Nat.mul_1_r, Em. cbn [oflatten]. unfold dlook at 1. unfold rconv_at in R. rewrite R. 
        change [("network", VScalar (CStr net)); ("node", VScalar (CStr nd)); ("max", floats (flatten mx)); ("ratio", floats (flatten q)); ("flow", floats (data o))] with
          ([("network", VScalar (CStr net)); ("node", VScalar (CStr nd))] ++ [("max", floats (flatten mx)); ("ratio", floats (flatten q))] ++ [("flow", floats (data o))]).
        rewrite !loc_sets_app. destruct (loc_sets _ _ _ tb1 _) as [tb2|]; auto. cbn [rbind].
        rewrite !loc_sets_app. destruct (loc_sets _ _ _ tb2 _) as [tb3|]; auto. cbn [rbind].
        assert (G : dlook (net, nd) (ov_src rv) = Ok o).
        { unfold dlook. rewrite <- El0. cbn [dget]. now rewrite (proj2 (eqb_eq (net, nd) (net, nd)) eq_refl). }
        rewrite G. cbn [rbind]. destruct (loc_sets _ _ _ tb3 _) as [tb4|]; auto. }
      rewrite <- LB at 1. rewrite loc_sets_block.
      + cbn [rbind]. do 5 f_equal. subst B. rewrite mapi_from_map, mapi_from_seq, grid_seq. apply grid_ext. intros scn t H1 H2.
        unfold jr8s, src_row0, when, asg, src_head, scols6. rewrite Nat.add_0_l. rewrite <- El, Em. cbn [List.length]. rewrite !Nat.mul_1_r.
        cbn -[val_at floats ints tile nprepeat Nat.mul Nat.add Z.of_nat].
        rewrite ?flatten_at with (h := h) (n := n) by (auto using canon_ok). rewrite ?data_at by auto. rewrite ?t_at, ?scn_at by auto.
        cbn [val_at ovalue]. reflexivity.
      + rewrite LB. unfold asg, src_head. rewrite <- El. cbn [List.length]. rewrite !Nat.mul_1_r.
        repeat constructor; cbn [fst snd]; auto using fits_flatten, fits_data, fits_t, fits_scn, canon_ok.
  Qed.

  Definition src_count (xs : list (string * converter * oconverter)) : nat := list_sum (map (fun x => List.length (v_src (snd (fst x)))) xs).
  Lemma sblock0_length x : conv_facts s r x -> List.length (sblock0 x) = h * n * List.length (v_src (snd (fst x))).
  Proof.
    intros [_ _ (_ & _ & N3) _]. unfold sblock0, srcs_of. induction N3; cbn [combine map flat_map List.length]; [lia|].
    rewrite app_length, grid_length, IHN3. lia.
  Qed.

  Lemma src_all : forall xs, Forall (conv_facts s r) xs -> Forall (fun x => List.length (v_src (snd (fst x))) <= 1) xs -> forall done D a,
    foldM src_body (map fst xs) (Table scols8 (done ++ map jr8s (seq a (h * n * src_count xs)) ++ D), List.length done) =
    Ok (Table scols8 (done ++ flat_map sblock0 xs ++ D), List.length done + h * n * src_count xs).
  Proof.
    induction 1 as [|x xs X _ IH]; intros LS done D a; [|inversion LS as [|? ? L1 LS']; subst].
    - cbn. rewrite Nat.mul_0_r. cbn. now rewrite Nat.add_0_r.
    - cbn [map foldM flat_map]. unfold src_count in *. cbn [map list_sum fold_right]. fold (list_sum (map (fun x => List.length (v_src (snd (fst x)))) xs)).
      rewrite Nat.mul_add_distr_l, seq_app, map_app, <- app_assoc. rewrite src_step by auto. cbn [rbind].
      rewrite (app_assoc done). replace (List.length done + h * n * List.length (v_src (snd (fst x)))) with (List.length (done ++ sblock0 x))
        by (rewrite app_length, sblock0_length by auto; lia).
      rewrite IH by auto. rewrite <- !app_assoc. do 2 f_equal. rewrite app_length, sblock0_length by auto. lia.
  Qed.

  Lemma src_sources : count_sources s = src_count (convs_of s r).
  Proof. destruct (convs_facts s r Api M) as [_ E]. unfold count_sources, src_count. rewrite E at 1. now rewrite map_map. Qed.
  (** The first assignments add the columns [t] and [scn]. *)
  Lemma src_start : convs_of s r <> [] ->
    foldM src_body (st_converters s) (new_table (junk 5) scols6 (h * n * count_sources s), 0) =
    foldM src_body (map fst (convs_of s r)) (Table scols8 (map jr8s (seq 0 (h * n * src_count (convs_of s r)))), 0).
  Proof.
    destruct (convs_facts s r Api M) as [_ E]. rewrite src_sources, E. intros NE. destruct (convs_of s r) as [|x xs]; [congruence|].
    cbn [map foldM]. f_equal. unfold src_body.
    assert (Y : forall b, loc_sets bcast 0 b (new_table (junk 5) scols6 (h * n * src_count (x :: xs))) (src_head (snd (fst x))) =
       loc_sets bcast 0 b (Table scols8 (map jr8s (seq 0 (h * n * src_count (x :: xs))))) (src_head (snd (fst x)))).
    { intros b. unfold new_table, src_head. set (sq := seq 0 _).
      refine (eq_trans (loc_sets_ext bcast _ _ scols6 "t" _ [_] _ eq_refl _ _ _) _);
        [apply Forall_map, Forall_forall; intros; reflexivity | repeat constructor|].
      refine (eq_trans (loc_sets_ext bcast _ _ (scols6 ++ ["t"]) "scn" _ [_; _] _ eq_refl _ _ _) _);
        [apply Forall_map, Forall_map, Forall_forall; intros; reflexivity | repeat constructor|].
      rewrite !map_map. reflexivity. }
    now rewrite Y.
  Qed.

  Hypothesis One : forall name v, conv_at s name = Some v -> List.length (v_src v) <= 1.
  Theorem build_src_eq : exists cols,
    build_src_converter bcast junk s r = Ok (Table cols (flat_map sblock (convs_of s r))) /\ (convs_of s r <> [] -> cols = scols8).
  Proof.
    destruct (convs_facts s r Api M) as [F E]. unfold build_src_converter. set (tb0 := new_table _ _ _).
    pose proof src_sources as EC.
    destruct (convs_of s r) as [|x xs] eqn:EV.
    - exists scols6. split; [|congruence]. rewrite E. cbn [map foldM rbind fst tb_cols tb_rows flat_map]. unfold tb0, new_table. rewrite EC.
      cbn. rewrite Nat.mul_0_r. reflexivity.
    - exists scols8. split; [|auto].
      assert (Z : foldM src_body (st_converters s) (tb0, 0) = Ok (Table scols8 (flat_map sblock0 (x :: xs)), h * n * src_count (x :: xs))).
      { assert (Z : convs_of s r <> []) by (rewrite EV; discriminate). unfold tb0. fold scols6. rewrite (src_start Z), EV.
        assert (LS : Forall (fun x => List.length (v_src (snd (fst x))) <= 1) (x :: xs)).
        { apply Forall_forall. intros y I. rewrite Forall_forall in F. destruct (F y I) as [V _ _ _]. eapply One; eauto. }
        pose proof (src_all (x :: xs) F LS [] [] 0) as Y. rewrite !app_nil_r in Y. cbn [app List.length] in Y. rewrite !Nat.add_0_l in Y. exact Y. }
      unfold src_body, src_inner, src_head in Z. rewrite Z. cbn [rbind fst tb_cols tb_rows]. do 2 f_equal.
      clear. induction (x :: xs) as [|y l IH]; auto. cbn [flat_map]. rewrite map_app, IH. f_equal. unfold sblock0, sblock.
      induction (srcs_of y) as [|ka m IH']; auto. cbn [flat_map]. rewrite map_app, IH'. f_equal. rewrite map_grid. apply grid_ext. intros scn t _ _.
      unfold src_row0, src_row, when, cell_of, cell_div. simpl. destruct (Qeq_bool _ 0); reflexivity.
  Qed.
End Src.
