(** C44, C46, C47: arithmetic of plugs, the links tested by the constructor of Pipeline, and
    what linking leaves unchanged. *)
From Coq Require Import String Ascii List ZArith QArith Bool Arith Lia Permutation.
From Verif Require Import Base BaseFacts Frame Pipeline SpecWorkflow.
Import ListNotations.
Open Scope nat_scope.
Open Scope string_scope.
Open Scope list_scope.

(** ** Lists in the heap *)
Lemma lget_app h m a : a < length h -> lget (h ++ m) a = lget h a.
Proof. intros L. unfold lget. rewrite app_nth1 by exact L. reflexivity. Qed.

Lemma lget_new h l m : lget (h ++ l :: m) (length h) = l.
Proof. unfold lget. rewrite app_nth2 by lia. rewrite Nat.sub_diag. reflexivity. Qed.

Lemma lget_new2 h l m r : lget (h ++ l :: m :: r) (S (length h)) = m.
Proof. unfold lget. rewrite app_nth2 by lia. replace (S (length h) - length h) with 1 by lia. reflexivity. Qed.

Lemma nth_upd {A} n m (f : A -> A) l d : m < length l ->
  nth m (upd_nth n f l) d = if Nat.eqb m n then f (nth m l d) else nth m l d.
Proof.
  intros L. pose proof (nth_error_upd_nth n m f l) as E.
  destruct (nth_error l m) as [x |] eqn:N; [| apply nth_error_None in N; lia].
  rewrite (nth_error_nth l m d N).
  destruct (Nat.eqb_spec m n) as [-> | K].
  - rewrite Nat.eqb_refl in E. simpl in E. apply (nth_error_nth _ _ d) in E. exact E.
  - destruct (Nat.eqb_spec n m) as [X | _]; [congruence |]. apply (nth_error_nth _ _ d) in E. exact E.
Qed.

Lemma lget_upd h a b f : b < length h -> lget (upd_nth a f h) b = if Nat.eqb b a then f (lget h b) else lget h b.
Proof. intros L. unfold lget. apply nth_upd. exact L. Qed.

(** ** Adding two plugs *)
Lemma plug_add_length h p q : length h <= length (fst (plug_add h p q)).
Proof.
  unfold plug_add, deepcopy. destruct (p_free p), (p_free q); simpl;
    repeat (match goal with |- context [if ?b then _ else _] => destruct b end; simpl);
    rewrite ?app_length, ?length_upd_nth; simpl; lia.
Qed.

Lemma plug_add_ok h p q : plug_ok h p -> plug_ok h q -> plug_ok (fst (plug_add h p q)) (snd (plug_add h p q)).
Proof.
  unfold plug_ok, plug_add, deepcopy. intros (A1 & A2) (B1 & B2).
  destruct (p_free p), (p_free q); simpl;
    repeat (match goal with |- context [if ?b then _ else _] => destruct b end; simpl);
    rewrite ?app_length, ?length_upd_nth; simpl; lia.
Qed.

Lemma plug_add_free h p q : p_free (snd (plug_add h p q)) = p_free p && p_free q.
Proof.
  unfold plug_add, deepcopy. destruct (p_free p) eqn:F, (p_free q) eqn:G; simpl;
    repeat (match goal with |- context [if ?b then _ else _] => destruct b end; simpl); auto.
Qed.

(** Which lists change, and how. *)
Lemma plug_add_lget h p q a : a < length h ->
  lget (fst (plug_add h p q)) a =
  if negb (p_free p) && negb (p_free q) && Nat.eqb a (p_out q)
  then lget h a ++ filter (fun e => negb (mem e (lget h (p_in q)))) (lget h (p_out p))
  else lget h a.
Proof.
  intros L. unfold plug_add, deepcopy.
  destruct (p_free p), (p_free q); simpl;
    repeat (match goal with |- context [if Nat.eqb (p_in ?x) ?y then _ else _] => destruct (Nat.eqb (p_in x) y) end; simpl);
    try (apply lget_app; exact L); auto.
  rewrite lget_upd by exact L. reflexivity.
Qed.

(** C44 for two plugs that do not share a list. Missing: the first plug's list of inputs
    being the very list object of the second one's outputs, where it is false (below). *)
Theorem C44_plug_arithmetic_partial h p q : plug_ok h p -> plug_ok h q -> p_in p <> p_out q ->
  doc_sum (view h p) (view h q) (view (fst (plug_add h p q)) (snd (plug_add h p q))) /\
  (linkable_to h p q = true <-> doc_links (view h p) (view h q)).
Proof.
  intros (P1 & P2) (Q1 & Q2) D. split.
  - unfold view, plug_add, deepcopy.
    destruct (p_free p) eqn:FP, (p_free q) eqn:FQ; cbn [fst snd negb doc_sum].
    + destruct (Nat.eqb (p_in p) (p_out p)); reflexivity.
    + destruct (Nat.eqb_spec (p_in q) (p_out q)) as [X | X]; cbn [fst snd p_free p_in p_out].
      * rewrite lget_new, X. reflexivity.
      * rewrite lget_new, lget_new2. reflexivity.
    + rewrite FP. reflexivity.
    + cbn [p_free p_in p_out]. rewrite !lget_upd by assumption.
      destruct (Nat.eqb_spec (p_in p) (p_out q)) as [X | _]; [congruence |]. rewrite Nat.eqb_refl.
      eexists. split; [reflexivity |]. split; [| eexists; reflexivity].
      intros x. rewrite in_app_iff, filter_In, negb_true_iff, mem_nIn. reflexivity.
  - unfold linkable_to, doc_links, view. destruct (p_free p), (p_free q); try tauto.
    rewrite forallb_forall. split; intros K x I; [apply mem_In | apply mem_In]; auto.
Qed.

(** The condition is needed: the inputs of the first and the outputs of the second being one
    list object. *)
Theorem C44_shared_list_refuted :
  exists h p q, plug_ok h p /\ plug_ok h q /\
    ~ doc_sum (view h p) (view h q) (view (fst (plug_add h p q)) (snd (plug_add h p q))).
Proof.
  exists [["a"]; ["b"; "c"]; ["b"]], (Plug false 0 1), (Plug false 2 0).
  split; [vm_compute; lia |]. split; [vm_compute; lia |].
  vm_compute. intros (out & E & _). discriminate E.
Qed.

(** Exactly when the sum is as documented: unless two restricted plugs share this list and
    some column passes by the second one. *)
Theorem C44_exact h p q : plug_ok h p -> plug_ok h q ->
  (doc_sum (view h p) (view h q) (view (fst (plug_add h p q)) (snd (plug_add h p q))) <->
   ~ (p_free p = false /\ p_free q = false /\ p_in p = p_out q /\
      exists x, In x (lget h (p_out p)) /\ ~ In x (lget h (p_in q)))).
Proof.
  intros P K. destruct (Nat.eq_dec (p_in p) (p_out q)) as [D | D].
  2:{ pose proof (C44_plug_arithmetic_partial h p q P K D) as (A & _). split; tauto. }
  destruct P as (P1 & P2), K as (Q1 & Q2).
  destruct (p_free p) eqn:FP.
  { split; [intros _ (X & _); discriminate X |]. intros _. unfold view, plug_add, deepcopy. rewrite FP.
    destruct (p_free q) eqn:FQ; cbn [negb].
    - destruct (Nat.eqb (p_in p) (p_out p)); reflexivity.
    - destruct (Nat.eqb_spec (p_in q) (p_out q)) as [X | X]; cbn [fst snd p_free p_in p_out doc_sum].
      + rewrite lget_new, X. reflexivity.
      + rewrite lget_new, lget_new2. reflexivity. }
  destruct (p_free q) eqn:FQ.
  { split; [intros _ (_ & X & _); discriminate X |]. intros _. unfold view, plug_add. rewrite FP, FQ. cbn. rewrite FP. reflexivity. }
  unfold view, plug_add. rewrite FP, FQ. cbn [fst snd p_free p_in p_out doc_sum]. rewrite !lget_upd by assumption.
  rewrite D, !Nat.eqb_refl.
  set (left := filter (fun e => negb (mem e (lget h (p_in q)))) (lget h (p_out p))).
  split.
  - intros (out & E & _) (_ & _ & _ & x & I & J).
    assert (X : In x left) by (apply filter_In; split; auto; apply negb_true_iff, mem_nIn; exact J).
    assert (Y : lget h (p_out q) ++ left = lget h (p_out q) ++ []) by (rewrite app_nil_r; congruence).
    apply app_inv_head in Y. rewrite Y in X. exact X.
  - intros N. assert (Y : left = []).
    { destruct left as [| x r] eqn:Z; auto. exfalso. apply N. repeat (split; auto).
      assert (X : In x left) by (rewrite Z; left; reflexivity). unfold left in X. apply filter_In in X. destruct X as (X1 & X2).
      apply negb_true_iff in X2. exists x. split; auto. apply mem_nIn. exact X2. }
    rewrite Y, app_nil_r. eexists. split; [reflexivity |]. split; [| exists []; rewrite app_nil_r; reflexivity].
    intros x. split; auto. intros [I | (I & J)]; auto. exfalso. apply N. repeat (split; auto). eauto.
Qed.

Example C44_example :
  let h := [["a"]; ["b"; "c"; "d"]; ["b"; "c"]; ["e"]] in
  let p := Plug false 0 1 in let q := Plug false 2 3 in
  plug_ok h p /\ plug_ok h q /\ p_in p <> p_out q /\ linkable_to h p q = true /\
  view (fst (plug_add h p q)) (snd (plug_add h p q)) = Needs ["a"] ["e"; "d"] /\
  linkable_to h q p = false.
Proof. vm_compute. repeat split; lia. Qed.

(** ** Both ways of linking a list of stages *)

(** [s1 + s2 + ...] seen on plugs only. *)
Fixpoint plus_loop (h : lheap) (acc : plug) (qs : list plug) : res (lheap * plug) :=
  match qs with
  | [] => Ok (h, acc)
  | q :: r => if linkable_to h acc q then plus_loop (fst (plug_add h acc q)) (snd (plug_add h acc q)) r
              else Err ValueError
  end.

(** The constructor seen on plugs only. *)
Fixpoint ctor_loop (h : lheap) (acc curr : plug) (qs : list plug) : res (lheap * plug) :=
  match qs with
  | [] => Ok (h, acc)
  | q :: r => if linkable_to h curr q then ctor_loop (fst (plug_add h acc q)) (snd (plug_add h acc q)) q r
              else Err ValueError
  end.

Lemma init_loop_ctor rest : forall w acc curr,
  match ctor_loop (lists w) acc (plug_of w curr) (map (plug_of w) rest) with
  | Ok (h, p) => init_loop w acc curr rest = (set_lists w h, Ok p)
  | Err e => snd (init_loop w acc curr rest) = Err e
  end.
Proof.
  induction rest as [| x r IH]; intros w acc curr; simpl.
  - destruct w; reflexivity.
  - destruct (linkable_to (lists w) (plug_of w curr) (plug_of w x)); simpl; [| reflexivity].
    destruct (plug_add (lists w) acc (plug_of w x)) as [h acc'] eqn:E. simpl.
    specialize (IH (set_lists w h) acc' x). simpl in IH.
    change (plug_of (set_lists w h)) with (plug_of w) in IH. exact IH.
Qed.

Lemma pipe_at_upd w p f : p < length (pipes w) -> nth p (upd_nth p f (pipes w)) (Pipe 0 (Plug true 0 0)) = f (pipe_at w p).
Proof. intros L. rewrite nth_upd by exact L. rewrite Nat.eqb_refl. reflexivity. Qed.

Lemma add_loop_plus rest : forall w p, p < length (pipes w) -> pl_stages (pipe_at w p) < length (slists w) ->
  match plus_loop (lists w) (pl_plug (pipe_at w p)) (map (plug_of w) rest) with
  | Ok (h, q) => exists w', add_loop w p rest = (w', Ok p) /\ lists w' = h /\ stages w' = stages w /\
                            pl_plug (pipe_at w' p) = q /\
                            slist_at w' (pl_stages (pipe_at w' p)) = slist_at w (pl_stages (pipe_at w p)) ++ rest
  | Err e => snd (add_loop w p rest) = Err e
  end.
Proof.
  induction rest as [| x r IH]; intros w p L Ls; simpl.
  - exists w. rewrite app_nil_r. repeat split; reflexivity.
  - unfold pipe_add. destruct (linkable_to (lists w) (pl_plug (pipe_at w p)) (plug_of w x)); simpl; [| reflexivity].
    destruct (plug_add (lists w) (pl_plug (pipe_at w p)) (plug_of w x)) as [h q] eqn:E. simpl.
    set (w1 := World h (stages w) (upd_nth (pl_stages (pipe_at w p)) (fun l => l ++ [x]) (slists w))
                     (upd_nth p (fun y => Pipe (pl_stages y) q) (pipes w))).
    assert (L1 : p < length (pipes w1)) by (simpl; rewrite length_upd_nth; exact L).
    assert (Q1 : pipe_at w1 p = Pipe (pl_stages (pipe_at w p)) q).
    { unfold pipe_at at 1. unfold w1. cbn [pipes]. rewrite pipe_at_upd by exact L. reflexivity. }
    assert (Ls1 : pl_stages (pipe_at w1 p) < length (slists w1)).
    { rewrite Q1. simpl. rewrite length_upd_nth. exact Ls. }
    specialize (IH w1 p L1 Ls1). rewrite Q1 in IH. cbn [lists pl_plug pl_stages] in IH.
    change (lists w1) with h in IH.
    change (map (plug_of w1) r) with (map (plug_of w) r) in IH.
    destruct (plus_loop h q (map (plug_of w) r)) as [[h2 q2] | e].
    + destruct IH as (w2 & A & B & C & D & F). exists w2.
      repeat split; auto. rewrite F. unfold slist_at at 1. unfold w1. cbn [slists].
      rewrite nth_upd by exact Ls. rewrite Nat.eqb_refl. rewrite <- app_assoc. reflexivity.
    + exact IH.
Qed.

Definition same_outs (h : lheap) (acc curr : plug) : Prop :=
  p_free curr = false -> p_free acc = false /\ lget h (p_out acc) = lget h (p_out curr).

Lemma same_outs_add h acc q : plug_ok h q -> same_outs (fst (plug_add h acc q)) (snd (plug_add h acc q)) q.
Proof.
  intros (Q1 & Q2) F. split.
  - rewrite plug_add_free, F. apply andb_false_r.
  - unfold plug_add, deepcopy. rewrite F. destruct (p_free acc); cbn [negb].
    + destruct (Nat.eqb_spec (p_in q) (p_out q)) as [X | X]; cbn [fst snd p_out].
      * rewrite lget_new. rewrite lget_app by exact Q2. rewrite X. reflexivity.
      * rewrite lget_new2. rewrite lget_app by exact Q2. reflexivity.
    + reflexivity.
Qed.

Lemma linkable_same h acc curr q : same_outs h acc curr -> p_free curr = false ->
  linkable_to h acc q = linkable_to h curr q.
Proof. intros S F. destruct (S F) as (A & B). unfold linkable_to. rewrite A, F, B. reflexivity. Qed.

Lemma plug_ok_mono h h' p : length h <= length h' -> plug_ok h p -> plug_ok h' p.
Proof. intros L (A & B). split; lia. Qed.

Lemma plus_then_ctor qs : forall h acc curr r, same_outs h acc curr -> (forall q, In q qs -> plug_ok h q) ->
  plus_loop h acc qs = Ok r -> ctor_loop h acc curr qs = Ok r.
Proof.
  induction qs as [| q qs IH]; intros h acc curr r S W P; simpl in *; [exact P |].
  destruct (linkable_to h acc q) eqn:L; [| discriminate P].
  assert (L' : linkable_to h curr q = true).
  { destruct (p_free curr) eqn:F.
    - unfold linkable_to. rewrite F. reflexivity.
    - rewrite <- (linkable_same h acc curr q S F). exact L. }
  rewrite L'. apply IH; [apply same_outs_add; auto | | exact P].
  intros q' I. eapply plug_ok_mono; [apply plug_add_length | auto].
Qed.

(** No gap, on plugs: once a contract is in force, no restricted plug follows a free one. *)
Fixpoint gapless (started freed : bool) (qs : list plug) : bool :=
  match qs with
  | [] => true
  | q :: r => if p_free q then gapless started (freed || started) r
              else negb freed && gapless true freed r
  end.

Lemma ctor_then_plus qs : forall h acc curr r, same_outs h acc curr -> (forall q, In q qs -> plug_ok h q) ->
  gapless (negb (p_free acc)) (p_free curr && negb (p_free acc)) qs = true ->
  ctor_loop h acc curr qs = Ok r -> plus_loop h acc qs = Ok r.
Proof.
  induction qs as [| q qs IH]; intros h acc curr r S W G P; simpl in *; [exact P |].
  destruct (linkable_to h curr q) eqn:L; [| discriminate P].
  assert (L' : linkable_to h acc q = true).
  { destruct (p_free curr) eqn:F.
    - unfold linkable_to. destruct (p_free acc) eqn:FA; [reflexivity |].
      destruct (p_free q) eqn:FQ; [reflexivity |]. simpl in G. discriminate G.
    - rewrite (linkable_same h acc curr q S F). exact L. }
  rewrite L'. apply (IH _ _ q r); [apply same_outs_add; auto | | | exact P].
  - intros q' I. eapply plug_ok_mono; [apply plug_add_length | auto].
  - rewrite plug_add_free. destruct (p_free q) eqn:FQ; simpl in *.
    + rewrite andb_true_r. destruct (p_free acc) eqn:FA; simpl in *; auto.
      * rewrite andb_false_r in G. simpl in G. exact G.
      * rewrite orb_true_r in G. exact G.
    + rewrite andb_false_r. simpl. apply andb_true_iff in G. destruct G as (G1 & G2).
      apply negb_true_iff in G1. rewrite G1 in G2. exact G2.
Qed.

Lemma gapless_freed w l : (forall x, In x l -> p_free (plug_of w x) = true) ->
  forall s f, gapless s f (map (plug_of w) l) = true.
Proof.
  induction l as [| x r IH]; intros K s f; simpl; auto.
  rewrite (K x (or_introl eq_refl)). apply IH. intros y I. apply K. right. exact I.
Qed.

Lemma no_gap_tail w x l : no_gap w (x :: l) -> no_gap w l.
Proof.
  intros N i j k a b c L1 L2 A B C. apply (N (S i) (S j) (S k) a b c); try lia; assumption.
Qed.

Lemma no_gap_gapless w l : no_gap w l -> gapless false false (map (plug_of w) l) = true.
Proof.
  induction l as [| x r IH]; intros N; simpl; auto.
  destruct (p_free (plug_of w x)) eqn:F; simpl; [apply IH; eapply no_gap_tail; eassumption |].
  (* a contract is in force from x on *)
  clear IH. revert N. induction r as [| y r IH]; intros N; simpl; auto.
  destruct (p_free (plug_of w y)) eqn:G; simpl.
  - apply gapless_freed. intros z I. destruct (p_free (plug_of w z)) eqn:Z; auto. exfalso.
    apply In_nth_error in I. destruct I as (k & K).
    apply (N 0 1 (S (S k)) x y z); auto; lia.
  - apply IH. intros i j k a b c L1 L2 A B C. destruct i as [| i], j as [| j], k as [| k]; try lia.
    + apply (N 0 (S (S j)) (S (S k)) a b c); simpl in *; auto; lia.
    + apply (N (S (S i)) (S (S j)) (S (S k)) a b c); simpl in *; auto; lia.
Qed.

Lemma no_gap_after w a l : no_gap w (a :: l) ->
  gapless (negb (p_free (plug_of w a))) (p_free (plug_of w a) && negb (p_free (plug_of w a))) (map (plug_of w) l) = true.
Proof.
  intros N. pose proof (no_gap_gapless w (a :: l) N) as G. simpl in G.
  destruct (p_free (plug_of w a)); simpl in *; exact G.
Qed.

Lemma plug_of_ok w a : world_ok w -> a < length (stages w) -> plug_ok (lists w) (plug_of w a).
Proof. intros (W & _) L. apply W. unfold plug_of, stage_at. apply nth_In. exact L. Qed.

Lemma plugs_ok w l : world_ok w -> (forall x, In x l -> x < length (stages w)) ->
  forall q, In q (map (plug_of w) l) -> plug_ok (lists w) q.
Proof. intros W L q I. apply in_map_iff in I. destruct I as (x & <- & I). apply plug_of_ok; auto. Qed.

Lemma new_pipeline_ok w l a rest : slist_at w l = a :: rest ->
  is_ok (snd (new_pipeline w l)) = is_ok (ctor_loop (lists w) (plug_of w a) (plug_of w a) (map (plug_of w) rest)).
Proof.
  intros E. unfold new_pipeline. rewrite E.
  pose proof (init_loop_ctor rest w (plug_of w a) a) as I.
  destruct (ctor_loop (lists w) (plug_of w a) (plug_of w a) (map (plug_of w) rest)) as [[h p] | e].
  - rewrite I. reflexivity.
  - destruct (init_loop w (plug_of w a) a rest) as [w' [p | e']]; simpl in I; [discriminate I | reflexivity].
Qed.

(** The pipeline [a + b]. *)
Lemma stage_add_spec w a b :
  match plus_loop (lists w) (plug_of w a) [plug_of w b] with
  | Ok (h, q) => stage_add w a b =
      (World h (stages w) (slists w ++ [[a; b]]) (pipes w ++ [Pipe (length (slists w)) q]), Ok (length (pipes w)))
  | Err e => snd (stage_add w a b) = Err e
  end.
Proof.
  unfold stage_add, new_pipeline. simpl plus_loop.
  unfold slist_at. cbn [slists]. rewrite app_nth2 by lia. rewrite Nat.sub_diag. cbn [nth init_loop].
  set (w1 := World (lists w) (stages w) (slists w ++ [[a; b]]) (pipes w)).
  change (plug_of w1 a) with (plug_of w a). change (plug_of w1 b) with (plug_of w b). change (lists w1) with (lists w).
  destruct (linkable_to (lists w) (plug_of w a) (plug_of w b)); cbn [negb]; [| reflexivity].
  destruct (plug_add (lists w) (plug_of w a) (plug_of w b)) as [h q]. reflexivity.
Qed.

Lemma chain_spec w a b rest :
  match plus_loop (lists w) (plug_of w a) (map (plug_of w) (b :: rest)) with
  | Ok (h, q) => exists w' p, chain w a b rest = (w', Ok p) /\ lists w' = h /\ stages w' = stages w /\
                              pl_plug (pipe_at w' p) = q /\ slist_at w' (pl_stages (pipe_at w' p)) = a :: b :: rest
  | Err e => snd (chain w a b rest) = Err e
  end.
Proof.
  unfold chain. pose proof (stage_add_spec w a b) as S. simpl in S |- *.
  destruct (linkable_to (lists w) (plug_of w a) (plug_of w b)); simpl in *.
  - rewrite S. set (h := fst (plug_add (lists w) (plug_of w a) (plug_of w b))) in *.
    set (q := snd (plug_add (lists w) (plug_of w a) (plug_of w b))) in *.
    set (w1 := World h (stages w) (slists w ++ [[a; b]]) (pipes w ++ [Pipe (length (slists w)) q])).
    assert (L : length (pipes w) < length (pipes w1)) by (simpl; rewrite app_length; simpl; lia).
    assert (P : pipe_at w1 (length (pipes w)) = Pipe (length (slists w)) q).
    { unfold pipe_at, w1. cbn [pipes]. rewrite app_nth2 by lia. rewrite Nat.sub_diag. reflexivity. }
    assert (Ls : pl_stages (pipe_at w1 (length (pipes w))) < length (slists w1)).
    { rewrite P. simpl. rewrite app_length. simpl. lia. }
    pose proof (add_loop_plus rest w1 (length (pipes w)) L Ls) as A. rewrite P in A. cbn [pl_plug pl_stages] in A.
    change (lists w1) with h in A. change (map (plug_of w1) rest) with (map (plug_of w) rest) in A.
    destruct (plus_loop h q (map (plug_of w) rest)) as [[h2 q2] | e]; [| exact A].
    destruct A as (w2 & A1 & A2 & A3 & A4 & A5). exists w2, (length (pipes w)).
    split; [exact A1 |]. split; [exact A2 |]. split; [exact A3 |]. split; [exact A4 |].
    rewrite A5. unfold slist_at, w1. cbn [slists]. rewrite app_nth2 by lia. rewrite Nat.sub_diag. reflexivity.
  - destruct (stage_add w a b) as [w' [p | e]]; simpl in S; [discriminate S |]. simpl. exact S.
Qed.

Lemma chain_ok w a b rest :
  is_ok (snd (chain w a b rest)) = is_ok (plus_loop (lists w) (plug_of w a) (map (plug_of w) (b :: rest))).
Proof.
  pose proof (chain_spec w a b rest) as C.
  destruct (plus_loop (lists w) (plug_of w a) (map (plug_of w) (b :: rest))) as [[h q] | e].
  - destruct C as (w' & p & -> & _). reflexivity.
  - rewrite C. reflexivity.
Qed.

(** C46, as far as it goes: whatever [+] accepts the constructor accepts; and the converse
    when no free stage stands between two restricted ones. Missing: the other lists, for
    which it is false (below). *)
Theorem C46_constructor_partial w l a b rest : world_ok w ->
  l < length (slists w) -> slist_at w l = a :: b :: rest ->
  (is_ok (snd (chain w a b rest)) = true -> is_ok (snd (new_pipeline w l)) = true) /\
  (no_gap w (a :: b :: rest) -> is_ok (snd (chain w a b rest)) = is_ok (snd (new_pipeline w l))).
Proof.
  intros W L E.
  assert (V : forall x, In x (a :: b :: rest) -> x < length (stages w)).
  { destruct W as (_ & W & _). intros x I. apply (W (slist_at w l)); [| rewrite E; exact I].
    unfold slist_at. apply nth_In. exact L. }
  rewrite chain_ok, (new_pipeline_ok w l a (b :: rest) E).
  assert (S : same_outs (lists w) (plug_of w a) (plug_of w a)) by (intros F; auto).
  assert (O : forall q, In q (map (plug_of w) (b :: rest)) -> plug_ok (lists w) q)
    by (apply plugs_ok; auto; intros x I; apply V; right; exact I).
  assert (X : is_ok (plus_loop (lists w) (plug_of w a) (map (plug_of w) (b :: rest))) = true ->
              is_ok (ctor_loop (lists w) (plug_of w a) (plug_of w a) (map (plug_of w) (b :: rest))) = true).
  { destruct (plus_loop (lists w) (plug_of w a) (map (plug_of w) (b :: rest))) as [r | e] eqn:P; [| discriminate].
    intros _. rewrite (plus_then_ctor _ _ _ _ r S O P). reflexivity. }
  split; [exact X |]. intros N.
  destruct (ctor_loop (lists w) (plug_of w a) (plug_of w a) (map (plug_of w) (b :: rest))) as [r | e] eqn:C.
  - rewrite (ctor_then_plus _ _ _ _ r S O (no_gap_after w a (b :: rest) N) C). reflexivity.
  - destruct (plus_loop (lists w) (plug_of w a) (map (plug_of w) (b :: rest))) as [r |]; [| reflexivity].
    exfalso. specialize (X eq_refl). simpl in X. discriminate X.
Qed.

(** Stages used in examples. *)
Definition rename_op (m : dict string string) : op := NewStage false (dkeys m) (dvalues m) (BRename m).
Definition clip_op : op := NewStage true [] [] (BClip None (Some 9%Q)).

Example C46_example :
  let w := run nothing [rename_op [("a", "b"); ("c", "x")]; rename_op [("b", "d")]; rename_op [("x", "y")]; NewList [0; 1; 2]] in
  world_ok w /\ slist_at w 0 = [0; 1; 2] /\ no_gap w [0; 1; 2] /\
  is_ok (snd (chain w 0 1 [2])) = true /\ is_ok (snd (new_pipeline w 0)) = true.
Proof.
  split; [| split; [reflexivity | split; [| split; reflexivity]]].
  - vm_compute. repeat split; intros; repeat match goal with H : _ \/ _ |- _ => destruct H end; subst; simpl; try contradiction; try lia;
      simpl in *; repeat match goal with H : _ \/ _ |- _ => destruct H end; subst; try contradiction; lia.
  - intros i j k a b c _ _ _ B _ _ F. destruct j as [| [| [| j]]]; simpl in B; try (destruct j; discriminate B);
      injection B as <-; discriminate F.
Qed.

(** A free stage between two restricted ones hides the missing column. *)
Theorem C46_constructor_refuted :
  exists w l a b rest, world_ok w /\ slist_at w l = a :: b :: rest /\
    is_ok (snd (chain w a b rest)) = false /\ is_ok (snd (new_pipeline w l)) = true.
Proof.
  exists (run nothing [rename_op [("a", "b")]; clip_op; rename_op [("z", "d")]; NewList [0; 1; 2]]), 0, 0, 1, [2].
  split; [| repeat split; reflexivity].
  vm_compute. repeat split; intros; repeat match goal with H : _ \/ _ |- _ => destruct H end; subst; simpl; try contradiction; try lia;
    simpl in *; repeat match goal with H : _ \/ _ |- _ => destruct H end; subst; try contradiction; lia.
Qed.

(** ** What linking changes *)

(** A longer list beginning with the old one. *)
Definition extends {A} (old new : list A) : Prop := exists more, new = old ++ more.

Lemma extends_refl {A} (l : list A) : extends l l.
Proof. exists []. rewrite app_nil_r. reflexivity. Qed.
Lemma extends_trans {A} (a b c : list A) : extends a b -> extends b c -> extends a c.
Proof. intros (x & ->) (y & ->). exists (x ++ y). rewrite app_assoc. reflexivity. Qed.

Lemma plug_add_extends h p q a : a < length h -> extends (lget h a) (lget (fst (plug_add h p q)) a).
Proof.
  intros L. rewrite plug_add_lget by exact L.
  destruct (negb (p_free p) && negb (p_free q) && Nat.eqb a (p_out q)).
  - eexists. reflexivity.
  - apply extends_refl.
Qed.

(** [a] is the list of outputs of no restricted stage of the world. *)
Definition not_output (w : world) (a : nat) : Prop :=
  forall s, In s (stages w) -> p_free (st_plug s) = false -> p_out (st_plug s) <> a.

(** The lists after an operation: none disappears, they only grow at their end, and only if
    they are outputs of a restricted stage. *)
Definition grown (w : world) (h : lheap) : Prop :=
  length (lists w) <= length h /\
  (forall a, a < length (lists w) -> extends (lget (lists w) a) (lget h a)) /\
  (forall a, a < length (lists w) -> not_output w a -> lget h a = lget (lists w) a).

Lemma grown_add w p b : b < length (stages w) -> forall h0, stages w = stages w ->
  (length (lists w) <= length h0 /\
   (forall a, a < length (lists w) -> extends (lget (lists w) a) (lget h0 a)) /\
   (forall a, a < length (lists w) -> not_output w a -> lget h0 a = lget (lists w) a)) ->
  grown w (fst (plug_add h0 p (plug_of w b))).
Proof.
  intros B h0 _ (A1 & A2 & A3). split; [| split].
  - pose proof (plug_add_length h0 p (plug_of w b)). lia.
  - intros a L. eapply extends_trans; [apply A2; exact L | apply plug_add_extends; lia].
  - intros a L N. rewrite plug_add_lget by lia. rewrite (A3 a L N).
    destruct (p_free (plug_of w b)) eqn:F; [rewrite andb_false_r; reflexivity |].
    destruct (Nat.eqb_spec a (p_out (plug_of w b))) as [X | X]; [| rewrite andb_false_r; reflexivity].
    exfalso. apply (N (stage_at w b)); auto. unfold stage_at. apply nth_In. exact B.
Qed.

Lemma init_loop_grown rest : forall w h0 acc curr, (forall x, In x rest -> x < length (stages w)) -> grown w h0 ->
  grown w (lists (fst (init_loop (set_lists w h0) acc curr rest))) /\
  stages (fst (init_loop (set_lists w h0) acc curr rest)) = stages w /\
  slists (fst (init_loop (set_lists w h0) acc curr rest)) = slists w /\
  pipes (fst (init_loop (set_lists w h0) acc curr rest)) = pipes w.
Proof.
  induction rest as [| x r IH]; intros w h0 acc curr V G; simpl; auto.
  change (plug_of (set_lists w h0)) with (plug_of w).
  destruct (linkable_to h0 (plug_of w curr) (plug_of w x)); simpl; auto.
  destruct (plug_add h0 acc (plug_of w x)) as [h1 acc'] eqn:E. simpl.
  change (set_lists (set_lists w h0) h1) with (set_lists w h1).
  apply IH; [intros y I; apply V; right; exact I |].
  replace h1 with (fst (plug_add h0 acc (plug_of w x))) by (rewrite E; reflexivity).
  apply grown_add; auto. apply V. left. reflexivity.
Qed.

Lemma grown_refl w : grown w (lists w).
Proof. split; [lia |]. split; auto. intros. apply extends_refl. Qed.

(** Everything that an operation leaves as it was. *)
Definition preserved (w w' : world) : Prop :=
  grown w (lists w') /\
  extends (stages w) (stages w') /\
  length (slists w) <= length (slists w') /\
  (forall l, l < length (slists w) -> extends (slist_at w l) (slist_at w' l)) /\
  length (pipes w) <= length (pipes w') /\
  (forall p, p < length (pipes w) -> pl_stages (pipe_at w' p) = pl_stages (pipe_at w p)).

Lemma new_pipeline_preserved w l : (forall x, In x (slist_at w l) -> x < length (stages w)) ->
  preserved w (fst (new_pipeline w l)) /\
  (forall p, p < length (pipes w) -> pipe_at (fst (new_pipeline w l)) p = pipe_at w p) /\
  slists (fst (new_pipeline w l)) = slists w /\ stages (fst (new_pipeline w l)) = stages w.
Proof.
  intros V.
  assert (X : grown w (lists (fst (new_pipeline w l))) /\ stages (fst (new_pipeline w l)) = stages w /\
              slists (fst (new_pipeline w l)) = slists w /\ extends (pipes w) (pipes (fst (new_pipeline w l)))).
  { unfold new_pipeline. destruct (slist_at w l) as [| a rest] eqn:E; simpl.
    - split; [exact (grown_refl w) |]. split; [reflexivity |]. split; [reflexivity | apply extends_refl].
    - assert (V' : forall x, In x rest -> x < length (stages w)) by (intros x I; apply V; right; exact I).
      destruct (init_loop_grown rest w (lists w) (plug_of w a) a V' (grown_refl w)) as (A1 & A2 & A3 & A4).
      replace (set_lists w (lists w)) with w in * by (destruct w; reflexivity).
      destruct (init_loop w (plug_of w a) a rest) as [w' [q | e]]; simpl in *.
      + split; [exact A1 |]. split; [exact A2 |]. split; [exact A3 |]. rewrite A4. eexists. reflexivity.
      + split; [exact A1 |]. split; [exact A2 |]. split; [exact A3 |]. rewrite A4. apply extends_refl. }
  destruct X as (A1 & A2 & A3 & (m & A4)).
  assert (PP : forall p, p < length (pipes w) -> pipe_at (fst (new_pipeline w l)) p = pipe_at w p).
  { intros p L. unfold pipe_at. rewrite A4. rewrite app_nth1 by exact L. reflexivity. }
  split; [| auto]. split; [exact A1 |]. split; [rewrite A2; apply extends_refl |].
  split; [rewrite A3; lia |]. split; [intros l' _; unfold slist_at; rewrite A3; apply extends_refl |].
  split; [rewrite A4, app_length; lia |]. intros p L. rewrite PP by exact L. reflexivity.
Qed.

Lemma stage_at_app w m a : a < length (stages w) -> nth a (stages w ++ m) no_stage = stage_at w a.
Proof. intros L. rewrite app_nth1 by exact L. reflexivity. Qed.

Lemma step_preserved w o : world_ok w -> op_ok w o -> preserved w (fst (step w o)).
Proof.
  intros W K. destruct o as [free ins outs b | ain aout b | l | l | x y]; simpl in K |- *.
  - assert (G : forall h p, lists w = lists w -> extends (lists w) h -> preserved w (add_stage w h (Stage p b))).
    { intros h p _ (m & ->). split; [| split; [| split; [| split; [| split]]]]; simpl; auto.
      - split; [rewrite app_length; lia |]. split; intros a L; rewrite lget_app by exact L; auto. apply extends_refl.
      - eexists. reflexivity.
      - intros l _. apply extends_refl. }
    destruct free; simpl; apply G; auto; eexists; reflexivity.
  - split; [exact (grown_refl w) |]. simpl. split; [eexists; reflexivity |]. split; [lia |].
    split; [intros; apply extends_refl |]. split; [lia | auto].
  - split; [exact (grown_refl w) |]. simpl. split; [apply extends_refl |]. split; [rewrite app_length; lia |].
    split; [intros l' L; unfold slist_at; simpl; rewrite app_nth1 by exact L; apply extends_refl |].
    split; [lia | auto].
  - apply new_pipeline_preserved. destruct W as (_ & W & _). intros x I.
    apply (W (slist_at w l)); auto. unfold slist_at. apply nth_In. exact K.
  - destruct K as (Kx & Ky). destruct x as [a | p], y as [b | p'].
    + unfold stage_add. set (w1 := World (lists w) (stages w) (slists w ++ [[a; b]]) (pipes w)).
      assert (E : slist_at w1 (length (slists w)) = [a; b]).
      { unfold slist_at, w1. cbn [slists]. rewrite app_nth2 by lia. rewrite Nat.sub_diag. reflexivity. }
      destruct (new_pipeline_preserved w1 (length (slists w))) as (P & _).
      { rewrite E. simpl. intros x [<- | [<- | []]]; assumption. }
      destruct P as (P1 & P2 & P3 & P4 & P5 & P6). split; [exact P1 |]. split; [exact P2 |].
      simpl in P3. rewrite app_length in P3. split; [lia |].
      split.
      * intros l L. eapply extends_trans; [| apply P4; simpl; rewrite app_length; simpl; lia].
        unfold slist_at, w1. cbn [slists]. rewrite app_nth1 by exact L. apply extends_refl.
      * split; [exact P5 | exact P6].
    + split; [exact (grown_refl w) |]. split; [apply extends_refl |]. split; [simpl; lia |].
      split; [intros; apply extends_refl |]. split; [simpl; lia | auto].
    + unfold pipe_add. destruct (linkable_to (lists w) (pl_plug (pipe_at w p)) (plug_of w b)) eqn:Lk; cbn [negb].
      * pose proof (grown_add w (pl_plug (pipe_at w p)) b Ky (lists w) eq_refl (grown_refl w)) as G.
        destruct (plug_add (lists w) (pl_plug (pipe_at w p)) (plug_of w b)) as [h q]. cbn [fst] in *.
        split; [exact G |]. cbn [stages slists pipes].
        split; [apply extends_refl |]. split; [rewrite length_upd_nth; lia |].
        split.
        { intros l L. unfold slist_at at 2. cbn [slists]. rewrite nth_upd by exact L. fold (slist_at w l).
          destruct (Nat.eqb l (pl_stages (pipe_at w p))); [eexists; reflexivity | apply extends_refl]. }
        split; [rewrite length_upd_nth; lia |].
        intros p' L. unfold pipe_at at 1. cbn [pipes]. rewrite nth_upd by exact L.
        destruct (Nat.eqb p' p); reflexivity.
      * split; [exact (grown_refl w) |]. split; [apply extends_refl |]. split; [simpl; lia |].
        split; [intros; apply extends_refl |]. split; [simpl; lia | auto].
    + split; [exact (grown_refl w) |]. split; [apply extends_refl |]. split; [simpl; lia |].
      split; [intros; apply extends_refl |]. split; [simpl; lia | auto].
Qed.

(** Operations keep worlds in order. *)
Lemma plug_ok_grown h h' p : length h <= length h' -> plug_ok h p -> plug_ok h' p.
Proof. apply plug_ok_mono. Qed.

Lemma init_loop_plug rest : forall w acc curr w' q, plug_ok (lists w) acc ->
  (forall x, In x rest -> plug_ok (lists w) (plug_of w x)) -> init_loop w acc curr rest = (w', Ok q) -> plug_ok (lists w') q.
Proof.
  induction rest as [| x r IH]; intros w acc curr w' q A V E; simpl in E.
  - injection E as <- <-. exact A.
  - destruct (linkable_to (lists w) (plug_of w curr) (plug_of w x)); simpl in E; [| discriminate E].
    pose proof (plug_add_ok (lists w) acc (plug_of w x) A (V x (or_introl eq_refl))) as K.
    pose proof (plug_add_length (lists w) acc (plug_of w x)) as Ln.
    destruct (plug_add (lists w) acc (plug_of w x)) as [h acc'] eqn:P. simpl in K, Ln.
    apply (IH (set_lists w h) acc' x w' q); auto.
    intros y I. simpl. apply (plug_ok_mono (lists w)); [exact Ln |]. apply (V y). right. exact I.
Qed.

Lemma world_ok_lists w h : length (lists w) <= length h -> world_ok w -> world_ok (set_lists w h).
Proof.
  intros L (W1 & W2 & W3). split; [| split]; simpl.
  - intros s I. apply (plug_ok_mono (lists w)); auto.
  - exact W2.
  - intros p I. destruct (W3 p I) as (A & B). split; auto. apply (plug_ok_mono (lists w)); auto.
Qed.

Lemma In_upd {A} n (f : A -> A) l x : In x (upd_nth n f l) -> In x l \/ exists y, In y l /\ x = f y.
Proof.
  revert n. induction l as [| a r IH]; intros [| n]; simpl; auto.
  - intros [<- | I]; [right; exists a; auto | left; auto].
  - intros [<- | I]; [left; auto |]. destruct (IH n I) as [K | (y & K & ->)]; [left; auto | right; exists y; auto].
Qed.

Lemma new_pipeline_world w l : world_ok w -> l < length (slists w) -> world_ok (fst (new_pipeline w l)).
Proof.
  intros W L.
  assert (V : forall x, In x (slist_at w l) -> x < length (stages w)).
  { destruct W as (_ & W & _). intros x I. apply (W (slist_at w l)); auto. unfold slist_at. apply nth_In. exact L. }
  destruct (new_pipeline_preserved w l V) as ((G & _) & _ & _ & _).
  unfold new_pipeline in *. destruct (slist_at w l) as [| a rest] eqn:E; [exact W |].
  assert (V' : forall x, In x rest -> x < length (stages w)) by (intros x I; apply V; right; exact I).
  destruct (init_loop_grown rest w (lists w) (plug_of w a) a V' (grown_refl w)) as (A1 & A2 & A3 & A4).
  replace (set_lists w (lists w)) with w in * by (destruct w; reflexivity).
  pose proof (init_loop_plug rest w (plug_of w a) a) as Pq.
  destruct (init_loop w (plug_of w a) a rest) as [w' [q | e]] eqn:I; simpl in *.
  - specialize (Pq w' q (plug_of_ok w a W (V a (or_introl eq_refl))) (fun x J => plug_of_ok w x W (V' x J)) eq_refl).
    destruct W as (W1 & W2 & W3). destruct A1 as (Ln & _).
    split; [| split]; cbn [lists stages slists pipes]; rewrite ?A2, ?A3, ?A4.
    + intros s J. apply (plug_ok_mono (lists w)); auto.
    + exact W2.
    + intros p J. apply in_app_iff in J. destruct J as [J | [<- | []]].
      * destruct (W3 p J). split; auto. apply (plug_ok_mono (lists w)); auto.
      * split; [exact L | exact Pq].
  - destruct W as (W1 & W2 & W3). destruct A1 as (Ln & _).
    split; [| split]; rewrite ?A2, ?A3, ?A4.
    + intros s J. apply (plug_ok_mono (lists w)); auto.
    + exact W2.
    + intros p J. destruct (W3 p J). split; auto. apply (plug_ok_mono (lists w)); auto.
Qed.

Lemma step_world w o : world_ok w -> op_ok w o -> world_ok (fst (step w o)).
Proof.
  intros W K. destruct o as [free ins outs b | ain aout b | l | l | x y]; simpl in K |- *.
  - assert (G : forall h p, length (lists w) <= length h -> plug_ok h p -> world_ok (add_stage w h (Stage p b))).
    { intros h p Ln P. destruct (world_ok_lists w h Ln W) as (W1 & W2 & W3). simpl in *.
      split; [| split]; simpl; auto.
      - intros s I. apply in_app_iff in I. destruct I as [I | [<- | []]]; auto.
      - intros l s I J. rewrite app_length. pose proof (W2 l s I J). lia. }
    destruct free; simpl; apply G; rewrite ?app_length; simpl; try lia; unfold plug_ok; simpl; rewrite app_length; simpl; lia.
  - destruct W as (W1 & W2 & W3). split; [| split]; simpl; auto.
    + intros s I. apply in_app_iff in I. destruct I as [I | [<- | []]]; auto.
    + intros l s I J. rewrite app_length. pose proof (W2 l s I J). lia.
  - destruct W as (W1 & W2 & W3). split; [| split]; simpl; auto.
    + intros l' s I J. apply in_app_iff in I. destruct I as [I | [<- | []]]; eauto.
    + intros p I. destruct (W3 p I). rewrite app_length. split; auto. lia.
  - apply new_pipeline_world; auto.
  - destruct K as (Kx & Ky). destruct x as [a | p], y as [b | p']; try exact W.
    + unfold stage_add. apply new_pipeline_world; [| simpl; rewrite app_length; simpl; lia].
      destruct W as (W1 & W2 & W3). split; [| split]; simpl; auto.
      * intros l' s I J. apply in_app_iff in I. destruct I as [I | [<- | []]]; [eauto |].
        simpl in J. destruct J as [<- | [<- | []]]; assumption.
      * intros q I. destruct (W3 q I). rewrite app_length. split; auto. lia.
    + unfold pipe_add. destruct (linkable_to (lists w) (pl_plug (pipe_at w p)) (plug_of w b)); cbn [negb]; [| exact W].
      assert (Pp : In (pipe_at w p) (pipes w)) by (unfold pipe_at; apply nth_In; exact Kx).
      destruct W as (W1 & W2 & W3). destruct (W3 _ Pp) as (Q1 & Q2).
      assert (Pb : plug_ok (lists w) (plug_of w b)) by (apply W1; unfold stage_at; apply nth_In; exact Ky).
      pose proof (plug_add_ok (lists w) _ _ Q2 Pb) as Pn. pose proof (plug_add_length (lists w) (pl_plug (pipe_at w p)) (plug_of w b)) as Ln.
      destruct (plug_add (lists w) (pl_plug (pipe_at w p)) (plug_of w b)) as [h q]. cbn [fst snd] in *.
      split; [| split]; cbn [lists stages slists pipes].
      * intros s I. apply (plug_ok_mono (lists w)); auto.
      * intros l s I J. apply In_upd in I. destruct I as [I | (y & I & ->)]; [eauto |].
        apply in_app_iff in J. destruct J as [J | [<- | []]]; eauto.
      * intros y I. rewrite length_upd_nth. apply In_upd in I. destruct I as [I | (z & I & ->)].
        -- destruct (W3 y I). split; auto. apply (plug_ok_mono (lists w)); auto.
        -- destruct (W3 z I). split; auto.
Qed.

Lemma run_world ops : forall w, world_ok w -> ops_ok w ops -> world_ok (run w ops).
Proof.
  induction ops as [| o r IH]; intros w W K; simpl in *; [exact W |].
  destruct K as (K1 & K2). apply IH; auto. apply step_world; auto.
Qed.

Lemma nothing_ok : world_ok nothing.
Proof. split; [| split]; simpl; contradiction. Qed.

(** C47, as far as it goes, over every history of operations. Stages keep their plug and
    their behaviour. Lists of names never shrink nor change in place, they only get names
    added at the end, and only if they are the outputs of a stage; so a stage whose inputs
    are no stage's outputs asks for the same columns ever after. Lists of stages only get
    stages added at the end, and pipelines keep their list. Missing: that they do not grow,
    which is false (below). *)
Theorem C47_linking_partial w ops : world_ok w -> ops_ok w ops ->
  let w' := run w ops in
  (forall a, a < length (stages w) -> stage_at w' a = stage_at w a) /\
  (forall a, a < length (lists w) -> extends (lget (lists w) a) (lget (lists w') a)) /\
  (forall a, a < length (lists w) -> not_output w' a -> lget (lists w') a = lget (lists w) a) /\
  (forall l, l < length (slists w) -> extends (slist_at w l) (slist_at w' l)) /\
  (forall p, p < length (pipes w) -> pl_stages (pipe_at w' p) = pl_stages (pipe_at w p)).
Proof.
  simpl. revert w. induction ops as [| o r IH]; intros w W K.
  - simpl. repeat split; intros; auto; apply extends_refl.
  - destruct K as (K1 & K2). pose proof (step_preserved w o W K1) as S.
    destruct (IH (fst (step w o)) (step_world w o W K1) K2) as (T1 & T2 & T3 & T4 & T5).
    change (run w (o :: r)) with (run (fst (step w o)) r).
    destruct S as ((S1 & S2 & S3) & S4 & S5 & S6 & S7 & S8).
    assert (E : forall a, a < length (stages w) -> stage_at (fst (step w o)) a = stage_at w a).
    { intros a L. destruct S4 as (m & E). unfold stage_at at 1. rewrite E. apply stage_at_app. exact L. }
    assert (L4 : length (stages w) <= length (stages (fst (step w o)))).
    { destruct S4 as (m & ->). rewrite app_length. lia. }
    split; [| split; [| split; [| split]]].
    + intros a L. rewrite T1 by lia. apply E. exact L.
    + intros a L. eapply extends_trans; [apply S2; exact L | apply T2; lia].
    + intros a L N. rewrite T3; [| lia | exact N]. apply S3; auto.
      intros s I F X. apply In_nth with (d := no_stage) in I. destruct I as (k & Lk & Ek).
      apply (N s); auto. fold (stage_at w k) in Ek. rewrite <- Ek, <- E by exact Lk. rewrite <- T1 by lia.
      unfold stage_at. apply nth_In.
      destruct (Nat.lt_ge_cases k (length (stages (run (fst (step w o)) r)))) as [Q | Q]; auto. exfalso.
      assert (B : stage_at (run (fst (step w o)) r) k = no_stage) by (apply nth_overflow; exact Q).
      rewrite T1 in B by lia. rewrite E in B by exact Lk. rewrite Ek in B. rewrite B in F. discriminate F.
    + intros l L. eapply extends_trans; [apply S6; exact L | apply T4; lia].
    + intros p L. rewrite T5 by lia. apply S8. exact L.
Qed.

(** Linking free plugs changes no list of names at all. *)
Theorem C47_free_partial w ops : world_ok w -> ops_ok w ops ->
  (forall s, In s (stages (run w ops)) -> p_free (st_plug s) = true) ->
  forall a, a < length (lists w) -> lget (lists (run w ops)) a = lget (lists w) a.
Proof.
  intros W K F a L. destruct (C47_linking_partial w ops W K) as (_ & _ & N & _). apply N; auto.
  intros s I X. rewrite (F s I) in X. discriminate X.
Qed.

Example C47_example :
  let w := run nothing [rename_op [("a", "b"); ("c", "x")]; rename_op [("b", "d")]] in
  let ops := [clip_op; Add (OStage 0) (OStage 1); Add (OPipe 0) (OStage 2); NewList [2; 1]; NewPipeline 1] in
  world_ok w /\ ops_ok w ops /\ not_output (run w ops) (p_in (plug_of w 1)) /\
  lget (lists (run w ops)) (p_in (plug_of w 1)) = ["b"] /\
  stage_at (run w ops) 1 = stage_at w 1.
Proof.
  split; [apply run_world; [apply nothing_ok | vm_compute; tauto] |].
  split; [vm_compute; repeat split; intros; repeat match goal with H : _ \/ _ |- _ => destruct H end; subst; try contradiction; lia |].
  split; [| split; reflexivity].
  intros s I F. vm_compute in I. repeat (destruct I as [<- | I]; [vm_compute in F |- *; lia || discriminate |]). contradiction.
Qed.

(** Linking extends the outputs of the stage on the right: used again elsewhere, it promises
    a column it does not make. *)
Theorem C47_stage_refuted :
  exists w a b, world_ok w /\ a < length (stages w) /\ b < length (stages w) /\ a <> b /\
    is_ok (snd (stage_add w a b)) = true /\
    view (lists w) (plug_of w b) = Needs ["b"] ["d"] /\
    view (lists (fst (stage_add w a b))) (plug_of (fst (stage_add w a b)) b) = Needs ["b"] ["d"; "x"].
Proof.
  exists (run nothing [rename_op [("a", "b"); ("c", "x")]; rename_op [("b", "d")]]), 0, 1.
  split; [apply run_world; [apply nothing_ok | vm_compute; tauto] |].
  repeat split; simpl; lia.
Qed.

(** Adding a stage to a pipeline changes the pipeline itself ... *)
Theorem C47_pipeline_refuted :
  exists w p b, world_ok w /\ p < length (pipes w) /\ b < length (stages w) /\
    is_ok (snd (pipe_add w p b)) = true /\
    slist_at w (pl_stages (pipe_at w p)) = [0; 1] /\
    slist_at (fst (pipe_add w p b)) (pl_stages (pipe_at (fst (pipe_add w p b)) p)) = [0; 1; 2].
Proof.
  exists (run nothing [clip_op; clip_op; rename_op [("a", "b")]; Add (OStage 0) (OStage 1)]), 0, 2.
  split; [apply run_world; [apply nothing_ok | vm_compute; repeat split; lia] |].
  repeat split; simpl; lia.
Qed.

(** ... and, through the list given to the constructor, other pipelines: the second one then
    runs a stage whose inputs it never asked for. *)
Theorem C47_shared_list_refuted :
  exists w p q b, world_ok w /\ p <> q /\ p < length (pipes w) /\ q < length (pipes w) /\ b < length (stages w) /\
    is_ok (snd (pipe_add w p b)) = true /\
    slist_at w (pl_stages (pipe_at w q)) = [0] /\
    slist_at (fst (pipe_add w p b)) (pl_stages (pipe_at (fst (pipe_add w p b)) q)) = [0; 1] /\
    view (lists (fst (pipe_add w p b))) (pl_plug (pipe_at (fst (pipe_add w p b)) q)) = Anything /\
    view (lists (fst (pipe_add w p b))) (plug_of w b) = Needs ["a"] ["b"].
Proof.
  exists (run nothing [clip_op; rename_op [("a", "b")]; NewList [0]; NewPipeline 0; NewPipeline 0]), 0, 1, 1.
  split.
  { apply run_world; [apply nothing_ok |]. vm_compute. repeat split; try lia; intros s [<- | []]; lia. }
  repeat split; simpl; lia.
Qed.

Print Assumptions C44_plug_arithmetic_partial.
Print Assumptions C44_exact.
Print Assumptions C44_shared_list_refuted.
Print Assumptions C46_constructor_partial.
Print Assumptions C46_constructor_refuted.
Print Assumptions C47_linking_partial.
Print Assumptions C47_free_partial.
Print Assumptions C47_stage_refuted.
Print Assumptions C47_pipeline_refuted.
Print Assumptions C47_shared_list_refuted.
