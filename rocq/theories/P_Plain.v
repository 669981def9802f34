(** Properties C11, C12, C13, C32: exactly which studies and results come back from
    their text. Whatever is read has plain source names, so that names which are not
    plain are never recovered, from any tree and from any server. *)
From Coq Require Import String Ascii List ZArith QArith Bool Arith Lia Permutation.
From Verif Require Import Base BaseFacts Numeric Study Fluent SpecStudy StudyFacts FluentFacts Output Json SpecJson JsonFacts P_Json
  LP SpecLP LPFacts LPBuild LPSat LPResult LPSolve LPReady LPWeak LPMore P_LP Remote SpecRemote P_Remote.
Import ListNotations.
Open Scope nat_scope.
Open Scope string_scope.
Open Scope list_scope.

(** ** Texts *)

(** The first piece of a text that is split does not end with a colon. *)
Lemma split_first s : let (p, ps) := split_cc_ s in ps <> [] -> ends_c p = false.
Proof.
  induction s as [|c|c c' r IHr IHs] using string_ind2; simpl split_cc_.
  - congruence.
  - congruence.
  - destruct (Ascii.eqb c ":" && Ascii.eqb c' ":") eqn:E.
    + destruct (split_cc_ r) as [p ps]. reflexivity.
    + match goal with |- context [let (p, ps) := ?m in _] => change m with (split_cc_ (String c' r)) end.
      pose proof (split_pieces (String c' r)) as SP.
      destruct (split_cc_ (String c' r)) as [p ps] eqn:F. intros N. specialize (IHs N).
      destruct p as [|d p']; [|exact IHs].
      (* the first piece is empty: the text goes on with the separator *)
      destruct r as [|c'' r']; [inversion F; subst; congruence|].
      simpl in F. destruct (Ascii.eqb c' ":" && Ascii.eqb c'' ":") eqn:G.
      * apply andb_prop in G as [G _]. rewrite G in E. rewrite andb_true_r in E. simpl. exact E.
      * match type of F with context [let (p, ps) := ?m in _] => destruct m end. inversion F.
Qed.

(** ** C12 *)

(** Whatever text is read as a pair of names, the names are plain. *)
Theorem C12_only_plain_read : forall t k, key_of t = Ok k -> plain_key k.
Proof.
  intros t [a b] H. unfold key_of, split_cc in H. pose proof (split_pieces t) as SP. pose proof (split_first t) as SF.
  destruct (split_cc_ t) as [p ps]. destruct ps as [|q [|]]; inversion H; subst.
  destruct SP as (A & B & _). inversion B; subst. apply plain_dec; auto. apply SF. discriminate.
Qed.

(** ** Reading *)
Lemma sbind_inv {S0 T U} (m : ST S0 T) (f : T -> ST S0 U) j u : snd (sbind m f j) = Ok u ->
  exists j' a, m j = (j', Ok a) /\ snd (f a j') = Ok u.
Proof. unfold sbind. destruct (m j) as [j' [a|e]]; simpl; intros H; [eauto | discriminate]. Qed.

Lemma mapM_inv {A B} (f : A -> res B) l m : mapM f l = Ok m -> Forall2 (fun x y => f x = Ok y) l m.
Proof.
  revert m. induction l as [|x l IH]; simpl; intros m H; [inversion H; constructor|].
  destruct (f x) as [y|] eqn:E; simpl in H; [|discriminate]. destruct (mapM f l) as [m'|]; simpl in H; [|discriminate].
  inversion H; subst. constructor; auto.
Qed.

Lemma mapJ_inv {A} (m : ST json A) l t o : mapJ m l = (t, Ok o) -> forall a, In a o -> exists j, snd (m j) = Ok a.
Proof.
  revert t o. induction l as [|x l IH]; simpl; intros t o H a I.
  - inversion H; subst. destruct I.
  - destruct (m x) as [x' [b|e]] eqn:E; [|discriminate]. destruct (mapJ m l) as [r' p]. destruct p as [p|e]; simpl in H; inversion H; subst.
    destruct I as [<-|I]; [exists x; now rewrite E | eauto].
Qed.

Lemma each_obj_inv {A} (m : ST json A) j t d : each_obj m j = (t, Ok d) -> forall k a, In (k, a) d -> exists j, snd (m j) = Ok a.
Proof.
  unfold each_obj. destruct j; try discriminate. destruct (mapJ m (dvalues d0)) as [l' [b|]] eqn:E; simpl; [|discriminate].
  intros H k a I. inversion H; subst. apply in_combine_r in I. eapply mapJ_inv; eauto.
Qed.

Lemma focus_inv {A} k (m : ST json A) j t a : focus k m j = (t, Ok a) -> exists c c', m c = (c', Ok a).
Proof. unfold focus. destruct (jfield k j) as [x|]; [|discriminate]. destruct (m x) as [c' [b|]] eqn:E; intros H; inversion H; subst. eauto. Qed.

Ltac inv H := apply sbind_inv in H; let j := fresh "j" in let a := fresh "a" in let E := fresh "E" in destruct H as (j & a & E & H).

Lemma dset_keys {K V} {HK : EqB K} (k : K) (v : V) d x : In x (dkeys (dset k v d)) -> x = k \/ In x (dkeys d).
Proof.
  induction d as [|[k' w] d IH]; simpl; [intuition|]. destruct (eqb k k') eqn:E; simpl; [intuition|].
  intros [<-|H]; [auto|]. destruct (IH H); auto.
Qed.
Lemma dict_of_keys {K V} {HK : EqB K} (l : list (K * V)) x : In x (dkeys (dict_of l)) -> In x (map fst l).
Proof.
  unfold dict_of. assert (G : forall d, In x (dkeys (fold_left (fun d kv => dset (fst kv) (snd kv) d) l d)) -> In x (dkeys d) \/ In x (map fst l)).
  { induction l as [|[k v] l IH]; simpl; intros d H; [auto|]. apply IH in H as [H|H]; [|auto]. apply dset_keys in H as [->|H]; auto. }
  intros H. apply G in H as [[]|H]; exact H.
Qed.

Lemma conv_read h n j v : snd (conv_from_json h n j) = Ok v ->
  v_cost v <> None /\ v_max v <> None /\ forall k, In k (dkeys (v_src v)) -> plain_key k.
Proof.
  intros H. unfold conv_from_json in H. inv H. inv H. inv H. inv H.
  assert (PK : forall k, In k (map fst a2) -> plain_key k).
  { unfold slift in E2. injection E2 as _ X. clear - X. destruct a1; try discriminate. apply mapM_inv in X.
    intros k I. apply in_map_iff in I as ([k' w] & <- & I). simpl. induction X as [|x y l m Y X IH]; [destruct I|].
    destruct I as [->|I]; [|auto]. destruct (key_of (fst x)) as [k0|] eqn:K; cbn [rbind] in Y; [|discriminate].
    match type of Y with rbind ?m _ = _ => destruct m end; cbn [rbind] in Y; [|discriminate].
    inversion Y; subst. now apply C12_only_plain_read in K. }
  do 5 inv H. unfold sret in H. simpl in H. inversion H; subst. simpl. split; [discriminate|]. split; [discriminate|].
  intros k I. apply PK. now apply dict_of_keys.
Qed.

Lemma oconv_read j v : snd (oconv_from_json j) = Ok v -> forall k, In k (dkeys (ov_src v)) -> plain_key k.
Proof.
  intros H. unfold oconv_from_json in H. inv H. inv H. inv H. unfold slift in E1. injection E1 as _ X. apply mapM_inv in X.
  assert (PK : forall k, In k a1 -> plain_key k).
  { clear - X. intros k I. induction X as [|x y l m Y X IH]; [destruct I|]. destruct I as [->|I]; [|auto]. now apply C12_only_plain_read in Y. }
  do 5 inv H. unfold sret in H. simpl in H. inversion H; subst. simpl. intros k I. apply PK.
  unfold slift in E4. injection E4 as _ Y. apply mapM_inv in Y.
  assert (M : map fst a5 = map fst (dict_of (combine a1 (dvalues a0)))).
  { clear - Y. induction Y as [|x y l m Z Y IH]; simpl; [reflexivity|]. destruct (np_array (snd x)); simpl in Z; [|discriminate].
    inversion Z; subst. simpl. now f_equal. }
  unfold dkeys in I. rewrite M in I. apply dict_of_keys in I. apply in_map_iff in I as ([k' w] & <- & I). apply in_combine_l in I. exact I.
Qed.

(** ** C11 *)

(** A study read from any tree has complete converters. *)
Theorem C11_read_is_complete : forall j s, snd (study_from_json j) = Ok s -> complete_converters s.
Proof.
  intros j s H. unfold study_from_json in H. destruct (study_from_json_ j) as [t o] eqn:E. simpl in H. subst o.
  assert (H : snd (study_from_json_ j) = Ok s) by (now rewrite E). clear E. unfold study_from_json_ in H.
  do 8 inv H. unfold sret in H. simpl in H. inversion H; subst. intros name v G. unfold conv_at in G. simpl in G. apply dget_In in G.
  apply focus_inv in E6 as (c & c' & E6). destruct (each_obj_inv _ _ _ _ E6 _ _ G) as [jv J]. now apply conv_read in J.
Qed.

(** A study built through the API comes back from its text exactly when every converter
    has a destination and plain source names. *)
Theorem C11_exact : forall s, api_study s ->
  (snd (study_from_json (study_to_json s)) = Ok s <-> complete_converters s).
Proof.
  intros s A. split; [apply C11_read_is_complete|]. intros CC. destruct A as (h & n & version & cs & Hh & Hn & P & ->).
  apply (C11_study_json_round_trip_partial h n version cs); auto.
Qed.

(** ** C13 *)
Definition plain_flows (r : result) : Prop :=
  forall name v k, In (name, v) (r_converters r) -> In k (dkeys (ov_src v)) -> plain_key k.

(** A result read from any tree has plain source names. *)
Theorem C13_read_is_plain : forall j r, snd (result_from_json j) = Ok r -> plain_flows r.
Proof.
  intros j r H. unfold result_from_json in H. do 3 inv H. unfold sret in H. simpl in H. inversion H; subst.
  intros name v k I. simpl in I. apply focus_inv in E0 as (c & c' & E0). destruct (each_obj_inv _ _ _ _ E0 _ _ I) as [jv J].
  now apply (oconv_read jv).
Qed.

Theorem C13_exact : forall r, full_result r ->
  (snd (result_from_json (result_to_json r)) = Ok r <-> plain_flows r).
Proof. intros r F. split; [apply C13_read_is_plain | now apply C13_result_json_round_trip_partial]. Qed.

Lemma Forall2_left {A B} (P : A -> B -> Prop) l m x : Forall2 P l m -> In x l -> exists y, In y m /\ P x y.
Proof. induction 1 as [|a b l m H F IH]; intros []; [subst; eauto using in_eq|]. destruct IH as (y & I & Q); auto. eauto using in_cons. Qed.

Lemma mirrors_keys s r : mirrors s r -> forall name v, In (name, v) (st_converters s) -> exists rv, In (name, rv) (r_converters r) /\ dkeys (ov_src rv) = dkeys (v_src v).
Proof.
  intros M name v I. destruct (Forall2_left _ _ _ _ (mr_convs _ _ M) I) as ([name' rv] & J & E & (_ & _ & F)). cbn [fst snd] in *. subst name'.
  exists rv. split; auto. clear - F. unfold dkeys. induction F as [|x y l m [H _] F IH]; simpl; congruence.
Qed.

Lemma flows_sources answer s r : api_study s -> solved answer s r -> plain_flows r -> plain_sources s.
Proof.
  intros A SV P name v k G I. destruct (C27_result_mirrors_study_any_names _ _ _ A SV) as [M _].
  destruct (mirrors_keys _ _ M name v) as (rv & J & E); [now apply dget_In in G|]. apply (P name rv k J). now rewrite E.
Qed.

(** The result of a solve comes back from its text exactly when the source names are plain. *)
Theorem C13_solved_exact : forall answer s r, api_study s -> solved answer s r ->
  (snd (result_from_json (result_to_json r)) = Ok r <-> plain_sources s).
Proof.
  intros answer s r A SV. split.
  - intros H. apply C13_read_is_plain in H. now apply (flows_sources answer s r).
  - intros P. now apply (C13_solved_round_trip_partial answer s).
Qed.

(** ** C32 *)
Lemma finish_ok resp r : finish resp = Ok r -> exists j, snd (result_from_json j) = Ok r.
Proof.
  unfold finish. intros H. destruct (jfield "status" resp) as [st|]; cbn [rbind] in H; [|discriminate]. destruct (is_str "ERROR" st).
  - destruct (jfield "message" resp); discriminate.
  - destruct (jfield "result" resp) as [j|]; cbn [rbind] in H; [eauto | discriminate].
Qed.

(** Whatever the server answers, what is returned has plain source names... *)
Theorem C32_returned_is_plain : forall fuel srv s url token r,
  snd (solve_remote fuel srv s url token) = Some (Ok r) -> plain_flows r.
Proof.
  intros fuel srv s url token r H. unfold solve_remote in H.
  destruct (receive srv [Post url token (study_to_json s)]) as [resp|]; [|discriminate].
  destruct (jfield "job" resp) as [id|]; [|discriminate]. destruct (jfield "progress" resp) as [m|]; [|discriminate].
  assert (P : exists j, snd (result_from_json j) = Ok r).
  { revert resp H. generalize [Post url token (study_to_json s)] as tr.
    induction fuel as [|fuel IH]; intros tr resp H; simpl in H; destruct (jfield "status" resp) as [st|]; try discriminate; destruct (is_waiting st); try discriminate.
    - simpl in H. assert (G : finish resp = Ok r) by congruence. now apply finish_ok in G.
    - destruct (receive srv (tr ++ [Get url token id])) as [resp'|]; [|discriminate].
      match type of H with context [match ?m with Ok _ => _ | Err _ => _ end] => destruct m; [|discriminate] end. eapply IH; eauto.
    - simpl in H. assert (G : finish resp = Ok r) by congruence. now apply finish_ok in G. }
  destruct P as [j P]. now apply C13_read_is_plain in P.
Qed.

(** ...so that a study with other names never gets from a server the result it gets locally. *)
Theorem C32_never_local : forall answer s r fuel srv url token, api_study s -> solved answer s r -> ~ plain_sources s ->
  snd (solve_remote fuel srv s url token) <> Some (Ok r).
Proof. intros answer s r fuel srv url token A SV N H. apply N. apply C32_returned_is_plain in H. now apply (flows_sources answer s r). Qed.

(** A server that solves what it is posted gives the local result exactly when the source names are plain. *)
Theorem C32_exact : forall answer sched bench s r srv url token id m k s' r',
  api_study s ->
  Permutation sched (seq 0 (st_nb_scn s)) -> solve_lp answer sched bench s = Ok r ->
  let post := Post url token (study_to_json s) in
  let trace i := post :: repeat (Get url token id) i in
  ~ refused_code (srv [post]) -> says (srv [post]) "job" id -> says (srv [post]) "progress" m -> number m ->
  (forall i, i < k -> keeps_waiting (srv (trace i))) ->
  ~ refused_code (srv (trace k)) -> says (srv (trace k)) "status" (JStr "TERMINATED") ->
  snd (study_from_json (study_to_json s)) = Ok s' -> solve_lp answer sched bench s' = Ok r' ->
  says (srv (trace k)) "result" (result_to_json r') ->
  forall fuel, k <= fuel -> (snd (solve_remote fuel srv s url token) = Some (Ok r) <-> plain_sources s).
Proof.
  intros answer sched bench s r srv url token id m k s' r' A Perm L post trace NR0 J M Nm H NR ST D L' RS fuel K. split.
  - intros X. apply C32_returned_is_plain in X. apply (flows_sources answer s r); auto. exists sched, bench. auto.
  - intros P. pose proof (C32_remote_equals_local_partial answer sched bench s r srv url token id m k s' r' A P Perm L NR0 J M Nm H NR ST D L' RS fuel K) as X. now rewrite X.
Qed.

Lemma clash_not_plain : ~ plain_sources clash.
Proof.
  intros P. assert (B : forall name v, In (name, v) (st_converters clash) -> conv_at clash name = Some v).
  { intros name v I. apply In_dget; [repeat constructor; simpl; tauto | exact I]. }
  assert (X : exists name v k, In (name, v) (st_converters clash) /\ In k (dkeys (v_src v)) /\ (has_cc (fst k) || ends_c (fst k) || has_cc (snd k)) = true).
  { simpl. do 3 eexists. split; [left; reflexivity|]. simpl. split; [left; reflexivity|]. reflexivity. }
  destruct X as (name & v & k & I & KI & X). destruct (P name v k (B _ _ I) KI) as (P1 & P2 & P3).
  apply ncc in P1, P3. apply nec in P2. rewrite P1, P2, P3 in X. discriminate.
Qed.

(** Two sources whose names are read alike; and a study of plain names. *)
Example C32_exact_example : api_study clash /\ solved clash_answer clash clash_result /\ ~ plain_sources clash /\
  snd (result_from_json (result_to_json clash_result)) <> Ok clash_result /\
  snd (study_from_json (study_to_json clash)) <> Ok clash /\
  api_study mix /\ solved mix_answer mix mix_result /\ plain_sources mix /\ complete_converters json_demo_study.
Proof.
  assert (SV : solved clash_answer clash clash_result).
  { exists [0], no_bench. split; [apply Permutation_refl | vm_compute; reflexivity]. }
  split; [apply clash_api|]. split; [exact SV|]. split; [apply clash_not_plain|]. split; [|split].
  - intros H. apply clash_not_plain. now apply (C13_solved_exact _ _ _ clash_api SV).
  - intros H. apply (C11_exact _ clash_api) in H. apply clash_not_plain. intros name v k G I. now destruct (H name v G) as (_ & _ & P); apply P.
  - destruct C16_example as (X1 & X2 & _ & X3 & _). split; [exact X1|]. split; [exact X3|]. split; [exact X2|]. apply json_demo_complete.
Qed.

Print Assumptions C12_only_plain_read.
Print Assumptions C11_read_is_complete.
Print Assumptions C11_exact.
Print Assumptions C13_read_is_plain.
Print Assumptions C13_exact.
Print Assumptions C13_solved_exact.
Print Assumptions C32_returned_is_plain.
Print Assumptions C32_never_local.
Print Assumptions C32_exact.
