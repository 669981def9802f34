(** Properties C30-C32: remote solving. *)
From Coq Require Import String List ZArith QArith Bool Arith Lia Permutation.
From Verif Require Import Base BaseFacts Numeric Study Fluent SpecStudy StudyFacts FluentFacts Output Json SpecJson JsonFacts P_Json
  LP SpecLP LPFacts LPBuild LPSat LPResult LPSolve LPReady LPWeak LPMore P_LP Remote SpecRemote.
Import ListNotations.
Open Scope nat_scope.
Open Scope string_scope.
Open Scope list_scope.

(** ** Facts *)
Lemma receive_ok srv tr j : receive srv tr = Ok j ->
  exists code, srv tr = Reply code (Some j) /\ code <> 403 /\ code <> 404 /\ code <> 500.
Proof.
  unfold receive, check_code. destruct (srv tr) as [code [b|]|]; try discriminate;
    destruct (Nat.eqb code 404) eqn:A; try discriminate; destruct (Nat.eqb code 403) eqn:B; try discriminate;
    destruct (Nat.eqb code 500) eqn:C; try discriminate.
  simpl. intros E. inversion E; subst. exists code. apply Nat.eqb_neq in A, B, C. auto.
Qed.
Lemma receive_refused srv tr : refused_code (srv tr) ->
  receive srv tr = Err ValueError /\ ~ has_code (srv tr) 500 \/ receive srv tr = Err IOError /\ has_code (srv tr) 500.
Proof.
  unfold receive, refused_code, has_code. intros [[b H]|[[b H]|[b H]]]; rewrite H; simpl; eauto; left; split; auto; intros [b' E]; discriminate.
Qed.

Lemma jfield_ok k j v : jfield k j = Ok v -> exists d, j = JObj d /\ dget k d = Some v.
Proof.
  destruct j; try discriminate. unfold jfield, dlook. destruct (dget k d) eqn:E; [|discriminate].
  intros H. inversion H; subst. eauto.
Qed.
Lemma jfield_says srv tr j k v : receive srv tr = Ok j -> jfield k j = Ok v -> says (srv tr) k v.
Proof. intros R H. apply receive_ok in R as (c & R & _). apply jfield_ok in H as (d & -> & H). exists c, d. auto. Qed.
Lemma says_jfield srv tr j k v : receive srv tr = Ok j -> says (srv tr) k v -> jfield k j = Ok v.
Proof.
  intros R (c & d & E & H). apply receive_ok in R as (c' & R & _). rewrite R in E. inversion E; subst.
  unfold jfield, dlook. now rewrite H.
Qed.
Lemma is_str_eq s j : is_str s j = true <-> j = JStr s.
Proof.
  destruct j; simpl; split; try discriminate.
  - intros H. apply String.eqb_eq in H. congruence.
  - intros H. inversion H. apply String.eqb_refl.
Qed.
Lemma is_waiting_iff srv tr j st : receive srv tr = Ok j -> jfield "status" j = Ok st ->
  (is_waiting st = true <-> waiting (srv tr)).
Proof.
  intros R S. unfold is_waiting, waiting. rewrite orb_true_iff, !is_str_eq. split.
  - intros [->| ->]; [left|right]; eapply jfield_says; eauto.
  - intros [W|W]; apply (says_jfield srv tr j) in W; auto; rewrite S in W; inversion W; auto.
Qed.

(** What a finished or running loop has done. *)
Record polled (srv : server) (url token : string) (id : json) (tr tr' : list request) (k : nat) (o : option (res result)) : Prop := {
  pl_trace : tr' = tr ++ repeat (Get url token id) k;
  pl_waiting : forall i, i < k -> exists j, receive srv (tr ++ repeat (Get url token id) i) = Ok j /\
                 waiting (srv (tr ++ repeat (Get url token id) i));
  pl_end : forall e, receive srv tr' = Err e -> o = Some (Err e);
  pl_run : o = None -> waiting (srv tr');
  pl_error : forall j m, receive srv tr' = Ok j -> says (srv tr') "status" (JStr "ERROR") -> says (srv tr') "message" (JStr m) ->
     o = Some (Err (ServerError m));
  pl_no_error : forall r, o = Some (Ok r) -> ~ waiting (srv tr') /\ ~ says (srv tr') "status" (JStr "ERROR") /\
     exists j, says (srv tr') "result" j /\ snd (result_from_json j) = Ok r
}.

Lemma finish_spec srv tr j st : receive srv tr = Ok j -> jfield "status" j = Ok st -> is_waiting st = false ->
  (forall m, says (srv tr) "status" (JStr "ERROR") -> says (srv tr) "message" (JStr m) -> finish j = Err (ServerError m)) /\
  (forall r, finish j = Ok r -> ~ waiting (srv tr) /\ ~ says (srv tr) "status" (JStr "ERROR") /\
     exists x, says (srv tr) "result" x /\ snd (result_from_json x) = Ok r).
Proof.
  intros R S W. unfold finish. rewrite S. cbn [rbind]. split.
  - intros m E M. apply (says_jfield srv tr j) in E, M; auto. rewrite S in E. inversion E; subst. cbn. rewrite M. reflexivity.
  - intros r. destruct (is_str "ERROR" st) eqn:E.
    + destruct (jfield "message" j); discriminate.
    + intros F. destruct (jfield "result" j) as [x|] eqn:X; [|discriminate]. cbn [rbind] in F. repeat split.
      * intros V. apply (is_waiting_iff _ _ _ _ R S) in V. congruence.
      * intros V. apply (says_jfield srv tr j) in V; auto. rewrite S in V. inversion V; subst. discriminate.
      * exists x. split; auto. eapply jfield_says; eauto.
Qed.

Lemma poll_spec srv url token id m : forall fuel tr resp tr' o,
  receive srv tr = Ok resp -> poll fuel srv url token id m tr resp = (tr', o) ->
  exists k, k <= fuel /\ (o = None -> k = fuel) /\ polled srv url token id tr tr' k o.
Proof.
  induction fuel as [|f IH]; intros tr resp tr' o R; cbn [poll];
    (destruct (jfield "status" resp) as [st|e] eqn:S; [destruct (is_waiting st) eqn:W|]).
  2,3,5,6: intros H; inversion H; subst; exists 0; (split; [lia|]); (split; [intros; auto; discriminate|]);
    (constructor; simpl; rewrite ?app_nil_r; auto; try (intros; lia); try discriminate; try congruence).
  - intros H. inversion H; subst. exists 0. split; [lia|]. split; auto. constructor; simpl; rewrite ?app_nil_r; auto; try (intros; lia); try congruence.
    + intros _. now apply (is_waiting_iff _ _ _ _ R S).
    + intros j x Rj E. apply (says_jfield srv tr' j) in E; auto. rewrite R in Rj. inversion Rj; subst. rewrite S in E. inversion E; subst. discriminate.
  - intros j x Rj E M. destruct (finish_spec _ _ _ _ R S W) as [F _]. now rewrite (F _ E M).
  - intros r E. injection E as E. destruct (finish_spec _ _ _ _ R S W) as [_ F]. now apply F.
  - intros j x Rj E. apply (says_jfield srv tr' j) in E; auto. rewrite R in Rj. inversion Rj; subst. congruence.
  - intros j x Rj E M. destruct (finish_spec _ _ _ _ R S W) as [F _]. now rewrite (F _ E M).
  - intros r E. injection E as E. destruct (finish_spec _ _ _ _ R S W) as [_ F]. now apply F.
  - intros j x Rj E. apply (says_jfield srv tr' j) in E; auto. rewrite R in Rj. inversion Rj; subst. congruence.
  - set (g := Get url token id). destruct (receive srv (tr ++ [g])) as [resp'|e] eqn:R'.
    + assert (One : forall o', (forall r, o' <> Some (Ok r)) -> o' <> None ->
         (forall j x, receive srv (tr ++ [g]) = Ok j -> says (srv (tr ++ [g])) "status" (JStr "ERROR") ->
              says (srv (tr ++ [g])) "message" (JStr x) -> o' = Some (Err (ServerError x))) ->
         polled srv url token id tr (tr ++ [g]) 1 o').
      { intros o' N1 N2 N3. constructor; auto; try congruence.
        - intros i Hi. assert (i = 0) by lia. subst i. simpl. rewrite app_nil_r. exists resp. split; auto. now apply (is_waiting_iff _ _ _ _ R S). }
      assert (Step : forall o', poll f srv url token id m (tr ++ [g]) resp' = (tr', o') ->
         exists k, k <= Datatypes.S f /\ (o' = None -> k = Datatypes.S f) /\ polled srv url token id tr tr' k o').
      { intros o' E. destruct (IH _ _ _ _ R' E) as (k & Hk & Hn & P). exists (Datatypes.S k). split; [lia|]. split; [intros; f_equal; auto|].
        destruct P as [P1 P2 P3 P4 P5 P6]. constructor; auto.
        - rewrite P1, <- app_assoc. reflexivity.
        - intros i Hi. destruct i as [|i].
          + simpl. rewrite app_nil_r. exists resp. split; auto. now apply (is_waiting_iff _ _ _ _ R S).
          + destruct (P2 i ltac:(lia)) as (j & J1 & J2). rewrite <- app_assoc in J1, J2. exists j. auto. }
      destruct (jfield "status" resp') as [st'|e] eqn:S'; cbn [rbind].
      * destruct (is_str "QUEUED" st') eqn:Q.
        -- assert (NE : ~ says (srv (tr ++ [g])) "status" (JStr "ERROR")).
           { intros E. apply (says_jfield srv _ _ _ _ R') in E. rewrite S' in E. inversion E; subst. discriminate. }
           destruct (jfield "progress" resp') as [p|e]; cbn [rbind].
           ++ destruct (goto m p) as [[]|e]; [apply Step|]. intros H. inversion H; subst. exists 1. split; [lia|]. split; [discriminate|].
              apply One; try discriminate. intros; contradiction.
           ++ intros H. inversion H; subst. exists 1. split; [lia|]. split; [discriminate|]. apply One; try discriminate. intros; contradiction.
        -- apply Step.
      * intros H. inversion H; subst. exists 1. split; [lia|]. split; [discriminate|]. apply One; try discriminate.
        intros j x _ E. apply (says_jfield srv _ _ _ _ R') in E. congruence.
    + intros H. inversion H; subst. exists 1. split; [lia|]. split; [discriminate|]. constructor; auto; try discriminate.
      * intros i Hi. assert (i = 0) by lia. subst i. simpl. rewrite app_nil_r. exists resp. split; auto. now apply (is_waiting_iff _ _ _ _ R S).
      * intros e' E. unfold g in *. congruence.
      * intros j x E. unfold g in *. congruence.
Qed.

(** A whole remote solve. *)
Lemma remote_spec fuel srv s url token tr o : solve_remote fuel srv s url token = (tr, o) ->
  let post := Post url token (study_to_json s) in
  (exists id m k, says (srv [post]) "job" id /\ says (srv [post]) "progress" m /\ k <= fuel /\ (o = None -> k = fuel) /\
     polled srv url token id [post] tr k o) \/
  (tr = [post] /\ exists e, o = Some (Err e) /\ (receive srv [post] = Err e \/
     exists j, receive srv [post] = Ok j /\ ((forall v, ~ says (srv [post]) "job" v) \/ (forall v, ~ says (srv [post]) "progress" v)))).
Proof.
  intros H post. unfold solve_remote in H. fold post in H. destruct (receive srv [post]) as [resp|e] eqn:R.
  - destruct (jfield "job" resp) as [id|e] eqn:J.
    + destruct (jfield "progress" resp) as [m|e] eqn:M.
      * left. destruct (poll_spec _ _ _ _ _ _ _ _ _ _ R H) as (k & Hk & Hn & P). exists id, m, k.
        split; [eapply jfield_says; eauto|]. split; [eapply jfield_says; eauto|]. auto.
      * right. inversion H; subst. split; auto. exists e. split; auto. right. exists resp. split; auto. right.
        intros v V. apply (says_jfield srv _ _ _ _ R) in V. congruence.
    + right. inversion H; subst. split; auto. exists e. split; auto. right. exists resp. split; auto. left.
      intros v V. apply (says_jfield srv _ _ _ _ R) in V. congruence.
  - right. inversion H; subst. split; auto. exists e. auto.
Qed.

Lemma firstn_trace (p g : request) k i : i <= k -> firstn (S i) (p :: repeat g k) = p :: repeat g i.
Proof.
  intros H. cbn [firstn]. f_equal. revert k H. induction i as [|i IH]; intros k H; auto.
  destruct k as [|k]; [lia|]. simpl. f_equal. apply IH. lia.
Qed.

(** ** C30 Remote solve protocol *)

(** Every execution, finished or not ([o = None], after [fuel] polls), for every server. *)
Theorem C30_remote_protocol : forall fuel srv s url token tr o,
  solve_remote fuel srv s url token = (tr, o) ->
  let post := Post url token (study_to_json s) in
  exists id k, tr = post :: repeat (Get url token id) k /\ k <= fuel /\ (o = None -> k = fuel) /\
    (0 < k -> says (srv [post]) "job" id) /\
    (forall i, i < k -> waiting (srv (firstn (S i) tr))) /\
    (forall r, o = Some (Ok r) -> ~ waiting (srv tr) /\ exists j, says (srv tr) "result" j /\ snd (result_from_json j) = Ok r).
Proof.
  intros fuel srv s url token tr o H post. destruct (remote_spec _ _ _ _ _ _ _ H) as [(id & m & k & J & M & K & N & P)|(-> & e & -> & _)].
  - exists id, k. destruct P as [P1 P2 P3 P4 P5 P6]. split; [exact P1|]. split; auto. split; auto. split; auto. split.
    + intros i Hi. rewrite P1. cbn [app]. rewrite firstn_trace by lia. destruct (P2 i Hi) as (j & _ & W). exact W.
    + intros r E. destruct (P6 r E) as (A & _ & B). auto.
  - exists JNull, 0. repeat split; try lia; try discriminate.
Qed.

Lemma receive_good srv tr : ~ refused_code (srv tr) -> (exists k v, says (srv tr) k v) -> exists j, receive srv tr = Ok j.
Proof.
  intros N (k & v & c & d & E & _). unfold refused_code, has_code in N. unfold receive, check_code. rewrite E in *. exists (JObj d).
  destruct (Nat.eqb c 404) eqn:A; [apply Nat.eqb_eq in A; subst; exfalso; eauto|].
  destruct (Nat.eqb c 403) eqn:B; [apply Nat.eqb_eq in B; subst; exfalso; eauto|].
  destruct (Nat.eqb c 500) eqn:C; [apply Nat.eqb_eq in C; subst; exfalso; eauto|]. reflexivity.
Qed.
Lemma keeps_waiting_ok srv tr : keeps_waiting (srv tr) -> exists j, receive srv tr = Ok j /\ waiting (srv tr).
Proof.
  intros [N W]. assert (X : waiting (srv tr)) by (destruct W as [[W _]|W]; [left|right]; auto).
  destruct (receive_good srv tr N) as (j & R); [destruct X as [X|X]; eauto|]. eauto.
Qed.

Lemma poll_returns srv url token id m : number m -> forall k fuel tr resp j r,
  k <= fuel -> receive srv tr = Ok resp ->
  (forall i, i < k -> keeps_waiting (srv (tr ++ repeat (Get url token id) i))) ->
  let last := srv (tr ++ repeat (Get url token id) k) in
  ~ refused_code last -> ~ waiting last -> ~ says last "status" (JStr "ERROR") -> (exists st, says last "status" st) ->
  says last "result" j -> snd (result_from_json j) = Ok r ->
  poll fuel srv url token id m tr resp = (tr ++ repeat (Get url token id) k, Some (Ok r)).
Proof.
  intros Nm. induction k as [|k IH]; intros fuel tr resp j r K R H last NR NW NE (st & ST) RS F.
  - subst last. cbn [repeat] in *. rewrite app_nil_r in *. pose proof (says_jfield _ _ _ _ _ R ST) as S.
    assert (W : is_waiting st = false).
    { destruct (is_waiting st) eqn:W; auto. exfalso. apply NW. now apply (is_waiting_iff _ _ _ _ R S). }
    assert (E : finish resp = Ok r).
    { unfold finish. rewrite S. cbn [rbind]. destruct (is_str "ERROR" st) eqn:E.
      - apply is_str_eq in E. subst. contradiction.
      - rewrite (says_jfield _ _ _ _ _ R RS). exact F. }
    destruct fuel; cbn [poll]; rewrite S, W, E; reflexivity.
  - destruct fuel as [|fuel]; [lia|]. cbn [poll].
    destruct (keeps_waiting_ok srv tr) as (resp2 & R2 & W). { specialize (H 0 ltac:(lia)). cbn in H. now rewrite app_nil_r in H. }
    rewrite R in R2. inversion R2; subst resp2.
    assert (exists s0, jfield "status" resp = Ok s0 /\ is_waiting s0 = true) as (s0 & S0 & W0).
    { destruct W as [W|W]; (eexists; split; [eapply says_jfield; eauto | reflexivity]). }
    rewrite S0, W0.
    set (g := Get url token id) in *.
    assert (EQ : forall i, (tr ++ [g]) ++ repeat g i = tr ++ repeat g (S i)) by (intros i; now rewrite <- app_assoc).
    destruct (receive srv (tr ++ [g])) as [resp'|e] eqn:R'.
    + assert (G : (let* st' := jfield "status" resp' in if is_str "QUEUED" st' then let* p := jfield "progress" resp' in goto m p else Ok tt) = Ok tt).
      { destruct k as [|k].
        - subst last. cbn [repeat] in *. rewrite (says_jfield _ _ _ _ _ R' ST). cbn [rbind]. destruct (is_str "QUEUED" st) eqn:Q; auto.
          apply is_str_eq in Q. subst. exfalso. apply NW. now left.
        - destruct (H 1 ltac:(lia)) as [_ [[Q (p & Np & P)]|C]]; cbn [repeat] in *.
          + rewrite (says_jfield _ _ _ _ _ R' Q), (says_jfield _ _ _ _ _ R' P). cbn. destruct Nm as [? ->], Np as [? ->]. reflexivity.
          + rewrite (says_jfield _ _ _ _ _ R' C). reflexivity. }
      rewrite G. rewrite <- EQ. apply (IH fuel (tr ++ [g]) resp' j r); auto; try lia; rewrite ?EQ; eauto.
      intros i Hi. rewrite EQ. apply H. lia.
    + exfalso. destruct k as [|k].
      * destruct (receive_good srv (tr ++ [g]) NR) as (x & X); [eauto|]. congruence.
      * destruct (keeps_waiting_ok srv (tr ++ [g]) (H 1 ltac:(lia))) as (x & X & _). congruence.
Qed.

(** A RemoteOptimizer speaks with its server only, with its token. *)
Theorem C30_optimizer : forall fuel srv url token s tr o,
  remote_solve fuel srv (RemoteOptimizer url token) s = (tr, o) ->
  exists id k, tr = Post url token (study_to_json s) :: repeat (Get url token id) k /\
    (forall r, o = Some (Ok r) -> exists j, says (srv tr) "result" j /\ snd (result_from_json j) = Ok r).
Proof.
  intros fuel srv url token s tr o H. destruct (C30_remote_protocol _ _ _ _ _ _ _ H) as (id & k & T & _ & _ & _ & _ & R).
  exists id, k. split; [exact T|]. intros r E. exact (proj2 (R r E)).
Qed.

(** As soon as the job is done, its result is returned, however long it waited. *)
Theorem C30_remote_returns : forall srv s url token id m k j r,
  let post := Post url token (study_to_json s) in
  let trace i := post :: repeat (Get url token id) i in
  let last := srv (trace k) in
  ~ refused_code (srv [post]) -> says (srv [post]) "job" id -> says (srv [post]) "progress" m -> number m ->
  (forall i, i < k -> keeps_waiting (srv (trace i))) ->
  ~ refused_code last -> ~ waiting last -> ~ says last "status" (JStr "ERROR") -> (exists st, says last "status" st) ->
  says last "result" j -> snd (result_from_json j) = Ok r ->
  forall fuel, k <= fuel -> solve_remote fuel srv s url token = (trace k, Some (Ok r)).
Proof.
  intros srv s url token id m k j r post trace last NR0 J M Nm H NR NW NE ST RS F fuel K.
  unfold solve_remote. fold post. destruct (receive_good srv [post] NR0) as (resp & R); [eauto|]. rewrite R.
  rewrite (says_jfield _ _ _ _ _ R J), (says_jfield _ _ _ _ _ R M).
  apply (poll_returns srv url token id m Nm k fuel [post] resp j r); auto.
Qed.

(** A server that queues the job, computes it, then answers. *)
Definition demo_server : server := fun tr =>
  match tr with
  | [] => NoReply
  | [_] => Reply 200 (Some (JObj [("job", JStr "42"); ("status", JStr "QUEUED"); ("progress", JNum 3)]))
  | [_; _] => Reply 200 (Some (JObj [("status", JStr "QUEUED"); ("progress", JNum 1)]))
  | [_; _; _] => Reply 200 (Some (JObj [("status", JStr "COMPUTING")]))
  | _ => Reply 200 (Some (JObj [("status", JStr "TERMINATED"); ("result", result_to_json result_demo)]))
  end.
Lemma says_compute r k v : (match r with Reply _ (Some (JObj d)) => dget k d | _ => None end) = Some v -> says r k v.
Proof. destruct r as [c [[]|]|]; try discriminate. intros H. exists c, d. auto. Qed.
Lemma says_inv r k v : says r k v -> (match r with Reply _ (Some (JObj d)) => dget k d | _ => None end) = Some v.
Proof. intros (c & d & -> & H). exact H. Qed.
Lemma code_inv r c : has_code r c -> (match r with Reply c' _ => Some c' | _ => None end) = Some c.
Proof. intros (b & ->). reflexivity. Qed.
Ltac not_refused := let X := fresh in intros [X|[X|X]]; apply code_inv in X; discriminate X.
Ltac not_waiting := let X := fresh in intros [X|X]; apply says_inv in X; vm_compute in X; discriminate X.

Example C30_example :
  let post := Post "http://h" "tok" (study_to_json mix) in
  let trace i := post :: repeat (Get "http://h" "tok" (JStr "42")) i in
  says (demo_server [post]) "job" (JStr "42") /\ (forall i, i < 3 -> keeps_waiting (demo_server (trace i))) /\
  ~ waiting (demo_server (trace 3)) /\
  (forall fuel, 3 <= fuel -> solve_remote fuel demo_server mix "http://h" "tok" = (trace 3, Some (Ok result_demo))) /\
  snd (solve_remote 2 demo_server mix "http://h" "tok") = None.
Proof.
  intros post trace.
  assert (KW : forall i, i < 3 -> keeps_waiting (demo_server (trace i))).
  { intros i Hi. destruct i as [|[|[|]]]; try lia; (split; [not_refused|]).
    - left. split; [now apply says_compute|]. exists (JNum 3). split; [now exists 3%Q | now apply says_compute].
    - left. split; [now apply says_compute|]. exists (JNum 1). split; [now exists 1%Q | now apply says_compute].
    - right. now apply says_compute. }
  assert (NW : ~ waiting (demo_server (trace 3))) by not_waiting.
  split; [now apply says_compute|]. split; [exact KW|]. split; [exact NW|]. split; [|vm_compute; reflexivity].
  intros fuel Hf. apply (C30_remote_returns demo_server mix "http://h" "tok" (JStr "42") (JNum 3) 3 (result_to_json result_demo)); auto;
    try (now apply says_compute); try not_refused.
  - now exists 3%Q.
  - intros X. apply says_inv in X. vm_compute in X. discriminate.
  - exists (JStr "TERMINATED"). now apply says_compute.
Qed.

(** ** C31 Remote failures are reported *)

(** A refused request ends the execution at once with the exception of its code, and
    after an ERROR status nothing is sent and no result is returned. *)
Theorem C31_remote_failures_reported_partial : forall fuel srv s url token tr o,
  solve_remote fuel srv s url token = (tr, o) ->
  forall i, i < length tr -> let a := srv (firstn (S i) tr) in
  (has_code a 404 \/ has_code a 403 -> firstn (S i) tr = tr /\ o = Some (Err ValueError)) /\
  (has_code a 500 -> firstn (S i) tr = tr /\ o = Some (Err IOError)) /\
  (says a "status" (JStr "ERROR") -> firstn (S i) tr = tr /\ exists e, o = Some (Err e)) /\
  (says a "status" (JStr "ERROR") -> forall m, says a "message" (JStr m) -> ~ refused_code a ->
     (i = 0 -> exists id p, says a "job" id /\ says a "progress" p) -> o = Some (Err (ServerError m))).
Proof.
  intros fuel srv s url token tr o H i Hi a.
  set (post := Post url token (study_to_json s)).
  assert (Ref : forall tr', has_code (srv tr') 404 \/ has_code (srv tr') 403 -> receive srv tr' = Err ValueError).
  { intros tr' [[b E]|[b E]]; unfold receive; rewrite E; reflexivity. }
  assert (R5 : forall tr', has_code (srv tr') 500 -> receive srv tr' = Err IOError).
  { intros tr' [b E]; unfold receive; rewrite E; reflexivity. }
  destruct (remote_spec _ _ _ _ _ _ _ H) as [(id & m & k & J & M & K & N & P)|(-> & e & -> & Why)].
  - fold post in J, M, P. destruct P as [P1 P2 P3 P4 P5 P6]. cbn [app] in *.
    assert (L : length tr = S k) by (rewrite P1; cbn; now rewrite repeat_length).
    assert (F : firstn (S i) tr = post :: repeat (Get url token id) i) by (rewrite P1; apply firstn_trace; lia).
    assert (Mid : i < k -> exists j, receive srv (firstn (S i) tr) = Ok j /\ waiting (srv (firstn (S i) tr))).
    { intros Lt. rewrite F. exact (P2 i Lt). }
    assert (NotErr : waiting a -> ~ says a "status" (JStr "ERROR")).
    { intros [W|W] E; apply says_inv in W, E; rewrite W in E; discriminate. }
    assert (Last : ~ i < k -> firstn (S i) tr = tr) by (intros; apply firstn_all2; lia).
    destruct (lt_dec i k) as [Lt|Ge].
    + destruct (Mid Lt) as (j & Rj & W). fold a in W. repeat split.
      1-4: exfalso; try (rewrite (Ref _ H0) in Rj; discriminate); try (rewrite (R5 _ H0) in Rj; discriminate).
      * exfalso. now apply (NotErr W).
      * exfalso. now apply (NotErr W).
      * intros E. exfalso. now apply (NotErr W).
    + specialize (Last Ge). subst a. rewrite Last in *. split; [|split; [|split]].
      * intros C. split; auto.
      * intros C. split; auto.
      * intros E. split; auto. destruct o as [[r|e]|]; [| eauto |].
        -- destruct (P6 r eq_refl) as (_ & X & _). contradiction.
        -- exfalso. apply (NotErr (P4 eq_refl) E).
      * intros E m' Mm NR _. destruct (receive_good srv tr NR) as (j & Rj); [eauto|]. now apply (P5 j).
  - fold post in Why. cbn [length] in Hi. assert (i = 0) by lia. subst i. subst a. change (firstn 1 [Post url token (study_to_json s)]) with [post] in *.
    split; [|split; [|split]].
    + intros C. split; auto. destruct Why as [W|(j & W & _)]; rewrite (Ref _ C) in W; congruence.
    + intros C. split; auto. destruct Why as [W|(j & W & _)]; rewrite (R5 _ C) in W; congruence.
    + intros E. split; eauto.
    + intros E m' Mm NR Key. destruct (Key eq_refl) as (id & p & K1 & K2). destruct Why as [W|(j & W & [A|A])].
      * destruct (receive_good srv [post] NR) as (j & Rj); [eauto|]. congruence.
      * exfalso. eapply A; eauto.
      * exfalso. eapply A; eauto.
Qed.

(** Servers that refuse the token, fail while computing, report an error. *)
Example C31_example :
  let srv (a : reply) : server := fun tr =>
    match tr with
    | [_] => Reply 200 (Some (JObj [("job", JStr "42"); ("status", JStr "QUEUED"); ("progress", JNum 3)]))
    | [_; _] => Reply 200 (Some (JObj [("status", JStr "COMPUTING")]))
    | _ => a end in
  snd (solve_remote 5 (fun _ => Reply 403 None) mix "u" "t") = Some (Err ValueError) /\
  snd (solve_remote 5 (srv (Reply 404 None)) mix "u" "t") = Some (Err ValueError) /\
  snd (solve_remote 5 (srv (Reply 500 None)) mix "u" "t") = Some (Err IOError) /\
  snd (solve_remote 5 (srv (Reply 200 (Some (JObj [("status", JStr "ERROR"); ("message", JStr "no memory")])))) mix "u" "t")
    = Some (Err (ServerError "no memory")).
Proof. repeat split; vm_compute; reflexivity. Qed.

(** An error reported without message, or at once without progress, ends with a
    KeyError instead of a ServerError. *)
Theorem C31_remote_failures_reported_refuted : exists srv s,
  says (srv [Post "u" "t" (study_to_json s)]) "status" (JStr "ERROR") /\
  says (srv [Post "u" "t" (study_to_json s)]) "message" (JStr "unknown study") /\
  forall fuel, solve_remote fuel srv s "u" "t" = ([Post "u" "t" (study_to_json s)], Some (Err KeyError)).
Proof.
  exists (fun _ => Reply 200 (Some (JObj [("status", JStr "ERROR"); ("message", JStr "unknown study")]))), mix.
  split; [now apply says_compute|]. split; [now apply says_compute|]. intros fuel. reflexivity.
Qed.

(** A progress the bar cannot show, once the study is queued, ends the execution. *)
Definition countable (j : json) : Prop := number j \/ exists b, j = JBool b.
Lemma poll_prefix srv url token id m : forall fuel tr resp tr' o,
  poll fuel srv url token id m tr resp = (tr', o) -> exists k, tr' = tr ++ repeat (Get url token id) k.
Proof.
  induction fuel as [|f IH]; intros tr resp tr' o; cbn [poll]; destruct (jfield "status" resp) as [st|e].
  1,3: destruct (is_waiting st). 1-2,4-6: intros H; inversion H; subst; exists 0; cbn [repeat]; symmetry; apply app_nil_r.
  assert (One : exists k, tr ++ [Get url token id] = tr ++ repeat (Get url token id) k) by (exists 1; reflexivity).
  destruct (receive srv (tr ++ [Get url token id])) as [resp'|e]; [| intros H; inversion H; subst; auto].
  match goal with |- context [match ?x with Ok _ => _ | Err _ => _ end] => destruct x as [u|e] end; [| intros H; inversion H; subst; auto].
  intros H. destruct (IH _ _ _ _ H) as (k & ->). exists (S k). rewrite <- app_assoc. reflexivity.
Qed.
Lemma poll_progress srv url token id m : forall fuel tr resp tr' o,
  poll fuel srv url token id m tr resp = (tr', o) ->
  forall i, length tr <= i -> i < length tr' -> let a := srv (firstn (S i) tr') in
  says a "status" (JStr "QUEUED") -> ~ refused_code a ->
  ((forall p, ~ says a "progress" p) -> firstn (S i) tr' = tr' /\ o = Some (Err KeyError)) /\
  (forall p, says a "progress" p -> ~ countable m \/ ~ countable p -> firstn (S i) tr' = tr' /\ o = Some (Err TypeError)).
Proof.
  assert (NN : forall j, is_num j = true -> countable j).
  { intros j. destruct j; cbn; try discriminate; intros _; unfold countable, number; eauto. }
  assert (D : forall (l : list request) (x : request), length (l ++ [x]) = S (length l)) by (intros; rewrite app_length; cbn; lia).
  induction fuel as [|f IH]; intros tr resp tr' o; cbn [poll]; destruct (jfield "status" resp) as [st|e].
  1,3: destruct (is_waiting st). 1-2,4-6: intros H; inversion H; subst; intros; lia.
  set (g := Get url token id). destruct (receive srv (tr ++ [g])) as [resp'|e] eqn:R.
  2: { intros H. inversion H; subst. intros i L1 L2 Q NR. rewrite D in L2. assert (E : firstn (S i) (tr ++ [g]) = tr ++ [g]) by (apply firstn_all2; rewrite D; lia).
       rewrite E in *. destruct (receive_good srv (tr ++ [g]) NR) as (j & J); [eauto |]. congruence. }
  match goal with |- context [match ?x with Ok _ => _ | Err _ => _ end] => destruct x as [u|e] eqn:B end.
  - intros H i L1 L2 Q NR. destruct (Nat.eq_dec i (length tr)) as [-> | Ne].
    + destruct (poll_prefix _ _ _ _ _ _ _ _ _ _ H) as (k & EK).
      assert (E : firstn (S (length tr)) tr' = tr ++ [g]) by (rewrite EK, <- (D tr g), firstn_app, Nat.sub_diag, firstn_all; cbn [firstn]; apply app_nil_r).
      rewrite E in *. pose proof (says_jfield _ _ _ _ _ R Q) as JS. rewrite JS in B. cbn in B.
      destruct (jfield "progress" resp') as [p|e] eqn:JP; [| discriminate]. pose proof (jfield_says _ _ _ _ _ R JP) as SP. cbn [rbind] in B.
      unfold goto in B. destruct (is_num m && is_num p) eqn:NP; [| discriminate]. apply andb_true_iff in NP as [N1 N2]. split.
      * intros NO. exfalso. eapply NO; eauto.
      * intros p' P' [X | X]; exfalso; apply X; auto. pose proof (says_jfield _ _ _ _ _ R P') as JP'. rewrite JP in JP'. inversion JP'; subst. auto.
    + apply (IH _ _ _ _ H i); auto. rewrite D. lia.
  - intros H. inversion H; subst. intros i L1 L2 Q NR. rewrite D in L2.
    assert (E : firstn (S i) (tr ++ [g]) = tr ++ [g]) by (apply firstn_all2; rewrite D; lia).
    rewrite E in *. pose proof (says_jfield _ _ _ _ _ R Q) as JS. rewrite JS in B. cbn in B.
    destruct (jfield "progress" resp') as [p|e0] eqn:JP; cbn [rbind] in B.
    + pose proof (jfield_says _ _ _ _ _ R JP) as SP. unfold goto in B. destruct (is_num m && is_num p); [discriminate |]. inversion B; subst. split; auto.
      intros NO. exfalso. eapply NO; eauto.
    + inversion B; subst. split; [| intros p P; apply (says_jfield _ _ _ _ _ R) in P; congruence].
      intros _. split; auto. unfold jfield, dlook in JP. apply receive_ok in R as (c & R & _). destruct Q as (c' & d & Q & Q').
      rewrite R in Q. inversion Q; subst. cbn in JP. destruct (dget "progress" d); inversion JP. reflexivity.
Qed.

Theorem C31_progress_needed : forall fuel srv s url token tr o m,
  solve_remote fuel srv s url token = (tr, o) -> says (srv [Post url token (study_to_json s)]) "progress" m ->
  forall i, 0 < i < length tr -> let a := srv (firstn (S i) tr) in
  says a "status" (JStr "QUEUED") -> ~ refused_code a ->
  ((forall p, ~ says a "progress" p) -> firstn (S i) tr = tr /\ o = Some (Err KeyError)) /\
  (forall p, says a "progress" p -> ~ countable m \/ ~ countable p -> firstn (S i) tr = tr /\ o = Some (Err TypeError)).
Proof.
  intros fuel srv s url token tr o m H M i [I0 I] a. unfold solve_remote in H. set (post := Post url token (study_to_json s)) in *.
  destruct (receive srv [post]) as [resp|e] eqn:R; [| inversion H; subst; cbn [length] in I; lia].
  destruct (jfield "job" resp) as [id|e]; [| inversion H; subst; cbn [length] in I; lia].
  rewrite (says_jfield _ _ _ _ _ R M) in H. apply (poll_progress _ _ _ _ _ _ _ _ _ _ H i); cbn [length]; lia.
Qed.
(** The bar cannot show the text "half", nor a queue without progress. *)
Example C31_progress_example :
  let srv (p : list (string * json)) : server := fun tr =>
    match tr with
    | [_] => Reply 200 (Some (JObj [("job", JStr "42"); ("status", JStr "QUEUED"); ("progress", JNum 3)]))
    | _ => Reply 200 (Some (JObj (("status", JStr "QUEUED") :: p))) end in
  snd (solve_remote 5 (srv [("progress", JStr "half")]) mix "u" "t") = Some (Err TypeError) /\
  snd (solve_remote 5 (srv []) mix "u" "t") = Some (Err KeyError) /\
  snd (solve_remote 5 (srv [("progress", JNum 1)]) mix "u" "t") = None.
Proof. split; [| split]; vm_compute; reflexivity. Qed.

(** Exactly which exception follows an ERROR: that of the code when it is refused; else a KeyError when
    the first answer lacks the job or the progress, or when there is no message; else a ServerError with
    the text of the message. *)
Lemma poll_after_error srv url token id m : forall fuel tr resp tr' o j,
  receive srv tr = Ok resp -> poll fuel srv url token id m tr resp = (tr', o) ->
  receive srv tr' = Ok j -> says (srv tr') "status" (JStr "ERROR") -> o = Some (finish j).
Proof.
  induction fuel as [|f IH]; intros tr resp tr' o j R; cbn [poll]; destruct (jfield "status" resp) as [st|e] eqn:ST.
  1,3: destruct (is_waiting st) eqn:W.
  1-2,4-6: intros H RJ E; inversion H; subst; rewrite R in RJ; inversion RJ; subst; apply (says_jfield _ _ _ _ _ R) in E; rewrite ST in E; inversion E; subst;
    try reflexivity; discriminate.
  set (g := Get url token id). destruct (receive srv (tr ++ [g])) as [resp'|e] eqn:R'.
  2: { intros H RJ E. inversion H; subst. congruence. }
  match goal with |- context [match ?x with Ok _ => _ | Err _ => _ end] => destruct x as [u|e] eqn:B end.
  - intros H RJ E. exact (IH _ _ _ _ _ R' H RJ E).
  - intros H RJ E. inversion H; subst. apply (says_jfield _ _ _ _ _ R') in E. rewrite E in B. discriminate.
Qed.
Lemma unsaid srv tr j k : receive srv tr = Ok j -> (exists k' v, says (srv tr) k' v) -> (forall v, ~ says (srv tr) k v) -> jfield k j = Err KeyError.
Proof.
  intros R (k' & v & (c & d & Q & _)) N. pose proof R as R0. apply receive_ok in R as (c' & R & _). rewrite R in Q. inversion Q; subst.
  unfold jfield, dlook. destruct (dget k d) as [x|] eqn:X; auto. exfalso. apply (N x). exists c, d. auto.
Qed.
Definition text_of (v : json) : string := match v with JStr t => t | _ => "" end.
Theorem C31_exact : forall fuel srv s url token tr o,
  solve_remote fuel srv s url token = (tr, o) ->
  forall i, i < length tr -> let a := srv (firstn (S i) tr) in
  says a "status" (JStr "ERROR") ->
  let opened := i = 0 -> (exists v, says a "job" v) /\ (exists v, says a "progress" v) in
  firstn (S i) tr = tr /\
  (o = Some (Err ValueError) <-> has_code a 404 \/ has_code a 403) /\
  (o = Some (Err IOError) <-> has_code a 500) /\
  (o = Some (Err KeyError) <-> ~ refused_code a /\ ~ (opened /\ exists v, says a "message" v)) /\
  (forall t, o = Some (Err (ServerError t)) <-> ~ refused_code a /\ opened /\ exists v, says a "message" v /\ text_of v = t) /\
  (forall r, o <> Some (Ok r)).
Proof.
  intros fuel srv s url token tr o H i Hi a E opened.
  destruct (C31_remote_failures_reported_partial _ _ _ _ _ _ _ H i Hi) as (A4 & A5 & AE & _). fold a in A4, A5, AE.
  destruct (AE E) as (L & e0 & O0).
  assert (CD : has_code a 404 \/ has_code a 403 \/ has_code a 500 \/ ~ refused_code a).
  { unfold refused_code, has_code. destruct a as [c b|].
    - destruct (Nat.eq_dec c 404) as [->|]; [eauto |]. destruct (Nat.eq_dec c 403) as [->|]; [eauto |]. destruct (Nat.eq_dec c 500) as [->|]; [eauto |].
      do 3 right. intros [(b' & X)|[(b' & X)|(b' & X)]]; inversion X; congruence.
    - do 3 right. intros [(b' & X)|[(b' & X)|(b' & X)]]; inversion X. }
  assert (Uniq : forall c c', has_code a c -> has_code a c' -> c = c') by (intros c c' (b & X) (b' & Y); congruence).
  assert (SU : forall k v w, says a k v -> says a k w -> v = w) by (intros k v w V W; apply says_inv in V, W; congruence).
  assert (Dec : forall k, (exists v, says a k v) \/ (forall v, ~ says a k v)).
  { intros k. destruct (match a with Reply _ (Some (JObj d)) => dget k d | _ => None end) as [v|] eqn:X.
    - left. exists v. now apply says_compute.
    - right. intros v V. apply says_inv in V. congruence. }
  (* an answer which is not refused *)
  assert (Good : ~ refused_code a ->
     (~ (opened /\ exists v, says a "message" v) /\ o = Some (Err KeyError)) \/
     (opened /\ exists v, says a "message" v /\ o = Some (Err (ServerError (text_of v))))).
  { intros NR. assert (RG : exists j, receive srv tr = Ok j).
    { rewrite <- L. apply receive_good; eauto. }
    destruct RG as (j & RJ).
    assert (FIN : o = Some (finish j) ->
      ((forall v, ~ says a "message" v) /\ o = Some (Err KeyError)) \/ (exists v, says a "message" v /\ o = Some (Err (ServerError (text_of v))))).
    { intros OF. unfold a in *. rewrite L in *. unfold finish in OF. rewrite (says_jfield _ _ _ _ _ RJ E) in OF. cbn [rbind is_str] in OF.
      rewrite String.eqb_refl in OF. destruct (Dec "message") as [(v & V)|NV].
      - right. exists v. split; auto. rewrite (says_jfield _ _ _ _ _ RJ V) in OF. exact OF.
      - left. split; auto. rewrite (unsaid srv tr j "message" RJ) in OF; eauto. }
    unfold solve_remote in H. set (post := Post url token (study_to_json s)) in *.
    destruct (receive srv [post]) as [resp|e] eqn:R.
    2: { inversion H; subst. congruence. }
    destruct (jfield "job" resp) as [id|e] eqn:J.
    2: { inversion H; subst tr o. left. assert (i = 0) by (cbn [length] in Hi; lia). subst i. rewrite R in RJ. inversion RJ; subst j.
         destruct (Dec "job") as [(v & V)|NV].
         - unfold a in V. rewrite L in V. rewrite (says_jfield _ _ _ _ _ R V) in J. discriminate.
         - split; [intros (OP & _); destruct (OP eq_refl) as ((v & V) & _); exact (NV v V)|]. do 2 f_equal.
           unfold a in *. rewrite L in *. rewrite (unsaid srv [post] resp "job" R) in J; eauto. congruence. }
    destruct (jfield "progress" resp) as [m|e] eqn:M.
    2: { inversion H; subst tr o. left. assert (i = 0) by (cbn [length] in Hi; lia). subst i. rewrite R in RJ. inversion RJ; subst j.
         destruct (Dec "progress") as [(v & V)|NV].
         - unfold a in V. rewrite L in V. rewrite (says_jfield _ _ _ _ _ R V) in M. discriminate.
         - split; [intros (OP & _); destruct (OP eq_refl) as (_ & (v & V)); exact (NV v V)|]. do 2 f_equal.
           unfold a in *. rewrite L in *. rewrite (unsaid srv [post] resp "progress" R) in M; eauto. congruence. }
    assert (OP : opened).
    { intros I0. subst i. unfold a. destruct (poll_prefix _ _ _ _ _ _ _ _ _ _ H) as (k & EK).
      assert (F1 : firstn 1 tr = [post]) by (rewrite EK; reflexivity). rewrite F1. split; [exists id | exists m]; eapply jfield_says; eauto. }
    assert (OF : o = Some (finish j)).
    { apply (poll_after_error srv url token id m fuel [post] resp tr o j R H RJ). rewrite <- L. exact E. }
    destruct (FIN OF) as [(NV & X)|(v & V & X)]; [left | right].
    - split; auto. intros (_ & v & V). exact (NV v V).
    - split; auto. exists v. auto. }
  split; [exact L|].
  destruct CD as [C|[C|[C|NR]]].
  - destruct (A4 (or_introl C)) as (_ & ->). repeat split; auto; try discriminate; try (intros; congruence).
    + intros C5. pose proof (Uniq _ _ C C5). discriminate.
    + intros (NR & _). exfalso. apply NR. right. left. exact C.
    + intros (NR & _). exfalso. apply NR. right. left. exact C.
  - destruct (A4 (or_intror C)) as (_ & ->). repeat split; auto; try discriminate; try (intros; congruence).
    + intros C5. pose proof (Uniq _ _ C C5). discriminate.
    + intros (NR & _). exfalso. apply NR. left. exact C.
    + intros (NR & _). exfalso. apply NR. left. exact C.
  - destruct (A5 C) as (_ & ->). repeat split; auto; try discriminate; try (intros; congruence).
    + intros [C5|C5]; pose proof (Uniq _ _ C C5); discriminate.
    + intros (NR & _). exfalso. apply NR. right. right. exact C.
    + intros (NR & _). exfalso. apply NR. right. right. exact C.
  - assert (N4 : ~ (has_code a 404 \/ has_code a 403)) by (unfold refused_code in NR; tauto).
    assert (N5 : ~ has_code a 500) by (unfold refused_code in NR; tauto).
    destruct (Good NR) as [(NM & ->)|(OP & v & V & ->)].
    + repeat split; auto; try discriminate; try tauto. intros (_ & OP & v & V & _). exfalso. apply NM. eauto.
    + split; [split; [discriminate | tauto]|]. split; [split; [discriminate | tauto]|]. split; [split; [discriminate|]|split; [|intros; discriminate]].
      * intros (_ & X). exfalso. apply X. eauto.
      * intros t. split.
        -- intros X. inversion X; subst. split; auto. split; auto. exists v. auto.
        -- intros (_ & _ & w & W & <-). now rewrite (SU _ _ _ V W).
Qed.
(** An error without a message after a wait, and an error at once: with and without the job and the progress. *)
Example C31_exact_example :
  let err l := Reply 200 (Some (JObj (("status", JStr "ERROR") :: l))) in
  let late (a : reply) : server := fun tr =>
    match tr with [_] => Reply 200 (Some (JObj [("job", JStr "42"); ("status", JStr "QUEUED"); ("progress", JNum 3)])) | _ => a end in
  snd (solve_remote 5 (late (err [])) mix "u" "t") = Some (Err KeyError) /\
  snd (solve_remote 5 (late (err [("message", JStr "full")])) mix "u" "t") = Some (Err (ServerError "full")) /\
  snd (solve_remote 5 (fun _ => err [("message", JStr "full"); ("job", JStr "1")]) mix "u" "t") = Some (Err KeyError) /\
  snd (solve_remote 5 (fun _ => err [("message", JStr "full"); ("job", JStr "1"); ("progress", JNull)]) mix "u" "t") = Some (Err (ServerError "full")).
Proof. repeat split; vm_compute; reflexivity. Qed.


(** ** C32 Remote equals local *)
Lemma api_complete s : api_study s -> usable_converters s -> plain_sources s -> complete_converters s.
Proof. intros A U P name v V. destruct (U name v V) as (C & M & _). split; auto. split; auto. intros k I. eapply P; eauto. Qed.

Lemma api_round_trip s : api_study s -> usable_converters s -> plain_sources s ->
  snd (study_from_json (study_to_json s)) = Ok s.
Proof.
  intros A U P. pose proof (api_complete s A U P) as CC. destruct A as (h & n & version & cs & Hh & Hn & Pl & ->).
  now apply C11_study_json_round_trip_partial.
Qed.

Lemma api_dims s : api_study s -> 0 < st_nb_scn s /\ 0 < st_horizon s.
Proof. intros (h & n & version & cs & Hh & Hn & Pl & ->). destruct (run_dims h n version cs) as (D1 & D2 & _). lia. Qed.

Lemma dims_full s a : 0 < st_nb_scn s -> 0 < st_horizon s -> has_dims s a -> full_array a.
Proof. intros A B [S W]. split; auto. rewrite S. repeat constructor; auto. Qed.

Lemma Forall2_In_r {A B} (P : A -> B -> Prop) l m b : Forall2 P l m -> In b m -> exists a, In a l /\ P a b.
Proof. induction 1 as [|x y l m H F IH]; intros []; [subst; eauto using in_eq|]. destruct IH as (a & I & Q); auto. eauto using in_cons. Qed.

(** The results of a solve are encoded and decoded without loss. *)
Theorem C13_solved_round_trip_partial : forall answer s r, api_study s -> plain_sources s -> solved answer s r ->
  snd (result_from_json (result_to_json r)) = Ok r.
Proof.
  intros answer s r A P SV. destruct (solved_facts _ _ _ A P SV) as (R & M & _). destruct (api_dims s A) as [D1 D2].
  pose proof (dims_full s) as DF.
  assert (W : study_wf s) by (apply R).
  assert (KV : forall name rv, In (name, rv) (r_converters r) -> exists v, conv_at s name = Some v /\ dkeys (ov_src rv) = dkeys (v_src v)
               /\ has_dims s (ov_dest rv) /\ forall k a, In (k, a) (ov_src rv) -> has_dims s a).
  { intros name rv I. destruct (Forall2_In_r _ _ _ _ (mr_convs _ _ M) I) as ([name' v] & J & E & (_ & D & F)). cbn [fst snd] in *. subst name'.
    exists v. split; [apply In_dget; auto; apply W|]. split; [|split; auto].
    - clear - F. unfold dkeys. induction F as [|x y l m [H _] F IH]; simpl; congruence.
    - intros k a K. destruct (Forall2_In_r _ _ _ _ F K) as (x & _ & _ & Q). exact Q. }
  apply C13_result_json_round_trip_partial.
  - constructor.
    + intros net ns nd n a I J K. destruct (Forall2_In_r _ _ _ _ (mr_nodes _ _ M) I) as ([net' ns'] & _ & _ & F). cbn [snd] in F.
      destruct (Forall2_In_r _ _ _ _ F J) as ([nd' n'] & _ & _ & [L1 L2 L3 L4]). cbn [snd] in *. apply DF; auto.
      unfold node_arrays in K. rewrite !in_app_iff in K. destruct K as [K|[K|[K|K]]].
      * apply in_map_iff in K as (o & <- & K). destruct (Forall2_In_r _ _ _ _ L1 K) as (x & _ & _ & Q). exact Q.
      * apply in_map_iff in K as (o & <- & K). destruct (Forall2_In_r _ _ _ _ L2 K) as (x & _ & _ & Q). exact Q.
      * apply in_flat_map in K as (o & K & Q). destruct (Forall2_In_r _ _ _ _ L3 K) as (x & _ & _ & Q1 & Q2 & Q3).
        simpl in Q. destruct Q as [<-|[<-|[<-|[]]]]; auto.
      * apply in_map_iff in K as (o & <- & K). destruct (Forall2_In_r _ _ _ _ L4 K) as (x & _ & _ & Q). exact Q.
    + intros name v a I K. destruct (KV _ _ I) as (v0 & _ & _ & Q1 & Q2). apply DF; auto. destruct K as [<-|K]; auto.
      apply in_map_iff in K as ([k b] & <- & K). eauto.
    + intros name v I. destruct (KV _ _ I) as (v0 & V & -> & _). apply (wf_conv _ W name v0 V).
  - intros name v k I K. destruct (KV _ _ I) as (v0 & V & E & _). rewrite E in K. eapply P; eauto.
Qed.

Lemma waiting_ne (srv : server) tr st : says (srv tr) "status" (JStr st) -> st <> "QUEUED" -> st <> "COMPUTING" -> ~ waiting (srv tr).
Proof. intros S N1 N2 [W|W]; apply says_inv in W, S; rewrite W in S; congruence. Qed.

(** The server decodes the posted study, solves it with the same solver as the local
    run, and answers TERMINATED with the JSON of its result, after any number [k] of
    polling answers. *)
Theorem C32_remote_equals_local_partial : forall answer sched bench s r srv url token id m k s' r',
  api_study s -> plain_sources s ->
  Permutation sched (seq 0 (st_nb_scn s)) -> solve_lp answer sched bench s = Ok r ->
  let post := Post url token (study_to_json s) in
  let trace i := post :: repeat (Get url token id) i in
  ~ refused_code (srv [post]) -> says (srv [post]) "job" id -> says (srv [post]) "progress" m -> number m ->
  (forall i, i < k -> keeps_waiting (srv (trace i))) ->
  ~ refused_code (srv (trace k)) -> says (srv (trace k)) "status" (JStr "TERMINATED") ->
  snd (study_from_json (study_to_json s)) = Ok s' -> solve_lp answer sched bench s' = Ok r' ->
  says (srv (trace k)) "result" (result_to_json r') ->
  forall fuel, k <= fuel -> solve_remote fuel srv s url token = (trace k, Some (Ok r)).
Proof.
  intros answer sched bench s r srv url token id m k s' r' A P Perm L post trace NR0 J M Nm H NR ST D L' RS fuel K.
  assert (SV : solved answer s r) by (exists sched, bench; auto).
  assert (E : s' = s). { rewrite api_round_trip in D by (auto; destruct (solved_facts _ _ _ A P SV) as (R & _), (api_dims s A); eapply solved_usable; eauto; apply R). congruence. }
  subst s'. assert (r' = r) by congruence. subst r'.
  apply (C30_remote_returns srv s url token id m k (result_to_json r) r); auto.
  - eapply waiting_ne; eauto; discriminate.
  - intros X. apply says_inv in ST, X. unfold trace, post in *. rewrite ST in X. discriminate.
  - eauto.
  - now apply (C13_solved_round_trip_partial answer s).
Qed.

(** A server that solves the study it receives, answering after [k] polls. *)
Definition solving_server (answer : nat -> solver -> var -> Q) sched bench (k : nat) : server := fun tr =>
  match tr with
  | [] => NoReply
  | Get _ _ _ :: _ => NoReply
  | [Post _ _ body] => if Nat.eqb k 0 then Reply 200 (Some (JObj
      ([("job", JStr "7"); ("status", JStr "TERMINATED"); ("progress", JNum 0)] ++
       match snd (study_from_json body) with
       | Ok s => match solve_lp answer sched bench s with Ok r => [("result", result_to_json r)] | Err _ => [] end
       | Err _ => [] end)))
    else Reply 200 (Some (JObj [("job", JStr "7"); ("status", JStr "QUEUED"); ("progress", JNum 2)]))
  | Post _ _ body :: gets => if Nat.ltb (List.length gets) k then Reply 200 (Some (JObj [("status", JStr "COMPUTING")]))
    else Reply 200 (Some (JObj ([("status", JStr "TERMINATED")] ++
       match snd (study_from_json body) with
       | Ok s => match solve_lp answer sched bench s with Ok r => [("result", result_to_json r)] | Err _ => [] end
       | Err _ => [] end)))
  end.

Definition mix_srv : server := solving_server mix_answer [0; 1] no_bench 4.
Example C32_example :
  api_study mix /\ plain_sources mix /\ solve_lp mix_answer [0; 1] no_bench mix = Ok mix_result /\
  forall fuel, 4 <= fuel -> snd (solve_remote fuel mix_srv mix "u" "t") = Some (Ok mix_result).
Proof.
  split; [apply mix_api|]. split; [apply mix_plain|].
  assert (L : solve_lp mix_answer [0; 1] no_bench mix = Ok mix_result) by (vm_compute; reflexivity). split; [exact L|].
  intros fuel Hf. erewrite (C32_remote_equals_local_partial mix_answer [0; 1] no_bench mix mix_result mix_srv "u" "t" (JStr "7") (JNum 2) 4);
    [reflexivity| | | | | | | | | | | | | | | assumption].
  - apply mix_api.
  - apply mix_plain.
  - reflexivity.
  - exact L.
  - not_refused.
  - now apply says_compute.
  - now apply says_compute.
  - now exists 2%Q.
  - intros i Hi. destruct i as [|[|[|[|]]]]; try lia; (split; [not_refused|]).
    + left. split; [now apply says_compute|]. exists (JNum 2). split; [now exists 2%Q | now apply says_compute].
    + right. now apply says_compute.
    + right. now apply says_compute.
    + right. now apply says_compute.
  - not_refused.
  - apply says_compute. vm_compute. reflexivity.
  - vm_compute. reflexivity.
  - vm_compute. reflexivity.
  - apply says_compute. vm_compute. reflexivity.
Qed.

(** Two sources whose JSON keys coincide ("a:" . "b" and "a" . ":b") become one on the
    server, which solves another study. *)
Theorem C32_remote_equals_local_refuted : exists answer s r r' srv, api_study s /\ usable_converters s /\
  solve_lp answer [0] no_bench s = Ok r /\ srv = solving_server answer [0] no_bench 1 /\
  snd (solve_remote 1 srv s "u" "t") = Some (Ok r') /\ r' <> r.
Proof.
  exists clash_answer, clash, clash_result. eexists. exists (solving_server clash_answer [0] no_bench 1).
  split; [apply clash_api|]. split; [apply usableb_ok; vm_compute; reflexivity|]. split; [vm_compute; reflexivity|]. split; [reflexivity|].
  split; [vm_compute; reflexivity | vm_compute; discriminate].
Qed.

Print Assumptions C30_optimizer.
Print Assumptions C30_remote_protocol.
Print Assumptions C30_remote_returns.
Print Assumptions C31_remote_failures_reported_partial.
Print Assumptions C31_progress_needed.
Print Assumptions C31_remote_failures_reported_refuted.
Print Assumptions C13_solved_round_trip_partial.
Print Assumptions C32_remote_equals_local_partial.
Print Assumptions C32_remote_equals_local_refuted.
Print Assumptions C31_exact.
