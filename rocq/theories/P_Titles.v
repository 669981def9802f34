(** Property C97: the titles of the figures tell what they show. *)
From Coq Require Import String Ascii List ZArith QArith Bool Arith Lia DecimalString DecimalZ Decimal.
From Verif Require Import Base BaseFacts Numeric Study Output LP Analyzer Viewer Picture Drawing Titles.
From Verif Require Import SpecLP SpecAnalyzer LPSat LPMore LPReady P_LP P_Tables P_Query P_Reuse Fluent SpecStudy.
Import ListNotations.
Open Scope nat_scope.
Open Scope list_scope.
Open Scope string_scope.

(** ** Specification *)

(** The text [w] stands in the title. *)
Definition mentions (title w : string) : Prop := exists a b, title = a ++ w ++ b.

(** What the title should tell: the names of the element and the node, the kind of data of a
    timeline, the time or the scenario looked at. *)
Definition element_texts (e : element) : list string :=
  match e with
  | Consumption n k | Production n k | Link n k => [n; k]
  | Storage n | ToConverter n | FromConverter n => [n]
  end.
Definition index_texts (t scn : option Z) : list string :=
  match t, scn with
  | Some t, _ => ["t=" ++ decimal t]
  | None, Some scn => ["scn=" ++ decimal scn]
  | None, None => []
  end.
Definition told (q : figure_request) : list string :=
  match q with
  | AtNode _ nd (Timeline e) => nd :: element_texts e
  | AtNode _ nd (Monotone e t scn) | AtNode _ nd (Gaussian e t scn) => nd :: element_name e :: index_texts t scn
  | AtNode _ nd (Candles e scn) => [nd; element_name e; "scn=" ++ decimal scn]
  | AtNode _ nd (Stack _ _ _) => [nd]
  | Matrix _ => []
  | Map _ t scn _ _ => ["t=" ++ decimal t; "scn=" ++ decimal scn]
  end.

(** Requests that the titles do not tell apart: they differ by the network, the kind of data of a
    monotone or a gaussian, the scenario and the kinds of a stack, the limit and the zoom of a map. *)
Definition same_element (e e' : element) : Prop := element_axis e = element_axis e' /\ element_name e = element_name e'.
Definition alike (q q' : figure_request) : Prop :=
  match q, q' with
  | AtNode _ nd v, AtNode _ nd' v' =>
      nd = nd' /\
      match v, v' with
      | Timeline e, Timeline e' => e = e'
      | Monotone e t scn, Monotone e' t' scn' | Gaussian e t scn, Gaussian e' t' scn' => same_element e e' /\ t = t' /\ scn = scn'
      | Candles e scn, Candles e' scn' => e = e' /\ scn = scn'
      | Stack _ _ _, Stack _ _ _ => True
      | _, _ => False
      end
  | Matrix _, Matrix _ => True
  | Map _ t scn _ _, Map _ t' scn' _ _ => t = t' /\ scn = scn'
  | _, _ => False
  end.

(** The names of the request have no space. *)
Fixpoint spaceless (s : string) : bool :=
  match s with "" => true | String c r => negb (Ascii.eqb c " ") && spaceless r end.
Definition plain_request (q : figure_request) : Prop :=
  match q with
  | AtNode _ nd v => spaceless nd = true /\
      match v with
      | Timeline e | Monotone e _ _ | Gaussian e _ _ | Candles e _ => forall w, In w (element_texts e) -> spaceless w = true
      | Stack _ _ _ => True
      end
  | _ => True
  end.

(** ** Words *)
Lemma sapp_assoc a b c : (a ++ b) ++ c = a ++ b ++ c.
Proof. induction a as [|x a IH]; cbn; [reflexivity | now rewrite IH]. Qed.
Lemma sapp_nil a : a ++ "" = a.
Proof. induction a as [|x a IH]; cbn; [reflexivity | now rewrite IH]. Qed.
Lemma spaceless_app a b : spaceless (a ++ b) = spaceless a && spaceless b.
Proof. induction a as [|x a IH]; cbn; [reflexivity | rewrite IH; now rewrite andb_assoc]. Qed.

Fixpoint unwords (l : list string) : string :=
  match l with [] => "" | [w] => w | w :: r => w ++ String " " (unwords r) end.
Fixpoint split_words (s : string) : list string :=
  match s with
  | "" => [""]
  | String c r => if Ascii.eqb c " " then "" :: split_words r
                  else match split_words r with w :: ws => String c w :: ws | [] => [String c ""] end
  end.
Lemma split_one w : spaceless w = true -> split_words w = [w].
Proof.
  induction w as [|c w IH]; cbn; [reflexivity|]. intros H. apply andb_true_iff in H as [H1 H2]. apply negb_true_iff in H1. rewrite H1, IH by auto. reflexivity.
Qed.
Lemma split_app w s : spaceless w = true -> split_words (w ++ String " " s) = w :: split_words s.
Proof.
  induction w as [|c w IH]; cbn; [reflexivity|]. intros H. apply andb_true_iff in H as [H1 H2]. apply negb_true_iff in H1. rewrite H1, IH by auto. reflexivity.
Qed.
Lemma split_unwords l : l <> [] -> forallb spaceless l = true -> split_words (unwords l) = l.
Proof.
  induction l as [|w l IH]; [congruence|]. intros _ H. cbn [forallb] in H. apply andb_true_iff in H as [H1 H2]. destruct l as [|w' l].
  - cbn. now apply split_one.
  - change (unwords (w :: w' :: l)) with (w ++ String " " (unwords (w' :: l))). rewrite split_app by auto. rewrite IH; auto; discriminate.
Qed.
Lemma unwords_inj l m : l <> [] -> m <> [] -> forallb spaceless l = true -> forallb spaceless m = true -> unwords l = unwords m -> l = m.
Proof. intros L M Sl Sm E. rewrite <- (split_unwords l), <- (split_unwords m) by auto. now rewrite E. Qed.

(** ** Decimal texts *)
Lemma uint_spaceless d : spaceless (NilEmpty.string_of_uint d) = true.
Proof. induction d; cbn; auto. Qed.
Lemma decimal_spaceless z : spaceless (decimal z) = true.
Proof.
  unfold decimal, NilZero.string_of_int, NilZero.string_of_uint. destruct (Z.to_int z) as [d|d]; destruct d; cbn [spaceless Ascii.eqb negb andb]; cbn; auto using uint_spaceless.
Qed.
Lemma decimal_inj a b : decimal a = decimal b -> a = b.
Proof.
  unfold decimal. intros E.
  assert (N : forall z, Z.to_int z <> Pos Nil /\ Z.to_int z <> Neg Nil).
  { intros z. split; destruct z; cbn; try discriminate; intros X; injection X as X; apply (DecimalPos.Unsigned.to_uint_nonnil p X). }
  destruct (N a) as [A1 A2], (N b) as [B1 B2].
  pose proof (NilZero.isi (Z.to_int a) A1 A2) as A. pose proof (NilZero.isi (Z.to_int b) B1 B2) as B. rewrite E in A. rewrite A in B. injection B as B.
  rewrite <- (DecimalZ.of_to a), <- (DecimalZ.of_to b). now rewrite B.
Qed.

(** ** Titles as words *)
Definition timeline_words (nd : string) (e : element) : list string :=
  match e with
  | Consumption name kind => ["Consumptions"; kind; "for"; name; "on"; "node"; nd]
  | Production name kind => ["Production"; kind; "for"; name; "on"; "node"; nd]
  | Link dest kind => ["Link"; kind; "from"; nd; "to"; dest]
  | ToConverter name => ["Timeline"; "converter"; name; "from"; "node"; nd]
  | FromConverter name => ["Timeline"; "converter"; name; "to"; "node"; nd]
  | Storage _ => [""]
  end.
Definition monotone_words (nd : string) (e : element) (x : string) : list string :=
  match e with
  | Consumption name _ => ["Monotone"; "consumption"; "of"; name; "on"; "node"; nd; "at"; x]
  | Production name _ => ["Monotone"; "production"; "of"; name; "on"; "node"; nd; "at"; x]
  | Storage name => ["Monotone"; "storage"; "of"; name; "on"; "node"; nd; "at"; x]
  | Link dest _ => ["Monotone"; "link"; "from"; nd; "to"; dest; "at"; x]
  | ToConverter name => ["Timeline"; "converter"; name; "from"; "node"; nd; "at"; x]
  | FromConverter name => ["Timeline"; "converter"; name; "to"; "node"; nd; "at"; x]
  end.
Definition gaussian_words (nd : string) (e : element) (x : string) : list string :=
  match e with
  | Consumption name _ => ["Gaussian"; "consumption"; "of"; name; "on"; "node"; nd; "at"; x]
  | Production name _ => ["Gaussian"; "production"; "of"; name; "on"; "node"; nd; "at"; x]
  | Storage name => [""]
  | Link dest _ => ["Gaussian"; "link"; "from"; nd; "to"; dest; "at"; x]
  | ToConverter name => ["Gaussian"; "converter"; name; "from"; "node"; nd; "at"; x]
  | FromConverter name => ["Gaussian"; "converter"; name; "to"; "node"; nd; "at"; x]
  end.
(** "at t=3", "at scn=3" or "for scn=3" *)
Definition title_words (q : figure_request) (pct : Z) : list string :=
  match q with
  | AtNode _ nd (Timeline e) => timeline_words nd e
  | AtNode _ nd (Monotone (Storage name) None (Some scn)) => ["Monotone"; "storage"; "of"; name; "on"; "node"; nd; "for"; "scn=" ++ decimal scn]
  | AtNode _ nd (Monotone e (Some t) _) => monotone_words nd e ("t=" ++ decimal t)
  | AtNode _ nd (Monotone e None (Some scn)) => monotone_words nd e ("scn=" ++ decimal scn)
  | AtNode _ nd (Gaussian e (Some t) _) => gaussian_words nd e ("t=" ++ decimal t)
  | AtNode _ nd (Gaussian e None (Some scn)) => gaussian_words nd e ("scn=" ++ decimal scn)
  | AtNode _ nd (Candles e scn) => ["Stockage"; "capacity"; "of"; element_name e; "on"; "node"; nd; "for"; "scn=" ++ decimal scn]
  | AtNode _ nd (Stack _ _ _) => ["Stack"; "for"; "node"; nd]
  | AtNode _ _ _ => [""]
  | Matrix _ => ["RAC"; "Matrix"; decimal pct; "%"; "passed"]
  | Map _ t scn _ _ => ["Exchange"; "map"; "at"; "t=" ++ decimal t; "scn=" ++ decimal scn]
  end.
(** What can be drawn: one index, not both; no timeline nor gaussian of a storage, candles of nothing else. *)
Definition one_index (t scn : option Z) : Prop := match t, scn with Some _, None | None, Some _ => True | _, _ => False end.
Definition is_storage (e : element) : Prop := match e with Storage _ => True | _ => False end.
Definition drawable (q : figure_request) : Prop :=
  match q with
  | AtNode _ _ (Timeline e) => ~ is_storage e
  | AtNode _ _ (Monotone e t scn) => one_index t scn
  | AtNode _ _ (Gaussian e t scn) => one_index t scn /\ ~ is_storage e
  | AtNode _ _ (Candles e _) => is_storage e
  | _ => True
  end.
Opaque decimal.
Lemma gaussian_none an net nd el name col :
  (exists e, gaussian an net nd el name col None None = Err e) /\ (exists e, converter_gaussian an net nd el name None None = Err e).
Proof.
  unfold gaussian, converter_gaussian. split.
  - destruct (fetch _ _ _) as [fr|]; cbn [rbind]; [|eauto]. destruct (column _ _); cbn [rbind]; [|eauto]. destruct (get_rac _ _); cbn [rbind]; eauto.
  - destruct (fetch _ _ _) as [fr|]; cbn [rbind]; [|eauto]. destruct (column _ _); cbn [rbind]; [|eauto]. destruct (get_rac _ _); cbn [rbind]; eauto.
Qed.
Lemma show_title by_cost nz co symbol an q f : show by_cost nz co symbol an q = Ok f ->
  drawable q /\ exists pct, fg_title f = unwords (title_words q pct) /\
  match q with Matrix net => exists z cells, rac_matrix an net = Ok (z, cells) /\ pct = title_percent z | _ => True end.
Proof.
  destruct q as [net nd v|net|net t scn limit zoom]; cbn [show].
  - intros H. assert (G : drawable (AtNode net nd v) /\ fg_title f = unwords (title_words (AtNode net nd v) 0)); [|destruct G; split; auto; exists 0%Z; auto].
    revert H. destruct v as [e|e t scn|e t scn|e scn|scn pk ck]; cbn [show_view drawable title_words].
    + destruct e; cbn [is_storage]; try discriminate; (destruct (timeline _ _ _ _ _ _) as [c|]; cbn [rbind]; [|discriminate]);
        intros H; injection H as <-; cbn [fg_title]; split; try tauto; reflexivity.
    + destruct t as [t|], scn as [scn|].
      1,4: destruct e; cbn; discriminate.
      all: destruct e; cbn [element_axis element_name element_column];
        match goal with |- context [rbind ?m _] => destruct m as [c|]; cbn [rbind]; [|discriminate] end;
        intros H; injection H as <-; cbn [fg_title one_index monotone_words monotone_title index_title]; split; auto; rewrite !sapp_assoc; reflexivity.
    + destruct t as [t|], scn as [scn|].
      1: destruct e; cbn; discriminate.
      3: { destruct (gaussian_none an net nd (element_axis e) (element_name e) (element_column e)) as ((x1 & E1) & (x2 & E2)).
           destruct e; cbn [element_axis element_name element_column] in *; try discriminate; rewrite ?E1, ?E2; discriminate. }
      all: destruct e; cbn [element_axis element_name element_column]; try discriminate;
        match goal with |- context [rbind ?m _] => destruct m as [c|]; cbn [rbind]; [|discriminate] end;
        intros H; injection H as <-; cbn [fg_title one_index is_storage gaussian_words gaussian_title index_title]; split; try tauto; rewrite !sapp_assoc; reflexivity.
    + destruct e; try discriminate. destruct (candles _ _ _ _ _) as [c|]; cbn [rbind]; [|discriminate]. intros H; injection H as <-. cbn [fg_title is_storage]. split; auto; reflexivity.
    + destruct (stack _ _ _ _ _ _ _) as [c|]; cbn [rbind]; [|discriminate]. intros H; injection H as <-. cbn [fg_title]. split; auto; reflexivity.
  - destruct (rac_matrix an net) as [[z cells]|] eqn:R; cbn [rbind]; [|discriminate]. intros H; injection H as <-. cbn [fg_title fst drawable]. split; auto.
    exists (title_percent z). split; [reflexivity|]. eauto.
  - destruct (map_view _ _ _ _ _) as [m|]; cbn [rbind]; [|discriminate]. destruct (draw_map _ _ _ _) as [p|]; cbn [rbind]; [|discriminate].
    intros H; injection H as <-. cbn [fg_title drawable]. split; auto. exists 0%Z. split; [reflexivity | exact I].
Qed.

Lemma title_words_plain q pct : drawable q -> plain_request q -> title_words q pct <> [] /\ forallb spaceless (title_words q pct) = true.
Proof.
  assert (T : forall z, spaceless ("t=" ++ decimal z) = true) by (intros; cbn; apply decimal_spaceless).
  assert (C : forall z, spaceless ("scn=" ++ decimal z) = true) by (intros; cbn; apply decimal_spaceless).
  assert (TW : forall nd e, spaceless nd = true -> (forall w, In w (element_texts e) -> spaceless w = true) ->
     timeline_words nd e <> [] /\ forallb spaceless (timeline_words nd e) = true).
  { intros nd e N W. destruct e; cbn [element_texts] in W; cbn [timeline_words]; (split; [discriminate|]); cbn [forallb];
      rewrite ?N, ?(W name), ?(W kind), ?(W dest) by (cbn; tauto); reflexivity. }
  assert (MW : forall nd e x, spaceless x = true -> spaceless nd = true -> (forall w, In w (element_texts e) -> spaceless w = true) ->
     (monotone_words nd e x <> [] /\ forallb spaceless (monotone_words nd e x) = true) /\ (gaussian_words nd e x <> [] /\ forallb spaceless (gaussian_words nd e x) = true)).
  { intros nd e x X N W. destruct e; cbn [element_texts] in W; cbn [monotone_words gaussian_words]; (split; split; [discriminate| | discriminate | ]); cbn [forallb];
      rewrite ?N, ?X, ?(W name), ?(W kind), ?(W dest) by (cbn; tauto); reflexivity. }
  destruct q as [net nd v|net|net t scn limit zoom]; cbn [plain_request].
  - destruct v as [e|e t scn|e t scn|e scn|scn pk ck]; cbn [drawable]; intros D [N W].
    + now apply TW.
    + destruct t as [t|], scn as [scn|]; cbn in D; try tauto.
      * destruct e; apply (MW nd _ _ (T t) N W).
      * destruct e; try apply (MW nd _ _ (C scn) N W). cbn [title_words element_texts] in *. split; [discriminate|]. cbn [forallb].
        rewrite N, (C scn), (W name) by (cbn; tauto). reflexivity.
    + destruct D as [D _]. destruct t as [t|], scn as [scn|]; cbn in D; try tauto.
      * destruct e; apply (MW nd _ _ (T t) N W).
      * destruct e; apply (MW nd _ _ (C scn) N W).
    + destruct e; cbn in D; try tauto. cbn [title_words element_name element_texts] in *. split; [discriminate|]. cbn [forallb].
      rewrite N, (C scn), (W name) by (cbn; tauto). reflexivity.
    + cbn [title_words]. split; [discriminate|]. cbn [forallb]. rewrite N. reflexivity.
  - intros _ _. cbn [title_words]. split; [discriminate|]. cbn [forallb]. rewrite decimal_spaceless. reflexivity.
  - intros _ _. cbn [title_words]. split; [discriminate|]. cbn [forallb]. rewrite (T t), (C scn). reflexivity.
Qed.

Lemma app_l_inj p a b : p ++ a = p ++ b -> a = b.
Proof. induction p as [|c p IH]; cbn; auto. intros H. injection H as H. auto. Qed.

(** ** C97 *)

(** The title names the element, the node, the kind of a timeline, the time or the scenario, and
    the names of the axes the unit. *)
Theorem C97_mentions_partial : forall by_cost nz co symbol an q f, show by_cost nz co symbol an q = Ok f ->
  (forall w, In w (told q) -> mentions (fg_title f) w) /\
  (match q with Matrix _ => True | _ => mentions (fg_x f) symbol \/ mentions (fg_y f) symbol end).
Proof.
  intros by_cost nz co symbol an q f H. split.
  - destruct (show_title _ _ _ _ _ _ _ H) as (D & pct & E & _). rewrite E. clear E H.
    assert (M0 : forall a b, mentions (a ++ b) b) by (intros a b; exists a, ""; now rewrite sapp_nil).
    assert (M1 : forall a b c, mentions b c -> mentions (a ++ b) c) by (intros a b c (x & y & ->); exists (a ++ x), y; now rewrite !sapp_assoc).
    assert (M2 : forall a b, mentions (a ++ b) a) by (intros a b; now exists "", b).
    assert (M3 : forall x a b, mentions a b -> mentions (String x a) b) by (intros x a b (u & v & ->); now exists (String x u), v).
    assert (M4 : forall a, mentions a a) by (intros a; exists "", ""; now rewrite sapp_nil).
    assert (U : forall l w, In w l -> mentions (unwords l) w).
    { induction l as [|x l IH]; [intros w []|]. intros w [->|I].
      - destruct l; [apply M4|]. cbn [unwords]. apply M2.
      - destruct l as [|y l]; [destruct I|]. change (unwords (x :: y :: l)) with (x ++ String " " (unwords (y :: l))). apply M1, M3. now apply IH. }
    intros w I. apply U. destruct q as [net nd v|net|net t scn limit zoom]; [|destruct I|cbn in *; tauto].
    destruct v as [e|e t scn|e t scn|e scn|scn pk ck]; cbn [drawable] in D.
    + destruct e; cbn in *; tauto.
    + destruct t as [t|], scn as [scn|]; cbn in D; try tauto; destruct e; cbn in *; tauto.
    + destruct D as [D D']. destruct t as [t|], scn as [scn|]; cbn in D; try tauto; destruct e; cbn in *; tauto.
    + destruct e; cbn in *; tauto.
    + cbn in *; tauto.
  - assert (Qm : forall p, mentions (p ++ unit_text symbol) symbol).
    { intros p. unfold unit_text. destruct (String.eqb symbol "") eqn:Z.
      - apply String.eqb_eq in Z. subst. exists (p ++ ""), "". now rewrite !sapp_nil.
      - exists (p ++ "("), ")". now rewrite !sapp_assoc. }
    assert (Qq : mentions (quantity symbol) symbol) by apply Qm.
    revert H. destruct q as [net nd v|net|net t scn limit zoom]; cbn [show]; auto.
    + destruct v as [e|e t scn|e t scn|e scn|scn pk ck]; cbn [show_view].
      * destruct e; try discriminate; (match goal with |- context [rbind ?m _] => destruct m as [c|]; cbn [rbind]; [|discriminate] end); intros H; injection H as <-; cbn [fg_x fg_y]; auto.
      * match goal with |- context [rbind ?m _] => destruct m as [c|]; cbn [rbind]; [|discriminate] end. intros H; injection H as <-; cbn [fg_x fg_y]; auto.
      * destruct e; try discriminate; (match goal with |- context [rbind ?m _] => destruct m as [c|]; cbn [rbind]; [|discriminate] end); intros H; injection H as <-; cbn [fg_x fg_y]; auto.
      * destruct e; try discriminate; (match goal with |- context [rbind ?m _] => destruct m as [c|]; cbn [rbind]; [|discriminate] end); intros H; injection H as <-; cbn [fg_x fg_y]; auto.
      * match goal with |- context [rbind ?m _] => destruct m as [c|]; cbn [rbind]; [|discriminate] end. intros H; injection H as <-; cbn [fg_x fg_y]; auto.
    + destruct (map_view _ _ _ _ _) as [m|]; cbn [rbind]; [|discriminate]. destruct (draw_map _ _ _ _) as [p|]; cbn [rbind]; [|discriminate].
      intros H; injection H as <-. cbn [fg_x fg_y]. right. exact (Qm "Net Position ").
Qed.

(** Reading the words of a title. *)
Inductive subject :=
| SubTimeline (nd : string) (e : element)
| SubMonotone (nd : string) (a : axis) (n w x : string)
| SubGaussian (nd : string) (a : axis) (n w x : string)
| SubCandles (nd n x : string)
| SubStack (nd : string)
| SubMatrix (x : string)
| SubMap (x y : string).
Definition index_word (e : element) (t : option Z) : string := match e, t with Storage _, None => "for" | _, _ => "at" end.
Definition index_text (t scn : option Z) : string :=
  match t, scn with Some t, _ => "t=" ++ decimal t | None, Some scn => "scn=" ++ decimal scn | None, None => "" end.
Definition subject_of (q : figure_request) (pct : Z) : subject :=
  match q with
  | AtNode _ nd (Timeline e) => SubTimeline nd e
  | AtNode _ nd (Monotone e t scn) => SubMonotone nd (element_axis e) (element_name e) (index_word e t) (index_text t scn)
  | AtNode _ nd (Gaussian e t scn) => SubGaussian nd (element_axis e) (element_name e) "at" (index_text t scn)
  | AtNode _ nd (Candles e scn) => SubCandles nd (element_name e) ("scn=" ++ decimal scn)
  | AtNode _ nd (Stack _ _ _) => SubStack nd
  | Matrix _ => SubMatrix (decimal pct)
  | Map _ t scn _ _ => SubMap ("t=" ++ decimal t) ("scn=" ++ decimal scn)
  end.
Definition parse_kind (b : string) : axis :=
  if String.eqb b "consumption" then ACons else if String.eqb b "production" then AProd else AStor.
Definition parse (l : list string) : option subject :=
  match l with
  | a :: b :: r =>
      if String.eqb a "Consumptions" then match r with [_; n; _; _; nd] => Some (SubTimeline nd (Consumption n b)) | _ => None end
      else if String.eqb a "Production" then match r with [_; n; _; _; nd] => Some (SubTimeline nd (Production n b)) | _ => None end
      else if String.eqb a "Link" then match r with [_; nd; _; n] => Some (SubTimeline nd (Link n b)) | _ => None end
      else if String.eqb a "Timeline" then
        match r with
        | [n; d; _; nd] => Some (SubTimeline nd (if String.eqb d "from" then ToConverter n else FromConverter n))
        | [n; d; _; nd; w; x] => Some (SubMonotone nd (if String.eqb d "from" then ASrcConv else ADestConv) n w x)
        | _ => None
        end
      else if String.eqb a "Monotone" then
        if String.eqb b "link" then match r with [_; nd; _; n; w; x] => Some (SubMonotone nd ALink n w x) | _ => None end
        else match r with [_; n; _; _; nd; w; x] => Some (SubMonotone nd (parse_kind b) n w x) | _ => None end
      else if String.eqb a "Gaussian" then
        if String.eqb b "link" then match r with [_; nd; _; n; w; x] => Some (SubGaussian nd ALink n w x) | _ => None end
        else if String.eqb b "converter" then
          match r with [n; d; _; nd; w; x] => Some (SubGaussian nd (if String.eqb d "from" then ASrcConv else ADestConv) n w x) | _ => None end
        else match r with [_; n; _; _; nd; w; x] => Some (SubGaussian nd (parse_kind b) n w x) | _ => None end
      else if String.eqb a "Stockage" then match r with [_; n; _; _; nd; _; x] => Some (SubCandles nd n x) | _ => None end
      else if String.eqb a "Stack" then match r with [_; nd] => Some (SubStack nd) | _ => None end
      else if String.eqb a "RAC" then match r with [x; _; _] => Some (SubMatrix x) | _ => None end
      else match r with [_; x; y] => Some (SubMap x y) | _ => None end
  | _ => None
  end.
Lemma parse_title q pct : drawable q -> parse (title_words q pct) = Some (subject_of q pct).
Proof.
  destruct q as [net nd v|net|net t scn limit zoom]; [|reflexivity|reflexivity].
  destruct v as [e|e t scn|e t scn|e scn|scn pk ck]; cbn [drawable].
  - destruct e; cbn [is_storage]; try tauto; reflexivity.
  - destruct t as [t|], scn as [scn|]; cbn [one_index]; try tauto; intros _; destruct e; reflexivity.
  - destruct t as [t|], scn as [scn|]; cbn [one_index]; try tauto; intros [_ N]; destruct e; try reflexivity; destruct (N I).
  - intros _. reflexivity.
  - reflexivity.
Qed.
Lemma index_text_inj t scn t' scn' : one_index t scn -> one_index t' scn' -> index_text t scn = index_text t' scn' -> t = t' /\ scn = scn'.
Proof.
  assert (TT : forall a b, "t=" ++ decimal a = "t=" ++ decimal b -> a = b) by (intros a b X; apply decimal_inj; exact (app_l_inj "t=" _ _ X)).
  assert (SS : forall a b, "scn=" ++ decimal a = "scn=" ++ decimal b -> a = b) by (intros a b X; apply decimal_inj; exact (app_l_inj "scn=" _ _ X)).
  destruct t as [t|], scn as [scn|], t' as [t'|], scn' as [scn'|]; cbn [one_index index_text]; try tauto; intros _ _ X; try (cbn in X; discriminate X).
  - apply TT in X. subst. auto.
  - apply SS in X. subst. auto.
Qed.
Lemma same_element_words nd e e' t : same_element e e' ->
  (forall x, monotone_words nd e x = monotone_words nd e' x) /\ (forall x, gaussian_words nd e x = gaussian_words nd e' x) /\ index_word e t = index_word e' t.
Proof. intros [A N]. destruct e, e'; cbn in A, N; try discriminate; subst; auto. Qed.
Lemma monotone_words_of net nd e t scn pct : one_index t scn ->
  title_words (AtNode net nd (Monotone e t scn)) pct =
  match e, t, scn with Storage name, None, Some scn => ["Monotone"; "storage"; "of"; name; "on"; "node"; nd; "for"; "scn=" ++ decimal scn]
  | _, _, _ => monotone_words nd e (index_text t scn) end.
Proof. destruct t, scn; cbn [one_index]; try tauto; intros _; destruct e; reflexivity. Qed.

(** For names without spaces, two figures have the same title exactly when their requests are alike;
    for two matrices, when the whole percentages agree. *)
Theorem C97_exact : forall by_cost nz co symbol an q f by_cost' nz' co' symbol' an' q' f',
  show by_cost nz co symbol an q = Ok f -> show by_cost' nz' co' symbol' an' q' = Ok f' -> plain_request q -> plain_request q' ->
  (fg_title f = fg_title f' <->
   alike q q' /\ match q, q' with
                 | Matrix net, Matrix net' => forall z c z' c', rac_matrix an net = Ok (z, c) -> rac_matrix an' net' = Ok (z', c') -> title_percent z = title_percent z'
                 | _, _ => True end).
Proof.
  intros by_cost nz co symbol an q f by_cost' nz' co' symbol' an' q' f' H H' P P'.
  destruct (show_title _ _ _ _ _ _ _ H) as (D & pct & E & EM). destruct (show_title _ _ _ _ _ _ _ H') as (D' & pct' & E' & EM').
  destruct (title_words_plain q pct D P) as (N & W). destruct (title_words_plain q' pct' D' P') as (N' & W').
  rewrite E, E'.
  assert (EQ : unwords (title_words q pct) = unwords (title_words q' pct') <-> title_words q pct = title_words q' pct').
  { split; [now apply unwords_inj | now intros ->]. }
  rewrite EQ. clear EQ E E' N N' W W' P P'.
  assert (SU : title_words q pct = title_words q' pct' -> subject_of q pct = subject_of q' pct').
  { intros X. pose proof (parse_title q pct D) as Y. rewrite X, (parse_title q' pct' D') in Y. congruence. }
  assert (SS : forall a b, "scn=" ++ decimal a = "scn=" ++ decimal b -> a = b) by (intros a b X; apply decimal_inj; exact (app_l_inj "scn=" _ _ X)).
  assert (TT : forall a b, "t=" ++ decimal a = "t=" ++ decimal b -> a = b) by (intros a b X; apply decimal_inj; exact (app_l_inj "t=" _ _ X)).
  split.
  - intros X. apply SU in X. clear SU. destruct q as [net nd v|net|net t scn limit zoom]; destruct q' as [net' nd' v'|net'|net' t' scn' limit' zoom'];
      try (destruct v; discriminate X); try (destruct v'; discriminate X); try discriminate X.
    + split; [|exact I]. cbn [alike].
      destruct v as [e|e t scn|e t scn|e scn|scn pk ck]; destruct v' as [e'|e' t' scn'|e' t' scn'|e' scn'|scn' pk' ck']; cbn [subject_of] in X; try discriminate X; cbn [drawable] in D, D'.
      * injection X as -> ->. auto.
      * injection X as -> A B _ Y. apply index_text_inj in Y as [-> ->]; auto. repeat split; auto.
      * injection X as -> A B Y. apply index_text_inj in Y as [-> ->]; try tauto. repeat split; auto.
      * destruct e; cbn in D; try tauto. destruct e'; cbn in D'; try tauto. inversion X as [[X1 X2 X3]]. cbn in X2. subst. repeat split; auto.
        apply decimal_inj. exact X3.
      * injection X as ->. auto.
    + cbn [subject_of] in X. injection X as X. apply decimal_inj in X. split; [exact I|]. destruct EM as (z & c & R & ->), EM' as (z' & c' & R' & ->).
      intros z1 c1 z2 c2 R1 R2. rewrite R in R1. rewrite R' in R2. congruence.
    + cbn [subject_of alike] in *. inversion X as [[X1 X2]]. split; auto. split; apply decimal_inj; assumption.
  - clear SU. intros [A M]. destruct q as [net nd v|net|net t scn limit zoom]; destruct q' as [net' nd' v'|net'|net' t' scn' limit' zoom']; cbn [alike] in A; try tauto.
    + destruct A as [-> A].
      destruct v as [e|e t scn|e t scn|e scn|scn pk ck]; destruct v' as [e'|e' t' scn'|e' t' scn'|e' scn'|scn' pk' ck']; try tauto; cbn [drawable] in D, D'.
      * subst. reflexivity.
      * destruct A as (A & <- & <-). rewrite !monotone_words_of by auto. destruct (same_element_words nd' e e' t A) as (W1 & _ & _).
        destruct A as [A1 A2]. destruct e, e'; cbn in A1, A2; try discriminate; subst; destruct t, scn; auto.
      * destruct A as (A & <- & <-). destruct (same_element_words nd' e e' t A) as (_ & W1 & _). destruct t, scn; cbn [title_words]; auto.
      * destruct A as [<- <-]. reflexivity.
    + destruct EM as (z & c & R & ->), EM' as (z' & c' & R' & ->). cbn [title_words]. now rewrite (M z c z' c' R R').
    + destruct A as [<- <-]. reflexivity.
Qed.

(** The same title, the same network, kinds, scenario of the stack, limit and zoom: the same figure. *)
Definition untold (q : figure_request) : list string * list Z * option (option Q * Q) :=
  match q with
  | AtNode net _ (Monotone e _ _) | AtNode net _ (Gaussian e _ _) => ([net; element_column e], [], None)
  | AtNode net _ (Stack scn pk ck) => ([net; pk; ck], [scn], None)
  | AtNode net _ _ | Matrix net => ([net], [], None)
  | Map net _ _ limit zoom => ([net], [], Some (limit, zoom))
  end.
Theorem C97_same_title_partial : forall by_cost nz co symbol an q f q' f',
  show by_cost nz co symbol an q = Ok f -> show by_cost nz co symbol an q' = Ok f' -> plain_request q -> plain_request q' ->
  fg_title f = fg_title f' -> untold q = untold q' -> q = q' /\ f = f'.
Proof.
  intros by_cost nz co symbol an q f q' f' H H' P P' T U.
  apply (C97_exact _ _ _ _ _ _ _ _ _ _ _ _ _ _ H H' P P') in T as [A _].
  assert (E : q = q'); [|subst; split; [auto|congruence]]. clear - A U.
  destruct q as [net nd v|net|net t scn limit zoom]; destruct q' as [net' nd' v'|net'|net' t' scn' limit' zoom']; cbn [alike] in A; try tauto.
  - destruct A as [-> A].
    destruct v as [e|e t scn|e t scn|e scn|scn pk ck]; destruct v' as [e'|e' t' scn'|e' t' scn'|e' scn'|scn' pk' ck']; try tauto; cbn [untold] in U.
    + injection U as ->. congruence.
    + destruct A as ((A1 & A2) & -> & ->). inversion U as [[U1 U2]]. destruct e, e'; cbn in *; try discriminate; subst; reflexivity.
    + destruct A as ((A1 & A2) & -> & ->). inversion U as [[U1 U2]]. destruct e, e'; cbn in *; try discriminate; subst; reflexivity.
    + injection U as ->. destruct A as [-> ->]. reflexivity.
    + injection U as -> -> -> ->. reflexivity.
  - injection U as ->. reflexivity.
  - destruct A as [-> ->]. injection U as -> -> ->. reflexivity.
Qed.

(** Figures of the study with two networks, a storage, links and a converter. *)
Definition plot (an : analyzer) (q : figure_request) : res figure :=
  show (fun l => l) false (Some [("a", (0, 0)%Q); ("b", (1, 0)%Q)]) "MW" an q.
Definition legend (x : res figure) : option (string * string * string) :=
  match x with Ok f => Some (fg_title f, fg_x f, fg_y f) | Err _ => None end.
Example C97_example :
  map (fun q => legend (plot mix_an q))
    [AtNode "elec" "a" (Timeline (Consumption "load" "given")); AtNode "elec" "b" (Monotone (Production "wind" "used") None (Some 1%Z));
     AtNode "elec" "a" (Gaussian (Link "b" "used") (Some 0%Z) None); AtNode "elec" "a" (Monotone (Storage "cell") None (Some (-1)%Z));
     AtNode "elec" "a" (Candles (Storage "cell") 1%Z); AtNode "elec" "a" (Monotone (FromConverter "plant") None (Some 0%Z));
     AtNode "elec" "a" (Stack 1%Z "used" "asked"); Matrix "elec"; Map "elec" 0%Z 1%Z None 1%Q] =
  [Some ("Consumptions given for load on node a", "time", "Quantity (MW)");
   Some ("Monotone production of wind on node b at scn=1", "%", "Quantity (MW)");
   Some ("Gaussian link from a to b at t=0", "Quantity (MW)", "");
   Some ("Monotone storage of cell on node a for scn=-1", "%", "Quantity (MW)");
   Some ("Stockage capacity of cell on node a for scn=1", "Time", "Quantity (MW)");
   Some ("Timeline converter plant to node a at scn=0", "%", "Quantity (MW)");
   Some ("Stack for node a", "time", "Quantity (MW)");
   Some ("RAC Matrix 75 % passed", "time", "scenarios");
   Some ("Exchange map at t=0 scn=1", "", "Net Position (MW)")] /\
  plain_request (AtNode "elec" "b" (Monotone (Production "wind" "used") None (Some 1%Z))).
Proof. split; [vm_compute; reflexivity|]. split; [reflexivity|]. intros w [<-|[<-|[]]]; reflexivity. Qed.

(** Neither the kind of data nor the scenario of a stack is told: the same title, other data. *)
Theorem C97_kinds_refuted : exists s r an q q' f f', api_study s /\ mirrors s r /\ new_analyzer true no_junk s r = Ok an /\
  plot an q = Ok f /\ plot an q' = Ok f' /\ fg_title f = fg_title f' /\ fg_drawn f <> fg_drawn f'.
Proof.
  exists mix, mix_result, mix_an, (AtNode "elec" "b" (Monotone (Production "wind" "used") None (Some 0%Z))),
    (AtNode "elec" "b" (Monotone (Production "wind" "avail") None (Some 0%Z))). do 2 eexists.
  split; [apply mix_api|]. split; [apply mix_mirrors|]. split; [apply mix_an_new|]. split; [vm_compute; reflexivity|]. split; [vm_compute; reflexivity|].
  split; [reflexivity|]. cbn. discriminate.
Qed.
Theorem C97_stack_refuted : exists s r an q q' f f', api_study s /\ mirrors s r /\ new_analyzer true no_junk s r = Ok an /\
  plot an q = Ok f /\ plot an q' = Ok f' /\ fg_title f = fg_title f' /\ fg_drawn f <> fg_drawn f'.
Proof.
  exists mix, mix_result, mix_an, (AtNode "elec" "a" (Stack 0%Z "used" "asked")), (AtNode "elec" "a" (Stack 1%Z "used" "asked")). do 2 eexists.
  split; [apply mix_api|]. split; [apply mix_mirrors|]. split; [apply mix_an_new|]. split; [vm_compute; reflexivity|]. split; [vm_compute; reflexivity|].
  split; [reflexivity|]. cbn. discriminate.
Qed.

(** Two networks with the same node and consumption; names with spaces. *)
Definition twin_calls : list call :=
  [ OnStudy_network "x"; OnSel 0 (MNode "c"); OnSel 1 (MConsumption "load" (jn 10) (jn 1)); OnSel 2 (MConsumption "a on node b" (jn 10) (jn 3));
    OnSel 3 (MNode "b on node c"); OnSel 4 (MConsumption "a" (jn 10) (jn 4));
    OnSel 5 (MNetwork "y"); OnSel 6 (MNode "c"); OnSel 7 (MConsumption "load" (jn 10) (jn 2)) ].
Definition twins : study := Eval vm_compute in w_study (run (start 1 1 None) twin_calls).
Lemma twins_api : api_study twins.
Proof. exists 1, 1, None, twin_calls. split; [lia|]. split; [lia|]. split; [plain_tac | vm_compute; reflexivity]. Qed.
Definition twin_answer (_ : nat) (_ : solver) (v : var) : Q :=
  match v with
  | VLol net nd i _ => if String.eqb net "y" then 2 else if String.eqb nd "c" then match i with O => 1 | _ => 3 end else 4
  | _ => 0
  end%Q.
Definition twins_result : result := Eval vm_compute in
  match solve_lp twin_answer [0] no_bench twins with Ok r => r | Err _ => Result [] [] no_bench end.
Lemma twins_solved : solved twin_answer twins twins_result.
Proof. exists [0], no_bench. split; [reflexivity | vm_compute; reflexivity]. Qed.
Lemma twins_feasible : feasible_answer twin_answer twins 0.
Proof. apply satb_ok. vm_compute. reflexivity. Qed.
Lemma twins_mirrors : mirrors twins twins_result.
Proof.
  destruct (solved_facts _ _ _ twins_api ltac:(apply plainb_ok; vm_compute; reflexivity) twins_solved) as (_ & M & _). exact M.
Qed.
Definition twins_an : analyzer := Eval vm_compute in
  match new_analyzer true no_junk twins twins_result with Ok an => an | Err _ => mix_an end.
Lemma twins_an_new : new_analyzer true no_junk twins twins_result = Ok twins_an. Proof. vm_compute. reflexivity. Qed.

Theorem C97_networks_refuted : exists s r an q q' f f', api_study s /\ mirrors s r /\ new_analyzer true no_junk s r = Ok an /\
  plot an q = Ok f /\ plot an q' = Ok f' /\ plain_request q /\ plain_request q' /\ fg_title f = fg_title f' /\ fg_drawn f <> fg_drawn f'.
Proof.
  exists twins, twins_result, twins_an, (AtNode "x" "c" (Timeline (Consumption "load" "asked"))), (AtNode "y" "c" (Timeline (Consumption "load" "asked"))). do 2 eexists.
  split; [apply twins_api|]. split; [apply twins_mirrors|]. split; [apply twins_an_new|]. split; [vm_compute; reflexivity|]. split; [vm_compute; reflexivity|].
  split; [split; [reflexivity|]; intros w [<-|[<-|[]]]; reflexivity|]. split; [split; [reflexivity|]; intros w [<-|[<-|[]]]; reflexivity|].
  split; [reflexivity|]. cbn. discriminate.
Qed.
Theorem C97_spaces_refuted : exists s r an q q' f f', api_study s /\ mirrors s r /\ new_analyzer true no_junk s r = Ok an /\
  plot an q = Ok f /\ plot an q' = Ok f' /\ untold q = untold q' /\ ~ alike q q' /\ fg_title f = fg_title f' /\ fg_drawn f <> fg_drawn f'.
Proof.
  exists twins, twins_result, twins_an, (AtNode "x" "c" (Timeline (Consumption "a on node b" "asked"))), (AtNode "x" "b on node c" (Timeline (Consumption "a" "asked"))). do 2 eexists.
  split; [apply twins_api|]. split; [apply twins_mirrors|]. split; [apply twins_an_new|]. split; [vm_compute; reflexivity|]. split; [vm_compute; reflexivity|].
  split; [reflexivity|]. split; [cbn; intros [X _]; discriminate|]. split; [reflexivity|]. cbn. discriminate.
Qed.
(** The figures of C97_same_title_partial: asked twice, with the same title. *)
Example C97_same_title_example : exists f, plot mix_an (AtNode "elec" "a" (Gaussian (Link "b" "used") (Some 0%Z) None)) = Ok f /\
  plain_request (AtNode "elec" "a" (Gaussian (Link "b" "used") (Some 0%Z) None)) /\ fg_title f = "Gaussian link from a to b at t=0".
Proof.
  eexists. split; [vm_compute; reflexivity|]. split; [|reflexivity]. split; [reflexivity|]. intros w [<-|[<-|[]]]; reflexivity.
Qed.

Print Assumptions C97_mentions_partial.
Print Assumptions C97_exact.
Print Assumptions C97_same_title_partial.
Print Assumptions C97_kinds_refuted.
Print Assumptions C97_stack_refuted.
Print Assumptions C97_networks_refuted.
Print Assumptions C97_spaces_refuted.
