(** C106: a figure shows the numbers of what was asked for. *)
From Coq Require Import String Ascii List ZArith QArith Bool Arith Lia Lqa Permutation Sorted.
From Verif Require Import Base BaseFacts Numeric Study Fluent Output LP SpecStudy SpecLP StudyFacts LPFacts LPResult LPReady P_LP
  Analyzer SpecAnalyzer AnalyzerFacts P_Tables P_Exact QueryFacts P_Query P_Reuse SumFacts SpecTotals P_Totals P_Cost Viewer ViewFacts SpecViewer P_Viewer P_Absent
  Picture Drawing P_Map P_Picture P_Stack Titles P_Titles SpecFigures P_Timeline.
Import ListNotations.
Open Scope nat_scope.
Open Scope string_scope.
Open Scope list_scope.

(** ** Lemmas *)
Lemma Forall2_nth {X Y} (P : X -> Y -> Prop) l m : Forall2 P l m -> forall x, In x l -> exists i y, nth_error l i = Some x /\ nth_error m i = Some y.
Proof.
  induction 1 as [| x y l m H F IH]; intros z I; [destruct I |]. destruct I as [<- | I]; [exists 0, y; auto |].
  destruct (IH z I) as (i & y' & E1 & E2). exists (S i), y'. auto.
Qed.

(** Kind, name and column of an element written out. *)
Definition axis_of (e : element) : axis :=
  match e with Consumption _ _ => ACons | Production _ _ => AProd | Link _ _ => ALink | Storage _ => AStor | ToConverter _ => ASrcConv | FromConverter _ => ADestConv end.
Definition called (e : element) : string :=
  match e with Consumption x _ | Production x _ | Storage x | Link x _ | ToConverter x | FromConverter x => x end.
Definition data_of (e : element) : string := match e with Consumption _ k | Production _ k | Link _ k => k | _ => "flow" end.

Section Figures.
  Variables (s : study) (r : result) (bcast : bool) (junk : nat -> string -> nat -> cell) (an : analyzer).
  Hypotheses (Api : api_study s) (M : mirrors s r) (New : new_analyzer bcast junk s r = Ok an).
  Variables (by_cost : list (list cell * trow) -> list (list cell * trow)) (nz : bool) (co : option coords) (symbol : string).
  Local Notation h := (st_horizon s).
  Local Notation n := (st_nb_scn s).
  Local Notation fig := (show by_cost nz co symbol an).

  Lemma plain_quantity net nd e f : plain_element e -> series s r net nd e f -> SpecViewer.quantity s r net nd (axis_of e) (called e) (data_of e) f.
  Proof. intros P X. destruct X; cbn [plain_element] in P; try tauto; cbn [axis_of called data_of]; econstructor; eassumption. Qed.
  Lemma plain_has net nd e : plain_element e -> has_element s (axis_of e) net nd (called e) -> exists f, series s r net nd e f.
  Proof.
    intros P (nn & N & I). destruct (mirror_node_l s r M net nd nn N) as (rn & Nr & Like).
    destruct e as [x k | x k | x | x k | x | x]; cbn [plain_element axis_of called names_of] in *; try tauto;
      apply in_map_iff in I as (c & <- & I).
    - destruct (Forall2_nth _ _ _ (nl_cons _ _ _ Like) c I) as (i & o & E1 & E2).
      assert (El : is_element n_cons on_cons s r net nd c o) by (exists nn, rn, i; auto). destruct P as [-> | ->]; eexists; econstructor; exact El.
    - destruct (Forall2_nth _ _ _ (nl_prods _ _ _ Like) c I) as (i & o & E1 & E2).
      assert (El : is_element n_prods on_prods s r net nd c o) by (exists nn, rn, i; auto). destruct P as [-> | ->]; eexists; econstructor; exact El.
    - destruct (Forall2_nth _ _ _ (nl_links _ _ _ Like) c I) as (i & o & E1 & E2).
      assert (El : is_element n_links on_links s r net nd c o) by (exists nn, rn, i; auto). destruct P as [-> | ->]; eexists; econstructor; exact El.
  Qed.
  Lemma series_has net nd e f : plain_element e -> series s r net nd e f -> has_element s (axis_of e) net nd (called e).
  Proof.
    intros P X. destruct X; cbn [plain_element] in P; try tauto;
      match goal with H : is_element _ _ _ _ _ _ _ _ |- _ => destruct H as (nn & rn & i & N1 & N2 & E1 & E2) end;
      exists nn; (split; [exact N1 |]); cbn [axis_of called names_of]; apply in_map_iff; eexists; (split; [reflexivity |]); eapply nth_error_In; exact E1.
  Qed.
  Lemma has_dec el net nd name : has_element s el net nd name \/ ~ has_element s el net nd name.
  Proof.
    unfold has_element. destruct (node_at s net nd) as [nn |]; [| right; intros (? & X & _); discriminate].
    destruct (in_dec string_dec name (names_of el nn)) as [I | I]; [left; eauto | right; intros (? & X & J); injection X as <-; contradiction].
  Qed.
  Lemma plain_axis e : plain_element e -> In (axis_of e) [ACons; AProd; ALink] /\ In (data_of e) (P_Absent.drawable (axis_of e)).
  Proof. destruct e; cbn; try tauto; intros [-> | ->]; tauto. Qed.
End Figures.

(** ** Loads, productions and links: the figure of every view of what the study has, and its content *)
Theorem C106_elements bcast junk s r an by_cost nz co symbol : api_study s -> mirrors s r -> new_analyzer bcast junk s r = Ok an ->
  forall net nd e f, plain_element e -> series s r net nd e f ->
  let right v := exists g, show by_cost nz co symbol an (AtNode net nd v) = Ok g /\ shown s r net nd v (fg_drawn g) in
  right (Timeline e) /\
  (forall scn, scn < st_nb_scn s -> right (Monotone e None (Some (Z.of_nat scn))) /\ right (Gaussian e None (Some (Z.of_nat scn)))) /\
  (forall t, t < st_horizon s -> right (Monotone e (Some (Z.of_nat t)) None) /\ right (Gaussian e (Some (Z.of_nat t)) None)).
Proof.
  intros A M N net nd e f P X right. pose proof (plain_quantity s r net nd e f P X) as Q.
  destruct (C61_monotone bcast junk s r an A M N _ _ _ _ _ _ Q) as ((c & Tc & Oc) & Ms & Mt & _).
  destruct (C62_other_gaussians bcast junk s r an A M N _ _ _ _ _ _ Q) as (Gs & Gt).
  unfold right, show, show_view. split; [| split].
  - destruct e; cbn [plain_element axis_of called data_of element_axis element_name element_column] in *; try tauto;
      rewrite Tc; eexists; (split; [reflexivity |]); cbn [fg_drawn]; econstructor; eauto.
  - intros scn L. destruct (Ms scn L) as (y & Ey & Oy). destruct (Gs scn L) as (z & Ez & Oz). split;
      (destruct e; cbn [plain_element axis_of called data_of element_axis element_name element_column] in *; try tauto;
        rewrite ?Ey, ?Ez; eexists; (split; [reflexivity |]); cbn [fg_drawn]; econstructor; eauto).
  - intros t L. destruct (Mt t L) as (y & Ey & Oy). destruct (Gt t L) as (z & Ez & Oz). split;
      (destruct e; cbn [plain_element axis_of called data_of element_axis element_name element_column] in *; try tauto;
        rewrite ?Ey, ?Ez; eexists; (split; [reflexivity |]); cbn [fg_drawn]; econstructor; eauto).
Qed.

(** No other figure is ever made of them: what comes out shows the right numbers, or no point
    because there is nothing to show. *)
Theorem C106_only bcast junk s r an by_cost nz co symbol : api_study s -> mirrors s r -> new_analyzer bcast junk s r = Ok an ->
  forall net nd e v g, plain_element e -> about e v -> show by_cost nz co symbol an (AtNode net nd v) = Ok g ->
  shown s r net nd v (fg_drawn g) \/ (missing s r net nd v /\ fg_drawn g = DMonotone []).
Proof.
  intros A M N net nd e v g P Ab E. destruct (plain_axis e P) as (K & D).
  assert (In_nat : forall m z, inside m z -> exists k, z = Z.of_nat k /\ k < m).
  { intros m z (L1 & L2). exists (Z.to_nat z). lia. }
  assert (Dec : forall m z, inside m z \/ ~ inside m z) by (intros m z; unfold inside; lia).
  assert (St : forall name, e <> Storage name) by (intros name ->; exact P).
  destruct (has_dec s (axis_of e) net nd (called e)) as [H | H].
  - destruct (plain_has s r M net nd e P H) as (f & X).
    destruct (C106_elements bcast junk s r an by_cost nz co symbol A M N net nd e f P X) as (R1 & R2 & R3).
    destruct v as [e' | e' t scn | e' t scn | e' scn | scn kp kc]; cbn [about] in Ab; try tauto; subst e'.
    + left. destruct R1 as (g' & E' & W). rewrite E in E'. injection E' as <-. exact W.
    + destruct t as [t |], scn as [scn |].
      * exfalso. destruct e; cbn in E; discriminate.
      * destruct (Dec (st_horizon s) t) as [I | I].
        -- left. destruct (In_nat _ _ I) as (k & -> & L). destruct (R3 k L) as ((g' & E' & W) & _). rewrite E in E'. injection E' as <-. exact W.
        -- right. split; [right; left; exists t; auto |]. destruct (C85_monotone bcast junk s r an A M N (axis_of e) net nd (called e) (data_of e) t K D) as (C & _).
           specialize (C (or_intror I)). destruct e; cbn [plain_element axis_of called data_of] in *; try tauto; unfold show, show_view in E; cbn [element_axis element_name element_column] in E; rewrite C in E; injection E as <-; reflexivity.
      * destruct (Dec (st_nb_scn s) scn) as [I | I].
        -- left. destruct (In_nat _ _ I) as (k & -> & L). destruct (R2 k L) as ((g' & E' & W) & _). rewrite E in E'. injection E' as <-. exact W.
        -- right. split; [right; right; exists scn; auto |]. destruct (C85_monotone bcast junk s r an A M N (axis_of e) net nd (called e) (data_of e) scn K D) as (_ & C).
           specialize (C (or_intror I)). destruct e; cbn [plain_element axis_of called data_of] in *; try tauto; unfold show, show_view in E; cbn [element_axis element_name element_column] in E; rewrite C in E; injection E as <-; reflexivity.
      * exfalso. destruct e; cbn in E; discriminate.
    + left. destruct t as [t |], scn as [scn |].
      * exfalso. destruct e; cbn in E; discriminate.
      * destruct (Dec (st_horizon s) t) as [I | I].
        -- destruct (In_nat _ _ I) as (k & -> & L). destruct (R3 k L) as (_ & (g' & E' & W)). rewrite E in E'. injection E' as <-. exact W.
        -- exfalso. destruct (C85_gaussian bcast junk s r an A M N (axis_of e) net nd (called e) (data_of e) t K D) as (C & _). destruct (C (or_intror I)) as (C1 & C2).
           assert (Re : reaches (st_horizon s) t \/ ~ reaches (st_horizon s) t) by (unfold reaches; lia).
           destruct e; cbn [plain_element axis_of called data_of] in *; try tauto; unfold show, show_view in E; cbn [element_axis element_name element_column] in E;
             (destruct Re as [Re | Re]; [rewrite (C1 Re) in E | rewrite (C2 Re) in E]; discriminate).
      * destruct (Dec (st_nb_scn s) scn) as [I | I].
        -- destruct (In_nat _ _ I) as (k & -> & L). destruct (R2 k L) as (_ & (g' & E' & W)). rewrite E in E'. injection E' as <-. exact W.
        -- exfalso. destruct (C85_gaussian bcast junk s r an A M N (axis_of e) net nd (called e) (data_of e) scn K D) as (_ & C). destruct (C (or_intror I)) as (C1 & C2).
           assert (Re : reaches (st_nb_scn s) scn \/ ~ reaches (st_nb_scn s) scn) by (unfold reaches; lia).
           destruct e; cbn [plain_element axis_of called data_of] in *; try tauto; unfold show, show_view in E; cbn [element_axis element_name element_column] in E;
             (destruct Re as [Re | Re]; [rewrite (C1 Re) in E | rewrite (C2 Re) in E]; discriminate).
      * exfalso. destruct (gaussian_none an net nd (axis_of e) (called e) (data_of e)) as ((x & Ex) & _).
        destruct e; cbn [plain_element axis_of called data_of] in *; try tauto; unfold show, show_view in E; cbn [element_axis element_name element_column] in E; rewrite Ex in E; discriminate.
  - assert (NS : forall f, ~ series s r net nd e f) by (intros f X; exact (H (series_has s r net nd e f P X))).
    destruct v as [e' | e' t scn | e' t scn | e' scn | scn kp kc]; cbn [about] in Ab; try tauto; subst e'.
    + exfalso. pose proof (C85_timeline bcast junk s r an A M N (axis_of e) net nd (called e) (data_of e) K D H) as C.
      destruct e; cbn [plain_element axis_of called data_of] in *; try tauto; unfold show, show_view in E; cbn [element_axis element_name element_column] in E; rewrite C in E; discriminate.
    + right. split; [left; exact NS |]. destruct t as [t |], scn as [scn |].
      * exfalso. destruct e; cbn in E; discriminate.
      * destruct (C85_monotone bcast junk s r an A M N (axis_of e) net nd (called e) (data_of e) t K D) as (C & _). specialize (C (or_introl H)).
        destruct e; cbn [plain_element axis_of called data_of] in *; try tauto; unfold show, show_view in E; cbn [element_axis element_name element_column] in E; rewrite C in E; injection E as <-; reflexivity.
      * destruct (C85_monotone bcast junk s r an A M N (axis_of e) net nd (called e) (data_of e) scn K D) as (_ & C). specialize (C (or_introl H)).
        destruct e; cbn [plain_element axis_of called data_of] in *; try tauto; unfold show, show_view in E; cbn [element_axis element_name element_column] in E; rewrite C in E; injection E as <-; reflexivity.
      * exfalso. destruct e; cbn in E; discriminate.
    + exfalso. destruct t as [t |], scn as [scn |].
      * destruct e; cbn in E; discriminate.
      * destruct (C85_gaussian bcast junk s r an A M N (axis_of e) net nd (called e) (data_of e) t K D) as (C & _). destruct (C (or_introl H)) as (C1 & C2).
        assert (Re : reaches (st_horizon s) t \/ ~ reaches (st_horizon s) t) by (unfold reaches; lia).
        destruct e; cbn [plain_element axis_of called data_of] in *; try tauto; unfold show, show_view in E; cbn [element_axis element_name element_column] in E;
          (destruct Re as [Re | Re]; [rewrite (C1 Re) in E | rewrite (C2 Re) in E]; discriminate).
      * destruct (C85_gaussian bcast junk s r an A M N (axis_of e) net nd (called e) (data_of e) scn K D) as (_ & C). destruct (C (or_introl H)) as (C1 & C2).
        assert (Re : reaches (st_nb_scn s) scn \/ ~ reaches (st_nb_scn s) scn) by (unfold reaches; lia).
        destruct e; cbn [plain_element axis_of called data_of] in *; try tauto; unfold show, show_view in E; cbn [element_axis element_name element_column] in E;
          (destruct Re as [Re | Re]; [rewrite (C1 Re) in E | rewrite (C2 Re) in E]; discriminate).
      * destruct (gaussian_none an net nd (axis_of e) (called e) (data_of e)) as ((x & Ex) & _).
        destruct e; cbn [plain_element axis_of called data_of] in *; try tauto; unfold show, show_view in E; cbn [element_axis element_name element_column] in E; rewrite Ex in E; discriminate.
Qed.

(** ** Converters *)
(** The side of a converter, whose rows are right: see C61 and C62. *)
Definition side (e : element) (el : axis) (name : string) : Prop :=
  (e = ToConverter name /\ el = ASrcConv) \/ (e = FromConverter name /\ el = ADestConv).
Theorem C106_converters_partial bcast junk s r an by_cost nz co symbol : api_study s -> mirrors s r -> well_read bcast s -> new_analyzer bcast junk s r = Ok an ->
  forall net nd e el name f, side e el name -> one_block s el name -> series s r net nd e f ->
  let right v := exists g, show by_cost nz co symbol an (AtNode net nd v) = Ok g /\ shown s r net nd v (fg_drawn g) in
  right (Timeline e) /\
  (forall scn, scn < st_nb_scn s -> right (Monotone e None (Some (Z.of_nat scn)))) /\
  (forall t, t < st_horizon s -> right (Monotone e (Some (Z.of_nat t)) None) /\ right (Gaussian e (Some (Z.of_nat t)) None)) /\
  (st_nb_scn s = 1 -> right (Gaussian e None (Some 0%Z))).
Proof.
  intros A M Wr N net nd e el name f Si Ob X right.
  assert (Q : conv_flow s r net nd el name f).
  { destruct Si as [(-> & ->) | (-> & ->)]; inversion X; subst; econstructor; eauto. }
  destruct (C61_converter_monotone_partial bcast junk s r an A M Wr N _ _ _ _ _ Q Ob) as ((c & Tc & Oc) & Ms & Mt & _).
  destruct (C62_converter_gaussian_partial bcast junk s r an A M Wr N _ _ _ _ _ Q Ob) as (Gt & Go & _).
  unfold right, show, show_view. split; [| split; [| split]].
  - destruct Si as [(-> & ->) | (-> & ->)]; cbn [element_axis element_name element_column]; rewrite Tc; eexists; (split; [reflexivity |]); econstructor; eauto.
  - intros scn L. destruct (Ms scn L) as (y & Ey & Oy).
    destruct Si as [(-> & ->) | (-> & ->)]; cbn [element_axis element_name element_column]; rewrite Ey; eexists; (split; [reflexivity |]); econstructor; eauto.
  - intros t L. destruct (Mt t L) as (y & Ey & Oy). destruct (Gt t L) as (z & Ez & Oz). split;
      (destruct Si as [(-> & ->) | (-> & ->)]; cbn [element_axis element_name element_column]; rewrite ?Ey, ?Ez; eexists; (split; [reflexivity |]); econstructor; eauto).
  - intros One. destruct (Go One) as (z & Ez & Oz). cbn [Z.of_nat] in Ez.
    assert (W : shown s r net nd (Gaussian e None (Some (Z.of_nat 0))) (DGaussian z)) by (econstructor; eauto; lia).
    destruct Si as [(-> & ->) | (-> & ->)]; cbn [element_axis element_name element_column]; rewrite Ez; eexists; (split; [reflexivity |]); exact W.
Qed.

(** ** Storages: the last one of the study *)
Theorem C106_storages_partial answer bcast junk s r an by_cost nz co symbol : api_study s -> unwritten junk s -> solved answer s r -> new_analyzer bcast junk s r = Ok an ->
  forall net nd x o, is_element n_stors on_stors s r net nd x o -> last_element n_stors s net nd x ->
  let right v := exists g, show by_cost nz co symbol an (AtNode net nd v) = Ok g /\ shown s r net nd v (fg_drawn g) in
  (forall scn, scn < st_nb_scn s -> right (Monotone (Storage (s_name x)) None (Some (Z.of_nat scn)))) /\
  (forall t, t < st_horizon s -> right (Monotone (Storage (s_name x)) (Some (Z.of_nat t)) None)) /\
  (forall scn, scn < st_nb_scn s -> feasible_answer answer s scn -> (forall nn, node_at s net nd = Some nn -> n_stors nn = [x]) ->
     right (Candles (Storage (s_name x)) (Z.of_nat scn))).
Proof.
  intros A Un SV N net nd x o El La right. destruct (C27_result_mirrors_study_any_names answer s r A SV) as (M & _).
  destruct (C61_storage_monotone_partial bcast junk s r an A M Un N net nd x o El La) as (Ms & Mt & _).
  unfold right, show, show_view. split; [| split].
  - intros scn L. destruct (Ms scn L) as (y & Ey & Oy). rewrite Ey. eexists. split; [reflexivity |].
    eapply (W_monotone_scn s r net nd _ (fun scn t => entry (os_flow_in o) scn t - entry (os_flow_out o) scn t)%Q); [econstructor; exact El | exact L | exact Oy].
  - intros t L. destruct (Mt t L) as (y & Ey & Oy). rewrite Ey. eexists. split; [reflexivity |].
    eapply (W_monotone_t s r net nd _ (fun scn t => entry (os_flow_in o) scn t - entry (os_flow_out o) scn t)%Q); [econstructor; exact El | exact L | exact Oy].
  - intros scn L F Al. destruct (C57_candles_partial answer bcast junk s r an A Un SV N net nd x o scn El La Al L F) as (a & b & E & O).
    rewrite E. eexists. split; [reflexivity |]. econstructor; eauto.
Qed.

(** ** Stacks *)
Theorem C106_stack_partial bcast junk s r an by_cost nz co symbol : api_study s -> mirrors s r -> new_analyzer bcast junk s r = Ok an ->
  (forall l, Permutation (by_cost l) l) -> unwritten junk s -> well_read bcast s ->
  forall net nd scn kp kc, has_node s net nd -> scn < st_nb_scn s -> storages_kept s net nd -> sources_right s net nd ->
  In kp ["used"; "avail"] -> In kc ["given"; "asked"] ->
  exists g, show by_cost nz co symbol an (AtNode net nd (Stack (Z.of_nat scn) kp kc)) = Ok g /\ shown s r net nd (Stack (Z.of_nat scn) kp kc) (fg_drawn g).
Proof.
  intros A M N B Un Wr net nd scn kp kc Hn L Ke Sr Kp Kc.
  destruct (C65_stack_partial bcast junk s r an by_cost net nd scn kp kc A M N B Hn L Un Ke Wr Sr Kp Kc) as (a & l & E & O).
  unfold show, show_view. rewrite E. eexists. split; [reflexivity |]. now constructor.
Qed.

(** ** Matrix: drawn if capacity is left somewhere and missing elsewhere; each square has the colour
    of its own scenario and time *)
Theorem C106_matrix_partial bcast junk s r an by_cost nz co symbol : api_study s -> mirrors s r -> new_analyzer bcast junk s r = Ok an ->
  forall net,
  ((exists g, show by_cost nz co symbol an (Matrix net) = Ok g) <->
   (exists scn t, scn < st_nb_scn s /\ t < st_horizon s /\ (0 < remaining s r net scn t)%Q) /\
   (exists scn t, scn < st_nb_scn s /\ t < st_horizon s /\ (remaining s r net scn t < 0)%Q)) /\
  forall g, show by_cost nz co symbol an (Matrix net) = Ok g -> exists z, fg_drawn g = DMatrix (ND [st_nb_scn s; st_horizon s] z) /\
    List.length z = st_nb_scn s * st_horizon s /\
    forall scn t, scn < st_nb_scn s -> t < st_horizon s -> exists v, nth_error z (scn * st_horizon s + t) = Some v /\ colour_of (remaining s r net scn t) v.
Proof.
  intros A M N net. destruct (remaining_of s r bcast junk an A M N net) as (rm & R & G).
  unfold show, rac_matrix. rewrite R. cbn [rbind].
  assert (Cov : forall q, In q (grid (st_nb_scn s) (st_horizon s) rm) -> exists scn t, scn < st_nb_scn s /\ t < st_horizon s /\ (q == remaining s r net scn t)%Q).
  { intros q I. unfold grid in I. apply in_flat_map in I as (scn & I1 & I). apply in_map_iff in I as (t & <- & I2). apply in_seq in I1. apply in_seq in I2.
    exists scn, t. split; [lia |]. split; [lia |]. apply G; lia. }
  assert (At : forall scn t, scn < st_nb_scn s -> t < st_horizon s -> In (rm scn t) (grid (st_nb_scn s) (st_horizon s) rm)).
  { intros scn t L1 L2. unfold grid. apply in_flat_map. exists scn. split; [apply in_seq; lia |]. apply in_map_iff. exists t. split; [reflexivity | apply in_seq; lia]. }
  assert (Right : (exists q, In q (data (garr (st_nb_scn s) (st_horizon s) rm)) /\ (0 < q)%Q) -> (exists q, In q (data (garr (st_nb_scn s) (st_horizon s) rm)) /\ (q < 0)%Q) ->
    exists z, draw_matrix (garr (st_nb_scn s) (st_horizon s) rm) = Ok (ND [st_nb_scn s; st_horizon s] z) /\ Forall2 colour_of (grid (st_nb_scn s) (st_horizon s) rm) z).
  { intros P Q. destruct (C60_matrix_partial _ P Q) as (z & E & F). exists z. split; [exact E | exact F]. }
  assert (Sig : (exists q, In q (data (garr (st_nb_scn s) (st_horizon s) rm)) /\ (0 < q)%Q) \/ forall q, In q (data (garr (st_nb_scn s) (st_horizon s) rm)) -> (q <= 0)%Q).
  { generalize (data (garr (st_nb_scn s) (st_horizon s) rm)). induction l as [| q l IH]; [right; intros ? [] |].
    destruct IH as [(x & I & X) | IH]; [left; exists x; split; [now right | exact X] |].
    destruct (Qlt_le_dec 0 q) as [L | L]; [left; exists q; split; [now left | exact L] | right; intros x [<- | I]; auto]. }
  assert (Sig' : (exists q, In q (data (garr (st_nb_scn s) (st_horizon s) rm)) /\ (q < 0)%Q) \/ forall q, In q (data (garr (st_nb_scn s) (st_horizon s) rm)) -> (0 <= q)%Q).
  { generalize (data (garr (st_nb_scn s) (st_horizon s) rm)). induction l as [| q l IH]; [right; intros ? [] |].
    destruct IH as [(x & I & X) | IH]; [left; exists x; split; [now right | exact X] |].
    destruct (Qlt_le_dec q 0) as [L | L]; [left; exists q; split; [now left | exact L] | right; intros x [<- | I]; auto]. }
  split.
  - split.
    + intros (g & E).
      destruct Sig as [(p & Ip & P) | Z]; [| rewrite (C60_one_sign _ (or_intror Z)) in E; discriminate].
      destruct Sig' as [(q & Iq & Q) | Z]; [| rewrite (C60_one_sign _ (or_introl Z)) in E; discriminate].
      destruct (Cov p Ip) as (s1 & t1 & L1 & L2 & E1). destruct (Cov q Iq) as (s2 & t2 & L3 & L4 & E2).
      split; [exists s1, t1 | exists s2, t2]; (split; [assumption |]; split; [assumption |]); [rewrite <- E1 | rewrite <- E2]; assumption.
    + intros ((s1 & t1 & L1 & L2 & P) & (s2 & t2 & L3 & L4 & Q)). destruct Right as (z & E & _).
      * exists (rm s1 t1). split; [apply At; assumption | rewrite G; assumption].
      * exists (rm s2 t2). split; [apply At; assumption | rewrite G; assumption].
      * rewrite E. eexists. reflexivity.
  - intros g E.
    destruct Sig as [P | Z]; [| rewrite (C60_one_sign _ (or_intror Z)) in E; discriminate].
    destruct Sig' as [Q | Z]; [| rewrite (C60_one_sign _ (or_introl Z)) in E; discriminate].
    destruct (Right P Q) as (z & Ez & F). rewrite Ez in E. cbn [rbind] in E. injection E as <-. exists z. split; [reflexivity |].
    assert (Lz : List.length z = st_nb_scn s * st_horizon s) by (rewrite <- (grid_length (st_nb_scn s) (st_horizon s) rm); symmetry; apply (LPResult.Forall2_len _ _ _ F)).
    split; [exact Lz |]. intros scn t L1 L2.
    assert (Nth : nth_error (grid (st_nb_scn s) (st_horizon s) rm) (scn * st_horizon s + t) = Some (rm scn t)) by (now rewrite nth_error_grid).
    assert (X : exists v, nth_error z (scn * st_horizon s + t) = Some v /\ colour_of (rm scn t) v).
    { revert Nth. generalize (scn * st_horizon s + t). clear - F. induction F as [| a b l m H F IH]; intros [| i] E; cbn in E; try discriminate; [injection E as <-; exists b; auto | exact (IH i E)]. }
    destruct X as (v & Ev & Co & C1 & C2). exists v. split; [exact Ev |]. split; [exact Co |]. rewrite <- (G scn t L1 L2). auto.
Qed.

(** ** Map: drawn if every node of the network has coordinates *)
Theorem C106_map bcast junk s r an by_cost nz co symbol : api_study s -> mirrors s r -> new_analyzer bcast junk s r = Ok an ->
  forall net scn t limit size, (exists nd, has_node s net nd) -> scn < st_nb_scn s -> t < st_horizon s ->
  (forall nd, has_node s net nd -> exists p, dget nd co = Some p) -> ~ (size == 0)%Q ->
  exists g pic lim nodes lines, show by_cost nz (Some co) symbol an (Map net (Z.of_nat t) (Z.of_nat scn) limit size) = Ok g /\ fg_drawn g = DMap pic /\
    map_of s r net scn t nodes lines /\ Forall2 (circled co) nodes (pc_circles pic) /\ Forall2 (drawn_arrow nz co lim) lines (pc_arrows pic) /\
    match limit with None => covers lim nodes | Some q => lim = q end.
Proof.
  intros A M N net scn t limit size Hn Ls Lt Co Sz.
  destruct (C71_map bcast junk s r an net scn t limit nz co size A M N Hn Ls Lt Co Sz) as (v & pic & E1 & E2 & Mo & Ci & Ar & _).
  destruct (C58_map_partial bcast junk s r an net scn t limit A M N Hn Ls Lt) as (v' & E1' & _ & Li). rewrite E1 in E1'. injection E1' as <-.
  unfold show. rewrite E1. cbn [rbind]. rewrite E2. cbn [rbind]. do 5 eexists. split; [reflexivity |]. split; [reflexivity |].
  split; [exact Mo |]. split; [exact Ci |]. split; [exact Ar | exact Li].
Qed.

(** ** Witnesses *)
(** A figure of a converter with two sources shows one curve for two scenarios. *)
Theorem C106_refuted : exists s r an net nd e f g, api_study s /\ mirrors s r /\ well_read true s /\ new_analyzer true no_junk s r = Ok an /\
  series s r net nd e f /\ show as_is false None "" an (AtNode net nd (Timeline e)) = Ok g /\ ~ shown s r net nd (Timeline e) (fg_drawn g).
Proof.
  destruct C59_hypotheses as (H1 & H2 & H3 & H4 & H5 & H6 & H7 & _ & H9 & _).
  exists band, band_result, band_an, "gas", "i", (ToConverter "mixer"). do 2 eexists.
  split; [exact H1 |]. split; [apply (C27_result_mirrors_study_any_names band_answer band band_result H1 H4) |]. split; [exact H9 |]. split; [exact H5 |].
  split. { eapply E_taken. eexists. split; [vm_compute; reflexivity |]. split; [vm_compute; reflexivity |]. split; vm_compute; reflexivity. }
  split; [vm_compute; reflexivity |]. intros W. inversion W as [e f c X T | | | | | |]; subst. unfold timeline_of in T. change (seq 0 (st_nb_scn band)) with [0; 1] in T. inversion T as [| ? ? ? ? _ T1]; subst. inversion T1.
Qed.

Example C106_example : exists g f, api_study mix /\ mirrors mix mix_result /\ new_analyzer true no_junk mix mix_result = Ok mix_an /\
  series mix mix_result "elec" "a" (Consumption "load" "given") f /\ f 0 1 = 17%Q /\
  show as_is false None "MW" mix_an (AtNode "elec" "a" (Timeline (Consumption "load" "given"))) = Ok g /\
  fg_title g = "Consumptions given for load on node a" /\ shown mix mix_result "elec" "a" (Timeline (Consumption "load" "given")) (fg_drawn g).
Proof.
  destruct load_element as (c & o & El & Nm & _ & E).
  assert (X : series mix mix_result "elec" "a" (Consumption "load" "given") (entry (oc_qty o))) by (rewrite <- Nm; econstructor; exact El).
  destruct (C106_elements true no_junk mix mix_result mix_an as_is false None "MW" mix_api mix_mirrors mix_an_new "elec" "a" (Consumption "load" "given") _ (or_intror eq_refl) X) as ((g & Eg & W) & _).
  exists g, (entry (oc_qty o)). split; [apply mix_api |]. split; [apply mix_mirrors |]. split; [apply mix_an_new |]. split; [exact X |]. split; [exact E |]. split; [exact Eg |].
  split; [| exact W]. unfold show, show_view in Eg. destruct (timeline _ _ _ _ _ _); [| discriminate]. injection Eg as <-. reflexivity.
Qed.

(** A converter with one source, the destination of one with two, the last storage, a stack. *)
Example C106_others_example : api_study band /\ mirrors band band_result /\ well_read true band /\ new_analyzer true no_junk band band_result = Ok band_an /\ unwritten no_junk band /\
  solved band_answer band band_result /\
  (exists f, series band band_result "gas" "g" (ToConverter "plant") f /\ f 1 0 = 18%Q /\ side (ToConverter "plant") ASrcConv "plant" /\ one_block band ASrcConv "plant") /\
  (exists g, show as_is false None "" band_an (AtNode "gas" "g" (Timeline (ToConverter "plant"))) = Ok g /\ fg_drawn g = DTimeline [(CInt 0, [CNum 10; CNum 18]); (CInt 1, [CNum 18; CNum 4])]) /\
  (exists f, series band band_result "elec" "a" (FromConverter "mixer") f /\ f 0 0 = 2%Q /\ one_block band ADestConv "mixer") /\
  (exists x o, is_element n_stors on_stors band band_result "elec" "b" x o /\ s_name x = "pile" /\ last_element n_stors band "elec" "b" x /\
     forall nn, node_at band "elec" "b" = Some nn -> n_stors nn = [x]) /\
  (exists g, show as_is false None "" band_an (AtNode "elec" "b" (Candles (Storage "pile") 1)) = Ok g /\ fg_drawn g = DCandles ([CNum 4; CNum 8], [CNum 8; CNum 3])) /\
  has_node band "elec" "b" /\ storages_kept band "elec" "b" /\ sources_right band "elec" "b".
Proof.
  split; [apply band_api |]. split; [apply band_mirrors |]. split; [left; apply band_refuses |]. split; [apply band_an_new |]. split; [apply band_unwritten |]. split; [apply band_solved |].
  split. { destruct band_source as (f & F & H & _). exists f. split; [inversion F; subst; econstructor; eassumption |]. split; [exact H |]. split; [left; auto |].
    right; right; intros v V; vm_compute in V; injection V as <-; reflexivity. }
  split. { eexists. split; vm_compute; reflexivity. }
  split. { destruct band_dest as (f & F & H & _). exists f. split; [inversion F; subst; econstructor; eauto |]. split; [exact H | left; reflexivity]. }
  split. { destruct band_last as (x & o & El & H & _ & La & On); eauto 7. }
  split. { eexists. split; vm_compute; reflexivity. }
  split; [vm_compute; discriminate |]. split; [apply band_stored | apply band_sourced].
Qed.
(** Capacity is left at three of the four points of "elec" and missing at one. *)
Example C106_matrix_example : (0 < remaining mix mix_result "elec" 0 0)%Q /\ (remaining mix mix_result "elec" 0 1 < 0)%Q /\
  (exists g, show as_is false None "" mix_an (Matrix "elec") = Ok g /\ fg_title g = "RAC Matrix 75 % passed") /\
  (exists g pic, show as_is false (Some [("a", (0, 0)%Q); ("b", (1, 2)%Q)]) "" mix_an (Map "elec" 0 0 None 1) = Ok g /\ fg_drawn g = DMap pic /\ List.length (pc_arrows pic) = 1).
Proof.
  split; [vm_compute; reflexivity |]. split; [vm_compute; reflexivity |]. split; [eexists; split; vm_compute; reflexivity |].
  do 2 eexists. split; [vm_compute; reflexivity |]. split; reflexivity.
Qed.

Print Assumptions C106_elements.
Print Assumptions C106_only.
Print Assumptions C106_converters_partial.
Print Assumptions C106_storages_partial.
Print Assumptions C106_stack_partial.
Print Assumptions C106_matrix_partial.
Print Assumptions C106_map.
Print Assumptions C106_refuted.
