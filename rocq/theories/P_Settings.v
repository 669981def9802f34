(** C92: the colours of circles and arrows tell the same, and so do the two colour scales. *)
From Coq Require Import String Ascii List ZArith QArith Qround Qabs Bool Arith Lia Lqa Permutation Sorted.
From Verif Require Import Base BaseFacts Numeric Study Output Analyzer Viewer Picture Settings P_Picture.
Import ListNotations.
Open Scope nat_scope.
Open Scope string_scope.
Open Scope list_scope.

(** ** Specification *)
Definition is_colour (c : colour) : Prop := (0 <= c_red c <= 1 /\ 0 <= c_green c <= 1 /\ 0 <= c_blue c <= 1)%Q.
(** A byte for a part of a colour: at most one less than 255 times it. *)
Definition stands_for (b : Z) (x : Q) : Prop := (0 <= b <= 255)%Z /\ (inject_Z b <= 255 * x < inject_Z b + 1)%Q.
Definition same_colour (r : rgb) (c : colour) : Prop := stands_for (red r) (c_red c) /\ stands_for (green r) (c_green c) /\ stands_for (blue r) (c_blue c).

(** ** Proofs *)
Lemma byte_ok x : (0 <= x <= 1)%Q -> stands_for (byte x) x.
Proof.
  intros [A B]. unfold byte, truncated. assert (P : (0 <= x * 255)%Q) by lra. apply Qle_bool_iff in P. rewrite P. apply Qle_bool_iff in P.
  pose proof (Qfloor_le (x * 255)) as L. pose proof (Qlt_floor (x * 255)) as U.
  assert (N : (0 <= Qfloor (x * 255))%Z). { change 0%Z with (Qfloor 0). now apply Qfloor_resp_le. }
  assert (M : (Qfloor (x * 255) <= 255)%Z). { pose proof (Qfloor_resp_le (x * 255) 255 ltac:(lra)) as W. exact W. }
  rewrite Z.mod_small by lia. split; [lia |]. rewrite inject_Z_plus in U. change (inject_Z 1) with 1%Q in U. lra.
Qed.

(** For every colour map and resolution of two or more: as many entries as asked, at even
    distances from 0 to 1, each with the colour of the map there. *)
Theorem C92_scale : forall cmap n, (1 < n)%Z -> (forall x, (0 <= x <= 1)%Q -> is_colour (cmap x)) ->
  exists l, plotly_scale cmap n = Ok l /\ Z.of_nat (length l) = n /\
    forall k, k < length l -> exists x r, nth_error l k = Some (x, r) /\ (x * inject_Z (n - 1) == inject_Z (Z.of_nat k))%Q /\ (0 <= x <= 1)%Q /\ same_colour r (cmap x).
Proof.
  intros cmap n N H. unfold plotly_scale. assert (Z.eqb n 1 = false) as -> by (apply Z.eqb_neq; lia). eexists. split; [reflexivity |].
  rewrite map_length, seq_length. split; [lia |]. intros k K. eexists. eexists. split.
  { rewrite nth_error_map, nth_error_nth' with (d := 0) by (rewrite seq_length; exact K). rewrite seq_nth by exact K. reflexivity. }
  rewrite Nat.add_0_l. assert (D : (0 < inject_Z (n - 1))%Q) by (change 0%Q with (inject_Z 0); rewrite <- Zlt_Qlt; lia).
  assert (X : (inject_Z (Z.of_nat k) * (1 / inject_Z (n - 1)) * inject_Z (n - 1) == inject_Z (Z.of_nat k))%Q) by (field; lra).
  split; [exact X |]. set (x := (inject_Z (Z.of_nat k) * (1 / inject_Z (n - 1)))%Q) in *.
  assert (K0 : (0 <= inject_Z (Z.of_nat k))%Q) by (change 0%Q with (inject_Z 0); rewrite <- Zle_Qle; lia).
  assert (K1 : (inject_Z (Z.of_nat k) <= inject_Z (n - 1))%Q) by (rewrite <- Zle_Qle; lia).
  assert (XX : (0 <= x <= 1)%Q) by (split; nra). split; [exact XX |]. destruct (H x XX) as (C1 & C2 & C3).
  repeat split; cbn [red green blue]; apply byte_ok; auto.
Qed.
(** Of the scale of the figures every place is at most 1/508 away from an entry. *)
Theorem C92_resolution : forall cmap y, (forall x, (0 <= x <= 1)%Q -> is_colour (cmap x)) -> (0 <= y <= 1)%Q ->
  exists l x r, figure_scale cmap = Ok l /\ length l = 255 /\ In (x, r) l /\ (Qabs (x - y) <= 1 # 508)%Q /\ same_colour r (cmap x).
Proof.
  intros cmap y H [Y0 Y1]. destruct (C92_scale cmap 255 ltac:(lia) H) as (l & E & L & G). assert (LN : length l = 255) by lia.
  set (k := Z.to_nat (Qfloor (254 * y + (1 # 2)))).
  pose proof (Qfloor_le (254 * y + (1 # 2))) as F1. pose proof (Qlt_floor (254 * y + (1 # 2))) as F2. rewrite inject_Z_plus in F2. change (inject_Z 1) with 1%Q in F2.
  assert (N : (0 <= Qfloor (254 * y + (1 # 2)))%Z). { change 0%Z with (Qfloor 0). apply Qfloor_resp_le. lra. }
  assert (M : (Qfloor (254 * y + (1 # 2)) <= 254)%Z).
  { pose proof (Qfloor_resp_le (254 * y + (1 # 2)) (254 + (1 # 2)) ltac:(lra)) as W. exact W. }
  assert (K : Z.of_nat k = Qfloor (254 * y + (1 # 2))) by (unfold k; lia).
  destruct (G k) as (x & r & NE & X & B & C); [lia |]. exists l, x, r. split; [exact E |]. split; [exact LN |]. split; [eapply nth_error_In; eauto |]. split; [| exact C].
  rewrite K in X. change (inject_Z (255 - 1)) with 254%Q in X. apply Qabs_Qle_condition. split; lra.
Qed.
(** With one entry there is no scale. *)
Theorem C92_one_entry : forall cmap, plotly_scale cmap 1 = Err ZeroDivisionError.
Proof. reflexivity. Qed.

(** An arrow with the energy [q] has the place of a circle with the balance [q]; circles with
    opposite balances are as far from the middle. *)
Theorem C92_same_place : forall nz limit q sh, (0 < limit)%Q -> (0 <= q <= limit)%Q -> shaded nz limit q sh ->
  exists x, sh = Ramp x /\ (x == circle_place limit q)%Q /\ ((1 # 2) - circle_place limit (- q) == circle_place limit q - (1 # 2))%Q.
Proof.
  intros nz limit q sh L [Q0 Q1] (S1 & _). destruct (S1 L) as (x & E & X & _). exists x. split; [exact E |]. unfold circle_place.
  split; [rewrite (X Q1); field; lra | field; lra].
Qed.

(** The level asked for by the environment; warnings when it asks for none of the four. *)
Theorem C92_level : forall var, match log_level var with
  | INFO => var = Some "INFO" | DEBUG => var = Some "DEBUG" | ERROR => var = Some "ERROR"
  | WARNING => var <> Some "INFO" /\ var <> Some "DEBUG" /\ var <> Some "ERROR" end.
Proof.
  intros [x|]; unfold log_level; [| repeat split; discriminate].
  destruct (String.eqb x "INFO") eqn:E1; [apply String.eqb_eq in E1; now subst |].
  destruct (String.eqb x "DEBUG") eqn:E2; [apply String.eqb_eq in E2; now subst |]. apply String.eqb_neq in E1, E2.
  destruct (String.eqb x "WARNING") eqn:E3; [apply String.eqb_eq in E3; subst; repeat split; discriminate |].
  destruct (String.eqb x "ERROR") eqn:E4; [apply String.eqb_eq in E4; now subst |]. apply String.eqb_neq in E4. repeat split; congruence.
Qed.

(** ** Example *)
Definition grey (x : Q) : colour := Colour x x (1 - x).
Example C92_example : (forall x, (0 <= x <= 1)%Q -> is_colour (grey x)) /\
  plotly_scale grey 3 = Ok [(0 # 2, Rgb 0 0 255); (1 # 2, Rgb 127 127 127); (2 # 2, Rgb 255 255 0)]%Q /\
  shaded false 8 4 (Ramp (3 # 4)) /\ (circle_place 8 4 == 3 # 4)%Q /\ log_level (Some "info") = WARNING.
Proof.
  split; [intros x X; unfold is_colour, grey; cbn [c_red c_green c_blue]; lra |]. split; [vm_compute; reflexivity |]. split; [| split; reflexivity].
  split; [intros _; eexists; split; [reflexivity |]; split; [reflexivity | intros H; exfalso; revert H; unfold Qlt; simpl; lia] |].
  (split; [| split]); intros H; exfalso; revert H; unfold Qeq, Qlt; simpl; lia.
Qed.

Print Assumptions C92_scale.
Print Assumptions C92_resolution.
Print Assumptions C92_one_entry.
Print Assumptions C92_same_place.
Print Assumptions C92_level.
