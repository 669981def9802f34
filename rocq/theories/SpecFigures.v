(** Specification of what a figure should show (C106). *)
From Coq Require Import String List ZArith QArith Bool Permutation Sorted.
From Verif Require Import Base Numeric Study Fluent Output LP SpecStudy SpecLP Analyzer SpecAnalyzer SpecTotals Viewer SpecViewer Picture Drawing Titles.
Import ListNotations.
Open Scope nat_scope.
Open Scope string_scope.
Open Scope list_scope.

(** The numbers an element of a figure stands for: what was asked, offered or allowed, from the
    study; what was given, used, stored or converted, from the result. *)
Inductive series (s : study) (r : result) (net nd : string) : element -> (nat -> nat -> Q) -> Prop :=
| E_asked c o : is_element n_cons on_cons s r net nd c o -> series s r net nd (Consumption (c_name c) "asked") (value (c_qty c))
| E_given c o : is_element n_cons on_cons s r net nd c o -> series s r net nd (Consumption (c_name c) "given") (entry (oc_qty o))
| E_prod_avail p o : is_element n_prods on_prods s r net nd p o -> series s r net nd (Production (p_name p) "avail") (value (p_qty p))
| E_prod_used p o : is_element n_prods on_prods s r net nd p o -> series s r net nd (Production (p_name p) "used") (entry (op_qty o))
| E_link_avail l o : is_element n_links on_links s r net nd l o -> series s r net nd (Link (l_dest l) "avail") (value (l_qty l))
| E_link_used l o : is_element n_links on_links s r net nd l o -> series s r net nd (Link (l_dest l) "used") (entry (ol_qty o))
| E_stored x o : is_element n_stors on_stors s r net nd x o ->
    series s r net nd (Storage (s_name x)) (fun scn t => entry (os_flow_in o) scn t - entry (os_flow_out o) scn t)%Q
| E_taken v q a name : is_source s r name v net nd q a -> series s r net nd (ToConverter name) (entry a)
| E_brought v rv name : conv_at s name = Some v -> rconv_at r name = Some rv -> v_dnet v = net -> v_dnode v = nd ->
    series s r net nd (FromConverter name) (entry (ov_dest rv)).

(** Mean, variance, maximum and the two groups of a gaussian figure. *)
Definition gauss_of (values rac : list Q) (z : gauss) : Prop :=
  gaussian_of values rac (ga_mean z) (ga_var z) (ga_max z) (ga_green z) (ga_red z).

(** The figure shows the numbers that the view asks for. *)
Inductive shown (s : study) (r : result) (net nd : string) : view -> Titles.drawn -> Prop :=
| W_timeline e f c : series s r net nd e f -> timeline_of (st_nb_scn s) (st_horizon s) f c -> shown s r net nd (Timeline e) (DTimeline c)
| W_monotone_scn e f scn y : series s r net nd e f -> scn < st_nb_scn s ->
    monotone_of (map (f scn) (seq 0 (st_horizon s))) y -> shown s r net nd (Monotone e None (Some (Z.of_nat scn))) (DMonotone y)
| W_monotone_t e f t y : series s r net nd e f -> t < st_horizon s ->
    monotone_of (map (fun scn => f scn t) (seq 0 (st_nb_scn s))) y -> shown s r net nd (Monotone e (Some (Z.of_nat t)) None) (DMonotone y)
| W_gauss_scn e f scn z : series s r net nd e f -> scn < st_nb_scn s ->
    gauss_of (map (f scn) (seq 0 (st_horizon s))) (map (remaining s r net scn) (seq 0 (st_horizon s))) z ->
    shown s r net nd (Gaussian e None (Some (Z.of_nat scn))) (DGaussian z)
| W_gauss_t e f t z : series s r net nd e f -> t < st_horizon s ->
    gauss_of (map (fun scn => f scn t) (seq 0 (st_nb_scn s))) (map (fun scn => remaining s r net scn t) (seq 0 (st_nb_scn s))) z ->
    shown s r net nd (Gaussian e (Some (Z.of_nat t)) None) (DGaussian z)
| W_candles x o scn open close : is_element n_stors on_stors s r net nd x o -> scn < st_nb_scn s ->
    candles_of s x o scn open close -> shown s r net nd (Candles (Storage (s_name x)) (Z.of_nat scn)) (DCandles (open, close))
| W_stack scn kp kc areas lines : scn < st_nb_scn s -> stack_of s r net nd scn kp kc areas lines ->
    shown s r net nd (Stack (Z.of_nat scn) kp kc) (DStack (areas, lines)).

(** Elements of one node, of which a figure can show two kinds of data. *)
Definition plain_element (e : element) : Prop :=
  match e with
  | Consumption _ k => k = "asked" \/ k = "given"
  | Production _ k | Link _ k => k = "avail" \/ k = "used"
  | _ => False
  end.
Definition about (e : element) (v : view) : Prop :=
  match v with Timeline e' | Monotone e' _ _ | Gaussian e' _ _ => e' = e | _ => False end.
(** The study does not have the element, the time or the scenario of a monotone view. *)
Definition missing (s : study) (r : result) (net nd : string) (v : view) : Prop :=
  match v with
  | Monotone e t scn => (forall f, ~ series s r net nd e f) \/
      (exists z, t = Some z /\ scn = None /\ ~ (0 <= z < Z.of_nat (st_horizon s))%Z) \/
      (exists z, scn = Some z /\ t = None /\ ~ (0 <= z < Z.of_nat (st_nb_scn s))%Z)
  | _ => False
  end.
