(** Property C77: the redshift PDF object: resampling, regular grid, extension to the right. *)
From Verif Require Import Base RangeModel RangeSpec RangeProofs RangeGridProofs ZGridModel LogZModel LogZSpec LogZProofs LogZProofs2 LogZProofs4.
Open Scope Q_scope.

(** The constructor: the redshifts are the grid of the parameters, without values every redshift gets -DBL_MAX, a list of
    another size is rejected. *)
Theorem C77_construct : forall grid1 ps vals z, list_grid grid1 ps = Ok z ->
  (vals = [] -> exists p, construct grid1 ps vals = Ok p /\ p_z p = z /\ length (p_val p) = length z /\
     (forall v, In v (p_val p) -> v = Some minus_dbl_max) /\ described p ps) /\
  (vals <> [] -> length vals = length z -> exists p, construct grid1 ps vals = Ok p /\ p_z p = z /\ p_val p = vals /\ described p ps) /\
  (vals <> [] -> length vals <> length z -> construct grid1 ps vals = Throw INTERNAL_ERROR).
Proof. exact construct_spec. Qed.
Print Assumptions C77_construct.

(** With the linear sampling that grid is the one of C36. *)
Theorem C77_linear_grid : forall ps, list_grid getZGrid1 ps = getZGrid ps.
Proof. exact list_grid_lin. Qed.
Print Assumptions C77_linear_grid.

(** Every constructed object has one value per redshift and gives its parameters back. *)
Theorem C77_constructed : forall grid1 ps vals p, construct grid1 ps vals = Ok p ->
  described p ps /\ list_grid grid1 ps = Ok (p_z p) /\ length (p_val p) = length (p_z p).
Proof. exact construct_inv. Qed.
Print Assumptions C77_constructed.
Theorem C77_parameters_given_back : forall p ps, described p ps -> getZGridParams p = Ok ps.
Proof. exact params_roundtrip. Qed.
Print Assumptions C77_parameters_given_back.

(** Resampling: linear interpolation between the two neighbours at every target redshift inside the curve, NaN outside,
    the parameters are kept; whatever the order of the target redshifts (the search starts from the last interval). *)
Theorem C77_resampling : forall p target, curve p -> target <> [] ->
  exists p', interpolateOnGrid p target = Ok p' /\ resampled p p' target /\
    p_center p' = p_center p /\ p_min p' = p_min p /\ p_max p' = p_max p /\ p_step p' = p_step p.
Proof. exact interpolateOnGrid_spec. Qed.
Print Assumptions C77_resampling.
(** A NaN value makes NaN the values interpolated in the two intervals it bounds. *)
Theorem C77_nan_neighbours : forall p target, strictly_increasing (p_z p) -> length (p_val p) = length (p_z p) ->
  (2 <= length (p_z p))%nat -> target <> [] ->
  exists p', interpolateOnGrid p target = Ok p' /\
    forall k x, nth_error target k = Some x -> nan_between (p_z p) (p_val p) x -> nth_error (p_val p') k = Some None.
Proof. exact interpolateOnGrid_nan. Qed.
Print Assumptions C77_nan_neighbours.
(** The interpolated curve goes through the samples and stays between the extreme values. *)
Theorem C77_through_the_samples : forall zs vs x y k v, strictly_increasing zs -> on_segment zs vs x y ->
  nth_error zs k = Some x -> nth_error vs k = Some (Some v) -> y == v.
Proof. exact on_segment_node. Qed.
Print Assumptions C77_through_the_samples.
Theorem C77_no_overshoot : forall zs vs x y m M, strictly_increasing zs -> on_segment zs vs x y ->
  (forall v, In (Some v) vs -> m <= v /\ v <= M) -> m <= y /\ y <= M.
Proof. exact on_segment_bounded. Qed.
Print Assumptions C77_no_overshoot.
(** Fewer than two points, or redshifts that do not increase, are an error of the external library. *)
Theorem C77_not_interpolable : forall p target, p_z p <> [] -> target <> [] ->
  ((length (p_val p) < 2)%nat \/ (length (p_val p) = length (p_z p) /\ ~ strictly_increasing (p_z p))) ->
  interpolateOnGrid p target = Throw EXTERNAL_LIB_ERROR.
Proof. exact interpolateOnGrid_throw. Qed.
Print Assumptions C77_not_interpolable.

(** A regular PDF is not touched. *)
Theorem C77_regular_unchanged : forall grid1 oob fine p, length (p_center p) = 1%nat ->
  convertToRegular grid1 oob fine p = Ok p.
Proof. exact regular_unchanged. Qed.
Print Assumptions C77_regular_unchanged.
(** Coarse conversion: the PDF resampled on the grid of the first parameter, which becomes the only one. *)
Theorem C77_coarse_conversion : forall grid1 oob p q q1 r target, described p (q :: q1 :: r) -> curve p ->
  grid1 q = Ok target -> target <> [] ->
  exists p', convertToRegular grid1 oob false p = Ok p' /\ resampled p p' target /\ described p' [q].
Proof. exact convert_coarse. Qed.
Print Assumptions C77_coarse_conversion.
(** Fine conversion (the default): undefined behaviour for every irregular PDF whose sub-grids have the same step. *)
Theorem C77_fine_conversion_refuted : forall grid1 p q q1 r, described p (q :: q1 :: r) ->
  (forall q', In q' r -> zp_step q' == zp_step q1) -> convertToRegular grid1 None true p = UB.
Proof. exact convert_fine_UB. Qed.
Print Assumptions C77_fine_conversion_refuted.
(** What is meant (and what happens when the read past the end returns the old second step): the PDF resampled on the
    first range with the step of the sub-grids. *)
Theorem C77_fine_conversion_partial : forall grid1 p q q1 r target, described p (q :: q1 :: r) -> curve p ->
  (forall q', In q' r -> zp_step q' == zp_step q1) ->
  grid1 (with_step q (zp_step q1)) = Ok target -> target <> [] ->
  exists p', convertToRegular grid1 (Some (zp_step q1)) true p = Ok p' /\ resampled p p' target /\
    described p' [with_step q (zp_step q1)].
Proof. exact convert_fine. Qed.
Print Assumptions C77_fine_conversion_partial.
(** Sub-grids with different steps are rejected. *)
Theorem C77_different_steps_rejected : forall grid1 oob p q q1 r q', described p (q :: q1 :: r) -> In q' r ->
  ~ zp_step q' == zp_step q1 -> convertToRegular grid1 oob true p = Throw INTERNAL_ERROR.
Proof. exact convert_fine_throw. Qed.
Print Assumptions C77_different_steps_rejected.
(** No NaN appears when the curve covers the target grid ... *)
Theorem C77_no_nan : forall p p' t, resampled p p' t -> (forall x, In x t -> covered_by (p_z p) x) ->
  forall v, In v (p_val p') -> v <> None.
Proof. exact resampled_no_nan. Qed.
Print Assumptions C77_no_nan.

(** Extension of a regular linear PDF to the right: the old values are kept on the old redshifts (the last one moves by
    at most 1e-8), the new redshifts get the last value, and the grid is the one of the extended range. *)
Theorem C77_extension_keeps_the_pdf : forall p q zend,
  described p [q] -> zp_center q = None -> getZGrid1 q = Ok (p_z p) -> length (p_val p) = length (p_z p) ->
  well_formed (zp_range q) -> default_epsilon < zp_step q -> rend (zp_range q) < zend ->
  (zend - rbeg (zp_range q) + default_epsilon) / zp_step q < int32_max ->
  exists p' lastv, extrapolate_on_right_border getZGrid1 p zend = Ok p' /\ described p' [with_end q zend] /\
    getZGrid1 (with_end q zend) = Ok (p_z p') /\ length (p_val p') = length (p_z p') /\
    (length (p_z p) <= length (p_z p'))%nat /\
    (forall i v, nth_error (p_val p) i = Some v -> nth_error (p_val p') i = Some v) /\
    nth_error (p_val p) (length (p_val p) - 1) = Some lastv /\
    (forall i v, (length (p_val p) <= i)%nat -> nth_error (p_val p') i = Some v -> v = lastv) /\
    (forall i x, nth_error (p_z p) i = Some x -> exists x', nth_error (p_z p') i = Some x' /\
       x <= x' /\ x' <= x + default_epsilon /\ ((S i < length (p_z p))%nat -> x' == x)).
Proof. exact extrapolate_lin. Qed.
Print Assumptions C77_extension_keeps_the_pdf.
Theorem C77_no_extension : forall grid1 p zmax0 zend, nth_error (p_max p) 0 = Some zmax0 -> zend <= zmax0 ->
  extrapolate_on_right_border grid1 p zend = Ok p.
Proof. exact extrapolate_noop. Qed.
Print Assumptions C77_no_extension.

(** The Python entry point: conversion, then extension when the requested end is beyond the range. *)
Theorem C77_handler_partial : forall p q q1 r target zm,
  described p (q :: q1 :: r) -> curve p -> (forall q', In q' r -> zp_step q' == zp_step q1) -> zp_center q = None ->
  well_formed (zp_range q) -> default_epsilon < zp_step q1 -> rend (zp_range q) < zm ->
  (zm - rbeg (zp_range q) + default_epsilon) / zp_step q1 < int32_max ->
  getZGrid1 (with_step q (zp_step q1)) = Ok target -> target <> [] ->
  exists p1 p2, convertToRegular getZGrid1 (Some (zp_step q1)) true p = Ok p1 /\ resampled p p1 target /\
    handler_convert getZGrid1 (Some (zp_step q1)) true (Some zm) p = Ok p2 /\
    getZGrid1 (with_end (with_step q (zp_step q1)) zm) = Ok (p_z p2) /\ length (p_val p2) = length (p_z p2) /\
    (forall i v, nth_error (p_val p1) i = Some v -> nth_error (p_val p2) i = Some v) /\
    handler_convert getZGrid1 (Some (zp_step q1)) true None p = Ok p1.
Proof.
  intros p q q1 r target zm D C Hst Hc Hwf Hs Hz Hbig G Ht.
  destruct (convert_fine getZGrid1 p q q1 r target D C Hst G Ht) as (p1 & E1 & R1 & D1).
  destruct R1 as (R1 & R2 & R3).
  destruct (extrapolate_lin p1 (with_step q (zp_step q1)) zm D1) as (p2 & lv & E2 & _ & G2 & L2 & _ & K2 & _);
    try (cbn [with_step zp_center zp_range zp_step]; assumption).
  - rewrite R1. exact G.
  - rewrite R1. exact R2.
  - exists p1, p2. split; [exact E1|]. split; [exact (conj R1 (conj R2 R3))|]. split.
    + unfold handler_convert. rewrite E1. cbn [rbind]. destruct D1 as (_ & _ & D1 & _). rewrite D1.
      cbn [map vget nth_error rbind with_step zp_range]. destruct (Qltb_spec (rend (zp_range q)) zm) as [_|N]; [exact E2|contradiction].
    + split; [exact G2|]. split; [exact L2|]. split; [exact K2|]. unfold handler_convert. rewrite E1. reflexivity.
Qed.
Print Assumptions C77_handler_partial.

(** *** concrete cases *)
Definition ex_params : list zparam :=
  [mkZParam (mkRange 0 3) 1 None; mkZParam (mkRange (1#2) (3#2)) (1#2) (Some 1)].
Definition ex_vals : list flt := [Some 0; Some 4; Some 6; Some 2; Some 0; Some (-8)].
Definition ex_pdf : zpdf :=
  mkZpdf [0; 1#2; 1; 3#2; 2; 3] ex_vals [None; Some 1] [0; 1#2] [3; 3#2] [1; 1#2].
Definition same_pdf (a b : zpdf) : bool :=
  (forallb (fun '(x, y) => Qeq_bool x y) (combine (p_z a) (p_z b)) && Nat.eqb (length (p_z a)) (length (p_z b)) &&
   forallb (fun '(x, y) => match x, y with Some u, Some v => Qeq_bool u v | None, None => true | _, _ => false end)
     (combine (p_val a) (p_val b)) && Nat.eqb (length (p_val a)) (length (p_val b)))%bool.
Definition gives (r : res zpdf) (b : zpdf) : bool := match r with Ok a => same_pdf a b | _ => false end.

Example C77_ex_construct : gives (construct getZGrid1 ex_params ex_vals) ex_pdf = true.
Proof. vm_compute. reflexivity. Qed.
Example C77_ex_described : described ex_pdf ex_params /\ (forall q', In q' (@nil zparam) -> zp_step q' == (1#2)).
Proof. split; [repeat split; reflexivity|intros q' []]. Qed.
Example C77_ex_curve : curve ex_pdf.
Proof.
  split; [|split; [reflexivity|split; [simpl; lia|]]].
  - repeat (apply strictly_increasing_cons; [simpl; intros; intuition (subst; lra)|]). apply strictly_increasing_nil.
  - simpl. intros v H. intuition (subst; discriminate).
Qed.
Example C77_ex_coarse : gives (convertToRegular getZGrid1 None false ex_pdf)
  (mkZpdf [0; 1; 2; 3] [Some 0; Some 6; Some 0; Some (-8)] [] [] [] []) = true.
Proof. vm_compute. reflexivity. Qed.
Example C77_ex_fine : gives (convertToRegular getZGrid1 (Some (1#2)) true ex_pdf)
  (mkZpdf [0; 1#2; 1; 3#2; 2; 5#2; 3] [Some 0; Some 4; Some 6; Some 2; Some 0; Some (-4); Some (-8)] [] [] [] []) = true.
Proof. vm_compute. reflexivity. Qed.
Example C77_ex_handler : gives (handler_convert getZGrid1 (Some (1#2)) true (Some (9#2)) ex_pdf)
  (mkZpdf [0; 1#2; 1; 3#2; 2; 5#2; 3; 7#2; 4; 9#2]
     [Some 0; Some 4; Some 6; Some 2; Some 0; Some (-4); Some (-8); Some (-8); Some (-8); Some (-8)] [] [] [] []) = true.
Proof. vm_compute. reflexivity. Qed.
Example C77_ex_unsorted_target : gives (interpolateOnGrid ex_pdf [5#2; 1#4; 3; 4; 0])
  (mkZpdf [5#2; 1#4; 3; 4; 0] [Some (-4); Some 2; Some (-8); None; Some 0] [] [] [] []) = true.
Proof. vm_compute. reflexivity. Qed.

(** ... but when the coarse grid stops short of the end of its range, the finer grid goes past the last redshift and
    the conversion of a PDF without NaN puts one at the border *)
Theorem C77_nan_at_the_border_refuted : exists ps vals p p' q q1 r,
  construct getZGrid1 ps vals = Ok p /\ curve p /\ described p (q :: q1 :: r) /\
  convertToRegular getZGrid1 (Some (zp_step q1)) true p = Ok p' /\ In None (p_val p').
Proof.
  set (ps := [mkZParam (mkRange 0 (11#4)) 1 None; mkZParam (mkRange (1#2) (3#2)) (1#2) (Some 1)]).
  destruct (construct getZGrid1 ps [Some 0; Some 4; Some 6; Some 2; Some 0]) as [p| |] eqn:E;
    [|vm_compute in E; discriminate|vm_compute in E; discriminate].
  destruct (construct_inv _ _ _ _ E) as (D & _ & Ln).
  destruct (convertToRegular getZGrid1 (Some (1#2)) true p) as [p'| |] eqn:F;
    [|vm_compute in E; injection E as <-; vm_compute in F; discriminate|vm_compute in E; injection E as <-; vm_compute in F; discriminate].
  exists ps, [Some 0; Some 4; Some 6; Some 2; Some 0], p, p', (mkZParam (mkRange 0 (11#4)) 1 None),
    (mkZParam (mkRange (1#2) (3#2)) (1#2) (Some 1)), [].
  split; [exact E|]. split; [|split; [exact D|split; [exact F|]]].
  - vm_compute in E. injection E as <-. split; [|split; [reflexivity|split; [simpl; lia|]]].
    + cbn [p_z]. apply all_increasing_spec. vm_compute. reflexivity.
    + simpl. intros v H. intuition (subst; discriminate).
  - vm_compute in E. injection E as <-. vm_compute in F. injection F as <-. cbn [p_val]. simpl. auto 10.
Qed.
Print Assumptions C77_nan_at_the_border_refuted.
