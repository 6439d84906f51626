(** Property C53: line profiles. *)
From Coq Require Import String.
From Coquelicot Require Import Coquelicot.
From Verif Require Import Base RBase GaussInt LProfModel LProfSpec LProfProofs LProfAsym.
Open Scope R_scope.

(** ** Gaussian profile *)
Theorem C53_gaussian_shape : forall x y x0 d s, s <> 0 ->
  0 < sym_val x x0 s <= 1 /\ (sym_val x x0 s = 1 <-> x = x0) /\ sym_val (x0 + d) x0 s = sym_val (x0 - d) x0 s /\
  (Rabs (x - x0) < Rabs (y - x0) -> sym_val y x0 s < sym_val x x0 s).
Proof.
  intros x y x0 d s S. destruct (sym_range x x0 s S) as [A B]. split; [exact A|]. split; [exact B|].
  split; [apply sym_symmetric|apply sym_decreasing; exact S].
Qed.
Print Assumptions C53_gaussian_shape.
Theorem C53_gaussian_derivative_centre : forall x x0 s, s <> 0 -> is_derive (fun c => sym_val x c s) x0 (sym_deriv_x0 x x0 s).
Proof. exact sym_deriv_x0_ok. Qed.
Print Assumptions C53_gaussian_derivative_centre.
Theorem C53_gaussian_derivative_width : forall x x0 s, s <> 0 -> is_derive (fun w => sym_val x x0 w) s (sym_deriv_sigma x x0 s).
Proof. exact sym_deriv_sigma_ok. Qed.
Print Assumptions C53_gaussian_derivative_width.
(** the line flux is the integral of the line over the whole wavelength axis *)
Theorem C53_gaussian_flux : forall x0 s A, 0 < s -> total_integral (fun x => A * sym_val x x0 s) (sym_flux x0 s A).
Proof. exact sym_flux_ok. Qed.
Print Assumptions C53_gaussian_flux.

(** ** Lorentzian profile *)
Theorem C53_lorentzian_shape : forall x y x0 d s, s <> 0 ->
  0 < lor_val x x0 s <= 1 /\ (lor_val x x0 s = 1 <-> x = x0) /\ lor_val (x0 + d) x0 s = lor_val (x0 - d) x0 s /\
  (Rabs (x - x0) < Rabs (y - x0) -> lor_val y x0 s < lor_val x x0 s) /\ lor_val (x0 + s) x0 s = 1 / 2.
Proof.
  intros x y x0 d s S. destruct (lor_range x x0 s S) as [A B]. split; [exact A|]. split; [exact B|].
  split; [apply lor_symmetric|]. split; [apply lor_decreasing; exact S|apply lor_half; exact S].
Qed.
Print Assumptions C53_lorentzian_shape.
Theorem C53_lorentzian_flux : forall x0 s A, 0 < s -> total_integral (fun x => A * lor_val x x0 s) (lor_flux x0 s A).
Proof. exact lor_flux_ok. Qed.
Print Assumptions C53_lorentzian_flux.
Theorem C53_lorentzian_has_no_derivative : forall x x0 s,
  lor_deriv_x0 x x0 s = Throw INTERNAL_ERROR /\ lor_deriv_sigma x x0 s = Throw INTERNAL_ERROR.
Proof. split; reflexivity. Qed.
Print Assumptions C53_lorentzian_has_no_derivative.
Theorem C53_support : forall n p c, sym_support n = n /\ lor_support n = 2 * n /\
  (ap_coeff p = Some c -> asym_support p = Some (ap_nsigma p * c * ap_const p)) /\
  forall fit q cm, ap_const (asym_new fit n q cm) = (if in_dec string_dec cm ["mean"; "mode"]%string then 5 / 2 else 1).
Proof.
  intros n p c. split; [reflexivity|]. split; [unfold lor_support; ring|]. split; [intro H; unfold asym_support; rewrite H; reflexivity|].
  intros fit [[a b] d] cm. unfold asym_new. cbn [ap_const]. destruct (in_dec string_dec cm ["mean"; "mode"]%string) as [H|H].
  - destruct H as [<-|[<-|[]]]; reflexivity.
  - destruct (String.eqb_spec cm "mean") as [->|]; [exfalso; apply H; left; reflexivity|].
    destruct (String.eqb_spec cm "mode") as [->|]; [exfalso; apply H; right; left; reflexivity|reflexivity].
Qed.
Print Assumptions C53_support.

(** ** asymmetric profile of parameters (coefficient c, asymmetry a, shift d); [aok]: no NaN, and no shift without centering *)
Theorem C53_asymmetric_value : forall p c a d x x0 s, aok p c a d -> s * c <> 0 ->
  asym_val p x x0 s = Ok (Some (skew a ((x - (x0 - d - s * c * asym_m0 (ap_centering p) a)) / (s * c)))).
Proof. exact asym_val_eq. Qed.
Print Assumptions C53_asymmetric_value.
Theorem C53_asymmetric_range : forall p c a d x x0 s, aok p c a d -> s * c <> 0 -> exists v, asym_val p x x0 s = Ok (Some v) /\ 0 < v < 2.
Proof. exact asym_range. Qed.
Print Assumptions C53_asymmetric_range.
(** without asymmetry it is the Gaussian profile *)
Theorem C53_asymmetric_without_asymmetry : forall p c x x0 s, aok p c 0 0 -> s * c <> 0 ->
  (ap_centering p = "none" \/ ap_centering p = "mean")%string -> asym_val p x x0 s = Ok (Some (sym_val x x0 (s * c))).
Proof. exact asym_alpha0. Qed.
Print Assumptions C53_asymmetric_without_asymmetry.
(** the opposite asymmetry gives the mirror profile *)
Theorem C53_asymmetric_mirror : forall p q c a t x0 s, aok p c a 0 -> aok q c (- a) 0 -> ap_centering q = ap_centering p -> s * c <> 0 ->
  (ap_centering p = "none" \/ ap_centering p = "mean")%string -> asym_val q (x0 - t) x0 s = asym_val p (x0 + t) x0 s.
Proof. exact asym_mirror. Qed.
Print Assumptions C53_asymmetric_mirror.
(** but never with the centering on the mode *)
Theorem C53_asymmetric_mirror_mode_refuted : forall p q c a x0 s, aok p c a 0 -> aok q c (- a) 0 ->
  ap_centering q = "mode"%string -> ap_centering p = "mode"%string -> 0 < s * c -> a <> 0 ->
  exists t, asym_val q (x0 - t) x0 s <> asym_val p (x0 + t) x0 s.
Proof. exact asym_mode_mirror. Qed.
Print Assumptions C53_asymmetric_mirror_mode_refuted.
Theorem C53_asymmetric_flux : forall p c a d x0 s A, aok p c a d -> 0 < s * c -> exists f v,
  (forall x, asym_val p x x0 s = Ok (Some (f x))) /\ asym_flux p x0 s A = Some v /\ total_integral (fun x => A * f x) v.
Proof. exact asym_flux_ok. Qed.
Print Assumptions C53_asymmetric_flux.
(** centering on the mean: the mean wavelength of the line is x0 - d *)
Theorem C53_asymmetric_mean : forall p c a d x0 s, aok p c a d -> 0 < s * c -> ap_centering p = "mean"%string -> exists f,
  (forall x, asym_val p x x0 s = Ok (Some (f x))) /\ total_integral (fun x => (x - (x0 - d)) * f x) 0.
Proof. exact asym_mean_ok. Qed.
Print Assumptions C53_asymmetric_mean.
Theorem C53_asymmetric_derivative_width : forall p c a d x x0 s, aok p c a d -> s * c <> 0 -> exists f v,
  (forall y, y * c <> 0 -> asym_val p x x0 y = Ok (Some (f y))) /\ asym_deriv_sigma p x x0 s = Ok (Some v) /\ is_derive f s v.
Proof. exact asym_deriv_sigma_ok. Qed.
Print Assumptions C53_asymmetric_derivative_width.
(** the returned derivative with respect to the centre is the derivative only without asymmetry *)
Theorem C53_asymmetric_derivative_centre_partial : forall p c d x x0 s, aok p c 0 d -> s * c <> 0 -> exists f v,
  (forall y, asym_val p x y s = Ok (Some (f y))) /\ asym_deriv_x0 p x x0 s = Ok (Some v) /\ is_derive f x0 v.
Proof.
  intros p c d x x0 s O S. destruct (asym_true_derx0 p c 0 d x x0 s O S) as [f [v [A [B D]]]]. exists f, v. split; [exact A|]. split; [exact B|].
  cbv zeta in D. unfold Rdiv in D. rewrite !Rmult_0_l, Rminus_0_r in D. exact D.
Qed.
Print Assumptions C53_asymmetric_derivative_centre_partial.
(** with any asymmetry it is wrong at every wavelength *)
Theorem C53_asymmetric_derivative_centre_refuted : forall p c a d x x0 s, aok p c a d -> s * c <> 0 -> a <> 0 -> exists f v w,
  (forall y, asym_val p x y s = Ok (Some (f y))) /\ asym_deriv_x0 p x x0 s = Ok (Some v) /\ is_derive f x0 w /\ v <> w.
Proof.
  intros p c a d x x0 s O S A0. destruct (asym_true_derx0 p c a d x x0 s O S) as [f [v [A [B D]]]]. cbv zeta in D. eexists f, v, _.
  split; [exact A|]. split; [exact B|]. split; [exact D|]. intro E. set (e := exp _) in E. assert (P : 0 < e) by apply exp_pos.
  assert (Z : a / sqrt (2 * PI) / (s * c) * e = 0) by lra. apply Rmult_integral in Z. destruct Z as [Z|Z]; [|lra].
  assert (0 < sqrt (2 * PI)) by (apply sqrt_lt_R0; pose proof PI_RGT_0; lra).
  unfold Rdiv in Z. apply Rmult_integral in Z. destruct Z as [Z|Z]; [|exact (Rinv_neq_0_compat _ S Z)].
  apply Rmult_integral in Z. destruct Z as [Z|Z]; [exact (A0 Z)|]. apply (Rinv_neq_0_compat (sqrt (2 * PI))); [lra|exact Z].
Qed.
Print Assumptions C53_asymmetric_derivative_centre_refuted.
(** NaN coefficient or asymmetry, and a shift without centering, are refused *)
Theorem C53_asymmetric_invalid : forall p x x0 s,
  (ap_coeff p = None \/ ap_alpha p = None -> asym_val p x x0 s = Throw INTERNAL_ERROR /\
     asym_deriv_x0 p x x0 s = Throw INTERNAL_ERROR /\ asym_deriv_sigma p x x0 s = Throw INTERNAL_ERROR) /\
  (forall c a, ap_coeff p = Some c -> ap_alpha p = Some a -> ap_centering p = "none"%string -> ap_delta p <> Some 0 ->
     asym_val p x x0 s = Throw INTERNAL_ERROR).
Proof. intros p x x0 s. split; [apply asym_nan|intros c a; apply asym_delta_none]. Qed.
Print Assumptions C53_asymmetric_invalid.
(** a NaN shift is not: the value is NaN *)
Theorem C53_asymmetric_nan_shift_refuted : forall p c a x x0 s, ap_coeff p = Some c -> ap_alpha p = Some a -> ap_delta p = None ->
  ap_centering p = "mean"%string -> asym_val p x x0 s = Ok None.
Proof. intros p c a x x0 s C A D M. unfold asym_val, with_valid, asym_isValid, GetXSurc. rewrite C, A, D, M. reflexivity. Qed.
Print Assumptions C53_asymmetric_nan_shift_refuted.
(** ** conversions and parameters *)
Theorem C53_conversions : forall fit n q cm,
  let p := asym_new fit n q cm in
  cloneToASYMFIT p = asym_new true n q cm /\ cloneToASYM p = asym_new false n q cm /\ GetAsymParams p = q /\
  (forall q', SetAsymParams p q' = asym_new fit n (if fit then q' else q) cm) /\
  resetParams p = asym_new fit n (if fit then (Some 2, Some 0, Some 0) else q) cm.
Proof. intros fit n [[c a] d] cm. destruct fit; repeat split; intros [[c' a'] d']; reflexivity. Qed.
Print Assumptions C53_conversions.

Example C53_nonvacuous : let p := asym_new false 8 (Some 2, Some (9 / 2), Some 0) "mean" in let q := asym_new true 8 (Some 2, Some (- (9 / 2)), Some 0) "mean" in
  aok p 2 (9 / 2) 0 /\ aok q 2 (- (9 / 2)) 0 /\ 0 < 3 * 2 /\ ap_centering p = "mean"%string /\ asym_support p = Some (8 * 2 * (5 / 2)).
Proof. repeat split; try reflexivity; try lra; intro H; discriminate. Qed.
Example C53_nonvacuous_mode : let p := asym_new false 8 (Some 2, Some 1, Some 0) "mode" in let q := asym_new false 8 (Some 2, Some (- (1)), Some 0) "mode" in
  aok p 2 1 0 /\ aok q 2 (- (1)) 0.
Proof. repeat split; intro H; discriminate. Qed.
