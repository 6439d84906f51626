(** Properties C23 (linear rebinning) and C24 (nearest sample, spline and fine grid rebinning). *)
From Coq Require Import String.
From Verif Require Import Base RangeModel RangeSpec RebinModel RebinSpec RebinProofs.
Open Scope Q_scope.

(** Every target sample gets a cell; the cell is valid exactly on the reached wavelengths, valid cells hold the linear
    interpolation inside a source interval containing the wavelength, the others are zero. *)
Theorem C23_linear_rebinning : forall opt s b e Xt,
  wf_source s -> increasing Xt -> range_inside s b e ->
  (opt = OptRebinVariance -> (2 <= length Xt)%nat /\ strictly_increasing Xt) ->
  exists out, compute rebinLinear opt s b e Xt = Ok out /\ length out = length Xt /\
    forall i x, nth_error Xt i = Some x -> exists c, nth_error out i = Some c /\
      (c_mask c = true <-> lin_reached s b e x) /\
      (c_mask c = true -> exists k, interpolates s (s_Y s) k x (c_flux c) /\ lin_noise opt s Xt i k x (c_err c)) /\
      (c_mask c = false -> c_flux c = 0 /\ outside_noise opt (c_err c)).
Proof. exact linear_spec. Qed.
Print Assumptions C23_linear_rebinning.

Theorem C23_every_sample_of_the_range_is_reached : forall s b e x,
  wf_source s -> range_inside s b e -> (2 <= length (s_X s))%nat -> b <= x -> x <= e -> lin_reached s b e x.
Proof. exact in_range_reached. Qed.
Print Assumptions C23_every_sample_of_the_range_is_reached.

(** an interpolated value lies between the two neighbouring values, and equals the source value on a source sample *)
Theorem C23_interpolation_never_overshoots : forall s V k x v lo hi,
  strictly_increasing (s_X s) -> interpolates s V k x v ->
  (forall y, nth_error V k = Some y \/ nth_error V (S k) = Some y -> lo <= y /\ y <= hi) -> lo <= v /\ v <= hi.
Proof. exact interpolates_between. Qed.
Print Assumptions C23_interpolation_never_overshoots.

Theorem C23_interpolation_exact_on_source_samples : forall s V k x v j xj vj,
  strictly_increasing (s_X s) -> interpolates s V k x v ->
  nth_error (s_X s) j = Some xj -> nth_error V j = Some vj -> x == xj -> v == vj.
Proof. exact interpolates_at_node. Qed.
Print Assumptions C23_interpolation_exact_on_source_samples.

(** ranges not covered by the source are refused by every operator *)
Theorem C23_uncovered_range_rejected : forall op opt s b e Xt x0 xl,
  nth_error (s_X s) 0 = Some x0 -> nth_error (s_X s) (length (s_X s) - 1) = Some xl ->
  b < x0 \/ xl < e -> compute op opt s b e Xt = Throw INTERNAL_ERROR.
Proof. exact range_outside_throws. Qed.
Print Assumptions C23_uncovered_range_rejected.

Definition C23_src : source := mkSource [0; 10; 20; 30] [0; 100; 300; 0] [1; 2; 3; 4].

(** "zero mask outside the range" fails: the linear operator also fills the targets between the end of the range and
    the next source sample. *)
Theorem C23_zero_outside_range_refuted :
  wf_source C23_src /\ range_inside C23_src 5 12 /\
  exists c, compute rebinLinear OptNo C23_src 5 12 [4; 8; 15; 25] = Ok
     [mkCell 0 false (EVal 1); mkCell (800#10) true (EVal 1); c; mkCell 0 false (EVal 1)] /\
   12 < 15 /\ c_mask c = true /\ c_flux c == 200.
Proof.
  split; [|split].
  - split; [|split; reflexivity]. intros i j x y Hij Hx Hy.
    do 5 (destruct i as [|i]; [do 5 (destruct j as [|j]; [simpl in *; try lia; inversion Hx; inversion Hy; subst; reflexivity|]); simpl in Hy; destruct j; discriminate|]).
    simpl in Hx. destruct i; discriminate.
  - exists 0, 30. split; [reflexivity|]. split; [reflexivity|]. split; discriminate.
  - eexists. split; [vm_compute; reflexivity|]. split; [reflexivity|]. split; reflexivity.
Qed.
Print Assumptions C23_zero_outside_range_refuted.

(** A source of one sample covers the degenerate range [x0, x0], yet its only wavelength is left invalid. *)
Theorem C23_single_sample_source_refuted : forall x0 y0 e0 opt,
  range_inside (mkSource [x0] [y0] [e0]) x0 x0 /\
  compute rebinLinear opt (mkSource [x0] [y0] [e0]) x0 x0 [x0] = Ok [outside_cell opt].
Proof.
  intros. split.
  - exists x0, x0. repeat split; apply Qle_refl.
  - unfold compute, vget. simpl. destruct (Qltb_spec x0 x0) as [H|H]; [exfalso; lra|]. reflexivity.
Qed.
Print Assumptions C23_single_sample_source_refuted.

(** With the variance option and a single target sample, the compensation reads the target axis at index -1. *)
Theorem C23_single_target_variance_refuted : forall s b e x xk xk1 yk yk1 ek ek1,
  s_X s = [xk; xk1] -> s_Y s = [yk; yk1] -> s_E s = [ek; ek1] -> xk <= b -> b <= x -> x <= e -> e <= xk1 ->
  compute rebinLinear OptRebinVariance s b e [x] = UB.
Proof.
  intros s b e x xk xk1 yk yk1 ek ek1 HX HY HE H1 H2 H3 H4. unfold compute, vget. rewrite HX. simpl.
  destruct (Qltb_spec b xk); [exfalso; lra|]. destruct (Qltb_spec xk1 e); [exfalso; lra|]. simpl.
  destruct (Qltb_spec x b); [exfalso; lra|]. unfold rebinLinear. rewrite HX. simpl. unfold vget. rewrite HX. simpl.
  destruct (Qle_bool_spec xk e); [|exfalso; lra].
  destruct (Qle_bool_spec x xk1); [|exfalso; lra].
  unfold lin_cell, vget. rewrite HX, HY, HE. simpl. reflexivity.
Qed.
Print Assumptions C23_single_target_variance_refuted.

Example C23_nonvacuous :
  compute rebinLinear OptRebin C23_src 5 20 [4; 8; 10; 15; 20; 25; 31] = Ok
   [mkCell 0 false EInf; mkCell (800#10) true (EVal (18#10)); mkCell (1000#10) true (EVal (20#10));
    mkCell (2000#10) true (EVal (25#10)); mkCell (3000#10) true (EVal (30#10));
    mkCell (1500#10) true (EVal (35#10)); mkCell 0 false EInf] /\
  compute rebinLinear OptNo C23_src 5 31 [4; 8] = Throw INTERNAL_ERROR.
Proof. vm_compute. split; reflexivity. Qed.

Theorem C24_nearest_sample_rebinning : forall opt s b e Xt,
  wf_source s -> (2 <= length (s_X s))%nat -> increasing Xt -> range_inside s b e ->
  (opt = OptRebinVariance -> (2 <= length Xt)%nat /\ strictly_increasing Xt) ->
  exists out, compute rebinNgp opt s b e Xt = Ok out /\ length out = length Xt /\
    forall i x, nth_error Xt i = Some x -> exists c, nth_error out i = Some c /\
      (b <= x /\ x <= e -> c_mask c = true /\ exists k y, nearest (s_X s) x k /\ nth_error (s_Y s) k = Some y /\
          c_flux c = y /\ ngp_noise opt s Xt i k (c_err c)) /\
      (~ (b <= x /\ x <= e) -> c_mask c = false /\ c_flux c = 0 /\ outside_noise opt (c_err c)).
Proof. exact ngp_spec. Qed.
Print Assumptions C24_nearest_sample_rebinning.

(** a source of one sample makes the NGP operator read the source axis at index -1 *)
Theorem C24_single_sample_source_refuted : forall x0 y0 e0 opt,
  compute rebinNgp opt (mkSource [x0] [y0] [e0]) x0 x0 [x0] = UB.
Proof.
  intros. unfold compute, vget. simpl. destruct (Qltb_spec x0 x0) as [H|H]; [exfalso; lra|]. simpl.
  unfold rebinNgp. simpl. destruct (Qle_bool_spec x0 x0) as [K|K]; [|exfalso; lra].
  unfold ngp_cell, getCloserIndex. simpl. destruct (Qltb_spec x0 x0); [exfalso; lra|]. reflexivity.
Qed.
Print Assumptions C24_single_sample_source_refuted.

(** Spline: the external spline is evaluated at every target of the range and nowhere else. *)
Theorem C24_spline_rebinning : forall gsl s b e Xt,
  wf_source s -> (3 <= length (s_X s))%nat -> increasing Xt -> range_inside s b e ->
  exists out, compute (rebinSpline gsl) OptNo s b e Xt = Ok out /\ length out = length Xt /\
    forall i x, nth_error Xt i = Some x -> exists c, nth_error out i = Some c /\
      (b <= x /\ x <= e -> c = mkCell (gsl (s_X s) (s_Y s) x) true (EVal 1)) /\
      (~ (b <= x /\ x <= e) -> c = mkCell 0 false (EVal 1)).
Proof. exact spline_spec. Qed.
Print Assumptions C24_spline_rebinning.

Theorem C24_spline_noise_not_implemented : forall gsl opt s b e Xt i x,
  opt <> OptNo -> wf_source s -> (3 <= length (s_X s))%nat ->
  increasing Xt -> range_inside s b e -> nth_error Xt i = Some x -> b <= x -> x <= e ->
  compute (rebinSpline gsl) opt s b e Xt = Throw INTERNAL_ERROR.
Proof. exact spline_noise_throws. Qed.
Print Assumptions C24_spline_noise_not_implemented.

(** Fine grid: every target of the range reads the buffer inside its bounds, at a grid point at most half a step
    (0.05 Angstrom) away; beyond the last source wavelength the buffer holds zero. *)
Theorem C24_fine_grid_rebinning : forall gsl s b e Xt lmin lmax,
  wf_source s -> (3 <= length (s_X s))%nat -> increasing Xt -> range_inside s b e ->
  nth_error (s_X s) 0 = Some lmin -> nth_error (s_X s) (length (s_X s) - 1) = Some lmax ->
  lmax - lmin <= 200000000 ->
  exists out, compute (rebinFine gsl) OptNo s b e Xt = Ok out /\ length out = length Xt /\
    forall i x, nth_error Xt i = Some x -> exists c, nth_error out i = Some c /\
      (b <= x /\ x <= e -> c_mask c = true /\ c_err c = EVal 1 /\
         exists k : nat, let g := lmin + inject_Z (Z.of_nat k) * (1 # 10) in
           Qabs (g - x) <= 5 # 100 /\
           (g <= lmax -> c_flux c = gsl (s_X s) (s_Y s) g) /\ (lmax < g -> c_flux c = 0)) /\
      (~ (b <= x /\ x <= e) -> c = mkCell 0 false (EVal 1)).
Proof. exact finegrid_spec. Qed.
Print Assumptions C24_fine_grid_rebinning.

(** At the red edge the rounding can select the zero padding: a sample inside the range and inside the source gets
    flux 0 with a valid mask, whatever the (here constant 7) spline. *)
Theorem C24_fine_grid_edge_refuted :
  exists s, wf_source s /\ range_inside s 0 (106#100) /\
   compute (rebinFine (fun _ _ _ => 7)) OptNo s 0 (106#100) [1; 106#100] =
     Ok [mkCell 7 true (EVal 1); mkCell 0 true (EVal 1)].
Proof.
  exists (mkSource [0; 1#2; 106#100] [7; 7; 7] [1; 1; 1]). split; [|split].
  - split; [|split; reflexivity]. intros i j x y Hij Hx Hy.
    do 4 (destruct i as [|i]; [do 4 (destruct j as [|j]; [simpl in *; try lia; inversion Hx; inversion Hy; subst; reflexivity|]); simpl in Hy; destruct j; discriminate|]).
    simpl in Hx. destruct i; discriminate.
  - exists 0, (106#100). split; [reflexivity|]. split; [reflexivity|]. split; discriminate.
  - vm_compute. reflexivity.
Qed.
Print Assumptions C24_fine_grid_edge_refuted.

(** the operator names accepted *)
Theorem C24_operator_names : forall n, match create n with
  | Ok OpLinear => n = "lin"%string | Ok OpFineGrid => n = "preComputedFineGrid"%string
  | Ok OpSpline => n = "spline"%string | Ok OpNgp => n = "ngp"%string
  | Throw e => e = INVALID_PARAMETER /\ ~ In n ["lin"; "preComputedFineGrid"; "spline"; "ngp"]%string
  | UB => False end.
Proof. exact create_spec. Qed.
Print Assumptions C24_operator_names.

Example C24_nonvacuous :
  compute rebinNgp OptRebinVariance C23_src 5 20 [4; 8; 12; 20; 25] = Ok
   [mkCell 0 false EInf; mkCell 100 true (EScaled 2 (10#4)); mkCell 100 true (EScaled 2 (10#8));
    mkCell 300 true (EScaled 3 (10#5)); mkCell 0 false EInf] /\
  compute (rebinSpline (fun _ _ x => x * x)) OptRebin C23_src 5 20 [8] = Throw INTERNAL_ERROR /\
  compute (rebinSpline (fun _ _ x => x * x)) OptNo C23_src 5 20 [4; 8] =
    Ok [mkCell 0 false (EVal 1); mkCell 64 true (EVal 1)].
Proof. vm_compute. repeat split. Qed.
