(** Properties C21 (smoothing) and C22 (flux/noise correction). *)
From Verif Require Import Base F64 MedianModel MedianSpec FluxModel FluxSpec FluxProofs.
Open Scope Q_scope.

Theorem C21_median_smoothing : forall v k, (0 <= k)%Z ->
  ((k = 0 \/ Z.of_nat (length v) <= k)%Z -> ApplyMedianSmooth v k = Ok (false, v)) /\
  ((0 < k < Z.of_nat (length v))%Z -> exists out, ApplyMedianSmooth v k = Ok (true, out) /\ length out = length v /\
     forall i, (i < length v)%nat -> exists x, nth_error out i = Some x /\ Find (neighbours v i k) = Ok x /\
        weak_median (neighbours v i k) x).
Proof. exact median_smooth_spec. Qed.
Print Assumptions C21_median_smoothing.

Theorem C21_mean_smoothing : forall v k, (0 <= k)%Z ->
  ((k = 0 \/ Z.of_nat (length v) <= k)%Z -> ApplyMeanSmooth v k = Ok (false, v)) /\
  ((0 < k < Z.of_nat (length v))%Z -> exists out, ApplyMeanSmooth v k = Ok (true, out) /\ length out = length v /\
     forall i, (i < length v)%nat -> exists x, nth_error out i = Some x /\
        x * inject_Z (Z.of_nat (length (neighbours v i k))) == qsum (neighbours v i k) /\
        forall lo hi, (forall y, In y v -> lo <= y /\ y <= hi) -> lo <= x /\ x <= hi).
Proof. exact mean_smooth_spec. Qed.
Print Assumptions C21_mean_smoothing.

(** A negative half width is not rejected: the iterators are reversed. *)
Theorem C21_negative_width_refuted : forall v k, (k < 0)%Z -> (0 < length v)%nat ->
  ApplyMedianSmooth v k = UB /\ ApplyMeanSmooth v k = UB.
Proof. exact (fun v k Hk Hv => conj (smooth_negative Find v k Hk Hv) (smooth_negative MeanFind v k Hk Hv)). Qed.
Print Assumptions C21_negative_width_refuted.

Example C21_nonvacuous :
  ApplyMedianSmooth [1; 9; 2; 8; 3] 1 = Ok (true, [(10#2); 2; 8; 3; (11#2)]) /\
  neighbours [1; 9; 2; 8; 3] 0 1 = [1; 9] /\ neighbours [1; 9; 2; 8; 3] 2 1 = [9; 2; 8] /\
  ApplyMeanSmooth [1; 9; 2; 8; 3] 1 = Ok (true, [(10#2); (12#3); (19#3); (13#3); (11#2)]) /\
  ApplyMedianSmooth [1; 9; 2] 3 = Ok (false, [1; 9; 2]).
Proof. vm_compute. repeat split. Qed.

(** The zone [iMin, iMax[ lies in the spectrum; flux and noise have the same size; coefficient finite. *)
Theorem C22_correction_repairs_only_invalid_samples : forall fl no iMin iMax coeff,
  representable fl -> representable no ->
  length no = length fl -> (0 <= iMin)%Z -> (iMax <= Z.of_nat (length fl))%Z -> (iMin <= iMax)%Z ->
  ((forall i f, in_zone iMin iMax i -> valid_at fl no i -> nth_error fl i = Some (Fin f) -> Qabs f == DBL_MAX) ->
     correctFluxAndNoiseAxis fl no iMin iMax coeff = Throw SPECTRUM_CORRECTION_ERROR) /\
  (forall i f, in_zone iMin iMax i -> valid_at fl no i -> nth_error fl i = Some (Fin f) -> ~ Qabs f == DBL_MAX ->
     exists fl' no' n mx mn, correctFluxAndNoiseAxis fl no iMin iMax coeff = Ok (negb (Nat.eqb n 0), fl', no', n) /\
       length fl' = length fl /\ length no' = length no /\
       largest_noise fl no iMin iMax mx /\ smallest_flux fl no iMin iMax mn /\
       (forall j, in_zone iMin iMax j -> ~ valid_at fl no j ->
          nth_error no' j = Some (fmul mx coeff) /\ nth_error fl' j = Some (fdiv mn coeff)) /\
       (forall j, ~ (in_zone iMin iMax j /\ ~ valid_at fl no j) ->
          nth_error fl' j = nth_error fl j /\ nth_error no' j = nth_error no j) /\
       exists bad, NoDup bad /\ (forall j, In j bad <-> in_zone iMin iMax j /\ ~ valid_at fl no j) /\ n = length bad).
Proof. exact correct_spec. Qed.
Print Assumptions C22_correction_repairs_only_invalid_samples.

Theorem C22_everything_valid_afterwards : forall fl no iMin iMax coeff b fl' no' n mx,
  representable fl -> representable no ->
  length no = length fl -> (0 <= iMin)%Z -> (iMax <= Z.of_nat (length fl))%Z -> (iMin <= iMax)%Z ->
  correctFluxAndNoiseAxis fl no iMin iMax coeff = Ok (b, fl', no', n) ->
  1 <= coeff -> largest_noise fl no iMin iMax mx -> mx * coeff <= DBL_MAX ->
  forall i, in_zone iMin iMax i -> valid_at fl' no' i.
Proof. exact correct_valid_after. Qed.
Print Assumptions C22_everything_valid_afterwards.

(** A null coefficient is accepted and produces null noise and infinite flux. *)
Theorem C22_null_coefficient_refuted :
  correctFluxAndNoiseAxis [Fin 1; NaN] [Fin 1; Fin 1] 0 2 0 = Ok (true, [Fin 1; PInf], [Fin 1; Fin 0], 1%nat) /\
  flux_valid PInf = false /\ noise_valid (Fin 0) = false.
Proof. vm_compute. exact (conj eq_refl (conj eq_refl eq_refl)). Qed.
Print Assumptions C22_null_coefficient_refuted.

(** Nothing checks that flux and noise have the same size in the two-argument constructor: a shorter noise axis
    makes the correction read outside it. *)
Theorem C22_size_mismatch_refuted :
  correctFluxAndNoiseAxis [Fin 1; Fin 2] [Fin 1] 0 2 10 = UB.
Proof. vm_compute. exact eq_refl. Qed.
Print Assumptions C22_size_mismatch_refuted.

Example C22_nonvacuous :
  correctFluxAndNoiseAxis [Fin 5; NaN; Fin (-2); Fin 3; PInf; Fin 9] [Fin 1; Fin 1; Fin 4; Fin 0; Fin 2; NaN] 0 5 10
  = Ok (true, [Fin 5; Fin (2#10); Fin (-2); Fin (2#10); Fin (2#10); Fin 9],
              [Fin 1; Fin 40; Fin 4; Fin 40; Fin 40; NaN], 3%nat) /\
  correctFluxAndNoiseAxis [NaN; Fin 1] [Fin 1; Fin 0] 0 2 10 = Throw SPECTRUM_CORRECTION_ERROR.
Proof. vm_compute. exact (conj eq_refl eq_refl). Qed.

Theorem C22_subtraction_is_samplewise : forall v o,
  (length o <> length v -> Subtract v o = Throw INTERNAL_ERROR) /\
  (length o = length v -> exists r, Subtract v o = Ok r /\ length r = length v /\
     forall i x y, nth_error v i = Some x -> nth_error o i = Some y -> nth_error r i = Some (x - y)).
Proof. exact Subtract_spec. Qed.
Print Assumptions C22_subtraction_is_samplewise.

Theorem C22_largest_magnitude : forall v imin imax, (imin <= imax < length v)%nat ->
  exists m, computeMaxAbsValue v imin imax = Ok m /\
   (exists i x, (imin <= i <= imax)%nat /\ nth_error v i = Some x /\ m = Qabs x) /\
   (forall i x, (imin <= i <= imax)%nat -> nth_error v i = Some x -> Qabs x <= m).
Proof. exact computeMaxAbsValue_spec. Qed.
Print Assumptions C22_largest_magnitude.
Example C22_largest_magnitude_nonvacuous : computeMaxAbsValue [1; -7; 3; 5; -9] 0 3 = Ok 7.
Proof. reflexivity. Qed.

(** replacing the noise: the new noise axis, only when the sizes agree *)
Theorem C22_set_error : forall (current other : list Q),
  setError current other = if Nat.eq_dec (length other) (length current) then Ok other else Throw INTERNAL_ERROR.
Proof. exact setError_spec. Qed.
Print Assumptions C22_set_error.
Example C22_set_error_nonvacuous : setError [1; 2] [3; 4] = Ok [3; 4] /\ setError [1; 2] [3] = Throw INTERNAL_ERROR.
Proof. split; reflexivity. Qed.
