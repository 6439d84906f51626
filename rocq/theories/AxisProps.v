(** Properties C18 (sub-sampling masks), C19 (masking), C20 (lookups on a spectral axis). *)
From Coq Require Import NArith.
From Verif Require Import Base RangeModel MaskModel AxisModel AxisSpec AxisProofs.
Open Scope Q_scope.

Theorem C18_every_kth_sample_of_the_range : forall n ratio ib ie,
  (Z.of_nat n < 2 ^ 31)%Z -> (2 <= ratio)%Z -> (0 <= ib)%Z -> (0 <= ie < Z.of_nat n)%Z ->
  exists m, GetSubSamplingMask true n ratio ib ie = Ok m /\ length m = n /\
    forall i, (i < n)%nat -> (on_subgrid ratio ib ie i -> nth_error m i = Some 1) /\
                             (~ on_subgrid ratio ib ie i -> nth_error m i = Some 0).
Proof. exact submask_ok. Qed.
Print Assumptions C18_every_kth_sample_of_the_range.

Theorem C18_rejected_requests : forall islog n ratio ib ie,
  (Z.of_nat n < 2 ^ 31)%Z -> (1 <= n)%nat -> (- 2 ^ 31 <= ie < 2 ^ 31)%Z ->
  islog = false \/ (ib < 0)%Z \/ (ie < 0)%Z \/ (Z.of_nat n <= ie)%Z ->
  GetSubSamplingMask islog n ratio ib ie = Throw INTERNAL_ERROR.
Proof. exact submask_errors. Qed.
Print Assumptions C18_rejected_requests.

(** With ratio 1 the range is ignored: samples outside it are selected. *)
Theorem C18_ratio_one_ignores_the_range_refuted :
  (forall n ib ie, (Z.of_nat n < 2 ^ 31)%Z -> (0 <= ib)%Z -> (0 <= ie < Z.of_nat n)%Z ->
     GetSubSamplingMask true n 1 ib ie = Ok (repeat 1 n)) /\
  (exists m, GetSubSamplingMask true 5 1 1 3 = Ok m /\ nth_error m 0 = Some 1 /\ ~ on_subgrid 1 1 3 0).
Proof.
  exact (conj submask_one (ex_intro _ (repeat 1 5) (conj eq_refl (conj eq_refl
    (fun h => match h with ex_intro _ k (conj _ (conj _ hb)) => hb eq_refl end))))).
Qed.
Print Assumptions C18_ratio_one_ignores_the_range_refuted.

(** A non-positive ratio never returns normally (endless loop or write outside the mask). *)
Theorem C18_nonpositive_ratio_refuted : forall n ratio ib ie,
  (Z.of_nat n < 2 ^ 31)%Z -> (ratio <= 0)%Z -> (0 <= ib <= ie)%Z -> (ie < Z.of_nat n)%Z ->
  GetSubSamplingMask true n ratio ib ie = UB.
Proof. exact submask_nonpositive. Qed.
Print Assumptions C18_nonpositive_ratio_refuted.

Example C18_nonvacuous :
  GetSubSamplingMask true 10 3 2 8 = Ok [0;0;1;0;0;1;0;0;1;0] /\ on_subgrid 3 2 8 5 /\ ~ on_subgrid 3 2 8 6 /\
  GetSubSamplingMask true 10 3 2 10 = Throw INTERNAL_ERROR /\
  GetSubSamplingMask_lambda true [1;2;3;4;5;6] 2 (mkRange (3#2) 5) = Ok [0;0;1;0;1;0].
Proof.
  repeat split; auto.
  - exists 1%Z. lia.
  - intros (k & Hk & He & Hb). lia.
Qed.

Theorem C19_mask_keeps_selected_samples_in_order : forall (A : Type) (mask : list Q) (v : list A),
  (length mask <> length v -> maskVector mask v = Throw INTERNAL_ERROR) /\
  (length mask = length v -> exists out, maskVector mask v = Ok out /\ kept_in_order mask v out).
Proof. exact @maskVector_spec. Qed.
Print Assumptions C19_mask_keeps_selected_samples_in_order.

(** [kept_in_order] determines the result. *)
Theorem C19_selection_is_unique : forall (A : Type) mask (v o1 o2 : list A), length mask = length v ->
  kept_in_order mask v o1 -> kept_in_order mask v o2 -> o1 = o2.
Proof. exact @kept_in_order_unique. Qed.
Print Assumptions C19_selection_is_unique.

Theorem C19_masking_keeps_sorted : forall mask v out, length mask = length v -> kept_in_order mask v out ->
  (strictly_increasing v -> strictly_increasing out) /\ (increasing v -> increasing out).
Proof. exact kept_sorted. Qed.
Print Assumptions C19_masking_keeps_sorted.

Example C19_nonvacuous : maskVector [0;1;1;0;1] [10;20;30;40;50]%nat = Ok [20;30;50]%nat /\
  kept_in_order [0;1;1;0;1] [10;20;30;40;50]%nat [20;30;50]%nat /\
  maskVector [0;1] [3] = Throw INTERNAL_ERROR.
Proof.
  split; [reflexivity|]. split; [|reflexivity].
  destruct (maskVector_spec [0;1;1;0;1] [10;20;30;40;50]%nat) as [_ H].
  destruct (H eq_refl) as (out & E & K). inversion E; subst. exact K.
Qed.

Theorem C20_index_is_first_sample_not_below : forall s w, strictly_increasing s -> (0 < length s)%nat ->
  exists i, GetIndexAtWaveLength s w = Ok i /\ (i < length s)%nat /\
    (forall j x, (j < i)%nat -> nth_error s j = Some x -> x < w) /\
    (forall j x, (i < length s - 1)%nat -> (i <= j)%nat -> nth_error s j = Some x -> w <= x) /\
    (forall x, nth_error s i = Some x -> w <= x \/ (i = length s - 1)%nat).
Proof. exact GetIndexAtWaveLength_ok. Qed.
Print Assumptions C20_index_is_first_sample_not_below.

Theorem C20_mask_marks_exactly_the_range : forall s r, length (GetMask s r) = length s /\
  forall i x, nth_error s i = Some x ->
    (inside r x -> nth_error (GetMask s r) i = Some 1%N) /\ (~ inside r x -> nth_error (GetMask s r) i = Some 0%N).
Proof. exact GetMask_ok. Qed.
Print Assumptions C20_mask_marks_exactly_the_range.

Theorem C20_overlap_fraction_counts : forall s r om, length s = length om ->
  let selected := count_if (in_lambda r) s in
  let both := count_if (fun j => in_lambda r (nth j s 0) && negb (nth j om 0 =? 0)%N)%bool (seq 0 (length s)) in
  IntersectMaskAndComputeOverlapFraction_axis s r om =
    Ok (if (selected =? 0)%Z then 0 else inject_Z both / inject_Z selected).
Proof. exact overlap_axis_ok. Qed.
Print Assumptions C20_overlap_fraction_counts.

Theorem C20_clamp_is_intersection : forall s r f b, (2 <= length s)%nat ->
  nth_error s 0 = Some f -> nth_error s (length s - 1) = Some b -> f < b -> rbeg r < rend r ->
  (rbeg r < b /\ f < rend r ->
     exists c, ClampLambdaRange s r = Ok c /\ rbeg c < rend c /\
       forall x, inside c x <-> inside r x /\ f <= x /\ x <= b) /\
  (~ (rbeg r < b /\ f < rend r) -> ClampLambdaRange s r = Throw INVALID_WAVELENGTH_RANGE).
Proof. exact ClampLambdaRange_ok. Qed.
Print Assumptions C20_clamp_is_intersection.

Theorem C20_clamp_errors : forall s r,
  (rbeg r == rend r -> ClampLambdaRange s r = Throw INVALID_WAVELENGTH_RANGE) /\
  (~ rbeg r == rend r -> (length s < 2)%nat -> ClampLambdaRange s r = Throw INVALID_SPECTRUM_WAVELENGTH).
Proof. exact ClampLambdaRange_errors. Qed.
Print Assumptions C20_clamp_errors.

Theorem C20_mean_resolution : forall s f b, nth_error s 0 = Some f -> nth_error s (length s - 1) = Some b ->
  (2 <= length s)%nat ->
  exists r, GetMeanResolution s = Ok r /\ r == (b - f) / inject_Z (Z.of_nat (length s) - 1).
Proof. exact GetMeanResolution_ok. Qed.
Print Assumptions C20_mean_resolution.

Theorem C20_local_resolution : forall s w, strictly_increasing s -> (2 <= length s)%nat ->
  exists i x y, nth_error s i = Some x /\ nth_error s (S i) = Some y /\ GetResolution s w = Ok (y - x) /\ 0 < y - x /\
    (0 <= w -> (i = 0%nat \/ x < w) /\ (w <= y \/ S i = (length s - 1)%nat)).
Proof. exact GetResolution_ok. Qed.
Print Assumptions C20_local_resolution.

Theorem C20_shift_round_trip : forall s off d, 0 < off ->
  exists s', ShiftByWaveLength s off d = Ok s' /\ length s' = length s /\
    (forall i x, nth_error s i = Some x -> exists y, nth_error s' i = Some y /\
        y == match d with nShiftForward => x * off | nShiftBackward => x / off end) /\
    exists s'', ShiftByWaveLength s' off (match d with nShiftForward => nShiftBackward | _ => nShiftForward end) = Ok s'' /\
      Forall2 Qeq s'' s.
Proof. exact Shift_ok. Qed.
Print Assumptions C20_shift_round_trip.

Theorem C20_shift_edge_cases : forall s off d,
  (off < 0 -> ShiftByWaveLength s off d = Throw INTERNAL_ERROR) /\
  (off == 0 -> ShiftByWaveLength s off d = Ok s).
Proof. exact Shift_edge. Qed.
Print Assumptions C20_shift_edge_cases.

Theorem C20_integer_step_ratio : forall step logstep ratio modulo, 0 < step ->
  GetLogSamplingIntegerRatio true step logstep = Ok (ratio, modulo) ->
  logstep == inject_Z ratio * step + modulo /\ Qabs modulo <= step / 2.
Proof. exact GetLogSamplingIntegerRatio_ok. Qed.
Print Assumptions C20_integer_step_ratio.

(** Looking an index up on an empty axis reads outside the vector. *)
Theorem C20_index_on_empty_axis_refuted : forall w, GetIndexAtWaveLength [] w = UB.
Proof. exact (fun w => eq_refl). Qed.
Print Assumptions C20_index_on_empty_axis_refuted.

Example C20_nonvacuous :
  strictly_increasing [1;2;4;8] /\
  GetIndexAtWaveLength [1;2;4;8] 3 = Ok 2%nat /\ GetIndexAtWaveLength [1;2;4;8] 4 = Ok 2%nat /\
  GetIndexAtWaveLength [1;2;4;8] 9 = Ok 3%nat /\ GetMask [1;2;4;8] (mkRange 2 5) = [0;1;1;0]%N /\
  IntersectMaskAndComputeOverlapFraction_axis [1;2;4;8] (mkRange 2 8) [1;1;0;1]%N = Ok (2#3) /\
  ClampLambdaRange [1;2;4;8] (mkRange 0 3) = Ok (mkRange 1 3) /\
  ClampLambdaRange [1;2;4;8] (mkRange 8 9) = Throw INVALID_WAVELENGTH_RANGE /\
  GetMeanResolution [1;2;4;8] = Ok (7#3) /\ GetResolution [1;2;4;8] 3 = Ok 2 /\
  GetLogSamplingIntegerRatio true (1#10) (31#100) = Ok (3%Z, (31#100) - 3 * (1#10)).
Proof.
  split.
  { intros i j x y Hij Hx Hy. do 4 (destruct i as [|i]; [do 4 (destruct j as [|j]; [simpl in *; try lia; inversion Hx; inversion Hy; subst; reflexivity|]); destruct j; discriminate|]); destruct i; discriminate. }
  repeat split.
Qed.
