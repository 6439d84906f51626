(** C61: integrals and statistics of a flux. *)
From Verif Require Import Base RangeModel F64 AxisModel IntegModel IntegSpec IntegProofs IntegProofs2.
Open Scope Q_scope.

(** ** the integral between two samples is that of the piecewise linear function through the samples, for every grid *)
Theorem C61_integral : forall xs ys es b e, length ys = length xs -> length es = length xs -> (2 <= length xs)%nat -> (b <= e < length xs)%nat ->
  exists F E, integrate xs ys es [(Z.of_nat b, Z.of_nat e)] = Ok (F, E) /\ F == piecewise_linear_integral xs ys b e.
Proof. intros xs ys es b e Ly Le Lx H. destruct (Integral xs ys es b e Ly Le Lx H) as (F & E & A & B & _). exists F, E. auto. Qed.
Print Assumptions C61_integral.
(** several ranges: the sum of their integrals *)
Theorem C61_ranges : forall xs ys es rs, length ys = length xs -> length es = length xs -> (2 <= length xs)%nat -> Forall (fun r => (fst r <= snd r < length xs)%nat) rs ->
  exists F E, integrate xs ys es (map (fun r => (Z.of_nat (fst r), Z.of_nat (snd r))) rs) = Ok (F, E) /\
    F == fold_right (fun r s => piecewise_linear_integral xs ys (fst r) (snd r) + s) 0 rs.
Proof. exact Integrals. Qed.
Print Assumptions C61_ranges.
(** that integral: additive, linear in the flux, exact on straight lines, between the bounds of the flux, a weighted sum of the samples *)
Theorem C61_integral_additive : forall xs ys b m e, (b <= m <= e)%nat -> piecewise_linear_integral xs ys b e == piecewise_linear_integral xs ys b m + piecewise_linear_integral xs ys m e.
Proof. exact Integral_additive. Qed.
Print Assumptions C61_integral_additive.
Theorem C61_integral_linear : forall xs ys zs a b e vs, (b <= e < length xs)%nat -> (forall i, (b <= i <= e)%nat -> at_ vs i == a * at_ ys i + at_ zs i) ->
  piecewise_linear_integral xs vs b e == a * piecewise_linear_integral xs ys b e + piecewise_linear_integral xs zs b e.
Proof. exact Integral_linear. Qed.
Print Assumptions C61_integral_linear.
Theorem C61_integral_straight_line : forall xs ys p q b e, (b <= e)%nat -> (forall i, (b <= i <= e)%nat -> at_ ys i == p * at_ xs i + q) ->
  piecewise_linear_integral xs ys b e == p * (at_ xs e * at_ xs e - at_ xs b * at_ xs b) / 2 + q * (at_ xs e - at_ xs b).
Proof. exact Integral_affine. Qed.
Print Assumptions C61_integral_straight_line.
Theorem C61_integral_bounds : forall xs ys lo hi b e, grid_increasing xs -> (b <= e < length xs)%nat -> (forall i, (b <= i <= e)%nat -> lo <= at_ ys i <= hi) ->
  lo * (at_ xs e - at_ xs b) <= piecewise_linear_integral xs ys b e <= hi * (at_ xs e - at_ xs b).
Proof. exact Integral_bounds. Qed.
Print Assumptions C61_integral_bounds.
Theorem C61_integral_weights : forall xs ys b e, (b <= e)%nat -> piecewise_linear_integral xs ys b e == sigma (fun i => weight_of xs b e i * at_ ys i) b (S e - b).
Proof. exact Weights. Qed.
Print Assumptions C61_integral_weights.
(** ** the error returned with it is a variance, too small: it is at most that of the weighted sum, and misses one term for each inner sample *)
Theorem C61_error_bound : forall xs ys es b e, length ys = length xs -> length es = length xs -> (2 <= length xs)%nat -> (b <= e < length xs)%nat -> grid_increasing xs ->
  exists F E, integrate xs ys es [(Z.of_nat b, Z.of_nat e)] = Ok (F, E) /\ E <= variance_of_integral xs es b e.
Proof. intros xs ys es b e Ly Le Lx H G. destruct (Integral xs ys es b e Ly Le Lx H) as (F & E & A & _ & B). exists F, E. split; [exact A|]. rewrite B. apply Variance_le; auto. Qed.
Print Assumptions C61_error_bound.
Theorem C61_error_refuted : forall xs ys es b e, length ys = length xs -> length es = length xs -> (b < e < length xs)%nat ->
  exists F E, integrate xs ys es [(Z.of_nat b, Z.of_nat e)] = Ok (F, E) /\
    variance_of_integral xs es b e == E + sigma (fun i => (at_ xs (S i) - at_ xs i) * (at_ xs (S (S i)) - at_ xs (S i)) / 2 * (at_ es (S i) * at_ es (S i))) b (e - 1 - b).
Proof. intros xs ys es b e Ly Le H. destruct (Integral xs ys es b e Ly Le ltac:(lia) ltac:(lia)) as (F & E & A & _ & B). exists F, E. split; [exact A|]. rewrite B. apply Variance. lia. Qed.
Print Assumptions C61_error_refuted.
(** ** what is refused, and what is not *)
Theorem C61_refused : forall xs ys es rs, (length xs < 2)%nat \/ length xs <> length ys -> integrate xs ys es rs = Throw INTERNAL_ERROR.
Proof. exact Integral_refuses. Qed.
Print Assumptions C61_refused.
Theorem C61_outside_refuted : forall xs ys es b e, length ys = length xs -> length es = length xs -> (2 <= length xs)%nat -> (b < e)%Z -> (b < 0 \/ Z.of_nat (length xs) <= e)%Z -> integrate xs ys es [(b, e)] = UB.
Proof. exact Integral_outside. Qed.
Print Assumptions C61_outside_refuted.

(** ** the mean of the selected samples is weighted by the inverse of the squared errors; its variance is the unbiased one of reliability weights *)
Theorem C61_mean : forall mask ys es, length ys = length mask -> length es = length mask -> Forall (fun e => ~ e == 0) es ->
  let l := selected mask ys es in
  match l with
  | [] => ComputeMeanAndSDev (map of_mask mask) (map Fin ys) (map Fin es) = Ok (false, NaN, NaN)
  | [p] => exists m, ComputeMeanAndSDev (map of_mask mask) (map Fin ys) (map Fin es) = Ok (true, Fin m, NaN) /\ m == fst p
  | _ => exists m v, ComputeMeanAndSDev (map of_mask mask) (map Fin ys) (map Fin es) = Ok (true, Fin m, Fin v) /\ is_mean l m /\ 0 <= v /\
           0 < total l - wsum (fun p => snd p * snd p) l / total l /\ v == deviations l m / (total l - wsum (fun p => snd p * snd p) l / total l)
  end.
Proof. exact Mean. Qed.
Print Assumptions C61_mean.
Theorem C61_mean_between : forall l m lo hi, Forall (fun p => 0 < snd p) l -> l <> [] -> is_mean l m -> (forall p, In p l -> lo <= fst p <= hi) -> lo <= m <= hi.
Proof. exact Mean_between. Qed.
Print Assumptions C61_mean_between.
(** with equal errors, the sum of the squared deviations over n - 1 *)
Theorem C61_equal_errors : forall mask ys es e m, ~ e == 0 -> Forall (fun x => x == e) es -> (2 <= length (selected mask ys es))%nat ->
  let l := selected mask ys es in
  deviations l m / (total l - wsum (fun p => snd p * snd p) l / total l) == wsum (fun p => (fst p - m) * (fst p - m)) l / (inject_Z (Z.of_nat (length l)) - 1).
Proof.
  intros mask ys es e m E F L. apply (Equal_weights _ (1 / (e * e)) m); [|apply selected_weight; auto|exact L].
  apply Qlt_shift_div_l; [apply sq_pos; auto|lra].
Qed.
Print Assumptions C61_equal_errors.
Theorem C61_mask_size : forall mask ys es, length mask <> length ys -> ComputeMeanAndSDev mask ys es = Throw INTERNAL_ERROR.
Proof. exact Mean_refuses. Qed.
Print Assumptions C61_mask_size.
(** a sample which is not selected spoils everything if its error is null *)
Theorem C61_unselected_sample_refuted : forall mask ys es i e, length ys = length mask -> length es = length mask -> nth_error mask i = Some 0%N -> nth_error es i = Some (Fin e) -> e == 0 ->
  ComputeMeanAndSDev mask ys es = Ok (false, NaN, NaN).
Proof. exact Poisoned. Qed.
Print Assumptions C61_unselected_sample_refuted.
(** ** in a range of wavelengths: the mean of the samples inside, provided the range is inside that of the spectrum *)
Theorem C61_mean_in_range : forall axis ys es r l, GetLambdaRange axis = Ok l -> rbeg l <= rbeg r -> rend r <= rend l -> length ys = length axis ->
  GetMeanAndStdFluxInRange axis ys es r = (do x <- ComputeMeanAndSDev (map (fun x => of_mask (in_lambda r x)) axis) ys es; Ok (Some (snd (fst x), snd x))).
Proof. exact Mean_range. Qed.
Print Assumptions C61_mean_in_range.
Theorem C61_mean_outside : forall axis ys es r l, GetLambdaRange axis = Ok l -> (rbeg r < rbeg l \/ rend l < rend r) -> GetMeanAndStdFluxInRange axis ys es r = Ok None.
Proof. exact Mean_range_outside. Qed.
Print Assumptions C61_mean_outside.
(** success is reported even if no sample is inside the range *)
Theorem C61_empty_range_refuted : forall axis ys es r l, GetLambdaRange axis = Ok l -> rbeg l <= rbeg r -> rend r <= rend l -> length ys = length axis -> length es = length axis -> Forall (fun e => ~ e == 0) es ->
  (forall x, In x axis -> ~ (rbeg r <= x <= rend r)) -> GetMeanAndStdFluxInRange axis (map Fin ys) (map Fin es) r = Ok (Some (NaN, NaN)).
Proof.
  intros axis ys es r l E A B Ly Le He N. rewrite (Mean_range axis (map Fin ys) (map Fin es) r l E A B) by (rewrite map_length; auto).
  replace (map (fun x => of_mask (in_lambda r x)) axis) with (map of_mask (map (in_lambda r) axis)) by (rewrite map_map; reflexivity).
  pose proof (Mean (map (in_lambda r) axis) ys es ltac:(rewrite map_length; auto) ltac:(rewrite map_length; auto) He) as M. cbv zeta in M.
  assert (selected (map (in_lambda r) axis) ys es = []) as Z.
  { clear - N. revert ys es. induction axis as [|x axis IH]; intros [|y ys] [|e es]; cbn [map selected]; auto. rewrite IH by (intros; apply N; right; auto).
    replace (in_lambda r x) with false; [reflexivity|]. symmetry. apply not_true_iff_false. intro X. unfold in_lambda in X. apply andb_true_iff in X. destruct X as [X Y]. apply Qle_bool_iff in X, Y. apply (N x); [left; auto|auto]. }
  rewrite Z in M. rewrite M. reflexivity.
Qed.
Print Assumptions C61_empty_range_refuted.
(** ** the squared difference of two fluxes: the mean of the squares, null exactly for equal fluxes *)
Theorem C61_difference : forall a b, length b = length a -> (0 < length a)%nat -> exists r, ComputeRMSDiff2 a b = Ok r /\
  r == sigma (fun i => (at_ a i - at_ b i) * (at_ a i - at_ b i)) 0 (length a) / inject_Z (Z.of_nat (length a)) /\ 0 <= r /\ (r == 0 <-> forall i, (i < length a)%nat -> at_ a i == at_ b i).
Proof. exact Rms. Qed.
Print Assumptions C61_difference.

(** ** the hypotheses are met *)
Example c61_integral : exists F E, integrate [1; 2; 4; 5] [1; 3; 1; 0] [1; 1; 2; 1] [(0, 3)%Z] = Ok (F, E) /\ F == 13 # 2 /\ E == 27 # 4 /\ variance_of_integral [1; 2; 4; 5] [1; 1; 2; 1] 0 3 == 47 # 4.
Proof. do 2 eexists. split; [vm_compute; reflexivity|]. repeat split; vm_compute; reflexivity. Qed.
Example c61_grid : grid_increasing [1; 2; 4; 5]. Proof. intros [|[|[|i]]] H; cbn in *; try lia; unfold at_; cbn; lra. Qed.
Example c61_mean : exists m v, ComputeMeanAndSDev (map of_mask [true; false; true]) (map Fin [1; 7; 3]) (map Fin [1; 1; 1]) = Ok (true, Fin m, Fin v) /\ m == 2 /\ v == 2.
Proof. do 2 eexists. split; [vm_compute; reflexivity|]. split; vm_compute; reflexivity. Qed.
Example c61_poison : ComputeMeanAndSDev [1; 0; 1]%N (map Fin [1; 7; 3]) (map Fin [1; 0; 1]) = Ok (false, NaN, NaN). Proof. vm_compute. reflexivity. Qed.
Example c61_empty : GetMeanAndStdFluxInRange [1; 2; 4] (map Fin [1; 1; 1]) (map Fin [1; 1; 1]) (mkRange (5#2) (7#2)) = Ok (Some (NaN, NaN)). Proof. vm_compute. reflexivity. Qed.
Example c61_rms : exists r, ComputeRMSDiff2 [1; 2] [1; 4] = Ok r /\ r == 2. Proof. eexists. split; [vm_compute; reflexivity|vm_compute; reflexivity]. Qed.
