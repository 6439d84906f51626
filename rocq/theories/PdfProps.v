(** Properties C32-C35 (redshift densities), C49 (priors), C50 (best probability), C51 (validity and integral of a
    candidate). *)
From Coq Require Import Qreals.
From Verif Require Import Base RBase RangeModel RangeSpec PdfModel PdfSpec PdfProofs PdfProofs2.
Open Scope R_scope.

Lemma grid_012 : grid [0; 1; 3].
Proof.
  split; [simpl; lia|]. intros i j x y Hij Hx Hy.
  destruct i as [|[|[|i]]]; destruct j as [|[|[|j]]]; simpl in *; try lia; try (destruct j; discriminate);
  try (destruct i; discriminate); injection Hx as <-; injection Hy as <-; lra.
Qed.

(** C32 *)
Theorem C32_pdf_is_the_normalised_posterior : forall lowest chi2 z cst logprior,
  grid z -> length chi2 = length z -> length logprior = length z ->
  exists pdf ev, ComputePdf lowest chi2 z cst logprior = Ok (pdf, ev) /\ length pdf = length z /\
    trapz z (map exp pdf) = 1 /\
    (forall k a b, nth_error chi2 k = Some a -> nth_error logprior k = Some b ->
       exists x, nth_error pdf k = Some x /\ exp x = exp (- a / 2 + b) / trapz z (posterior chi2 logprior)) /\
    exp ev = exp cst * (trapz z (posterior chi2 logprior) / trapz z (map exp logprior)).
Proof. exact ComputePdf_spec. Qed.
Print Assumptions C32_pdf_is_the_normalised_posterior.
(** a constant added to all chi2, to all log priors or to the log of the noise does not change the density *)
Theorem C32_pdf_shift_invariant : forall lowest m z cst p c d cst',
  grid z -> length m = length z -> length p = length z ->
  exists pdf ev pdf' ev', ComputePdf lowest m z cst p = Ok (pdf, ev) /\
    ComputePdf lowest (map (fun x => x + c) m) z cst' (map (fun x => x + d) p) = Ok (pdf', ev') /\ pdf' = pdf /\
    ev' = ev + (cst' - cst) - c / 2.
Proof. exact ComputePdf_shift. Qed.
Print Assumptions C32_pdf_shift_invariant.
Theorem C32_empty_grid_throws : forall lowest m cst p, ComputePdf lowest m [] cst p = Throw INTERNAL_ERROR.
Proof. exact ComputePdf_empty. Qed.
Print Assumptions C32_empty_grid_throws.
Theorem C32_prior_size_checked : forall lowest m z cst p, (2 <= length z)%nat -> length p <> length z ->
  ComputePdf lowest m z cst p = Throw INTERNAL_ERROR.
Proof. exact ComputePdf_prior_size. Qed.
Print Assumptions C32_prior_size_checked.
(** the number of chi2 is not checked: reading outside the vectors *)
Theorem C32_chi2_size_checked_refuted : forall lowest m z cst p, grid z -> length p = length z -> length m <> length z ->
  ComputePdf lowest m z cst p = UB.
Proof. exact ComputePdf_merit_size. Qed.
Print Assumptions C32_chi2_size_checked_refuted.
(** with one redshift the returned log density is 1 (not 0, the logarithm of 1), the log evidence is 1 whatever the
    chi2 *)
Theorem C32_single_redshift_refuted : forall lowest m z0 cst p, ComputePdf lowest m [z0] cst p = Ok ([1], 1).
Proof. exact ComputePdf_single. Qed.
Print Assumptions C32_single_redshift_refuted.
Example C32_nonvacuous : grid [0; 1; 3] /\ length [10; 4; 7] = length [0; 1; 3] /\ length [0; -1; -2] = length [0; 1; 3].
Proof. split; [apply grid_012|split; reflexivity]. Qed.

(** C33 *)
Theorem C33_log_sum_exp_exact : forall lowest v z, grid z -> (length z <= length v)%nat ->
  logSumExpTrick lowest v z = Ok (ln (trapz z (map exp v))).
Proof. exact lse_spec. Qed.
Print Assumptions C33_log_sum_exp_exact.
Theorem C33_log_sum_exp_shift : forall lowest v z c, grid z -> (length z <= length v)%nat ->
  exists l, logSumExpTrick lowest v z = Ok l /\ logSumExpTrick lowest (map (fun x => x + c) v) z = Ok (l + c).
Proof. exact lse_shift. Qed.
Print Assumptions C33_log_sum_exp_shift.
(** no overflow and no total underflow: every weighted exponential is at most 1, the sum is at most the number of
    samples and at least 1 (unless every weighted value is below -DBL_MAX) *)
Theorem C33_no_overflow : forall lowest v z, grid z -> length v = length z ->
  exists L s v0, lse_factor v z 0 (length z) lowest = Ok L /\ vget v 0 = Ok v0 /\
    lse_sum v z L 1 (length z - 1) (exp (v0 - L)) 0 = Ok s /\ s <= INR (length z) /\
    (lowest < L -> 1 <= s) /\ (L = lowest \/ lowest < L) /\
    (forall k x w, nth_error v k = Some x -> lse_zstep z k = Ok w -> w * exp (x - L) <= 1).
Proof. exact lse_no_overflow. Qed.
Print Assumptions C33_no_overflow.
Theorem C33_short_grid_throws : forall lowest v z, (length z < 2)%nat -> logSumExpTrick lowest v z = Throw INTERNAL_ERROR.
Proof. exact lse_short. Qed.
Print Assumptions C33_short_grid_throws.
(** the sizes are not compared *)
Theorem C33_value_size_checked_refuted : forall lowest v z, (2 <= length z)%nat -> (length v < length z)%nat ->
  logSumExpTrick lowest v z = UB.
Proof. exact lse_values_short. Qed.
Print Assumptions C33_value_size_checked_refuted.
Example C33_nonvacuous : grid [0; 1; 3] /\ logSumExpTrick (-1000) [0; 0; 0] [0; 1; 3] = Ok (ln 3).
Proof.
  split; [apply grid_012|]. rewrite lse_spec; [|apply grid_012|simpl; lia]. f_equal. simpl. rewrite exp_0. f_equal. lra.
Qed.

(** C34 *)
Theorem C34_marginalised_density : forall lowest c, rows_ok c -> priors_ok c ->
  exists rs post marg, pdf_rows lowest (cq_z c) (cq_cst c) (cq_chi2 c) (cq_zpriors c) rs /\
    Marginalize lowest c = Ok (post, marg) /\ length post = length (cq_z c) /\
    exp marg = mix (used_priors c) (map exp (map snd rs)) /\
    total (model_weights (used_priors c) (map snd rs)) = 1 /\
    (forall k x, nth_error post k = Some x ->
       exp x = exp lowest + mix (model_weights (used_priors c) (map snd rs)) (column k (map fst rs))) /\
    trapz (cq_z c) (map exp post) = 1 + exp lowest * (last (cq_z c) 0 - hd 0 (cq_z c)).
Proof. exact Marginalize_spec. Qed.
Print Assumptions C34_marginalised_density.
Theorem C34_sizes_checked : forall lowest c, length (cq_chi2 c) <> length (cq_zpriors c) ->
  Marginalize lowest c = Throw INTERNAL_ERROR.
Proof. exact Marginalize_sizes. Qed.
Print Assumptions C34_sizes_checked.
Theorem C34_model_priors_checked : forall lowest c, rows_ok c -> cq_mpriors c <> [] ->
  Forall (fun x => 0 < x) (cq_mpriors c) ->
  (length (cq_mpriors c) <> length (cq_chi2 c) \/ total (cq_mpriors c) < 9 / 10 \/ 11 / 10 < total (cq_mpriors c)) ->
  Marginalize lowest c = Throw INTERNAL_ERROR.
Proof. exact Marginalize_bad_priors. Qed.
Print Assumptions C34_model_priors_checked.
Definition two_models : chisq := mkChisq [0; 1; 3] 2 [[1; 2; 3]; [3; 2; 1]] [[0; 0; 0]; [0; 0; 0]] [3/10; 7/10].
Lemma two_models_ok : rows_ok two_models /\ priors_ok two_models.
Proof.
  split.
  - split; [apply grid_012|]. repeat split; try discriminate; repeat constructor.
  - right. simpl. repeat split; try lra; repeat constructor; lra.
Qed.
Example C34_nonvacuous : rows_ok two_models /\ priors_ok two_models.
Proof. exact two_models_ok. Qed.

(** C35 *)
Theorem C35_best_chi2_is_the_pointwise_minimum : forall lowest highest c, rows_ok c -> priors_ok c ->
  Forall (fun m => Forall (fun x => x <= highest) m) (cq_chi2 c) ->
  exists mins pdf ev, BestChi2 lowest highest c = Ok (pdf, ev) /\ length mins = length (cq_z c) /\
    (forall k, (k < length (cq_z c))%nat -> is_min (nth k mins 0) (at_sample k (cq_chi2 c))) /\
    length pdf = length (cq_z c) /\ trapz (cq_z c) (map exp pdf) = 1 /\
    (forall k x, nth_error pdf k = Some x ->
       exp x = exp (- nth k mins 0 / 2) / trapz (cq_z c) (map (fun m => exp (- m / 2)) mins)) /\
    exp ev = exp (cq_cst c) *
      (trapz (cq_z c) (map (fun m => exp (- m / 2)) mins) / (last (cq_z c) 0 - hd 0 (cq_z c))).
Proof. exact BestChi2_spec. Qed.
Print Assumptions C35_best_chi2_is_the_pointwise_minimum.
(** neither the order nor the repetition of the models, nor their priors, change the result *)
Theorem C35_order_of_models : forall lowest highest c c', rows_ok c -> priors_ok c -> rows_ok c' -> priors_ok c' ->
  cq_z c' = cq_z c -> cq_cst c' = cq_cst c -> (forall m, In m (cq_chi2 c) <-> In m (cq_chi2 c')) ->
  Forall (fun m => Forall (fun x => x <= highest) m) (cq_chi2 c) ->
  BestChi2 lowest highest c' = BestChi2 lowest highest c.
Proof. exact BestChi2_order. Qed.
Print Assumptions C35_order_of_models.
Example C35_nonvacuous : rows_ok two_models /\ priors_ok two_models /\
  Forall (fun m => Forall (fun x => x <= 1000) m) (cq_chi2 two_models).
Proof. split; [apply two_models_ok|split; [apply two_models_ok|]]. repeat constructor; lra. Qed.

(** C49 *)
Theorem C49_constant_prior : forall b lowest z n, grid z -> n = length z ->
  exists out, GetConstantLogZPrior b lowest z n = Ok out /\ is_prior b z (repeat 0 n) out.
Proof. exact constant_prior. Qed.
Print Assumptions C49_constant_prior.
Theorem C49_strong_line_presence_prior : forall b lowest z (pres : list bool) pen,
  grid z -> length pres = length z -> 0 < pen ->
  exists out, GetStrongLinePresenceLogZPrior b lowest z pres pen = Ok out /\
    is_prior b z (map (fun p : bool => ln (if p then 1 else pen)) pres) out.
Proof. exact presence_prior. Qed.
Print Assumptions C49_strong_line_presence_prior.
Theorem C49_number_of_lines_prior : forall b lowest z (n : list Z) pen,
  grid z -> length n = length z -> 0 < pen ->
  exists out, GetNLinesSNRAboveCutLogZPrior b lowest z n pen = Ok out /\
    is_prior b z (map (fun k => ln (if Z_le_dec 2 k then 1 else pen)) n) out.
Proof. exact nlines_prior. Qed.
Print Assumptions C49_number_of_lines_prior.
Theorem C49_combined_prior_is_the_product : forall b lowest z p1 p2,
  grid z -> length p1 = length z -> length p2 = length z ->
  exists raw out, length raw = length z /\
    (forall k x y, nth_error p1 k = Some x -> nth_error p2 k = Some y ->
       exists r, nth_error raw k = Some r /\ exp r = exp x * exp y) /\
    CombineLogZPrior b lowest z p1 p2 = Ok out /\ is_prior b z raw out.
Proof. exact combine_prior. Qed.
Print Assumptions C49_combined_prior_is_the_product.
Theorem C49_combined_sizes_checked : forall b lowest z p1 p2, length p1 <> length p2 ->
  CombineLogZPrior b lowest z p1 p2 = Throw INTERNAL_ERROR.
Proof. exact combine_prior_throws. Qed.
Print Assumptions C49_combined_sizes_checked.
(** number-of-Halpha prior, not normalised: bounded by the dynamic cut and 0, 0 reached *)
Theorem C49_halpha_prior : forall lowest dblmin z zs a, 0 < a -> 0 < dblmin ->
  (exists w, In w zs /\ nhaPolynomial w <> 0) ->
  (forall w, In w zs -> forall v, nhaLog dblmin a w = Some v -> lowest <= v) ->
  exists out, GetEuclidNhaLogZPrior false lowest dblmin z zs a = Ok out /\ length out = length zs /\
    Forall (fun x => - ln (10 ^ 12) <= x <= 0) out /\ In 0 out /\
    exists C, forall k w x, nth_error zs k = Some w -> nth_error out k = Some x -> nhaPolynomial w <> 0 ->
      x = Rmax (a * ln (if Rlt_dec (nhaPolynomial w) 0 then dblmin else nhaPolynomial w) - C) (- ln (10 ^ 12)).
Proof. exact nha_prior. Qed.
Print Assumptions C49_halpha_prior.
Theorem C49_halpha_coefficient_checked : forall b lowest dblmin z zs a, a <= 0 ->
  GetEuclidNhaLogZPrior b lowest dblmin z zs a = Throw INTERNAL_ERROR.
Proof. exact nha_prior_throws. Qed.
Print Assumptions C49_halpha_coefficient_checked.
Example C49_nonvacuous : grid [0; 1; 3] /\ length [true; false; true] = length [0; 1; 3] /\ 0 < 1 / 10 ^ 50 /\
  nhaPolynomial 0 <> 0.
Proof.
  split; [apply grid_012|]. split; [reflexivity|]. split; [apply Rdiv_lt_0_compat; [lra|apply pow_lt; lra]|].
  unfold nhaPolynomial. lra.
Qed.

(** C50 *)
Theorem C50_best_probability : forall lowest highest c smin smax, rows_ok c ->
  is_min smin (steps (cq_z c)) -> is_max smax (steps (cq_z c)) -> smin <= highest -> lowest <= smax ->
  exists rs best, pdf_rows lowest (cq_z c) (cq_cst c) (cq_chi2 c) (cq_zpriors c) rs /\
    length best = length (cq_z c) /\
    (forall k, (k < length (cq_z c))%nat -> is_max (nth k best 0) (lowest :: at_sample k (map fst rs))) /\
    let zstep := (smax + smin) / 2 in
    (5 / 100 * zstep < smax - smin -> BestProba lowest highest c = Throw INTERNAL_ERROR) /\
    (smax - smin <= 5 / 100 * zstep ->
       exists out C, BestProba lowest highest c = Ok out /\ out = map (fun x => x - C) best /\
         total (map exp out) * zstep = 1).
Proof. exact BestProba_spec. Qed.
Print Assumptions C50_best_probability.
Example C50_nonvacuous : rows_ok two_models /\ is_min 1 (steps (cq_z two_models)) /\ is_max 2 (steps (cq_z two_models)).
Proof.
  split; [apply two_models_ok|]. simpl. split; split.
  - left; lra. - intros x [<-|[<-|[]]]; lra. - right; left; lra. - intros x [<-|[<-|[]]]; lra.
Qed.

(** C51 *)
Theorem C51_validity_of_a_density : forall lowest v z, grid z -> length v = length z ->
  ((forall x y, In x v -> In y v -> x = y) -> isPdfValid lowest v z = Throw FLAT_ZPDF) /\
  ((exists x y, In x v /\ In y v /\ x <> y) ->
     (Rabs (trapz z (map exp v) - 1) <= 1 / 10 -> isPdfValid lowest v z = Ok tt) /\
     (1 / 10 < Rabs (trapz z (map exp v) - 1) -> isPdfValid lowest v z = Throw PDF_NORMALIZATION_FAILED)).
Proof. exact isPdfValid_spec. Qed.
Print Assumptions C51_validity_of_a_density.
Theorem C51_integral_of_a_candidate : forall lowest zgrid logpdf r zc, strictly_increasing zgrid ->
  length logpdf = length zgrid -> (rbeg r < rend r)%Q -> inside r zc ->
  (exists x, In x zgrid /\ (x <= rbeg r)%Q) -> (exists y, In y zgrid /\ (rend r <= y)%Q) ->
  exists i j x y, bracket_below zgrid (rbeg r) i /\ bracket_above zgrid (rend r) j /\ (i < j)%nat /\
    nth_error zgrid i = Some x /\ nth_error zgrid j = Some y /\
    let value := trapz (map Q2R (sub zgrid i j)) (map exp (sub logpdf i j)) in
    getCandidateSumTrapez lowest zgrid logpdf r zc = Ok (Q2R x, Q2R y, value) /\
    0 < value <= trapz (map Q2R zgrid) (map exp logpdf).
Proof. exact candidate_integral. Qed.
Print Assumptions C51_integral_of_a_candidate.
Example C51_nonvacuous : strictly_increasing [0; 1; 2; 3]%Q /\ (rbeg (mkRange (1#2) (3#2)) < rend (mkRange (1#2) (3#2)))%Q /\
  inside (mkRange (1#2) (3#2)) 1 /\ (exists x, In x [0; 1; 2; 3]%Q /\ (x <= 1#2)%Q) /\
  (exists y, In y [0; 1; 2; 3]%Q /\ ((3#2) <= y)%Q).
Proof.
  split; [repeat (apply strictly_increasing_cons; [simpl; intros; intuition (subst; reflexivity)|]); apply strictly_increasing_nil|].
  split; [reflexivity|]. split; [split; simpl; discriminate|].
  split; [exists 0%Q; split; [left; reflexivity|discriminate]|exists 2%Q; split; [right; right; left; reflexivity|discriminate]].
Qed.
