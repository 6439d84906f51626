(** C81: template fitting on a logarithmic grid with the FFT. *)
From Verif Require TFitModel.
From Verif Require Import Base RBase FftModel LfitModel LfitSpec LfitProofs LfitProofs2 LfitProofs3 LfitProofs4.
Open Scope R_scope.

(** The fit of a range of redshifts: at each redshift the smallest of the direct least-squares merits
    over the igm and dust indices (the first one when equal), with its amplitude, error, significance,
    products and indices, and every merit in the intermediate table. *)
Theorem C81_range_fit thr enIGM enISM ebmvValue flux j1 j2 spcLambda data w tplLambda kstart kend zs MeiksinList EbmvList dtd zref s0 l0 :
  (1 <= length spcLambda)%nat -> length data = length spcLambda -> length w = length spcLambda ->
  Forall (fun v => 0 <= v) w -> dtd = wdot w data data ->
  nth_error zs 0 = Some zref -> nth_error spcLambda 0 = Some s0 -> nth_error tplLambda kstart = Some l0 ->
  (kend + 2 = kstart + length spcLambda + length zs)%nat -> (kend < length tplLambda)%nat ->
  (forall igm ism, length (flux kstart kend zref igm ism) = length tplLambda) ->
  MeiksinList <> [] -> EbmvList <> [] ->
  (forall k l z, (k < length zs)%nat -> nth_error tplLambda (k + kstart) = Some l -> nth_error (rev zs) k = Some z ->
     Rabs (z - (s0 - l) / l) / (1 + (s0 - l) / l) <= 5 / 10000000) ->
  exists bests inter,
    FitRangez thr enIGM enISM ebmvValue flux j1 j2 spcLambda data w tplLambda kstart kend zs MeiksinList EbmvList dtd
      = Ok (bests, inter) /\
    range_fitted thr enIGM enISM ebmvValue w data (flux kstart kend zref) l0 kstart (length zs) MeiksinList EbmvList bests inter.
Proof. exact (FitRangez_ok thr enIGM enISM ebmvValue flux j1 j2 spcLambda data w tplLambda kstart kend zs MeiksinList EbmvList dtd zref s0 l0). Qed.
Print Assumptions C81_range_fit.

(** The template samples used for a range of redshifts of aligned logarithmic grids. *)
Theorem C81_template_indices s0 t0 step nS N p n b e : 0 < s0 -> 0 < t0 -> 0 < step -> (2 <= nS)%nat ->
  (p + n + nS <= N + 1)%nat -> (Z.of_nat N <= 2147483647)%Z -> (b <= e < n)%nat ->
  let tpl := log_grid t0 step N in
  FindTplSpectralIndex (log_grid s0 step nS) tpl step
    (s0 / nth (p + (n - 1 - b)) tpl 0 - 1) (s0 / nth (p + (n - 1 - e)) tpl 0 - 1)
  = Ok (Z.of_nat (p + (n - 1 - e)), Z.of_nat (p + (n - 1 - b) + nS - 1)).
Proof. exact (FindTpl_index s0 t0 step nS N p n b e). Qed.
Print Assumptions C81_template_indices.

(** Redshifts which are not exactly on the grid: the template samples are the nearest ones (less than half a step away). *)
Theorem C81_template_indices_nearest sb se tb te spc tpl step zb ze ka kr : (2 <= length spc)%nat -> (2 <= length tpl)%nat -> (Z.of_nat (length tpl) <= 2147483647)%Z ->
  nth 0 spc 0 = sb -> nth (length spc - 1) spc 0 = se -> nth 0 tpl 0 = tb -> nth (length tpl - 1) tpl 0 = te -> tb <> 0 -> te <> 0 ->
  Rabs (ln (sb / tb / (1 + ze)) / step - INR ka) < / 2 -> Rabs (ln ((1 + zb) / (se / te)) / step - INR kr) < / 2 -> (ka + kr < length tpl)%nat ->
  FindTplSpectralIndex spc tpl step zb ze = Ok (Z.of_nat ka, Z.of_nat (length tpl - 1 - kr)).
Proof. exact (FindTpl_near sb se tb te spc tpl step zb ze ka kr). Qed.
Print Assumptions C81_template_indices_nearest.
(** four template samples one step apart, two spectrum samples, a redshift 0.3 step below the second sample and 0.3 step off for the right one *)
Example C81_nearest_case : let spc := [1; exp 1] in let tpl := [1; exp 1; exp 2; exp 3] in
  Rabs (ln (1 / 1 / (1 + (exp (- (7 / 10)) - 1))) / 1 - INR 1) < / 2 /\
  Rabs (ln ((1 + (exp (- (7 / 10)) - 1)) / (exp 1 / exp 3)) / 1 - INR 1) < / 2 /\ nth 0 spc 0 = 1 /\ nth 3 tpl 0 = exp 3.
Proof.
  assert (P := exp_pos (- (7 / 10))).
  split; [|split; [|split; reflexivity]].
  - replace (1 / 1 / (1 + (exp (- (7 / 10)) - 1))) with (/ exp (- (7 / 10))) by (field; lra). rewrite <- exp_Ropp, ln_exp. cbn [INR]. apply Rabs_def1; lra.
  - replace ((1 + (exp (- (7 / 10)) - 1)) / (exp 1 / exp 3)) with (exp (13 / 10)).
    { rewrite ln_exp. cbn [INR]. apply Rabs_def1; lra. }
    replace (1 + (exp (- (7 / 10)) - 1)) with (exp (- (7 / 10))) by ring. unfold Rdiv. rewrite <- exp_Ropp, <- exp_plus, <- exp_Ropp, <- exp_plus. f_equal. lra.
Qed.

(** The fit of the whole grid: each redshift, in its range, has the best least-squares fit with the
    template samples that match the spectrum at this redshift, then its prior. *)
Theorem C81_full_grid thr enIGM enISM ebmvValue ebmvIndex flux junk s0 t0 step nS N p n data err M E lp ranges rows :
  setting s0 t0 step nS N p n data err flux M E -> chain 0 ranges n ->
  FitAllz thr enIGM enISM ebmvValue flux ebmvIndex junk (log_grid s0 step nS) data err (log_grid t0 step N) step
    (redshift_grid s0 (log_grid t0 step N) p n) M E lp ranges = Ok rows ->
  length rows = n /\
  forall b e, In (b, e) ranges ->
    rows_fitted thr enIGM enISM ebmvValue ebmvIndex flux s0 (log_grid t0 step N) data (inverse_variances err) p n M E lp rows b (Z.to_nat e).
Proof. exact (FitAllz_spec thr enIGM enISM ebmvValue ebmvIndex flux junk s0 t0 step nS N p n data err M E lp ranges rows). Qed.
Print Assumptions C81_full_grid.

(** Without priors the fit of the whole grid never fails. *)
Theorem C81_full_grid_total thr enIGM enISM ebmvValue ebmvIndex flux junk s0 t0 step nS N p n data err M E ranges :
  setting s0 t0 step nS N p n data err flux M E -> chain 0 ranges n ->
  exists rows, FitAllz thr enIGM enISM ebmvValue flux ebmvIndex junk (log_grid s0 step nS) data err (log_grid t0 step N) step
    (redshift_grid s0 (log_grid t0 step N) p n) M E [] ranges = Ok rows.
Proof. exact (FitAllz_total thr enIGM enISM ebmvValue ebmvIndex flux junk s0 t0 step nS N p n data err M E ranges). Qed.
Print Assumptions C81_full_grid_total.

(** Non-vacuity: a setting and two ranges. *)
Example C81_setting_nonvacuous :
  setting 1 1 1 2 4 0 3 [1; 2] [1; 1] (fun _ _ _ _ _ => [1; 1; 1; 1]) [0%Z] [0%Z; 1%Z] /\
  chain 0 [(0%nat, 1%Z); (2%nat, 2%Z)] 3.
Proof.
  split.
  - unfold setting. repeat split; try lra; try lia; try discriminate; reflexivity.
  - cbn [chain]. repeat split; try lia.
Qed.

(** The reported merit is the least possible one for any amplitude when the significance reaches the
    threshold, or the template is null. *)
Theorem C81_least_squares_optimal thr w d t a :
  Forall (fun v => 0 <= v) w -> length d = length w -> length t = length w ->
  thr <= wdot w d t / sqrt (wdot w t t) \/ wdot w t t = 0 ->
  merit thr w d t <= chi2_of w d t a.
Proof. exact (fun W L1 L2 H => merit_optimal thr w d t a W L1 L2 (wdot_null w W d t) H). Qed.
Print Assumptions C81_least_squares_optimal.

(** It is never above the merit of a null model. *)
Theorem C81_merit_below_null thr w d t :
  Forall (fun v => 0 <= v) w -> length d = length w -> length t = length w ->
  merit thr w d t <= wdot w d d.
Proof. exact (merit_le_dtd thr w d t). Qed.
Print Assumptions C81_merit_below_null.

(** With an amplitude prior the final merit is the least possible for this template, prior included,
    when the significance is not below the threshold. *)
Theorem C81_prior_amplitude_optimal thr dtd c p c' l :
  0 <= c_mtm c -> 0 < p_asigma p -> 0 < p_amean p -> 0 < p_betaA p ->
  applyPrior thr dtd c p = Ok (c', l) ->
  (forall s, c_sigma c' = Some s -> thr <= s) ->
  forall a, c_chi2 c' <= dtd - 2 * a * c_dtm c + a * a * c_mtm c
     + (- 2 * p_betaTE p * p_lTE p + - 2 * p_betaA p * p_lA p + - 2 * p_betaZ p * p_lZ p)
     + p_betaA p * (a - p_amean p) * (a - p_amean p) / (p_asigma p * p_asigma p).
Proof. exact (applyPrior_optimal thr dtd c p c' l). Qed.
Print Assumptions C81_prior_amplitude_optimal.

Example C81_prior_nonvacuous : exists c' l,
  applyPrior 0 1 (mkCell 0 1 1 (Some 1) 1 1 1 0 0) (mkPrior 0 0 1 0 0 0 1 1) = Ok (c', l) /\
  exists s, c_sigma c' = Some s /\ 0 <= s.
Proof.
  unfold applyPrior. cbn [p_asigma p_amean p_betaA c_mtm c_dtm].
  destruct (Rltb_spec 0 1); [|lra]. cbn [andb rbind]. destruct (Reqb_spec 1 0); [lra|].
  do 2 eexists. split; [reflexivity|]. cbn [c_sigma]. eexists. split; [reflexivity|].
  rewrite sqrt_1. lra.
Qed.

(** The best dust and igm indices are chosen before the prior is added: another dust index may have a
    smaller final merit than the reported one. *)
Theorem C81_prior_after_choice_refuted : exists w d t1 t2 c1 c2 p1 p2 c1' c2' l1 l2,
  is_fit 0 w d t1 0 0 c1 /\ is_fit 0 w d t2 1 0 c2 /\
  first_best (merit 0 w d) [t1; t2] t1 /\
  applyPrior 0 (wdot w d d) c1 p1 = Ok (c1', l1) /\ applyPrior 0 (wdot w d d) c2 p2 = Ok (c2', l2) /\
  c_chi2 c2' < c_chi2 c1'.
Proof. exact choice_before_prior. Qed.
Print Assumptions C81_prior_after_choice_refuted.

(** The direct method and this one do not give the same merit to the same products and prior: this one
    always adds the template, dust and redshift terms, the direct method only with an amplitude prior. *)
Theorem C81_same_as_direct_refuted : exists (x t s : Q) (p : TFitModel.prior) c' l,
  applyPrior 0 (Q2R s) (mkBestCell 0 (Q2R s) (Q2R x) (Q2R t) 0 0) (prior_of p) = Ok (c', l) /\
  c_chi2 (mkBestCell 0 (Q2R s) (Q2R x) (Q2R t) 0 0) = Q2R (TFitModel.f_chi2 (TFitModel.ComputeAmplitudeAndChi2 (fun x => x) 0 (TFitModel.mkCross x t s) p)) /\
  c_chi2 c' = Q2R (TFitModel.f_chi2 (TFitModel.ComputeAmplitudeAndChi2 (fun x => x) 0 (TFitModel.mkCross x t s) p)) + 2.
Proof. exact not_as_direct. Qed.
Print Assumptions C81_same_as_direct_refuted.
