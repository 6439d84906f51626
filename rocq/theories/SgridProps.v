(** C93: the redshift grids and the first passes. *)
From Coq Require Import String.
From Verif Require Import Base RBase RangeModel RangeLogModel FpcModel FpcSpec FpcProofs4 SgridModel SgridSpec SgridProofs SgridProofs2 SgridProofs3 SgridProofs4.
Open Scope Q_scope.

(** regular steps from the start of the range, all those which do not exceed its end by more than the tolerance, clamped to the end *)
Theorem C93_linear_grid : forall r step, fit_lin r step ->
  exists v, grid_lin r step = Ok v /\ laid (lin_steps (rbeg r) step) (rend r) default_epsilon v.
Proof. exact grid_lin_spec. Qed.
Print Assumptions C93_linear_grid.
(** the coarse grid, or the fine one when the coarse one has less than 10 redshifts; both are in the fine grid, inside the range, and span it *)
Theorem C93_linear_line_model : forall r step k, (1 <= k)%nat -> fit_lin r step ->
  exists vc vf v s, grid_lin r (step * nQ k) = Ok vc /\ grid_lin r step = Ok vf /\ lineModel_grid_lin r step (Z.of_nat k) = Ok (v, s) /\
    ((length vc < 10)%nat -> v = vf /\ s = step) /\ ((10 <= length vc)%nat -> v = vc /\ s = step * nQ k) /\
    (forall x, In x v -> exists y, In y vf /\ y == x) /\ (forall x, In x v -> rbeg r <= x <= rend r) /\
    (exists x, nth_error v 0 = Some x /\ x == rbeg r) /\ (exists x, nth_error v (length v - 1) = Some x /\ rend r - s < x) /\
    laid (lin_steps (rbeg r) s) (rend r) default_epsilon v.
Proof. exact lineModel_lin. Qed.
Print Assumptions C93_linear_line_model.
(** the grid of the line measurement: 2n+1 redshifts around the reference, which is one of them; at least the asked half range *)
Theorem C93_linear_measurement : forall zref half step, default_epsilon < step -> 0 <= half -> (2 * half + 3 * step) / step < 2147483647 ->
  exists n v, lineMeas_grid_lin zref half step = Ok v /\ length v = (2 * n + 1)%nat /\ half <= nQ n * step /\ nQ n * step < half + step /\
    (forall i x, nth_error v i = Some x -> x == zref + (nQ i - nQ n) * step) /\ (exists x, nth_error v n = Some x /\ x == zref).
Proof. exact lineMeas_lin. Qed.
Print Assumptions C93_linear_measurement.
(** with rebinned spectra, their range and step; a linear sampling is refused *)
Theorem C93_sampling_rebinned : forall s prange pstep zr st, GetRedshiftSampling (Some (zr, st)) s prange pstep = match s with Log => Ok (zr, st) | Lin => Throw BAD_PARAMETER_VALUE end.
Proof. exact sampling_rebinned. Qed.
Print Assumptions C93_sampling_rebinned.
Theorem C93_sampling_plain : forall s prange pstep, GetRedshiftSampling None s prange pstep = Ok (prange, pstep).
Proof. exact sampling_plain. Qed.
Print Assumptions C93_sampling_plain.
(** FFT for the continuum: the option of the pass, and at least 100 redshifts *)
Theorem C93_fft : forall first second p n, isfftprocessingActive first second p n = true <->
  (100 <= n)%nat /\ ((p = None \/ p = Some 1%Z) /\ first = true \/ (exists q, p = Some q /\ q <> 1%Z) /\ second = true).
Proof. exact fft_active. Qed.
Print Assumptions C93_fft.
(** NULL_MODEL when nothing was fitted at any redshift, in particular for an empty grid *)
Theorem C93_null_model : forall {Z0} (fit : Z0 -> fitted) zs,   first_pass_check fit zs = Throw NULL_MODEL <-> (forall z, In z zs -> null_fit (fit z)).
Proof. exact @first_pass_null. Qed.
Print Assumptions C93_null_model.
Theorem C93_not_null : forall {Z0} (fit : Z0 -> fitted) zs, (exists z, In z zs /\ ~ null_fit (fit z)) -> first_pass_check fit zs = Ok (map fit zs).
Proof. exact @first_pass_ok. Qed.
Print Assumptions C93_not_null.
(** the second first pass runs for at least two candidates and a template continuum *)
Theorem C93_second_pass_enabled : forall countB c, enableFirstpass_B countB c = true <-> (2 <= countB)%Z /\ (c = TplFit \/ c = TplFitAuto).
Proof. exact enabled_spec. Qed.
Print Assumptions C93_second_pass_enabled.
Theorem C93_second_pass_disabled : forall pass_of cands countB c, enableFirstpass_B countB c = false ->
  first_passes pass_of cands countB c = (do r <- pass_of c; do zs <- cands r "FPE"%string; SetFirstPassCandidates r no_pass zs).
Proof. exact passes_disabled. Qed.
Print Assumptions C93_second_pass_disabled.
(** it runs with the same continuum as the first one: the candidates are those of the first one alone *)
Theorem C93_second_pass_useless : forall pass_of cands countB c r zs zb, pass_of c = Ok r -> complete r -> cands r "FPE"%string = Ok zs -> cands r "FPB"%string = Ok zb ->
  real zs -> real zb -> same_redshifts zs zb -> (forall k z, In k zs -> at_z k z -> on_grid r z) ->
  exists p, first_passes pass_of cands countB c = Ok p /\ first_passes pass_of cands 0 c = Ok p /\ p_cands p = zs.
Proof. exact pass_b_useless. Qed.
Print Assumptions C93_second_pass_useless.
Open Scope R_scope.
(** the same in log(1+z) *)
Theorem C93_log_grid : forall r step, fit_log r step ->
  exists v, grid_log r step = Ok v /\ laidR (log_steps (rb r) step) (re r) epsR v.
Proof. exact grid_log_spec. Qed.
Print Assumptions C93_log_grid.
Theorem C93_log_line_model : forall r step k, (1 <= k)%nat -> fit_log r step ->
  exists vc vf v s, grid_log r (step * INR k) = Ok vc /\ grid_log r step = Ok vf /\ lineModel_grid_log r step (Z.of_nat k) = Ok (v, s) /\
    ((length vc < 10)%nat -> v = vf /\ s = step) /\ ((10 <= length vc)%nat -> v = vc /\ s = step * INR k) /\
    (forall x, In x v -> In x vf) /\ (forall x, In x v -> rb r <= x <= re r) /\
    nth_error v 0 = Some (rb r) /\ (exists x, nth_error v (length v - 1) = Some x /\ re r + 1 < (x + 1) * exp s) /\
    laidR (log_steps (rb r) s) (re r) epsR v.
Proof. exact lineModel_log. Qed.
Print Assumptions C93_log_line_model.
Theorem C93_log_measurement : forall zref half step, 0 < zref + 1 -> 0 <= half -> epsR < (zref + 1) * exp (- (half + step)) * (exp step - 1) -> 0 < step -> 2 * half / step < 2000000000 ->
  exists n v, lineMeas_grid_log zref half step = Ok v /\ length v = (2 * n + 1)%nat /\ half <= INR n * step /\ INR n * step < half + step /\
    (forall i x, nth_error v i = Some x -> x + 1 = (zref + 1) * exp ((INR i - INR n) * step)) /\ nth_error v n = Some zref.
Proof. exact lineMeas_log. Qed.
Print Assumptions C93_log_measurement.
Open Scope Q_scope.

(** ** what does not hold *)
(** a number of candidates of 1 disables the second first pass *)
Theorem C93_second_pass_refuted : exists countB, (0 < countB)%Z /\ forall c, enableFirstpass_B countB c = false.
Proof. exact one_candidate_b. Qed.
Print Assumptions C93_second_pass_refuted.
(** no line, no template continuum: the amplitude of the continuum is NaN, and the check passes *)
Theorem C93_null_model_refuted : exists fit : Q -> fitted, (forall z x, In (Some x) (f_amps (fit z)) -> x <= 0) /\ (forall z, f_cont (fit z) = None) /\
  forall zs, (0 < List.length zs)%nat -> first_pass_check fit zs = Ok (map fit zs).
Proof. exact nan_continuum. Qed.
Print Assumptions C93_null_model_refuted.
(** the fall-back on the fine grid can give more redshifts than the coarse grids which are kept *)
Theorem C93_coarse_refuted : exists vc v s, grid_lin (mkRange 0 (3 # 10)) (1 # 10) = Ok vc /\ lineModel_grid_lin (mkRange 0 (3 # 10)) (1 # 100) 10 = Ok (v, s) /\ List.length vc = 4%nat /\ List.length v = 31%nat /\ s = 1 # 100.
Proof. exact coarse_more. Qed.
Print Assumptions C93_coarse_refuted.
(** the redshifts of the line measurement can be negative *)
Theorem C93_measurement_negative_refuted : exists zref half step v x, 0 <= zref /\ 0 <= half /\ default_epsilon < step /\ lineMeas_grid_lin zref half step = Ok v /\ nth_error v 0 = Some x /\ x < 0.
Proof. exact negative_meas. Qed.
Print Assumptions C93_measurement_negative_refuted.

(** ** the hypotheses are met *)
Example C93_fit_example : fit_lin (mkRange 0 1) (1 # 100) /\ fit_log (mkRR 0 1) (1 / 10)%R.
Proof. exact (conj ex_fit_lin ex_fit_log). Qed.
Example C93_coarse_example : exists v, lineModel_grid_lin (mkRange 0 1) (1 # 100) 10 = Ok (v, (1 # 100) * 10) /\
  map Qred v = [0; 1#10; 1#5; 3#10; 2#5; 1#2; 3#5; 7#10; 4#5; 9#10; 1].
Proof. exact ex_coarse. Qed.
Example C93_fine_example : exists v, lineModel_grid_lin (mkRange 0 (1 # 20)) (1 # 100) 10 = Ok (v, 1 # 100) /\ map Qred v = [0; 1#100; 1#50; 3#100; 1#25; 1#20].
Proof. exact ex_fine. Qed.
Example C93_measurement_example : exists v, lineMeas_grid_lin (1 # 2) (3 # 100) (2 # 100) = Ok v /\ map Qred v = [23#50; 12#25; 1#2; 13#25; 27#50].
Proof. exact ex_meas. Qed.
Example C93_measurement_log_example : (0 < 1 + 1 /\ 0 <= 1 / 10 /\ epsR < (1 + 1) * exp (- (1 / 10 + 1 / 10)) * (exp (1 / 10) - 1) /\ 0 < 1 / 10 /\ 2 * (1 / 10) / (1 / 10) < 2000000000)%R.
Proof. exact ex_meas_log. Qed.
Example C93_second_pass_example : complete exA /\ real [at' "FPE0" 1; at' "FPE1" 3] /\ real [at' "FPB0" 3; at' "FPB1" 1] /\
  same_redshifts [at' "FPE0" 1; at' "FPE1" 3] [at' "FPB0" 3; at' "FPB1" 1] /\
  (forall k z, In k [at' "FPE0" 1; at' "FPE1" 3] -> at_z k z -> on_grid exA z) /\ enableFirstpass_B 2 TplFit = true.
Proof. exact ex_pass_b. Qed.
Example C93_null_example : exists fit : Q -> fitted, (forall z, In z [1; 2] -> null_fit (fit z)) /\ first_pass_check fit [1; 2] = Throw NULL_MODEL /\
  exists fit' : Q -> fitted, first_pass_check fit' [1; 2] = Ok (map fit' [1; 2]) /\ null_fit (fit' 1) /\ ~ null_fit (fit' 2).
Proof. exact ex_null. Qed.
