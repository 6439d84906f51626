(** C86: the fit of the line model at one redshift, over the continuum candidates and the line ratio catalogues. *)
From Verif Require Import Base RangeModel AxisModel EfitModel F64 RatModel RatSpec RatProofs RatProofs2 RatProofs3 RatProofs4 RatProofs5 RatProofs6 RatProofs7.
Open Scope Q_scope.

(** ** every pair is fitted, the least chi-square is kept, with the solutions of that fit *)
Theorem C86_least_merit : forall C (v : env C) es tab c lg s, fit v es tab c lg = Ok s ->
  exists h, history v c es h /\ map (fun a => (t_k a, t_r a)) h = pairs (nContinuum v) (nratio v) (tried v) /\
    ((exists x, first_least t_m h x /\ f_best s = t_m x /\ f_k s = Z.of_nat (t_k x) /\ (knd v = TplRatio -> f_saved s = Z.of_nat (t_r x)) /\
                (lg = false \/ knd v = Rules -> f_sol s = Some (t_es x, t_c x))) \/
     (none_counts t_m h /\ f_best s = PInf /\ f_k s = undefIdx)).
Proof. exact @least_merit. Qed.
Print Assumptions C86_least_merit.
(** the pairs which are fitted *)
Theorem C86_pairs : forall nk nr f k r, In (k, r) (pairs nk nr f) <-> (k < nk)%nat /\ (r < nr)%nat /\ f r = true.
Proof. exact @pairs_bounds. Qed.
Print Assumptions C86_pairs.
(** ** no chi-square is a number: no result in the logging mode *)
Theorem C86_no_finite_merit : forall C (v : env C) es tab c, knd v = TplRatio -> forall s, fit v es tab c true = Ok s -> flt (f_best s) PInf = true.
Proof. exact @no_finite_merit. Qed.
Print Assumptions C86_no_finite_merit.
(** ** the table of the ratios: the least chi-square with its prior over the continua; a ratio which is not fitted has the results of the one before *)
Theorem C86_table : forall C (v : env C) es tab c lg s, knd v = TplRatio -> length tab = length (cat v) -> fit v es tab c lg = Ok s ->
  exists h, history v c es h /\ map (fun a => (t_k a, t_r a)) h = pairs (nContinuum v) (length (cat v)) (tried v) /\
    forall r, (r < length (cat v))%nat ->
      exists w, nth_error (f_tab s) r = Some w /\
        (tried v r = true ->
           (exists x, first_least with_prior (of_ratio r h) x /\ w_merit w = t_m x /\ w_prior w = t_p x /\
                      w_scale w = scale v (t_es x) /\ w_strong w = strong v (t_es x) /\
                      (haprior v = true -> w_ha w = strong v (t_es x) && haStrongest v (t_es x)) /\
                      Forall (fun sv => v_lprior sv = t_p x) (w_elts w)) \/
           (none_counts with_prior (of_ratio r h) /\ w_merit w = PInf /\ w_prior w = Fin 0)) /\
        (tried v r = false -> (0 < nContinuum v)%nat -> (0 < r)%nat /\ nth_error (f_tab s) (r - 1) = Some w).
Proof. exact @table. Qed.
Print Assumptions C86_table.
(** ** without line priors the object holds the best fit: its ratio, its continuum, its amplitudes *)
Theorem C86_best_restored : forall C (v : env C) es tab c s, knd v = TplRatio -> priors v = [] -> fitter_keeps v -> (svdlc v = false \/ nContinuum v = 1%nat) ->
  length tab = length (cat v) -> fit v es tab c true = Ok s ->
  exists h x, history v c es h /\ map (fun a => (t_k a, t_r a)) h = pairs (nContinuum v) (nratio v) (tried v) /\ first_least t_m h x /\
    f_best s = t_m x /\ f_saved s = Z.of_nat (t_r x) /\ f_k s = Z.of_nat (t_k x) /\ candidate v c (t_k x) (f_c s) /\
    f_sol s = Some (f_es s, f_c s) /\ Forall2 restored (t_es x) (f_es s).
Proof. exact @best_restored. Qed.
Print Assumptions C86_best_restored.
(** ** with the rules the object holds the last fit *)
Theorem C86_rules_last : forall C (v : env C) es tab c lg s, knd v = Rules -> fit v es tab c lg = Ok s ->
  exists h, history v c es h /\ map (fun a => (t_k a, t_r a)) h = pairs (nContinuum v) 1 (tried v) /\ f_es s = last_es es h.
Proof. exact @rules_last. Qed.
Print Assumptions C86_rules_last.
(** ** the chi-square: the samples from the begin of the range to the one before its end *)
Theorem C86_chi_square : forall o y m fs imin imax, length y = length (o_axis o) -> length m = length (o_axis o) -> length (o_err o) = length (o_axis o) -> (forall x, In x (o_err o) -> ~ x == 0) ->
  GetIndexAtWaveLength (o_axis o) (rbeg (o_range o)) = Ok imin -> GetIndexAtWaveLength (o_axis o) (rend (o_range o)) = Ok imax -> (imin <= imax < length (o_axis o))%nat ->
  exists q, getLeastSquareMerit [o] [y] [m] (Some fs) = Ok (Fin q) /\ q == chi2_from y m (o_err o) imin (imax - imin) + fs.
Proof. exact least_square. Qed.
Print Assumptions C86_chi_square.
(** the sample at the end of the range does not count *)
Theorem C86_last_sample_refuted : exists o y y' m i, nth_error (o_axis o) i <> None /\ rbeg (o_range o) <= nth i (o_axis o) 0 <= rend (o_range o) /\
  nth i y 0 <> nth i y' 0 /\ (forall j, j <> i -> nth j y 0 = nth j y' 0) /\ length y' = length y /\
  getLeastSquareMerit [o] [y] [m] (Some 0) = getLeastSquareMerit [o] [y'] [m] (Some 0).
Proof. exact last_sample_wit. Qed.
Print Assumptions C86_last_sample_refuted.
(** ** the line prior does not count in the choice of the ratio *)
Theorem C86_prior_ignored_refuted : exists (v : env Z) es tab c s w0 w1, knd v = TplRatio /\ fitter_keeps v /\ fit v es tab c true = Ok s /\ f_saved s = 0%Z /\
  nth_error (f_tab s) 0 = Some w0 /\ nth_error (f_tab s) 1 = Some w1 /\ flt (fadd (w_merit w1) (w_prior w1)) (fadd (w_merit w0) (w_prior w0)) = true.
Proof. exact ignored_prior_wit. Qed.
Print Assumptions C86_prior_ignored_refuted.
(** ** with line priors and several continua, the continuum of one fit is left with the amplitudes of another *)
Theorem C86_prior_mixed_refuted : exists (v : env Z) es tab c s h x, knd v = TplRatio /\ svdlc v = false /\ fitter_keeps v /\ fits v es c h x /\ fit v es tab c true = Ok s /\
  f_best s = t_m x /\ f_c s = t_c x /\ ~ same_amplitudes (t_es x) (f_es s).
Proof. exact mixed_prior_wit. Qed.
Print Assumptions C86_prior_mixed_refuted.
(** so it is with the rules *)
Theorem C86_rules_mixed_refuted : exists (v : env Z) es tab c s h x, knd v = Rules /\ svdlc v = false /\ fitter_keeps v /\ fits v es c h x /\ fit v es tab c true = Ok s /\
  f_best s = t_m x /\ f_c s = t_c x /\ f_sol s = Some (t_es x, t_c x) /\ ~ same_amplitudes (t_es x) (f_es s).
Proof. exact mixed_rules_wit. Qed.
Print Assumptions C86_rules_mixed_refuted.
(** with svdlc the continuum of the last candidate stays *)
Theorem C86_svdlc_mixed_refuted : exists (v : env Z) es tab c s h x, knd v = TplRatio /\ priors v = [] /\ fitter_keeps v /\ fits v es c h x /\ fit v es tab c true = Ok s /\
  f_best s = t_m x /\ same_amplitudes (t_es x) (f_es s) /\ f_c s <> t_c x.
Proof. exact mixed_svdlc_wit. Qed.
Print Assumptions C86_svdlc_mixed_refuted.
(** absorption lines over the limit get other amplitudes than the ones of the fit *)
Theorem C86_limit_refuted : exists (v : env Z) es tab c s h x, knd v = TplRatio /\ priors v = [] /\ nContinuum v = 1%nat /\ fitter_keeps v /\ fits v es c h x /\
  fit v es tab c true = Ok s /\ f_best s = t_m x /\ ~ same_amplitudes (t_es x) (f_es s).
Proof. exact limit_wit. Qed.
Print Assumptions C86_limit_refuted.
(** with line priors, an element which could not be fitted gets the amplitude of the redshift before *)
Theorem C86_stale_refuted : exists (v : env Z) es tab c s h x w e a, knd v = TplRatio /\ nContinuum v = 1%nat /\ fitter_keeps v /\ fits v es c h x /\
  fit v es tab c true = Ok s /\ f_best s = t_m x /\ map e_amp (t_es x) = [[None]] /\
  tab = [w] /\ map v_amp (w_elts w) = [Some a] /\ f_es s = [e] /\ e_nom e = [1] /\ exists q, e_amp e = [Some q] /\ q == a /\ ~ a == 0.
Proof. exact stale_wit. Qed.
Print Assumptions C86_stale_refuted.

(** non-vacuity: two continua, three ratios of which the last one is copied *)
Example C86_ex_restored : knd ex_v = TplRatio /\ priors ex_v = [] /\ fitter_keeps ex_v /\ svdlc ex_v = false /\ length [ex_row; ex_row; ex_row] = length (cat ex_v) /\ nContinuum ex_v = 2%nat /\
  tried ex_v 2 = false /\ tried ex_v 1 = true /\
  exists s, fit ex_v [ex_elt] [ex_row; ex_row; ex_row] 7%Z true = Ok s /\
  f_saved s = 1%Z /\ f_k s = 1%Z /\ f_c s = 2%Z /\ map e_amp (f_es s) = [[Some (8 # 2)]] /\ map e_nom (f_es s) = [[2]] /\
  map w_merit (f_tab s) = [Fin 10; Fin 2; Fin 2].
Proof. repeat (split; [first [reflexivity | apply ex_keeps]|]). exact ex_run_ok. Qed.
Example C86_ex_restored_elt : let e := line_elt 2 (Some (4 # 1)) (Some 2) (Some 1) in
  scaled e 2 1 /\ length (e_out e) = e_size e /\ length (e_nom e) = e_size e /\ e_allout e = false /\ under_limit e 2 /\ has_line e.
Proof.
  cbn. split; [split; [reflexivity|]; split; [reflexivity|]|].
  - intros [|i] L; [|cbn in L; lia]. exists false, 2. split; [reflexivity|]. split; [reflexivity|]. exists (4 # 1), 2.
    split; [reflexivity|]. split; [reflexivity|]. split; reflexivity.
  - repeat (split; [reflexivity|]). split; [intros [|[|i]] n H; discriminate H|]. exists 0%nat, 2. repeat split.
Qed.
Example C86_ex_chi_square : GetIndexAtWaveLength (o_axis ex_obs) (rbeg (o_range ex_obs)) = Ok 0%nat /\ GetIndexAtWaveLength (o_axis ex_obs) (rend (o_range ex_obs)) = Ok 2%nat /\
  getLeastSquareMerit [ex_obs] [[3; 1; 0]] [[1; 0; 0]] (Some 1) = Ok (Fin 6).
Proof. repeat split. Qed.
