From Verif Require TFitModel.
From Verif Require Import Base RBase FftModel FftSpec FftProofs FftProofs2 FftProofs3 LfitModel LfitSpec LfitProofs LfitProofs2 LfitProofs3.
Open Scope R_scope.

Lemma FitAllz_spec thr enIGM enISM ebmvValue ebmvIndex flux junk s0 t0 step nS N p n data err M E lp ranges rows :
  setting s0 t0 step nS N p n data err flux M E -> chain 0 ranges n ->
  FitAllz thr enIGM enISM ebmvValue flux ebmvIndex junk (log_grid s0 step nS) data err (log_grid t0 step N) step
    (redshift_grid s0 (log_grid t0 step N) p n) M E lp ranges = Ok rows ->
  length rows = n /\
  forall b e, In (b, e) ranges ->
    rows_fitted thr enIGM enISM ebmvValue ebmvIndex flux s0 (log_grid t0 step N) data (invErr2 err) p n M E lp rows b (Z.to_nat e).
Proof.
  intros (H1 & H2 & H3 & H4 & H5 & H6 & H7 & H8 & H9 & H10 & H11 & H12) C H.
  unfold FitAllz in H. destruct (Nat.ltb_spec (length data) (length err)) as [K|_]; [lia|].
  assert (Lw : length (invErr2 err) = nS) by (unfold invErr2; rewrite map_length; exact H9).
  assert (Ed : sumDtD data (invErr2 err) = wdot (invErr2 err) data data) by (apply sumDtD_wdot; congruence).
  assert (LR : length (@repeat (option row) None (length (redshift_grid s0 (log_grid t0 step N) p n))) = n)
    by (rewrite repeat_length, redshift_grid_length; reflexivity).
  destruct (loop_spec thr enIGM enISM ebmvValue ebmvIndex flux junk s0 t0 step nS N p n data (invErr2 err)
    (sumDtD data (invErr2 err)) M E lp H1 H2 H3 H4 H6 H7 H5 H8 Lw (invErr2_nn err) Ed H10 H11 H12 ranges 0 0
    (repeat None (length (redshift_grid s0 (log_grid t0 step N) p n))) rows C LR H) as (L & _ & Q).
  split; [exact L|]. intros b e I0. destruct (Q b e I0) as [(bests & inter & RF & RR) _].
  exists bests, inter. rewrite H8, <- Ed. split; [exact RF|exact RR].
Qed.

Lemma FitAllz_total thr enIGM enISM ebmvValue ebmvIndex flux junk s0 t0 step nS N p n data err M E ranges :
  setting s0 t0 step nS N p n data err flux M E -> chain 0 ranges n ->
  exists rows, FitAllz thr enIGM enISM ebmvValue flux ebmvIndex junk (log_grid s0 step nS) data err (log_grid t0 step N) step
    (redshift_grid s0 (log_grid t0 step N) p n) M E [] ranges = Ok rows.
Proof.
  intros (H1 & H2 & H3 & H4 & H5 & H6 & H7 & H8 & H9 & H10 & H11 & H12) C.
  unfold FitAllz. destruct (Nat.ltb_spec (length data) (length err)) as [K|_]; [lia|].
  assert (Lw : length (invErr2 err) = nS) by (unfold invErr2; rewrite map_length; exact H9).
  assert (Ed : sumDtD data (invErr2 err) = wdot (invErr2 err) data data) by (apply sumDtD_wdot; congruence).
  apply (loop_total thr enIGM enISM ebmvValue ebmvIndex flux junk s0 t0 step nS N p n data (invErr2 err)
    (sumDtD data (invErr2 err)) M E [] H1 H2 H3 H4 H6 H7 H5 H8 Lw (invErr2_nn err) Ed H10 H11 H12 eq_refl ranges 0 0).
  - exact C.
  - rewrite repeat_length, redshift_grid_length; reflexivity.
Qed.

Lemma FindTpl_index s0 t0 step nS N p n b e : 0 < s0 -> 0 < t0 -> 0 < step -> (2 <= nS)%nat ->
  (p + n + nS <= N + 1)%nat -> (Z.of_nat N <= 2147483647)%Z -> (b <= e < n)%nat ->
  let tpl := log_grid t0 step N in
  FindTplSpectralIndex (log_grid s0 step nS) tpl step
    (s0 / nth (p + (n - 1 - b)) tpl 0 - 1) (s0 / nth (p + (n - 1 - e)) tpl 0 - 1)
  = Ok (Z.of_nat (p + (n - 1 - e)), Z.of_nat (p + (n - 1 - b) + nS - 1)).
Proof. intros. apply FindTpl_ok; auto. lia. Qed.

(** priors *)
Lemma applyPrior_optimal thr dtd c p c' l : 0 <= c_mtm c -> 0 < p_asigma p -> 0 < p_amean p -> 0 < p_betaA p ->
  applyPrior thr dtd c p = Ok (c', l) ->
  (forall s, c_sigma c' = Some s -> thr <= s) ->
  forall a, c_chi2 c' <= dtd - 2 * a * c_dtm c + a * a * c_mtm c
     + (- 2 * p_betaTE p * p_lTE p + - 2 * p_betaA p * p_lA p + - 2 * p_betaZ p * p_lZ p)
     + p_betaA p * (a - p_amean p) * (a - p_amean p) / (p_asigma p * p_asigma p).
Proof.
  intros M S0 A0 B0. unfold applyPrior.
  destruct (Rltb_spec 0 (p_asigma p)); [|lra]. destruct (Rltb_spec 0 (p_amean p)); [|lra]. cbn [andb].
  destruct (Rltb_spec 0 (p_betaA p)); [|lra]. cbn [rbind].
  set (base := - 2 * p_betaTE p * p_lTE p + - 2 * p_betaA p * p_lA p + - 2 * p_betaZ p * p_lZ p). intros H Hs a. injection H as <- <-. cbn [c_chi2 c_sigma] in *.
  set (bss := p_betaA p / (p_asigma p * p_asigma p)) in *.
  assert (SS : 0 < p_asigma p * p_asigma p) by nra.
  assert (Bp : 0 < bss) by (apply Rdiv_lt_0_compat; lra).
  set (a0 := (c_dtm c + p_amean p * bss) / (c_mtm c + bss)) in *.
  assert (Amp : (match (if Reqb (c_mtm c) 0 then None else Some (a0 / (sqrt (c_mtm c) / (c_mtm c + bss)))) with
                 | Some s => if Rltb s thr then 0 else a0 | None => a0 end) = a0).
  { destruct (Reqb (c_mtm c) 0); [reflexivity|].
    specialize (Hs _ eq_refl). destruct (Rltb_spec (a0 / (sqrt (c_mtm c) / (c_mtm c + bss))) thr); [lra|reflexivity]. }
  rewrite Amp.
  assert (T : forall x, p_betaA p * (x - p_amean p) * (x - p_amean p) / (p_asigma p * p_asigma p) = bss * ((x - p_amean p) * (x - p_amean p))).
  { intros x. unfold bss. field. lra. }
  rewrite !T.
  assert (D : (c_mtm c + bss) * a0 = c_dtm c + p_amean p * bss) by (unfold a0; field; lra).
  pose proof (Rle_0_sqr (a - a0)) as Sq. unfold Rsqr in Sq.
  assert (F : (c_mtm c + bss) * (a * a) - 2 * a * (c_dtm c + p_amean p * bss) - ((c_mtm c + bss) * (a0 * a0) - 2 * a0 * (c_dtm c + p_amean p * bss)) = (c_mtm c + bss) * ((a - a0) * (a - a0))).
  { rewrite <- D. ring. }
  assert (0 <= (c_mtm c + bss) * ((a - a0) * (a - a0))) by (apply Rmult_le_pos; lra).
  clear Amp T Hs. clearbody base a0 bss.
  generalize dependent (c_mtm c). generalize dependent (c_dtm c). generalize dependent (p_amean p). intros. lra.
Qed.

Definition no_ptze (l : R) : ptze := mkPrior 1 l 0 0 0 0 0 0.
Lemma applyPrior_none thr dtd c l : applyPrior thr dtd c (no_ptze l) =
  Ok (mkCell (c_chi2 c + (-2 * 1 * l + -2 * 0 * 0 + -2 * 0 * 0)) (c_amp c) (c_err c) (c_sigma c) (c_dtm c) (c_mtm c) (c_snr c) (c_ebmv c) (c_igm c), -2 * 1 * l + -2 * 0 * 0 + -2 * 0 * 0).
Proof. unfold applyPrior, no_ptze. cbn [p_asigma p_amean]. destruct (Rltb_spec 0 0); [lra|]. reflexivity. Qed.

Lemma wit1 : merit 0 [1; 1] [1; 0] [1; 0] = 0.
Proof.
  unfold merit. rewrite chi2_quad by reflexivity. unfold amplitude. cbn [wdot].
  replace (1 * 1 * 1 + (1 * 0 * 0 + 0)) with 1 by ring. rewrite sqrt_1.
  destruct (Reqb_spec 1 0); [lra|]. destruct (Rltb_spec (1 / 1) 0); lra.
Qed.
Lemma wit2 : merit 0 [1; 1] [1; 0] [1; 1] = / 2.
Proof.
  unfold merit. rewrite chi2_quad by reflexivity. unfold amplitude. cbn [wdot].
  replace (1 * 1 * 1 + (1 * 0 * 1 + 0)) with 1 by ring. replace (1 * 1 * 1 + (1 * 1 * 1 + 0)) with 2 by ring.
  destruct (Reqb_spec 2 0); [lra|].
  destruct (Rltb_spec (1 / sqrt 2) 0) as [L|L].
  - assert (0 < 1 / sqrt 2) by (apply Rdiv_lt_0_compat; [lra|apply sqrt_lt_R0; lra]). lra.
  - lra.
Qed.

Lemma choice_before_prior : exists w d t1 t2 c1 c2 p1 p2 c1' c2' l1 l2,
  is_fit 0 w d t1 0 0 c1 /\ is_fit 0 w d t2 1 0 c2 /\
  first_best (merit 0 w d) [t1; t2] t1 /\
  applyPrior 0 (wdot w d d) c1 p1 = Ok (c1', l1) /\ applyPrior 0 (wdot w d d) c2 p2 = Ok (c2', l2) /\
  c_chi2 c2' < c_chi2 c1'.
Proof.
  exists [1; 1], [1; 0], [1; 0], [1; 1].
  assert (Ex : forall t e, exists c, is_fit 0 [1; 1] [1; 0] t e 0 c).
  { intros t e. eexists (mkCell _ _ _ _ _ _ _ _ _). repeat split. }
  destruct (Ex [1; 0] 0) as (c1 & F1). destruct (Ex [1; 1] 1) as (c2 & F2).
  exists c1, c2, (no_ptze (-1)), (no_ptze 0). rewrite !applyPrior_none.
  do 4 eexists. split; [exact F1|]. split; [exact F2|]. split.
  - exists [], [[1; 1]]. split; [reflexivity|]. split; [intros y []|]. intros y [<-|[]]. rewrite wit1, wit2. lra.
  - split; [reflexivity|]. split; [reflexivity|]. cbn [c_chi2].
    destruct F1 as (-> & _). destruct F2 as (-> & _). rewrite wit1, wit2. lra.
Qed.

(** the direct method (templatefitting.cpp) and this one do not use the priors alike *)
Lemma not_as_direct : exists (x t s : Q) (p : TFitModel.prior) c' l,
  applyPrior 0 (Q2R s) (mkBestCell 0 (Q2R s) (Q2R x) (Q2R t) 0 0) (prior_of p) = Ok (c', l) /\
  c_chi2 (mkBestCell 0 (Q2R s) (Q2R x) (Q2R t) 0 0) = Q2R (TFitModel.f_chi2 (TFitModel.ComputeAmplitudeAndChi2 (fun x => x) 0 (TFitModel.mkCross x t s) p)) /\
  c_chi2 c' = Q2R (TFitModel.f_chi2 (TFitModel.ComputeAmplitudeAndChi2 (fun x => x) 0 (TFitModel.mkCross x t s) p)) + 2.
Proof.
  exists 1%Q, 1%Q, 1%Q, (TFitModel.mkPrior 0 0 0 1 0 (-1)%Q 0 0).
  assert (D : Q2R (TFitModel.f_chi2 (TFitModel.ComputeAmplitudeAndChi2 (fun x => x) 0 (TFitModel.mkCross 1 1 1) (TFitModel.mkPrior 0 0 0 1 0 (-1)%Q 0 0))) = 0).
  { rewrite <- RMicromega.Q2R_0. apply Qreals.Qeq_eqR. vm_compute. reflexivity. }
  rewrite D.
  assert (O : Q2R 1 = 1) by apply RMicromega.Q2R_1. assert (Z0 : Q2R 0 = 0) by apply RMicromega.Q2R_0.
  assert (M1 : Q2R (-1) = -1) by (unfold Q2R; simpl; lra).
  assert (K : c_chi2 (mkBestCell 0 1 1 1 0 0) = 0).
  { unfold mkBestCell, fitShift. destruct (Reqb_spec 1 0); [lra|].
    replace (1 / 1) with 1 by lra. rewrite sqrt_1. destruct (Rltb_spec (1 / 1) 0); cbn [c_chi2]; lra. }
  unfold applyPrior, prior_of. cbn [TFitModel.p_betaTE TFitModel.p_lTE TFitModel.p_betaA TFitModel.p_lA TFitModel.p_betaZ
    TFitModel.p_lZ TFitModel.p_amean TFitModel.p_asigma p_asigma p_amean p_betaTE p_lTE p_betaA p_lA p_betaZ p_lZ].
  rewrite Z0, O, M1. destruct (Rltb_spec 0 0); [lra|]. cbn [andb].
  do 2 eexists. split; [reflexivity|]. split; [exact K|].
  change (c_chi2 (mkBestCell 0 1 1 1 0 0) + (-2 * 1 * -1 + -2 * 0 * 0 + -2 * 0 * 0) = 0 + 2). rewrite K. lra.
Qed.
