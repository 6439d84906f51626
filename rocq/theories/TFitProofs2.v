From Coq Require Import Setoid.
From Verif Require Import Base RangeModel RangeProofs AxisModel AxisProofs CalzModel CalzProofs MeikModel MeikSpec MeikProofs TplModel TplSpec TplProofs TFitModel TFitSpec TFitProofs.
Open Scope Q_scope.

(** ** the amplitude *)
Lemma chi2_ceq l c a : ceq c (csum l) -> chi2 l a == c_s c + c_t c * a * a - 2 * a * c_x c.
Proof. intros (A & B & C). rewrite chi2_expand, A, B, C. reflexivity. Qed.
Lemma parabola X T S a b : 0 < T -> a * T == X -> S + T * a * a - 2 * a * X <= S + T * b * b - 2 * b * X.
Proof.
  intros Ht E. setoid_replace (S + T * b * b - 2 * b * X) with (S + T * a * a - 2 * a * X + T * ((b - a) * (b - a))) by (rewrite <- E; ring).
  pose proof (Qmult_le_0_compat T ((b - a) * (b - a)) (Qlt_le_weak _ _ Ht) (Qsq_nn (b - a))). lra.
Qed.
Lemma ct_pos l c : ceq c (csum l) -> ~ c_t c == 0 -> 0 < c_t c.
Proof. intros (_ & B & _) H. pose proof (information_nonneg l) as P. rewrite information_csum, <- B in P. destruct (Qlt_le_dec 0 (c_t c)) as [?|?]; [assumption|]. exfalso. apply H. lra. Qed.

Lemma Amplitude sqrtf thr l c p : ceq c (csum l) -> ~ c_t c == 0 -> ~ active p -> is_fit sqrtf thr l (ComputeAmplitudeAndChi2 sqrtf thr c p) /\ f_cross (ComputeAmplitudeAndChi2 sqrtf thr c p) = c.
Proof.
  intros Hc Ht Na. pose proof (ct_pos l c Hc Ht) as Tp. unfold ComputeAmplitudeAndChi2. replace (Qltb 0 (p_asigma p) && Qltb 0 (p_betaA p))%bool with false.
  2: { symmetry. destruct (Qltb_spec 0 (p_asigma p)); [|reflexivity]. destruct (Qltb_spec 0 (p_betaA p)); [|reflexivity]. exfalso. apply Na. split; assumption. }
  destruct (Qeq_bool (c_t c) 0) eqn:E0; [apply Qeq_bool_iff in E0; contradiction|]. cbv zeta.
  assert (Ea : c_x c / c_t c * c_t c == c_x c) by (field; exact Ht).
  split; [|reflexivity]. exists (c_x c / c_t c). cbn [f_sig f_err f_ampl f_chi2 f_logprior].
  split; [intro b; rewrite !(chi2_ceq l c) by exact Hc; apply parabola; assumption|]. split; [reflexivity|].
  split; [exists (1 / c_t c); split; [|reflexivity]; destruct Hc as (_ & B & _); rewrite information_csum, B; reflexivity|].
  destruct (Qltb_spec (c_x c / c_t c / sqrtf (1 / c_t c)) thr) as [L|L].
  - split; [right; split; [exact L|reflexivity]|]. split; [rewrite (chi2_ceq l c) by exact Hc; reflexivity|reflexivity].
  - split; [left; split; [apply Qnot_lt_le; exact L|reflexivity]|]. split; [rewrite (chi2_ceq l c) by exact Hc; reflexivity|reflexivity].
Qed.
Lemma Amplitude_prior sqrtf thr l c p : ceq c (csum l) -> ~ c_t c == 0 -> active p -> is_fit_prior sqrtf thr l p (ComputeAmplitudeAndChi2 sqrtf thr c p) /\ f_cross (ComputeAmplitudeAndChi2 sqrtf thr c p) = c.
Proof.
  intros Hc Ht [P1 P2]. pose proof (ct_pos l c Hc Ht) as Tp. unfold ComputeAmplitudeAndChi2. replace (Qltb 0 (p_asigma p) && Qltb 0 (p_betaA p))%bool with true.
  2: { symmetry. destruct (Qltb_spec 0 (p_asigma p)); [|contradiction]. destruct (Qltb_spec 0 (p_betaA p)); [reflexivity|contradiction]. }
  destruct (Qeq_bool (c_t c) 0) eqn:E0; [apply Qeq_bool_iff in E0; contradiction|]. cbv zeta.
  set (bss2 := p_betaA p / (p_asigma p * p_asigma p)). assert (Ns : ~ p_asigma p == 0) by lra.
  assert (Bp : 0 < bss2). { unfold bss2. apply Qlt_shift_div_l; [|lra]. setoid_replace 0 with (0 * p_asigma p) by ring. apply Qmult_lt_compat_r; assumption. }
  set (a0 := (c_x c + p_amean p * bss2) / (c_t c + bss2)). assert (Ea : a0 * (c_t c + bss2) == c_x c + p_amean p * bss2) by (unfold a0; field; lra).
  assert (Pt : forall a, prior_term p a == bss2 * (a - p_amean p) * (a - p_amean p)) by (intro a; unfold prior_term, bss2; field; exact Ns).
  split; [|reflexivity]. exists a0. cbn [f_sig f_err f_ampl f_chi2 f_logprior].
  split.
  { intro b. rewrite !(chi2_ceq l c) by exact Hc. rewrite !Pt. pose proof (parabola _ _ (c_s c + p_amean p * p_amean p * bss2) a0 b (Qplus_lt_le_compat _ _ _ _ Tp (Qlt_le_weak _ _ Bp)) Ea) as Q.
    setoid_replace (c_s c + c_t c * a0 * a0 - 2 * a0 * c_x c + bss2 * (a0 - p_amean p) * (a0 - p_amean p)) with (c_s c + p_amean p * p_amean p * bss2 + (c_t c + bss2) * a0 * a0 - 2 * a0 * (c_x c + p_amean p * bss2)) by ring.
    setoid_replace (c_s c + c_t c * b * b - 2 * b * c_x c + bss2 * (b - p_amean p) * (b - p_amean p)) with (c_s c + p_amean p * p_amean p * bss2 + (c_t c + bss2) * b * b - 2 * b * (c_x c + p_amean p * bss2)) by ring. exact Q. }
  split; [reflexivity|].
  assert (Lp : forall a, 0 - 2 * p_betaTE p * p_lTE p - 2 * p_betaA p * p_lA p - 2 * p_betaZ p * p_lZ p + p_betaA p * (a - p_amean p) * (a - p_amean p) / (p_asigma p * p_asigma p) == other_priors p + prior_term p a).
  { intro a. rewrite Pt. unfold other_priors, bss2. field. exact Ns. }
  destruct (Qltb_spec (a0 / (sqrtf (c_t c) / (c_t c + bss2))) thr) as [L|L].
  - split; [right; split; [exact L|reflexivity]|]. split; [rewrite (chi2_ceq l c) by exact Hc; reflexivity|apply Lp].
  - split; [left; split; [apply Qnot_lt_le; exact L|reflexivity]|]. split; [rewrite (chi2_ceq l c) by exact Hc; reflexivity|apply Lp].
Qed.
(** with a null threshold: the best amplitude among those which are not negative *)
Lemma Positive sqrtf l f : (forall x, 0 < x -> 0 < sqrtf x) -> 0 < information l -> is_fit sqrtf 0 l f -> 0 <= f_ampl f /\ forall b, 0 <= b -> f_chi2 f <= chi2 l b.
Proof.
  intros Sq Ip (a0 & Min & Es & (v & Ev & Ee) & Alt & Ec & _).
  assert (Vp : 0 < v). { rewrite Ev. apply Qlt_shift_div_l; lra. }
  pose proof (Sq v Vp) as Ep. rewrite <- Ee in Ep.
  assert (Ea : a0 == f_sig f * f_err f) by (rewrite Es; field; lra).
  destruct Alt as [[T E]|[T E]].
  - split; [rewrite E, Ea; apply Qmult_le_0_compat; lra|]. intros b _. rewrite Ec, (chi2_expand l (f_ampl f)), E, <- (chi2_expand l a0). apply Min.
  - split; [lra|]. intros b Bp. rewrite Ec, (chi2_expand l (f_ampl f)), E.
    assert (An : a0 <= 0). { rewrite Ea. setoid_replace 0 with (0 * f_err f) by ring. apply Qmult_le_compat_r; lra. }
    (* c_x <= 0, as the parabola decreases towards a0 *)
    assert (Xn : c_x (csum l) <= 0).
    { destruct (Qlt_le_dec 0 (c_x (csum l))) as [Xp|?]; [exfalso|assumption]. rewrite information_csum in Ip. set (X := c_x (csum l)) in *. set (T0 := c_t (csum l)) in *.
      pose proof (Min (X / T0)) as M. rewrite !chi2_expand in M. fold X T0 in M. assert (Q1 : X / T0 * T0 == X) by (field; lra). pose proof (parabola X T0 0 (X / T0) a0 Ip Q1) as P.
      assert (Eq : T0 * ((a0 - X / T0) * (a0 - X / T0)) <= 0).
      { setoid_replace (T0 * ((a0 - X / T0) * (a0 - X / T0))) with ((0 + T0 * a0 * a0 - 2 * a0 * X) - (0 + T0 * (X / T0) * (X / T0) - 2 * (X / T0) * X)) by (field; lra). lra. }
      assert (Gp : a0 - X / T0 < 0). { assert (0 < X / T0) by (apply Qlt_shift_div_l; lra). lra. }
      assert (0 < (a0 - X / T0) * (a0 - X / T0)). { setoid_replace ((a0 - X / T0) * (a0 - X / T0)) with ((- (a0 - X / T0)) * (- (a0 - X / T0))) by ring. setoid_replace 0 with (0 * (- (a0 - X / T0))) by ring. apply Qmult_lt_compat_r; lra. }
      assert (0 < T0 * ((a0 - X / T0) * (a0 - X / T0))). { setoid_replace 0 with (0 * ((a0 - X / T0) * (a0 - X / T0))) by ring. apply Qmult_lt_compat_r; assumption. } lra. }
    rewrite (chi2_expand l b). rewrite information_csum in Ip.
    pose proof (Qmult_le_0_compat (c_t (csum l)) (b * b) (Qlt_le_weak _ _ Ip) (Qsq_nn b)) as P1. pose proof (Qmult_le_0_compat b (- c_x (csum l)) Bp ltac:(lra)) as P2.
    setoid_replace (c_t (csum l) * b * b) with (c_t (csum l) * (b * b)) by ring. setoid_replace (2 * b * c_x (csum l)) with (- (2 * (b * - c_x (csum l)))) by ring. lra.
Qed.
