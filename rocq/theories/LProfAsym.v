From Coq Require Import String.
From Coquelicot Require Import Coquelicot.
From Verif Require Import Base RBase GaussInt LProfModel LProfSpec LProfProofs.
Open Scope R_scope.

(** a bounded increasing function has a limit *)
Lemma mono_lim (f : R -> R) (M : R) : (forall x y, 0 <= x <= y -> f x <= f y) -> (forall x, 0 <= x -> f x <= M) -> exists l : R, is_lim f p_infty l.
Proof.
  intros Mo Bd. set (E := fun v => exists x, 0 <= x /\ v = f x).
  destruct (completeness E) as [l [U L]].
  - exists M. intros v [x [Hx ->]]. apply Bd. exact Hx.
  - exists (f 0). exists 0. split; [lra|reflexivity].
  - exists l. apply is_lim_spec. intro eps. pose proof (cond_pos eps) as P.
    assert (N : exists x, 0 <= x /\ l - eps < f x).
    { apply Classical_Prop.NNPP. intro Hn. assert (l <= l - eps); [|lra]. apply L. intros v [x [Hx ->]].
      apply Rnot_lt_le. intro Hc. apply Hn. exists x. split; assumption. }
    destruct N as [x0 [P0 H0]]. exists x0. intros x Hx.
    assert (A : f x <= l) by (apply U; exists x; split; [lra|reflexivity]). assert (B : f x0 <= f x) by (apply Mo; lra).
    rewrite Rabs_left1 by lra. lra.
Qed.

Definition kfun (a t : R) : R := exp (- (t * t / 2)) * erf (a * t / sqrt 2).
Lemma erf_lin_derive (a u : R) : is_derive (fun u => erf (a * u / sqrt 2)) u (a / sqrt 2 * (2 / sqrt PI * exp (- (a * a * (u * u) / 2)))).
Proof.
  pose proof sqrt2_pos as P. evar_last.
  - apply (is_derive_comp erf (fun u => a * u / sqrt 2)); [apply erf_derive|]. auto_derive; [trivial|reflexivity].
  - unfold scal; simpl; unfold mult; simpl. replace (a * u / sqrt 2 * (a * u / sqrt 2)) with (a * a * (u * u) / 2).
    + set (E := exp _). field. split; [apply Rgt_not_eq, sqrt_PI_pos|lra].
    + rewrite <- sqrt2_sq at 1. field. lra.
Qed.
Lemma kfun_cont a t : continuous (kfun a) t.
Proof.
  unfold kfun. apply (continuous_mult (K := R_AbsRing) (fun t => exp (- (t * t / 2))) (fun t => erf (a * t / sqrt 2))); [apply gauss_cont|].
  apply (ex_derive_continuous (V := R_NormedModule)). eexists. apply erf_lin_derive.
Qed.
Lemma kfun_int a x y : ex_RInt (kfun a) x y.
Proof. apply (ex_RInt_continuous (V := R_CompleteNormedModule)). intros; apply kfun_cont. Qed.
Definition K (a u : R) : R := RInt (kfun a) 0 u.
Lemma K_derive a u : is_derive (K a) u (kfun a u).
Proof.
  unfold K. apply (is_derive_RInt (V := R_CompleteNormedModule) (kfun a) (fun x => RInt (kfun a) 0 x) 0 u).
  - exists (mkposreal 1 Rlt_0_1). intros y _. apply (RInt_correct (V := R_CompleteNormedModule)). apply kfun_int.
  - apply kfun_cont.
Qed.
Lemma kfun_odd a t : kfun a (- t) = - kfun a t.
Proof.
  unfold kfun. replace (- t * - t / 2) with (t * t / 2) by field. replace (a * - t / sqrt 2) with (- (a * t / sqrt 2)) by (field; apply Rgt_not_eq, sqrt2_pos).
  rewrite erf_odd. ring.
Qed.
Lemma K_even a u : K a (- u) = K a u.
Proof.
  unfold K. transitivity (RInt (fun y => scal (-1) (kfun a (-1 * y + 0))) 0 u).
  - symmetry. etransitivity; [apply (RInt_comp_lin (V := R_CompleteNormedModule) (kfun a) (-1) 0 0 u); apply kfun_int|]. f_equal; ring.
  - apply RInt_ext. intros y _. replace (-1 * y + 0) with (- y) by ring. rewrite kfun_odd. unfold scal; simpl; unfold mult; simpl. ring.
Qed.
Lemma kfun_neg a t : kfun (- a) t = - kfun a t.
Proof.
  unfold kfun. replace (- a * t / sqrt 2) with (- (a * t / sqrt 2)) by (field; apply Rgt_not_eq, sqrt2_pos). rewrite erf_odd. ring.
Qed.
Lemma K_neg a u : K (- a) u = - K a u.
Proof.
  unfold K. transitivity (RInt (fun y => scal (-1) (kfun a y)) 0 u).
  - apply RInt_ext. intros y _. rewrite kfun_neg. unfold scal; simpl; unfold mult; simpl. ring.
  - etransitivity; [apply (RInt_scal (V := R_CompleteNormedModule)); apply kfun_int|]. unfold scal; simpl; unfold mult; simpl. ring.
Qed.
Lemma K_lim_pos a : 0 <= a -> exists l : R, is_lim (K a) p_infty l.
Proof.
  intro A. apply (mono_lim (K a) (sqrt 2 * (sqrt PI / 2))).
  - intros x y [Hx Hy]. unfold K. assert (E : RInt (kfun a) 0 y = RInt (kfun a) 0 x + RInt (kfun a) x y).
    { symmetry. apply (RInt_Chasles (V := R_CompleteNormedModule)); apply kfun_int. }
    rewrite E. assert (0 <= RInt (kfun a) x y); [|lra]. apply RInt_ge_0; [exact Hy|apply kfun_int|]. intros t Ht. unfold kfun.
    apply Rmult_le_pos; [apply Rlt_le, exp_pos|]. destruct (Req_dec a 0) as [->|N].
    + replace (0 * t / sqrt 2) with 0 by (field; apply Rgt_not_eq, sqrt2_pos). rewrite erf_0. lra.
    + rewrite <- erf_0. apply Rlt_le, erf_increasing. apply Rdiv_lt_0_compat; [nra|apply sqrt2_pos].
  - intros x Hx. apply Rle_trans with (RInt (fun u => exp (- (u * u / 2))) 0 x).
    + apply RInt_le; [exact Hx|apply kfun_int| |].
      * apply (ex_RInt_continuous (V := R_CompleteNormedModule)). intros; apply gauss_cont.
      * intros t Ht. unfold kfun. pose proof (erf_bound (a * t / sqrt 2)). pose proof (exp_pos (- (t * t / 2))). nra.
    + assert (E : RInt (fun u => exp (- (u * u / 2))) 0 x = sqrt 2 * G (x / sqrt 2)).
      { apply (is_RInt_unique (V := R_CompleteNormedModule)).
        replace (sqrt 2 * G (x / sqrt 2)) with (minus (sqrt 2 * G (x / sqrt 2)) (sqrt 2 * G (0 / sqrt 2))).
        - apply (is_RInt_derive (V := R_CompleteNormedModule) (fun u => sqrt 2 * G (u / sqrt 2))); [intros; apply gauss_prim|intros; apply gauss_cont].
        - unfold minus, plus, opp; simpl. replace (0 / sqrt 2) with 0 by (field; apply Rgt_not_eq, sqrt2_pos).
          unfold G at 2. rewrite RInt_point. unfold zero; simpl. ring. }
      rewrite E. pose proof (G_bound (x / sqrt 2)). pose proof sqrt2_pos. nra.
Qed.
Lemma K_lim a : exists l : R, is_lim (K a) p_infty l /\ is_lim (K a) m_infty l.
Proof.
  assert (P : exists l : R, is_lim (K a) p_infty l).
  { destruct (Rle_dec 0 a) as [A|A]; [apply K_lim_pos; exact A|]. destruct (K_lim_pos (- a)) as [l L]; [lra|]. exists (- l).
    apply (is_lim_ext (fun u => - K (- a) u)); [intro u; rewrite K_neg; ring|]. apply (is_lim_opp (K (- a)) p_infty l L). }
  destruct P as [l L]. exists l. split; [exact L|].
  apply (is_lim_ext (fun u => K a (- u))); [intro u; apply K_even|]. apply lim_opp_arg. exact L.
Qed.
Lemma skew_split a u : skew a u = exp (- (u * u / 2)) + kfun a u.
Proof. unfold skew, kfun. change (Phi2 (a * u / sqrt 2)) with (erf (a * u / sqrt 2)). ring. Qed.
Lemma skew_cont a u : continuous (skew a) u.
Proof.
  apply (continuous_ext (fun u => plus (exp (- (u * u / 2))) (kfun a u))); [intro y; symmetry; apply skew_split|].
  apply (continuous_plus (V := R_NormedModule)); [apply gauss_cont|apply kfun_cont].
Qed.
Definition skew_prim (a u : R) : R := sqrt 2 * G (u / sqrt 2) + K a u.
Lemma skew_prim_derive a u : is_derive (skew_prim a) u (skew a u).
Proof. rewrite skew_split. apply (is_derive_plus (V := R_NormedModule)); [apply gauss_prim|apply K_derive]. Qed.
Lemma skew_prim_lims a : exists l : R, is_lim (skew_prim a) p_infty (sqrt 2 * (sqrt PI / 2) + l) /\ is_lim (skew_prim a) m_infty (sqrt 2 * - (sqrt PI / 2) + l).
Proof.
  destruct (K_lim a) as [l [P M]]. exists l. split; apply (is_lim_plus' (fun u => sqrt 2 * G (u / sqrt 2)) (K a)); auto using gauss_lim_p, gauss_lim_m.
Qed.
(** integral of the asymmetric profile of centre c and width s *)
Lemma skew_total a A c s : 0 < s -> total_integral (fun x => A * skew a ((x - c) / s)) (A * s * sqrt (2 * PI)).
Proof.
  intro S. destruct (skew_prim_lims a) as [l [P M]].
  replace (A * s * sqrt (2 * PI)) with (A * s * ((sqrt 2 * (sqrt PI / 2) + l) - (sqrt 2 * - (sqrt PI / 2) + l))).
  - apply (total_affine (skew a) (skew_prim a)); auto using skew_prim_derive, skew_cont.
  - rewrite sqrt_2PI. field.
Qed.
Lemma skew_derive (a u : R) : is_derive (skew a) u (- u * skew a u + a * sqrt 2 / sqrt PI * exp (- ((1 + a * a) * (u * u) / 2))).
Proof.
  pose proof sqrt2_pos as P. pose proof sqrt_PI_pos as Q.
  apply (is_derive_ext (fun u => exp (- (u * u / 2)) * (1 + erf (a * u / sqrt 2)))); [intro; reflexivity|].
  evar_last.
  - apply (is_derive_mult (fun u => exp (- (u * u / 2))) (fun u => 1 + erf (a * u / sqrt 2)) u (- u * exp (- (u * u / 2))) (a / sqrt 2 * (2 / sqrt PI * exp (- (a * a * (u * u) / 2))))).
    + auto_derive; [trivial|]. unfold Rdiv. set (E := exp _). field.
    + evar_last; [apply (is_derive_plus (V := R_NormedModule) (fun _ => 1)); [apply (is_derive_const (V := R_NormedModule))|apply erf_lin_derive]|].
      unfold plus, zero; simpl. ring.
    + intros; apply Rmult_comm.
  - unfold plus, mult; simpl. unfold skew. change (Phi2 (a * u / sqrt 2)) with (erf (a * u / sqrt 2)).
    replace (- ((1 + a * a) * (u * u) / 2)) with (- (u * u / 2) + - (a * a * (u * u) / 2)) by field. rewrite exp_plus.
    set (E1 := exp (- (u * u / 2))). set (E2 := exp (- (a * a * (u * u) / 2))).
    replace (a / sqrt 2 * (2 / sqrt PI * E2)) with (a * sqrt 2 / sqrt PI * E2); [ring|].
    replace 2 with (sqrt 2 * sqrt 2) at 3 by apply sqrt2_sq. field. lra.
Qed.
Lemma skew_bounds a u : 0 < skew a u < 2.
Proof.
  unfold skew. change (Phi2 (a * u / sqrt 2)) with (erf (a * u / sqrt 2)). pose proof (erf_bound (a * u / sqrt 2)). pose proof (exp_pos (- (u * u / 2))) as P.
  assert (exp (- (u * u / 2)) <= 1).
  { apply Rle_trans with (exp 0); [|right; apply exp_0]. destruct (Req_dec u 0) as [->|N]; [right; f_equal; field|].
    apply Rlt_le, exp_increasing. assert (0 < u * u) by (apply Rsqr_pos_lt; exact N). lra. }
  split; [apply Rmult_lt_0_compat; lra|nra].
Qed.
(** first moment *)
Definition dl (a : R) : R := a / sqrt (1 + a * a).
Lemma root_pos (a : R) : 0 < sqrt (1 + a * a). Proof. apply sqrt_lt_R0. nra. Qed.
Definition mom_prim (a u : R) : R := - skew a u + 2 * dl a / sqrt PI * G (sqrt (1 + a * a) * u / sqrt 2).
Lemma mom_derive (a u : R) : is_derive (mom_prim a) u (u * skew a u).
Proof.
  pose proof sqrt2_pos as P. pose proof sqrt_PI_pos as Q. pose proof (root_pos a) as W. unfold mom_prim.
  set (w := sqrt (1 + a * a)) in *. assert (Hw : w * w = 1 + a * a) by (unfold w; apply sqrt_sqrt; nra).
  evar_last.
  - apply (is_derive_plus (V := R_NormedModule) (fun u => - skew a u) (fun u => 2 * dl a / sqrt PI * G (w * u / sqrt 2))).
    + apply (is_derive_opp (V := R_NormedModule)). apply skew_derive.
    + apply (is_derive_scal (fun u => G (w * u / sqrt 2))). apply (is_derive_comp G (fun u => w * u / sqrt 2)); [apply G_derive|].
      auto_derive; [trivial|reflexivity].
  - unfold plus, opp, scal; simpl; unfold mult; simpl. unfold gexp.
    replace (w * u / sqrt 2 * (w * u / sqrt 2)) with ((1 + a * a) * (u * u) / 2).
    2:{ rewrite <- Hw. rewrite <- sqrt2_sq at 1. field. lra. }
    set (E := exp _). unfold dl. fold w. assert (X : 2 * (a / w) / sqrt PI * (w * 1 * / sqrt 2 * E) = a * sqrt 2 / sqrt PI * E).
    { rewrite <- sqrt2_sq at 1. field. lra. }
    rewrite X. ring.
Qed.
Lemma gauss_to_0 : is_lim (fun u => exp (- (u * u / 2))) p_infty 0.
Proof.
  apply (is_lim_le_le_loc (fun _ => 0) (fun x => exp (- x))).
  - exists 2. intros x L. split; [apply Rlt_le, exp_pos|]. apply Rlt_le, exp_increasing. nra.
  - apply is_lim_const.
  - apply (filterlim_comp _ _ _ Ropp exp (Rbar_locally' p_infty) (Rbar_locally m_infty)); [|apply is_lim_exp_m].
    intros P [M HM]. exists (- M). intros x Hx. apply HM. lra.
Qed.
Lemma skew_lim_p a : is_lim (skew a) p_infty 0.
Proof.
  apply (is_lim_le_le_loc (fun _ => 0) (fun x => 2 * exp (- (x * x / 2)))).
  - exists 0. intros x L. pose proof (skew_bounds a x). split; [lra|].
    unfold skew. change (Phi2 (a * x / sqrt 2)) with (erf (a * x / sqrt 2)). pose proof (erf_bound (a * x / sqrt 2)). pose proof (exp_pos (- (x * x / 2))). nra.
  - apply is_lim_const.
  - evar_last; [apply (lim_scal _ _ 0 2), gauss_to_0|]. f_equal. ring.
Qed.
Lemma skew_mirror a u : skew (- a) (- u) = skew a u.
Proof. unfold skew. replace (- u * - u) with (u * u) by ring. replace (- a * - u) with (a * u) by ring. reflexivity. Qed.
Lemma skew_lim_m a : is_lim (skew a) m_infty 0.
Proof. apply (is_lim_ext (fun u => skew (- a) (- u))); [intro; apply skew_mirror|]. apply (lim_opp_arg (skew (- a)) 0). apply skew_lim_p. Qed.
Lemma mom_lims a : is_lim (mom_prim a) p_infty (dl a) /\ is_lim (mom_prim a) m_infty (- dl a).
Proof.
  pose proof sqrt_PI_pos as Q. assert (W : 0 < sqrt (1 + a * a) / sqrt 2) by (apply Rdiv_lt_0_compat; [apply root_pos|apply sqrt2_pos]).
  assert (E : forall u, G (sqrt (1 + a * a) / sqrt 2 * u + 0) = G (sqrt (1 + a * a) * u / sqrt 2)) by (intro u; f_equal; field; apply Rgt_not_eq, sqrt2_pos).
  split.
  - evar_last.
    + apply (is_lim_plus' (fun u => - skew a u) (fun u => 2 * dl a / sqrt PI * G (sqrt (1 + a * a) * u / sqrt 2)) p_infty (- 0) (2 * dl a / sqrt PI * (sqrt PI / 2))).
      * apply (is_lim_opp (skew a) p_infty 0). apply skew_lim_p.
      * apply lim_scal. apply (is_lim_ext _ _ _ _ E). apply lim_comp_affine_p; [exact W|apply G_lim].
    + simpl. f_equal. field. lra.
  - evar_last.
    + apply (is_lim_plus' (fun u => - skew a u) (fun u => 2 * dl a / sqrt PI * G (sqrt (1 + a * a) * u / sqrt 2)) m_infty (- 0) (2 * dl a / sqrt PI * - (sqrt PI / 2))).
      * apply (is_lim_opp (skew a) m_infty 0). apply skew_lim_m.
      * apply lim_scal. apply (is_lim_ext _ _ _ _ E). apply lim_comp_affine_m; [exact W|apply G_lim_m].
    + simpl. f_equal. field. lra.
Qed.
(** the mean of the law u with density skew a / sqrt (2 PI) is dl a * sqrt (2 / PI) *)
Lemma skew_mean a c s : 0 < s -> total_integral (fun x => (x - c - s * (dl a * sqrt (2 / PI))) * skew a ((x - c) / s)) 0.
Proof.
  intro S. destruct (mom_lims a) as [MP MM]. destruct (skew_prim_lims a) as [l [SP SM]]. set (m := dl a * sqrt (2 / PI)).
  pose proof sqrt2_pos as P. pose proof sqrt_PI_pos as Q.
  assert (Hm : m * (sqrt 2 * sqrt PI) = 2 * dl a).
  { unfold m. rewrite sqrt_div by (try apply PI_RGT_0; lra). replace (dl a * (sqrt 2 / sqrt PI) * (sqrt 2 * sqrt PI)) with (dl a * (sqrt 2 * sqrt 2)) by (field; lra). rewrite sqrt2_sq. ring. }
  set (b1 := dl a - m * (sqrt 2 * (sqrt PI / 2) + l)). set (a1 := - dl a - m * (sqrt 2 * - (sqrt PI / 2) + l)).
  replace 0 with (s * s * (b1 - a1)).
  2:{ unfold b1, a1. replace (dl a - m * (sqrt 2 * (sqrt PI / 2) + l) - (- dl a - m * (sqrt 2 * - (sqrt PI / 2) + l))) with (2 * dl a - m * (sqrt 2 * sqrt PI)) by field. rewrite Hm. ring. }
  apply (total_ext (fun x => s * (fun u => u * skew a u - m * skew a u) ((x - c) / s))).
  { intro x. simpl. field. lra. }
  apply (total_affine (fun u => u * skew a u - m * skew a u) (fun u => mom_prim a u - m * skew_prim a u)); [exact S| | | |].
  - intro u. apply (is_derive_minus (V := R_NormedModule) (mom_prim a) (fun u => m * skew_prim a u)); [apply mom_derive|]. apply (is_derive_scal (skew_prim a)). apply skew_prim_derive.
  - intro u. apply (continuous_minus (V := R_NormedModule) (fun u => u * skew a u) (fun u => m * skew a u)).
    + apply (continuous_mult (K := R_AbsRing) (fun u => u) (skew a)); [apply continuous_id|apply skew_cont].
    + apply (continuous_mult (K := R_AbsRing) (fun _ => m) (skew a)); [apply continuous_const|apply skew_cont].
  - apply (is_lim_minus' (mom_prim a) (fun u => m * skew_prim a u)); [exact MM|]. apply lim_scal. exact SM.
  - apply (is_lim_minus' (mom_prim a) (fun u => m * skew_prim a u)); [exact MP|]. apply lim_scal. exact SP.
Qed.

(** ** the ASYM profile *)
Lemma xsurc_eq p c a d xc s : aok p c a d -> GetXSurc p c a xc s =
  Ok (asym_m0 (ap_centering p) a, s * c, Some ((xc + s * c * asym_m0 (ap_centering p) a + d) / (s * c))).
Proof.
  intros [_ [_ [D N]]]. unfold GetXSurc. rewrite D. destruct (String.eqb_spec (ap_centering p) "none") as [E|E]; [|reflexivity].
  rewrite (N E). destruct (Reqb_spec 0 0) as [_|X]; [|lra]. reflexivity.
Qed.
Lemma valid_ok p c a d : aok p c a d -> forall A (f : R -> R -> res A), with_valid p f = f c a.
Proof. intros [C [B _]] A f. unfold with_valid, asym_isValid. rewrite C, B. reflexivity. Qed.
Lemma u_eq x x0 d s m : s <> 0 -> (x - x0 + s * m + d) / s = (x - (x0 - d - s * m)) / s.
Proof. intro S. field. exact S. Qed.
Lemma asym_val_eq p c a d x x0 s : aok p c a d -> s * c <> 0 ->
  asym_val p x x0 s = Ok (Some (skew a ((x - (x0 - d - s * c * asym_m0 (ap_centering p) a)) / (s * c)))).
Proof.
  intros O S. unfold asym_val. rewrite (valid_ok _ _ _ _ O), (xsurc_eq _ _ _ _ _ _ O). cbn [rbind option_map]. rewrite skew_exp, u_eq by exact S. reflexivity.
Qed.
Lemma asym_flux_ok p c a d x0 s A : aok p c a d -> 0 < s * c -> exists f v,
  (forall x, asym_val p x x0 s = Ok (Some (f x))) /\ asym_flux p x0 s A = Some v /\ total_integral (fun x => A * f x) v.
Proof.
  intros O S. eexists. exists (A * s * c * sqrt (2 * PI)). split; [intro x; apply (asym_val_eq _ _ _ _ _ _ _ O); lra|]. split.
  - unfold asym_flux. destruct O as [-> _]. reflexivity.
  - replace (A * s * c * sqrt (2 * PI)) with (A * (s * c) * sqrt (2 * PI)) by ring. apply skew_total. exact S.
Qed.
Lemma asym_mean_ok p c a d x0 s : aok p c a d -> 0 < s * c -> ap_centering p = "mean"%string -> exists f,
  (forall x, asym_val p x x0 s = Ok (Some (f x))) /\ total_integral (fun x => (x - (x0 - d)) * f x) 0.
Proof.
  intros O S C. eexists. split; [intro x; apply (asym_val_eq _ _ _ _ _ _ _ O); lra|]. rewrite C.
  assert (M : asym_m0 "mean" a = dl a * sqrt (2 / PI)) by reflexivity. rewrite M. set (m := dl a * sqrt (2 / PI)).
  apply (total_ext (fun x => (x - (x0 - d - s * c * m) - s * c * m) * skew a ((x - (x0 - d - s * c * m)) / (s * c)))).
  - intro x. f_equal. ring.
  - apply skew_mean. exact S.
Qed.
Lemma asym_derx0_eq p c a d x x0 s : aok p c a d -> s * c <> 0 ->
  let u := (x - (x0 - d - s * c * asym_m0 (ap_centering p) a)) / (s * c) in
  asym_deriv_x0 p x x0 s = Ok (Some (u / (s * c) * skew a u - 1 / 2 * (a * sqrt 2 / sqrt PI * exp (- ((1 + a * a) * (u * u) / 2)) / (s * c)))).
Proof.
  intros O S u. unfold asym_deriv_x0. rewrite (valid_ok _ _ _ _ O), (xsurc_eq _ _ _ _ _ _ O). cbn [rbind option_map]. rewrite u_eq by exact S. fold u.
  cbv zeta. f_equal. f_equal. replace (- (1 / 2) * (u * u)) with (- (1 / 2) * u * u) by ring.
  replace (- (1 + a * a) / 2 * (u * u)) with (- ((1 + a * a) * (u * u) / 2)) by field. rewrite <- skew_exp. set (E := exp (- ((1 + a * a) * (u * u) / 2))).
  rewrite sqrt_2PI. pose proof sqrt2_pos. pose proof sqrt_PI_pos.
  assert (X : a / (sqrt 2 * sqrt PI) / (s * c) * E = 1 / 2 * (a * sqrt 2 / sqrt PI * E / (s * c))).
  { replace (1 / 2) with (/ (sqrt 2 * sqrt 2)) by (rewrite sqrt2_sq; field). field. repeat split; try lra; intro Z; apply S; rewrite Z; ring. }
  rewrite X. ring.
Qed.
(** the true derivative with respect to the centre *)
Lemma asym_true_derx0 p c a d x x0 s : aok p c a d -> s * c <> 0 -> exists f v,
  (forall y, asym_val p x y s = Ok (Some (f y))) /\ asym_deriv_x0 p x x0 s = Ok (Some v) /\
  let u := (x - (x0 - d - s * c * asym_m0 (ap_centering p) a)) / (s * c) in
  is_derive f x0 (v - a / sqrt (2 * PI) / (s * c) * exp (- ((1 + a * a) * (u * u) / 2))).
Proof.
  intros O S. eexists. eexists. split; [intro y; apply (asym_val_eq _ _ _ _ _ _ _ O S)|]. split; [apply (asym_derx0_eq _ _ _ _ _ _ _ O S)|].
  cbv zeta. set (m := asym_m0 (ap_centering p) a). set (u := (x - (x0 - d - s * c * m)) / (s * c)).
  evar_last.
  - apply (is_derive_comp (skew a) (fun y => (x - (y - d - s * c * m)) / (s * c))); [apply skew_derive|]. auto_derive; [trivial|reflexivity].
  - unfold scal; simpl; unfold mult; simpl. fold u. set (E := exp (- ((1 + a * a) * (u * u) / 2))). rewrite sqrt_2PI. pose proof sqrt2_pos. pose proof sqrt_PI_pos.
    assert (X : a / (sqrt 2 * sqrt PI) / (s * c) * E = 1 / 2 * (a * sqrt 2 / sqrt PI * E / (s * c))).
    { replace (1 / 2) with (/ (sqrt 2 * sqrt 2)) by (rewrite sqrt2_sq; field). field. repeat split; try lra; intro Z; apply S; rewrite Z; ring. }
    rewrite X. field. repeat split; try lra; intro Z; apply S; rewrite Z; ring.
Qed.
Lemma asym_deriv_sigma_ok p c a d x x0 s : aok p c a d -> s * c <> 0 -> exists f v,
  (forall y, y * c <> 0 -> asym_val p x x0 y = Ok (Some (f y))) /\ asym_deriv_sigma p x x0 s = Ok (Some v) /\ is_derive f s v.
Proof.
  intros O S. assert (Sc : s <> 0 /\ c <> 0) by (split; intro Z; apply S; rewrite Z; ring). destruct Sc as [S1 S2].
  exists (fun y => skew a ((x - x0 + d) / (y * c) + asym_m0 (ap_centering p) a)). set (m := asym_m0 (ap_centering p) a).
  set (u := (x - x0 + d) / (s * c) + m).
  exists (c * ((u - m) / (s * c)) * (u * skew a u - a * sqrt 2 / sqrt PI * exp (- ((1 + a * a) * (u * u) / 2)))).
  split; [|split].
  - intros y Hy. rewrite (asym_val_eq _ _ _ _ _ _ _ O Hy). fold m. f_equal. f_equal. f_equal. field. split; intro Z; apply Hy; rewrite Z; ring.
  - unfold asym_deriv_sigma. rewrite (valid_ok _ _ _ _ O), (xsurc_eq _ _ _ _ _ _ O). cbn [rbind option_map]. fold m.
    replace ((x - x0 + s * c * m + d) / (s * c)) with u by (unfold u; field; split; assumption).
    assert (N : (String.eqb (ap_centering p) "none" && negb (Reqb m 0))%bool = false).
    { destruct (String.eqb_spec (ap_centering p) "none") as [E|E]; [|reflexivity]. unfold m. rewrite E. change (asym_m0 "none" a) with 0. destruct (Reqb_spec 0 0) as [_|X]; [reflexivity|lra]. }
    rewrite N. cbv zeta. f_equal. f_equal. replace (- ((1 + a * a) * (u * u) / 2)) with (- (1 / 2) * (u * u) + - (1 / 2) * (u * u) * (a * a)) by field.
    rewrite exp_plus. rewrite <- skew_exp. replace (- (1 / 2) * (u * u)) with (- (1 / 2) * u * u) by ring.
    set (E1 := exp (- (1 / 2) * u * u)). set (E2 := exp (_ * (a * a))). set (F := 1 + erf _). field. pose proof sqrt_PI_pos. repeat split; try assumption; lra.
  - evar_last.
    + apply (is_derive_comp (skew a) (fun y => (x - x0 + d) / (y * c) + m)); [apply skew_derive|]. auto_derive; [exact S|reflexivity].
    + fold u. unfold scal; simpl; unfold mult; simpl. set (E := exp _). replace (u - m) with ((x - x0 + d) / (s * c)) by (unfold u; ring).
      set (Sk := skew a u). set (T := a * sqrt 2 / sqrt PI * E). clearbody T Sk. field. split; assumption.
Qed.
Lemma asym_alpha0 p c x x0 s : aok p c 0 0 -> s * c <> 0 -> (ap_centering p = "none" \/ ap_centering p = "mean")%string ->
  asym_val p x x0 s = Ok (Some (sym_val x x0 (s * c))).
Proof.
  intros O S C. rewrite (asym_val_eq _ _ _ _ _ _ _ O S). f_equal. f_equal. rewrite <- skew_exp.
  assert (M : asym_m0 (ap_centering p) 0 = 0). { destruct C as [->| ->]; [reflexivity|]. unfold asym_m0. simpl. unfold Rdiv. ring. }
  rewrite M. replace (x0 - 0 - s * c * 0) with x0 by ring. unfold sym_val. set (u := (x - x0) / (s * c)).
  replace (0 / sqrt 2 * u) with 0 by (unfold Rdiv; ring). rewrite erf_0. ring.
Qed.
Lemma asym_range p c a d x x0 s : aok p c a d -> s * c <> 0 -> exists v, asym_val p x x0 s = Ok (Some v) /\ 0 < v < 2.
Proof. intros O S. eexists. split; [apply (asym_val_eq _ _ _ _ _ _ _ O S)|]. apply skew_bounds. Qed.
Lemma m0_odd_mean a : asym_m0 "mean" (- a) = - asym_m0 "mean" a.
Proof. unfold asym_m0. simpl. replace (- a * - a) with (a * a) by ring. unfold Rdiv. ring. Qed.
Lemma asym_mirror p q c a t x0 s : aok p c a 0 -> aok q c (- a) 0 -> ap_centering q = ap_centering p -> s * c <> 0 ->
  (ap_centering p = "none" \/ ap_centering p = "mean")%string -> asym_val q (x0 - t) x0 s = asym_val p (x0 + t) x0 s.
Proof.
  intros O O' E S C. rewrite (asym_val_eq _ _ _ _ _ _ _ O S), (asym_val_eq _ _ _ _ _ _ _ O' S), E.
  assert (M : asym_m0 (ap_centering p) (- a) = - asym_m0 (ap_centering p) a) by (destruct C as [->| ->]; [symmetry; apply Ropp_0|apply m0_odd_mean]).
  rewrite M. f_equal. f_equal. rewrite <- (skew_mirror a). f_equal. field. split; intro Z; apply S; rewrite Z; ring.
Qed.
Lemma m0_mode_sum a : a <> 0 -> asym_m0 "mode" a + asym_m0 "mode" (- a) < 0.
Proof.
  intro A. unfold asym_m0. simpl String.eqb. cbv beta iota zeta. replace (- a * - a) with (a * a) by ring. set (r := sqrt (1 + a * a)).
  replace (- a / r) with (- (a / r)) by (unfold Rdiv; ring). set (D := a / r). set (q := sqrt (2 / PI)).
  replace (- D * q * (- D * q)) with (D * q * (D * q)) by ring. replace (2 * - D * - D) with (2 * D * D) by ring.
  replace ((- D * q) ^ 3) with (- (D * q) ^ 3) by ring. pose proof (exp_pos (- 2 * PI / a)). pose proof (exp_pos (- 2 * PI / - a)). set (W := Rpower _ _).
  assert (X : D * q - (4 - PI) / 2 * (D * q) ^ 3 / W * sqrt (1 - D * q * (D * q)) / 2 + (- D * q - (4 - PI) / 2 * - (D * q) ^ 3 / W * sqrt (1 - D * q * (D * q)) / 2) = 0) by (unfold Rdiv; ring).
  lra.
Qed.
Lemma skew_not_periodic a T : 0 < T -> exists u, skew a (u + T) <> skew a u.
Proof.
  intro HT. apply Classical_Prop.NNPP. intro N.
  assert (Per : forall u, skew a (u + T) = skew a u) by (intro u; apply Classical_Prop.NNPP; intro Hn; apply N; exists u; exact Hn).
  assert (PerN : forall n u, skew a (u + INR n * T) = skew a u).
  { induction n as [|n IH]; intro u; [simpl; f_equal; ring|]. rewrite S_INR. replace (u + (INR n + 1) * T) with (u + INR n * T + T) by ring. rewrite Per. apply IH. }
  pose proof (skew_bounds a 0) as [P _]. pose proof (skew_lim_p a) as L. apply is_lim_spec in L. destruct (L (mkposreal _ P)) as [M HM]. simpl in HM.
  assert (Un : exists n, M / T < INR n).
  { exists (Z.to_nat (up (M / T))). rewrite INR_IZR_INZ. destruct (archimed (M / T)) as [B _]. apply Rlt_le_trans with (1 := B). apply IZR_le. lia. }
  destruct Un as [n Hn]. specialize (HM (0 + INR n * T)). rewrite PerN in HM.
  assert (X : M < 0 + INR n * T). { apply Rmult_lt_compat_r with (r := T) in Hn; [|exact HT]. replace (M / T * T) with M in Hn by (field; lra). lra. }
  specialize (HM X). rewrite Rminus_0_r, Rabs_right in HM; lra.
Qed.
Lemma asym_mode_mirror p q c a x0 s : aok p c a 0 -> aok q c (- a) 0 -> ap_centering q = "mode"%string -> ap_centering p = "mode"%string -> 0 < s * c -> a <> 0 ->
  exists t, asym_val q (x0 - t) x0 s <> asym_val p (x0 + t) x0 s.
Proof.
  intros O O' Eq Ep S A. set (T := - (asym_m0 "mode" a + asym_m0 "mode" (- a))).
  destruct (skew_not_periodic a T) as [u Hu]; [pose proof (m0_mode_sum a A); unfold T; lra|].
  exists (s * c * (u - asym_m0 "mode" a)). rewrite (asym_val_eq _ _ _ _ _ _ _ O), (asym_val_eq _ _ _ _ _ _ _ O'), Ep, Eq by lra.
  intro X. injection X as X. apply Hu. rewrite <- (skew_mirror a (u + T)). clear Hu.
  assert (Sc : s <> 0 /\ c <> 0) by (split; intro Z; rewrite Z in S; lra). destruct Sc as [S1 S2].
  transitivity (skew (- a) ((x0 - s * c * (u - asym_m0 "mode" a) - (x0 - 0 - s * c * asym_m0 "mode" (- a))) / (s * c))).
  - f_equal. unfold T. field. split; assumption.
  - rewrite X. f_equal. field. split; assumption.
Qed.
Lemma asym_nan p x x0 s : ap_coeff p = None \/ ap_alpha p = None -> asym_val p x x0 s = Throw INTERNAL_ERROR /\
  asym_deriv_x0 p x x0 s = Throw INTERNAL_ERROR /\ asym_deriv_sigma p x x0 s = Throw INTERNAL_ERROR.
Proof.
  intro H. unfold asym_val, asym_deriv_x0, asym_deriv_sigma, with_valid, asym_isValid. destruct H as [-> | ->]; simpl; auto.
  rewrite orb_true_r. auto.
Qed.
Lemma asym_delta_none p x x0 s c a : ap_coeff p = Some c -> ap_alpha p = Some a -> ap_centering p = "none"%string -> ap_delta p <> Some 0 ->
  asym_val p x x0 s = Throw INTERNAL_ERROR.
Proof.
  intros C A N D. unfold asym_val, with_valid, asym_isValid, GetXSurc. rewrite C, A, N. cbn [isnan orb negb]. simpl String.eqb.
  destruct (ap_delta p) as [d|]; [|reflexivity]. destruct (Reqb_spec d 0) as [->|E]; [contradiction|reflexivity].
Qed.
