From Coq Require Import String.
From Coquelicot Require Import Coquelicot.
From Verif Require Import Base RBase GaussInt LProfModel LProfSpec.
Open Scope R_scope.

(** ** calculus *)
Lemma sqrt_PI_pos : 0 < sqrt PI. Proof. apply sqrt_lt_R0, PI_RGT_0. Qed.
Lemma sqrt2_pos : 0 < sqrt 2. Proof. apply sqrt_lt_R0; lra. Qed.
Lemma sqrt2_sq : sqrt 2 * sqrt 2 = 2. Proof. apply sqrt_sqrt; lra. Qed.
Lemma sqrtPI_sq : sqrt PI * sqrt PI = PI. Proof. apply sqrt_sqrt. pose proof PI_RGT_0; lra. Qed.
Lemma sqrt_2PI : sqrt (2 * PI) = sqrt 2 * sqrt PI. Proof. apply sqrt_mult; pose proof PI_RGT_0; lra. Qed.
Lemma erf_G (x : R) : erf x = 2 / sqrt PI * G x. Proof. reflexivity. Qed.
Lemma erf_derive (x : R) : is_derive erf x (2 / sqrt PI * exp (- (x * x))).
Proof.
  evar_last; [apply (is_derive_scal (fun x => G x)); apply G_derive|]. reflexivity.
Qed.
Lemma erf_odd (x : R) : erf (- x) = - erf x.
Proof. rewrite !erf_G, G_odd. ring. Qed.
Lemma erf_0 : erf 0 = 0.
Proof. pose proof (erf_odd 0) as H. rewrite Ropp_0 in H. lra. Qed.
Lemma G_bound (x : R) : - (sqrt PI / 2) < G x < sqrt PI / 2.
Proof.
  assert (Hpos : forall x, 0 < GaussInt.H x).
  { intro y. unfold GaussInt.H. apply RInt_gt_0; [lra| |].
    - intros t _. unfold hfun. apply Rdiv_lt_0_compat; [apply exp_pos|nra].
    - intros t _. apply (ex_derive_continuous (V := R_NormedModule)). unfold hfun. auto_derive. apply one_t2. }
  pose proof (GH_const x) as K. pose proof (Hpos x) as P.
  assert (S : (sqrt PI / 2) * (sqrt PI / 2) = PI / 4) by (pose proof sqrtPI_sq; nra). pose proof sqrt_PI_pos.
  assert (L : G x * G x < (sqrt PI / 2) * (sqrt PI / 2)) by lra. split; nra.
Qed.
Lemma erf_bound (x : R) : -1 < erf x < 1.
Proof.
  rewrite erf_G. pose proof (G_bound x). pose proof sqrt_PI_pos.
  assert (E : 2 / sqrt PI * (sqrt PI / 2) = 1) by (field; lra). assert (0 < 2 / sqrt PI) by (apply Rdiv_lt_0_compat; lra). split; nra.
Qed.
Lemma erf_increasing (x y : R) : x < y -> erf x < erf y.
Proof.
  intro L. destruct (MVT_gen erf x y (fun x => 2 / sqrt PI * exp (- (x * x)))) as [c [_ C]].
  - intros z _. apply erf_derive.
  - intros z _. apply derivable_continuous_pt. eexists. apply is_derive_Reals, erf_derive.
  - assert (0 < 2 / sqrt PI) by (apply Rdiv_lt_0_compat; [lra|apply sqrt_PI_pos]). pose proof (exp_pos (- (c * c))).
    assert (0 < 2 / sqrt PI * exp (- (c * c)) * (y - x)) by (apply Rmult_lt_0_compat; [apply Rmult_lt_0_compat; assumption|lra]). lra.
Qed.
Lemma erf_Phi2 (x : R) : erf x = Phi2 x. Proof. reflexivity. Qed.
Lemma skew_exp a u : exp (- (1 / 2) * u * u) * (1 + erf (a / sqrt 2 * u)) = skew a u.
Proof.
  unfold skew. change (Phi2 (a * u / sqrt 2)) with (erf (a * u / sqrt 2)).
  replace (- (1 / 2) * u * u) with (- (u * u / 2)) by field. replace (a / sqrt 2 * u) with (a * u / sqrt 2) by (field; pose proof sqrt2_pos; lra).
  reflexivity.
Qed.

(** integral over the axis from an antiderivative *)
Lemma total_from_primitive (f F : R -> R) (a b : R) :
  (forall x, is_derive F x (f x)) -> (forall x, continuous f x) -> is_lim F m_infty a -> is_lim F p_infty b ->
  total_integral f (b - a).
Proof.
  intros D C La Lb. unfold total_integral, is_RInt_gen, filterlimi.
  assert (E : filterlim (fun ab : R * R => F (snd ab) - F (fst ab)) (filter_prod (Rbar_locally m_infty) (Rbar_locally p_infty)) (locally (b - a))).
  { eapply (filterlim_comp_2 (F := filter_prod (Rbar_locally m_infty) (Rbar_locally p_infty)) (G := locally b) (H := locally (- a)) (I := locally (b - a)) (fun ab : R * R => F (snd ab)) (fun ab : R * R => - F (fst ab)) Rplus).
    - apply (filterlim_comp _ _ _ snd F _ (Rbar_locally p_infty)); [apply filterlim_snd|exact Lb].
    - apply (filterlim_comp _ _ _ (fun ab : R * R => F (fst ab)) Ropp _ (locally a)).
      + apply (filterlim_comp _ _ _ fst F _ (Rbar_locally m_infty)); [apply filterlim_fst|exact La].
      + apply (filterlim_opp (V := R_NormedModule)).
    - apply (filterlim_plus (V := R_NormedModule)). }
  intros P HP. specialize (E P HP). unfold filtermap in E. unfold filtermapi.
  eapply filter_imp; [|exact E]. intros [u v] HF. simpl in HF. exists (F v - F u). split; [|exact HF].
  simpl. apply (is_RInt_derive (V := R_CompleteNormedModule) F f); [intros; apply D|intros; apply C].
Qed.
Lemma lim_affine_p (k d : R) : 0 < k -> is_lim (fun x => k * x + d) p_infty p_infty.
Proof.
  intro K. intros P [M HM]. exists ((M - d) / k). intros x Hx. apply HM.
  apply Rmult_lt_compat_l with (r := k) in Hx; [|exact K]. replace (k * ((M - d) / k)) with (M - d) in Hx by (field; lra). lra.
Qed.
Lemma lim_affine_m (k d : R) : 0 < k -> is_lim (fun x => k * x + d) m_infty m_infty.
Proof.
  intro K. intros P [M HM]. exists ((M - d) / k). intros x Hx. apply HM.
  apply Rmult_lt_compat_l with (r := k) in Hx; [|exact K]. replace (k * ((M - d) / k)) with (M - d) in Hx by (field; lra). lra.
Qed.
Lemma lim_comp_affine_p (F : R -> R) (l : Rbar) k d : 0 < k -> is_lim F p_infty l -> is_lim (fun x => F (k * x + d)) p_infty l.
Proof. intros K L. apply (filterlim_comp _ _ _ (fun x => k * x + d) F (Rbar_locally' p_infty) (Rbar_locally p_infty)); [apply (lim_affine_p k d K)|exact L]. Qed.
Lemma lim_comp_affine_m (F : R -> R) (l : Rbar) k d : 0 < k -> is_lim F m_infty l -> is_lim (fun x => F (k * x + d)) m_infty l.
Proof. intros K L. apply (filterlim_comp _ _ _ (fun x => k * x + d) F (Rbar_locally' m_infty) (Rbar_locally m_infty)); [apply (lim_affine_m k d K)|exact L]. Qed.
Lemma lim_opp_arg (F : R -> R) (l : Rbar) : is_lim F p_infty l -> is_lim (fun x => F (- x)) m_infty l.
Proof.
  intro L. apply (filterlim_comp _ _ _ Ropp F (Rbar_locally' m_infty) (Rbar_locally p_infty)); [|exact L].
  intros P [M HM]. exists (- M). intros x Hx. apply HM. lra.
Qed.
Lemma G_lim_m : is_lim G m_infty (- (sqrt PI / 2)).
Proof.
  apply (is_lim_ext (fun x => - G (- x))); [intro x; rewrite G_odd; ring|].
  apply (is_lim_opp (fun x => G (- x)) m_infty (sqrt PI / 2)). apply lim_opp_arg. apply G_lim.
Qed.
Lemma lim_scal (F : R -> R) x (l k : R) : is_lim F x l -> is_lim (fun x => k * F x) x (k * l).
Proof. intro L. apply (is_lim_scal_l F k x l L). Qed.
(** change of variable u = (x - c) / s for a primitive *)
Lemma total_affine (g Gp : R -> R) (a b A c s : R) : 0 < s ->
  (forall u, is_derive Gp u (g u)) -> (forall u, continuous g u) -> is_lim Gp m_infty a -> is_lim Gp p_infty b ->
  total_integral (fun x => A * g ((x - c) / s)) (A * s * (b - a)).
Proof.
  intros S D C La Lb. replace (A * s * (b - a)) with (A * s * b - A * s * a) by ring.
  assert (E : forall x, (x - c) / s = / s * x + - (c / s)) by (intro x; unfold Rdiv; ring).
  assert (Sp : 0 < / s) by (apply Rinv_0_lt_compat; exact S).
  apply (total_from_primitive _ (fun x => A * s * Gp (/ s * x + - (c / s)))).
  - intro x. evar_last.
    + apply (is_derive_scal (fun x => Gp (/ s * x + - (c / s)))).
      apply (is_derive_comp Gp (fun x => / s * x + - (c / s))); [apply D|]. auto_derive; [trivial|reflexivity].
    + unfold scal; simpl; unfold mult; simpl. rewrite <- E. field. lra.
  - intro x. apply (continuous_ext (fun x => A * g (/ s * x + - (c / s)))); [intro y; rewrite E; reflexivity|].
    apply (continuous_scal_r (V := R_NormedModule) A (fun x => g (/ s * x + - (c / s)))).
    apply (continuous_comp (fun x => / s * x + - (c / s)) g); [|apply C].
    apply (ex_derive_continuous (V := R_NormedModule)). auto_derive. trivial.
  - apply lim_scal. apply lim_comp_affine_m; [exact Sp|exact La].
  - apply lim_scal. apply lim_comp_affine_p; [exact Sp|exact Lb].
Qed.

(** ** SYM *)
Lemma sym_range (x x0 s : R) : s <> 0 -> 0 < sym_val x x0 s <= 1 /\ (sym_val x x0 s = 1 <-> x = x0).
Proof.
  intro S. unfold sym_val. set (u := (x - x0) / s). split.
  - split; [apply exp_pos|]. apply Rle_trans with (exp 0); [|right; apply exp_0]. destruct (Req_dec u 0) as [->|N]; [right; f_equal; ring|].
    apply Rlt_le, exp_increasing. assert (0 < u * u) by (apply Rsqr_pos_lt; exact N). lra.
  - split.
    + intro E. assert (Z : - (1 / 2) * u * u = 0) by (apply exp_inv; rewrite exp_0; exact E).
      assert (H : u = 0) by (apply Rsqr_0_uniq; unfold Rsqr; lra). unfold u in H. apply Rmult_integral in H. destruct H as [H|H]; [lra|exfalso; revert H; apply Rinv_neq_0_compat; exact S].
    + intros ->. unfold u. replace (- (1 / 2) * ((x0 - x0) / s) * ((x0 - x0) / s)) with 0 by (field; exact S). apply exp_0.
Qed.
Lemma sym_symmetric (x0 d s : R) : sym_val (x0 + d) x0 s = sym_val (x0 - d) x0 s.
Proof. unfold sym_val. f_equal. unfold Rdiv. ring. Qed.
Lemma sym_decreasing (x y x0 s : R) : s <> 0 -> Rabs (x - x0) < Rabs (y - x0) -> sym_val y x0 s < sym_val x x0 s.
Proof.
  intros S L. unfold sym_val. apply exp_increasing. apply Rsqr_lt_abs_1 in L. unfold Rsqr in L.
  assert (P : 0 < / s * / s) by (apply Rsqr_pos_lt, Rinv_neq_0_compat; exact S).
  assert (Q : (x - x0) * (x - x0) * (/ s * / s) < (y - x0) * (y - x0) * (/ s * / s)) by (apply Rmult_lt_compat_r; assumption).
  unfold Rdiv. lra.
Qed.
Lemma sym_deriv_x0_ok (x x0 s : R) : s <> 0 -> is_derive (fun x0 => sym_val x x0 s) x0 (sym_deriv_x0 x x0 s).
Proof. intro S. unfold sym_val, sym_deriv_x0. auto_derive; [trivial|]. unfold Rdiv, Rminus. field. exact S. Qed.
Lemma sym_deriv_sigma_ok (x x0 s : R) : s <> 0 -> is_derive (fun s => sym_val x x0 s) s (sym_deriv_sigma x x0 s).
Proof.
  intro S. unfold sym_val, sym_deriv_sigma. auto_derive; [auto|].
  replace (- (1 / 2) * ((x - x0) / s * ((x - x0) / s))) with (- (1 / 2) * ((x + - x0) * / s) * ((x + - x0) * / s)) by (unfold Rdiv, Rminus; ring).
  set (E := exp _). field. exact S.
Qed.
Lemma gauss_prim (u : R) : is_derive (fun u => sqrt 2 * G (u / sqrt 2)) u (exp (- (u * u / 2))).
Proof.
  pose proof sqrt2_pos as P. evar_last.
  - apply (is_derive_scal (fun u => G (u / sqrt 2))). apply (is_derive_comp G (fun u => u / sqrt 2)); [apply G_derive|].
    auto_derive; [trivial|reflexivity].
  - unfold scal; simpl; unfold mult; simpl. unfold gexp. replace (u / sqrt 2 * (u / sqrt 2)) with (u * u / 2).
    + field. lra.
    + rewrite <- sqrt2_sq at 1. field. lra.
Qed.
Lemma gauss_cont (u : R) : continuous (fun u => exp (- (u * u / 2))) u.
Proof. apply (ex_derive_continuous (V := R_NormedModule)). auto_derive. trivial. Qed.
Lemma gauss_lim_p : is_lim (fun u => sqrt 2 * G (u / sqrt 2)) p_infty (sqrt 2 * (sqrt PI / 2)).
Proof.
  apply lim_scal. apply (is_lim_ext (fun u => G (/ sqrt 2 * u + 0))); [intro u; f_equal; unfold Rdiv; ring|].
  apply lim_comp_affine_p; [apply Rinv_0_lt_compat, sqrt2_pos|apply G_lim].
Qed.
Lemma gauss_lim_m : is_lim (fun u => sqrt 2 * G (u / sqrt 2)) m_infty (sqrt 2 * - (sqrt PI / 2)).
Proof.
  apply lim_scal. apply (is_lim_ext (fun u => G (/ sqrt 2 * u + 0))); [intro u; f_equal; unfold Rdiv; ring|].
  apply lim_comp_affine_m; [apply Rinv_0_lt_compat, sqrt2_pos|apply G_lim_m].
Qed.
Lemma total_ext f g v : (forall x, f x = g x) -> total_integral f v -> total_integral g v.
Proof.
  intros E H. unfold total_integral in *. eapply is_RInt_gen_ext; [|exact H].
  apply filter_forall. intros [a b] x _. apply E.
Qed.
Lemma sym_flux_ok (x0 s A : R) : 0 < s -> total_integral (fun x => A * sym_val x x0 s) (sym_flux x0 s A).
Proof.
  intro S. unfold sym_flux. replace (A * s * sqrt (2 * PI)) with (A * s * (sqrt 2 * (sqrt PI / 2) - sqrt 2 * - (sqrt PI / 2))).
  2:{ rewrite sqrt_2PI. field. }
  apply (total_ext (fun x => A * (fun u => exp (- (u * u / 2))) ((x - x0) / s))).
  - intro x. unfold sym_val. f_equal. f_equal. field. lra.
  - apply (total_affine (fun u => exp (- (u * u / 2))) (fun u => sqrt 2 * G (u / sqrt 2))); [exact S|apply gauss_prim|apply gauss_cont|apply gauss_lim_m|apply gauss_lim_p].
Qed.

(** ** LOR *)
Lemma lor_range (x x0 s : R) : s <> 0 -> 0 < lor_val x x0 s <= 1 /\ (lor_val x x0 s = 1 <-> x = x0).
Proof.
  intro S. unfold lor_val. set (u := (x - x0) / s). assert (P : 0 < 1 + u * u) by nra. split.
  - split; [apply Rdiv_lt_0_compat; lra|]. apply Rmult_le_reg_r with (1 + u * u); [exact P|]. unfold Rdiv. rewrite Rmult_assoc, Rinv_l by lra. nra.
  - split.
    + intro E. assert (Z : 1 + u * u = 1). { apply Rmult_eq_reg_l with (1 / (1 + u * u)); [|rewrite E; lra]. rewrite E at 2. field. lra. }
      assert (H : u = 0) by (apply Rsqr_0_uniq; unfold Rsqr; lra). unfold u in H. apply Rmult_integral in H. destruct H as [H|H]; [lra|exfalso; revert H; apply Rinv_neq_0_compat; exact S].
    + intros ->. assert (Z : u = 0) by (unfold u; field; exact S). rewrite Z. field.
Qed.
Lemma lor_symmetric (x0 d s : R) : lor_val (x0 + d) x0 s = lor_val (x0 - d) x0 s.
Proof. unfold lor_val. f_equal. f_equal. unfold Rdiv. ring. Qed.
(** the width is the half width at half maximum *)
Lemma lor_half (x0 s : R) : s <> 0 -> lor_val (x0 + s) x0 s = 1 / 2.
Proof. intro S. unfold lor_val. replace ((x0 + s - x0) / s) with 1 by (field; exact S). field. Qed.
Lemma lor_decreasing (x y x0 s : R) : s <> 0 -> Rabs (x - x0) < Rabs (y - x0) -> lor_val y x0 s < lor_val x x0 s.
Proof.
  intros S L. unfold lor_val. apply Rsqr_lt_abs_1 in L. unfold Rsqr in L.
  assert (P : 0 < / s * / s) by (apply Rsqr_pos_lt, Rinv_neq_0_compat; exact S).
  assert (Q : (x - x0) * (x - x0) * (/ s * / s) < (y - x0) * (y - x0) * (/ s * / s)) by (apply Rmult_lt_compat_r; assumption).
  unfold Rdiv. rewrite !Rmult_1_l. pose proof (Rle_0_sqr ((x - x0) * / s)) as A. pose proof (Rle_0_sqr ((y - x0) * / s)) as B. unfold Rsqr in A, B.
  apply Rinv_lt_contravar; [apply Rmult_lt_0_compat; lra|]. lra.
Qed.
Lemma atan_lim_p : is_lim atan p_infty (PI / 2).
Proof.
  apply is_lim_spec. intros eps.
  assert (H : 0 < Rmin eps (PI / 4)) by (apply Rmin_pos; [apply cond_pos|pose proof PI_RGT_0; lra]).
  pose proof PI_RGT_0 as PP. pose proof (Rmin_l eps (PI / 4)). pose proof (Rmin_r eps (PI / 4)). set (e := Rmin eps (PI / 4)) in *.
  exists (tan (PI / 2 - e)). intros x Hx.
  assert (A : PI / 2 - e < atan x).
  { rewrite <- (atan_tan (PI / 2 - e)) by lra. apply atan_increasing. exact Hx. }
  pose proof (atan_bound x). rewrite Rabs_left1 by lra. lra.
Qed.
Lemma atan_lim_m : is_lim atan m_infty (- (PI / 2)).
Proof.
  apply (is_lim_ext (fun x => - atan (- x))); [intro x; rewrite atan_opp; ring|].
  apply (is_lim_opp (fun x => atan (- x)) m_infty (PI / 2)). apply lim_opp_arg, atan_lim_p.
Qed.
Lemma lor_flux_ok (x0 s A : R) : 0 < s -> total_integral (fun x => A * lor_val x x0 s) (lor_flux x0 s A).
Proof.
  intro S. unfold lor_flux. replace (A * s * PI) with (A * s * (PI / 2 - - (PI / 2))) by field.
  apply (total_affine (fun u => 1 / (1 + u * u)) atan); [exact S| | |apply atan_lim_m|apply atan_lim_p].
  - intro u. auto_derive; [trivial|]. field. nra.
  - intro u. apply (ex_derive_continuous (V := R_NormedModule)). auto_derive. nra.
Qed.
