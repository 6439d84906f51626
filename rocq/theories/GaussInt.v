(** The Gaussian integral, needed to state that the line fluxes are the integrals of the line profiles. *)
From Coq Require Import Reals Lra Psatz.
From Coquelicot Require Import Coquelicot.
Open Scope R_scope.

Definition gexp (t : R) : R := exp (- (t * t)).
Lemma gexp_continuous t : continuous gexp t.
Proof. apply (ex_derive_continuous (V := R_NormedModule)). unfold gexp. auto_derive. trivial. Qed.
Lemma gexp_int a b : ex_RInt gexp a b.
Proof. apply (ex_RInt_continuous (V := R_CompleteNormedModule)). intros z _. apply gexp_continuous. Qed.
Lemma gexp_even t : gexp (- t) = gexp t.
Proof. unfold gexp. f_equal. ring. Qed.
Definition G (x : R) : R := RInt gexp 0 x.
Lemma G_derive x : is_derive G x (gexp x).
Proof.
  unfold G. apply (is_derive_RInt (V := R_CompleteNormedModule) gexp (fun x => RInt gexp 0 x) 0 x).
  - exists (mkposreal 1 Rlt_0_1). intros y _. apply (RInt_correct (V := R_CompleteNormedModule)). apply gexp_int.
  - apply gexp_continuous.
Qed.
Definition hfun (x t : R) : R := exp (- (x * x * (1 + t * t))) / (1 + t * t).
Lemma one_t2 t : 1 + t * t <> 0. Proof. nra. Qed.
Lemma hfun_derive x t : is_derive (fun x => hfun x t) x (- 2 * x * exp (- (x * x * (1 + t * t)))).
Proof. unfold hfun. auto_derive; [trivial|]. field. apply one_t2. Qed.
Lemma hfun_int x : ex_RInt (fun t => hfun x t) 0 1.
Proof.
  apply (ex_RInt_continuous (V := R_CompleteNormedModule)). intros z _. apply (ex_derive_continuous (V := R_NormedModule)).
  unfold hfun. auto_derive. apply one_t2.
Qed.
Definition H (x : R) : R := RInt (fun t => hfun x t) 0 1.
Lemma cont2_fst x t : continuity_2d_pt (fun u v => u) x t. Proof. apply continuity_2d_pt_id1. Qed.
Lemma cont2_snd x t : continuity_2d_pt (fun u v => v) x t. Proof. apply continuity_2d_pt_id2. Qed.
Lemma H_derive x : is_derive H x (- 2 * gexp x * G x).
Proof.
  assert (E : RInt (fun t => Derive (fun u => hfun u t) x) 0 1 = - 2 * gexp x * G x).
  { rewrite (RInt_ext _ (fun t => scal (- 2 * gexp x) (scal x (gexp (x * t + 0))))).
    2:{ intros t _. transitivity (- 2 * x * exp (- (x * x * (1 + t * t)))); [apply is_derive_unique; apply hfun_derive|]. unfold scal; simpl; unfold mult; simpl. unfold gexp.
        replace (- (x * x * (1 + t * t))) with (- (x * x) + - ((x * t + 0) * (x * t + 0))) by ring. rewrite exp_plus. ring. }
    assert (K : RInt (fun t => scal x (gexp (x * t + 0))) 0 1 = G x).
    { etransitivity; [apply (RInt_comp_lin (V := R_CompleteNormedModule) gexp x 0 0 1); apply gexp_int|]. unfold G. f_equal; ring. }
    etransitivity; [apply (RInt_scal (V := R_CompleteNormedModule) (fun t => scal x (gexp (x * t + 0))) 0 1 (- 2 * gexp x))|].
    { apply (ex_RInt_continuous (V := R_CompleteNormedModule)). intros z _. apply (ex_derive_continuous (V := R_NormedModule)).
      unfold scal; simpl; unfold mult; simpl; unfold gexp. auto_derive. trivial. }
    unfold scal at 1; simpl; unfold mult at 1; simpl. f_equal. exact K. }
  rewrite <- E. unfold H. apply is_derive_RInt_param.
  - exists (mkposreal 1 Rlt_0_1). intros y _ t _. eexists. apply hfun_derive.
  - intros t _.
    apply (continuity_2d_pt_ext (fun u v => - 2 * u * exp (- (u * u * (1 + v * v))))).
    { intros u v. symmetry. apply is_derive_unique. apply hfun_derive. }
    apply continuity_2d_pt_mult; [apply continuity_2d_pt_mult; [apply continuity_2d_pt_const|apply cont2_fst]|].
    apply (continuity_1d_2d_pt_comp exp (fun u v => - (u * u * (1 + v * v)))).
    + apply derivable_continuous_pt, derivable_pt_exp.
    + apply continuity_2d_pt_opp. apply continuity_2d_pt_mult; [apply continuity_2d_pt_mult; apply cont2_fst|].
      apply continuity_2d_pt_plus; [apply continuity_2d_pt_const|]. apply continuity_2d_pt_mult; apply cont2_snd.
  - exists (mkposreal 1 Rlt_0_1). intros y _. apply hfun_int.
Qed.
Lemma H_0 : H 0 = PI / 4.
Proof.
  unfold H. rewrite (RInt_ext _ (fun t => / (1 + t * t))).
  2:{ intros t _. unfold hfun. replace (- (0 * 0 * (1 + t * t))) with 0 by ring. rewrite exp_0. unfold Rdiv. apply Rmult_1_l. }
  apply (is_RInt_unique (V := R_CompleteNormedModule)).
  replace (PI / 4) with (minus (atan 1) (atan 0)).
  2:{ rewrite atan_1, atan_0. unfold minus, plus, opp; simpl. ring. }
  apply (is_RInt_derive (V := R_CompleteNormedModule) atan).
  - intros t _. auto_derive; [trivial|]. field. nra.
  - intros t _. apply (ex_derive_continuous (V := R_NormedModule)). auto_derive. apply one_t2.
Qed.
Lemma GH_const x : G x * G x + H x = PI / 4.
Proof.
  assert (D : forall y, is_derive (fun y => G y * G y + H y) y 0).
  { intro y. evar_last.
    - apply (is_derive_plus (V := R_NormedModule)); [apply (is_derive_mult G G y (gexp y) (gexp y)); [apply G_derive|apply G_derive|intros; apply Rmult_comm]|apply H_derive].
    - unfold plus, mult; simpl. ring. }
  assert (E : forall a b, a < b -> G a * G a + H a = G b * G b + H b).
  { intros a b L. destruct (MVT_gen (fun y => G y * G y + H y) a b (fun _ => 0)) as [c [_ C]].
    - intros z _. apply D.
    - intros z _. apply derivable_continuous_pt. exists 0. apply is_derive_Reals, D.
    - cbv beta in C. lra. }
  assert (Z : G 0 * G 0 + H 0 = PI / 4).
  { rewrite H_0. unfold G. rewrite RInt_point. unfold zero; simpl. ring. }
  destruct (Rtotal_order x 0) as [L|[->|L]]; [rewrite (E x 0 L); exact Z|exact Z|rewrite <- (E 0 x); [exact Z|exact L]].
Qed.
Lemma H_bounds x : 0 <= H x <= exp (- (x * x)).
Proof.
  unfold H. split.
  - apply RInt_ge_0; [lra|apply hfun_int|]. intros t _. unfold hfun. apply Rlt_le. apply Rdiv_lt_0_compat; [apply exp_pos|nra].
  - replace (exp (- (x * x))) with (RInt (fun _ => exp (- (x * x))) 0 1).
    2:{ rewrite RInt_const. unfold scal; simpl; unfold mult; simpl. ring. }
    apply RInt_le; [lra|apply hfun_int|apply ex_RInt_const|]. intros t _. unfold hfun.
    apply Rle_trans with (exp (- (x * x)) / 1); [|right; field].
    apply Rmult_le_compat; [apply Rlt_le, exp_pos|apply Rlt_le, Rinv_0_lt_compat; nra| |].
    + destruct (Req_dec (x * x * (t * t)) 0) as [Z|Z]; [right; f_equal; lra|]. apply Rlt_le, exp_increasing.
      assert (0 <= x * x * (t * t)) by nra. nra.
    + apply Rinv_le_contravar; nra.
Qed.
Lemma G_nonneg x : 0 <= x -> 0 <= G x.
Proof. intro L. unfold G. apply RInt_ge_0; [exact L|apply gexp_int|]. intros t _. apply Rlt_le, exp_pos. Qed.
Lemma H_lim : is_lim H p_infty 0.
Proof.
  apply (is_lim_le_le_loc (fun _ => 0) (fun x => exp (- x))).
  - exists 1. intros x L. pose proof (H_bounds x) as [A B]. split; [exact A|].
    apply Rle_trans with (1 := B). apply Rlt_le, exp_increasing. nra.
  - apply is_lim_const.
  - evar_last. { apply (is_lim_comp exp (fun x => - x) p_infty 0 m_infty); [apply is_lim_exp_m| |].
    - apply (is_lim_opp (fun x => x) p_infty p_infty). apply is_lim_id.
    - exists 0. intros y _. discriminate. } reflexivity.
Qed.
(** integral of exp (-t^2) over the positive reals *)
Lemma G_lim : is_lim G p_infty (sqrt PI / 2).
Proof.
  apply (is_lim_ext_loc (fun x => sqrt (PI / 4 - H x))).
  - exists 0. intros x L. rewrite <- (GH_const x). replace (G x * G x + H x - H x) with (Rsqr (G x)) by (unfold Rsqr; ring).
    apply sqrt_Rsqr. apply G_nonneg. lra.
  - assert (E : sqrt PI / 2 = sqrt (PI / 4)).
    { rewrite sqrt_div_alt by lra. f_equal. replace 4 with (Rsqr 2) by (unfold Rsqr; ring). rewrite sqrt_Rsqr; lra. }
    rewrite E. apply (filterlim_comp _ _ _ (fun x => PI / 4 - H x) sqrt (Rbar_locally' p_infty) (locally (PI / 4)) (locally (sqrt (PI / 4)))).
    + assert (L : is_lim (fun x => PI / 4 - H x) p_infty (PI / 4)); [|exact L].
      evar_last; [apply (is_lim_minus' (fun _ => PI / 4) H p_infty (PI / 4) 0); [apply is_lim_const|apply H_lim]|]. simpl. f_equal. ring.
    + apply continuous_sqrt.
Qed.
Lemma G_odd x : G (- x) = - G x.
Proof.
  unfold G. replace (- x) with (-1 * x + 0) by ring. replace 0 with (-1 * 0 + 0) at 1 by ring.
  rewrite <- (RInt_comp_lin (V := R_CompleteNormedModule) gexp (-1) 0 0 x).
  - rewrite (RInt_ext _ (fun y => scal (-1) (gexp y))).
    + rewrite (RInt_scal (V := R_CompleteNormedModule)) by apply gexp_int. unfold scal; simpl; unfold mult; simpl. ring.
    + intros y _. f_equal. rewrite <- (gexp_even y). f_equal. ring.
  - apply gexp_int.
Qed.
