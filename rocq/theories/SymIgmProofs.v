From Coquelicot Require Import Coquelicot.
From Verif Require Import Base RBase LProfModel LProfProofs SymIgmModel.
Open Scope R_scope.

Lemma mapres_ok {A B} (f : A -> res B) l r : mapres f l = Ok r -> Forall2 (fun x y => f x = Ok y) l r.
Proof.
  revert r. induction l as [|x t IH]; cbn; intros r H; [injection H as <-; constructor|]. destruct (f x) as [y| |] eqn:E; cbn in H; try discriminate. destruct (mapres f t) as [u| |] eqn:E2; cbn in H; try discriminate.
  injection H as <-. constructor; auto.
Qed.
Lemma trapz_cons2 x0 x1 xt y0 y1 yt : trapz (x0 :: x1 :: xt) (y0 :: y1 :: yt) = (x1 - x0) * (1 / 2) * (y1 + y0) + trapz (x1 :: xt) (y1 :: yt).
Proof. reflexivity. Qed.
Lemma trapz_scale_x k xs ys : trapz (map (fun x => x * k) xs) ys = k * trapz xs ys.
Proof.
  revert ys. induction xs as [|x0 [|x1 xt] IH]; intros ys; [cbn; ring|destruct ys; cbn; ring|].
  destruct ys as [|y0 [|y1 yt]]; try (cbn; ring). cbn [map] in *. rewrite !trapz_cons2, IH. ring.
Qed.
Lemma trapz_scale_y k xs ys : trapz xs (map (fun y => y * k) ys) = k * trapz xs ys.
Proof.
  revert ys. induction xs as [|x0 [|x1 xt] IH]; intros ys; [cbn; ring|destruct ys; cbn; ring|].
  destruct ys as [|y0 [|y1 yt]]; try (cbn; ring). cbn [map] in *. rewrite !trapz_cons2. specialize (IH (y1 :: yt)). cbn [map] in IH. rewrite IH. ring.
Qed.
Section P.
  Context (corr : option R -> Z -> option R -> res R) (corrd : option R -> Z -> option R -> res (R * R)) (waves : option (R * R) -> option R -> Z -> res (list R * list R)) (count : Z).
  Lemma Val_ok s z x x0 sigma t : s_has s = true -> s_z s = Some z -> corr (Some z) (GetIgmIdx s) (Some (x / (1 + z))) = Ok t -> symigm_val corr s x x0 sigma = Ok (sym_val x x0 sigma * t).
  Proof. intros H Z C. unfold symigm_val, check, getIGMCorrection, rest. rewrite H, Z, C. reflexivity. Qed.
  Lemma sym_val_pos x x0 sigma : 0 < sym_val x x0 sigma. Proof. unfold sym_val. apply exp_pos. Qed.
  Lemma Val_bounds s z x x0 sigma t : s_has s = true -> s_z s = Some z -> corr (Some z) (GetIgmIdx s) (Some (x / (1 + z))) = Ok t -> 0 <= t <= 1 -> exists v, symigm_val corr s x x0 sigma = Ok v /\ 0 <= v <= sym_val x x0 sigma.
  Proof. intros H Z C T. exists (sym_val x x0 sigma * t). split; [apply (Val_ok s z); auto|]. pose proof (sym_val_pos x x0 sigma). nra. Qed.
  Lemma DSigma_ok s z x x0 sigma t : sigma <> 0 -> s_has s = true -> s_z s = Some z -> corr (Some z) (GetIgmIdx s) (Some (x / (1 + z))) = Ok t ->
    exists v : R -> R, exists d, (forall u : R, symigm_val corr s x x0 u = Ok (v u)) /\ symigm_deriv_sigma corr s x x0 sigma = Ok d /\ is_derive v sigma d.
  Proof.
    intros S0 H Z C. exists (fun u => sym_val x x0 u * t). eexists. split; [intro u; apply (Val_ok s z); auto|]. split; [unfold symigm_deriv_sigma, check, getIGMCorrection, rest; rewrite H, Z, C; reflexivity|].
    pose proof (is_derive_mult (fun u : R => sym_val x x0 u) (fun _ : R => t) sigma _ _ (sym_deriv_sigma_ok x x0 sigma S0) (is_derive_const t sigma) ltac:(intros; apply Rmult_comm)) as D.
    match type of D with is_derive _ _ ?e => replace (sym_deriv_sigma x x0 sigma * t) with e; [exact D|] end. unfold plus, mult, zero; cbn. ring.
  Qed.
  Lemma DX0_ok s z x x0 sigma (T T' : R -> R) : sigma <> 0 -> 0 < x0 -> 0 < 1 + z -> s_has s = true -> s_z s = Some z -> (forall l : R, is_derive T l (T' l)) ->
    corrd (Some z) (GetIgmIdx s) (Some (x / (1 + z))) = Ok (T (x / (1 + z)), T' (x / (1 + z))) ->
    exists d, symigm_deriv_x0 corrd s x x0 sigma = Ok (Some d) /\ is_derive (fun y : R => sym_val x y sigma * T (x * (x0 / (1 + z)) / y)) x0 d.
  Proof.
    intros S0 X0 Z1 H Z DT C. eexists. split.
    { unfold symigm_deriv_x0, check, getIGMCorrectionAndDerivX0, rest. rewrite H, Z, C. reflexivity. }
    cbn [fst snd].
    assert (x * (x0 / (1 + z)) / x0 = x / (1 + z)) as E0 by (field; lra).
    assert (is_derive (fun y : R => x * (x0 / (1 + z)) / y) x0 (- (x / (1 + z)) / x0)) as D2.
    { auto_derive; [lra|]. unfold Rdiv, Rminus. field. lra. }
    pose proof (DT (x / (1 + z))) as D3. rewrite <- E0 in D3.
    pose proof (is_derive_comp T (fun y : R => x * (x0 / (1 + z)) / y) x0 _ _ D3 D2) as D4.
    pose proof (is_derive_mult (fun y : R => sym_val x y sigma) (fun y : R => T (x * (x0 / (1 + z)) / y)) x0 _ _ (sym_deriv_x0_ok x x0 sigma S0) D4 ltac:(intros; apply Rmult_comm)) as D5.
    match type of D5 with is_derive _ _ ?e => match goal with |- is_derive _ _ ?g => replace g with e; [exact D5|] end end.
    rewrite E0. unfold plus, mult, scal; cbn. unfold mult; cbn. reflexivity.
  Qed.
  Lemma Throws s : s_has s = false -> (forall x x0 sigma : R, symigm_val corr s x x0 sigma = Throw INTERNAL_ERROR /\ symigm_deriv_x0 corrd s x x0 sigma = Throw INTERNAL_ERROR /\ symigm_deriv_sigma corr s x x0 sigma = Throw INTERNAL_ERROR) /\ (forall z x0 sigma A : R, symigm_flux corr waves s z x0 sigma A = Throw INTERNAL_ERROR) /\ getIGMIdxCount count s = UB.
  Proof. intro H. unfold symigm_val, symigm_deriv_x0, symigm_deriv_sigma, symigm_flux, check, getIGMIdxCount. rewrite H. repeat split. Qed.
  Lemma Flux_red s z x0 sigma A : s_has s = true -> 0 < 1 + z -> rest_lya * (1 + z) < x0 - 4 * sigma -> symigm_flux corr waves s z x0 sigma A = Ok (A * sigma * sqrt (2 * PI)).
  Proof.
    intros H Z L. unfold symigm_flux, check. rewrite H. cbv zeta. destruct (Rltb_spec rest_lya (x0 / (1 + z) - sigma / (1 + z) * nsigma_support / 2)) as [_|N]; [reflexivity|].
    exfalso. apply N. unfold nsigma_support. apply Rmult_lt_reg_r with (1 + z); [auto|]. field_simplify; lra.
  Qed.
  (** what the flux is *)
  Lemma Flux_ok s z x0 sigma A F : s_has s = true -> 0 < 1 + z -> x0 - 4 * sigma <= rest_lya * (1 + z) -> symigm_flux corr waves s z x0 sigma A = Ok F ->
    exists xr cs vs, waves (Some ((x0 - 4 * sigma) / (1 + z), (x0 + 4 * sigma) / (1 + z))) (Some z) (GetIgmIdx s) = Ok (xr, cs) /\ (2 <= length xr)%nat /\ Forall2 (fun x v => symigm_val corr s (x * (1 + z)) x0 sigma = Ok v) xr vs /\ (1 + z) * F = A * trapz (map (fun x => x * (1 + z)) xr) (map (fun q => fst q * snd q) (combine vs cs)).
  Proof.
    intros H Z L. unfold symigm_flux, check. rewrite H. cbv zeta. destruct (Rltb_spec rest_lya (x0 / (1 + z) - sigma / (1 + z) * nsigma_support / 2)) as [N|_].
    { exfalso. unfold nsigma_support in N. apply (Rmult_lt_compat_r (1 + z)) in N; [|auto]. field_simplify in N; lra. }
    replace (x0 / (1 + z) - sigma / (1 + z) * nsigma_support / 2) with ((x0 - 4 * sigma) / (1 + z)) by (unfold nsigma_support; field; lra).
    replace (x0 / (1 + z) + sigma / (1 + z) * nsigma_support / 2) with ((x0 + 4 * sigma) / (1 + z)) by (unfold nsigma_support; field; lra).
    destruct (waves _ _ _) as [[xr cs]| |] eqn:W; cbn [rbind fst snd]; try discriminate. destruct xr as [|x1 xt] eqn:X; [discriminate|]. rewrite <- X in *. clear x1 xt X.
    destruct (mapres _ _) as [g| |] eqn:M; cbn [rbind]; try discriminate. destruct (Nat.ltb_spec (length xr) 2) as [|L2]; [discriminate|]. intro E. injection E as <-.
    exists xr, cs, g. split; [reflexivity|]. split; [auto|]. apply mapres_ok in M. split.
    - clear - M. revert g M. induction xr as [|x t IH]; intros g M; inversion M; subst; constructor; auto.
    - rewrite trapz_scale_x. ring.
  Qed.
  (** constant transmission: the profile is integrated in the rest frame, and the transmission counted twice *)
  Lemma Flux_constant s z x0 sigma A F c : s_has s = true -> 0 < 1 + z -> x0 - 4 * sigma <= rest_lya * (1 + z) ->
    (forall r zz i xr cs, waves r zz i = Ok (xr, cs) -> length cs = length xr /\ Forall (fun y => y = c) cs) -> symigm_flux corr waves s z x0 sigma A = Ok F ->
    exists xr vs, Forall2 (fun x v => symigm_val corr s (x * (1 + z)) x0 sigma = Ok v) xr vs /\ (2 <= length xr)%nat /\ (1 + z) * F = c * (A * trapz (map (fun x => x * (1 + z)) xr) vs).
  Proof.
    intros H Z L W E. destruct (Flux_ok s z x0 sigma A F H Z L E) as (xr & cs & vs & Ew & L2 & V & EF). destruct (W _ _ _ _ _ Ew) as [Lc Cc]. exists xr, vs. split; [exact V|]. split; [exact L2|]. rewrite EF.
    assert (length vs = length cs) as Lv by (rewrite Lc; symmetry; clear - V; induction V; cbn; auto).
    replace (map (fun q : R * R => fst q * snd q) (combine vs cs)) with (map (fun y => y * c) vs); [rewrite trapz_scale_y; ring|].
    clear - Lv Cc. revert cs Lv Cc. induction vs as [|v vs IH]; intros [|c0 cs] Lv Cc; try discriminate; [reflexivity|]. inversion Cc; subst. cbn. f_equal. apply IH; auto.
  Qed.
End P.

(** ** parameters *)
Lemma Params_history has cs : let s := fold_left pstep cs (NewSymIgm has) in
  s_has s = has /\ GetSymIgmParams s = fst (fold_left (fun st c => match c with PSet p => (p, snd st) | PFit b => (fst st, b) | PReset => ((if snd st then ((-1)%Z, None) else fst st), snd st) end) cs (((-1)%Z, None), false)).
Proof.
  set (g := fun (st : sparams * bool) c => match c with PSet p => (p, snd st) | PFit b => (fst st, b) | PReset => ((if snd st then ((-1)%Z, None) else fst st), snd st) end).
  assert (forall cs s, let s' := fold_left pstep cs s in s_has s' = s_has s /\ (GetSymIgmParams s', s_fit s') = fold_left g cs (GetSymIgmParams s, s_fit s)) as X.
  { clear cs. induction cs as [|c cs IH]; intros s; cbn [fold_left]; [auto|]. destruct (IH (pstep s c)) as [A B]. cbv zeta in *. split.
    - rewrite A. destruct c; cbn; auto. unfold resetParams. destruct (s_fit s); reflexivity.
    - rewrite B. f_equal. destruct c as [[i z]|b|]; cbn; auto. unfold resetParams. destruct (s_fit s) eqn:F; cbn; [|rewrite F]; try reflexivity. unfold GetSymIgmParams, SetSymIgmParams; cbn. rewrite F. reflexivity. }
  destruct (X cs (NewSymIgm has)) as [A B]. cbv zeta. split; [exact A|]. match goal with |- _ = fst ?x => change x with (fold_left g cs (GetSymIgmParams (NewSymIgm has), s_fit (NewSymIgm has))) end. rewrite <- B. reflexivity.
Qed.
