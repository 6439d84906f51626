(** C57: the interstellar extinction applied at a wavelength. *)
From Verif Require Import Base AxisModel CalzModel CalzSpec CalzProofs.
Open Scope Q_scope.

(** ** inside the curve: 10^(-0.4 k E(B-V)) of the sample nearest to the wavelength (up to the tolerance on the regularity of the curve) *)
Theorem C57_coefficient : forall pow10 lbda corr start step n c k lam l0 l1,
  MakeCalzetti pow10 lbda corr start step n = Ok c -> length corr = length lbda -> 0 < first_step lbda ->
  inject_Z (Z.of_nat (length lbda)) * (1#100000000) <= 1#2 -> (0 <= k < n)%Z ->
  nth_error lbda 0 = Some l0 -> nth_error lbda (length lbda - 1) = Some l1 -> l0 <= lam < l1 ->
  exists i li d, nth_error lbda i = Some li /\ nth_error corr i = Some d /\
    Qabs (lam - li) <= first_step lbda * ((1#2) + inject_Z (Z.of_nat i) * (1#100000000)) /\
    GetDustCoeff c k lam = Ok (pow10 (-(4#10) * d * (start + step * inject_Z k))).
Proof. exact Dust_inside. Qed.
Print Assumptions C57_coefficient.
(** ** outside the curve (the last wavelength included): no extinction *)
Theorem C57_outside : forall pow10 lbda corr start step n c k lam l0 l1,
  MakeCalzetti pow10 lbda corr start step n = Ok c -> (k < n)%Z ->
  nth_error lbda 0 = Some l0 -> nth_error lbda (length lbda - 1) = Some l1 -> lam < l0 \/ l1 <= lam -> GetDustCoeff c k lam = Ok 1.
Proof. exact Dust_outside. Qed.
Print Assumptions C57_outside.
(** ** it is an attenuation: between 0 and 1, whatever the sizes and the wavelength *)
Theorem C57_attenuation : forall pow10, power_of_ten pow10 -> forall lbda corr start step n c k lam v,
  MakeCalzetti pow10 lbda corr start step n = Ok c -> Forall (fun d => 0 <= d) corr -> 0 <= start -> 0 <= step -> (0 <= k)%Z ->
  GetDustCoeff c k lam = Ok v -> 0 < v <= 1.
Proof. exact Dust_range. Qed.
Print Assumptions C57_attenuation.
(** ** the index of E(B-V): refused when too large; read outside the table when negative *)
Theorem C57_index_too_large : forall c k lam, (cz_n c <= k)%Z -> GetDustCoeff c k lam = Throw INTERNAL_ERROR.
Proof. exact Dust_index. Qed.
Print Assumptions C57_index_too_large.
Theorem C57_index_negative_refuted : forall pow10 lbda corr start step n c k lam l0 l1,
  MakeCalzetti pow10 lbda corr start step n = Ok c -> length corr = length lbda -> 0 < first_step lbda ->
  inject_Z (Z.of_nat (length lbda)) * (1#100000000) <= 1#2 -> (k < 0 <= n)%Z ->
  nth_error lbda 0 = Some l0 -> nth_error lbda (length lbda - 1) = Some l1 -> l0 <= lam < l1 -> GetDustCoeff c k lam = UB.
Proof. exact Dust_negative. Qed.
Print Assumptions C57_index_negative_refuted.
(** ** E(B-V) values and indices *)
Theorem C57_ebmv_roundtrip : forall c k, ~ cz_bstep c == 0 -> GetEbmvIndex c (GetEbmvValue c k) = Ok k.
Proof. exact Ebmv_roundtrip. Qed.
Print Assumptions C57_ebmv_roundtrip.
Theorem C57_ebmv_nearest : forall c v, 0 < cz_bstep c -> exists k, GetEbmvIndex c v = Ok k /\ forall j, Qabs (v - GetEbmvValue c k) <= Qabs (v - GetEbmvValue c j).
Proof. exact Ebmv_nearest. Qed.
Print Assumptions C57_ebmv_nearest.
(** ** what the constructor accepts: exactly the regular wavelengths (first step within 1e-8), whatever the direction *)
Theorem C57_regular : forall lbda corr, (2 <= length lbda)%nat ->
  (nearly_regular lbda -> NewCalzettiCorrection lbda corr = Ok (mkCorr lbda corr (first_step lbda))) /\
  (~ nearly_regular lbda -> NewCalzettiCorrection lbda corr = Throw BAD_CALZETTICORR).
Proof. exact NewCorr_ok. Qed.
Print Assumptions C57_regular.
(** a curve of less than two samples is not refused: the second wavelength is read past the end *)
Theorem C57_one_sample_refuted : forall a corr, NewCalzettiCorrection [a] corr = UB /\ NewCalzettiCorrection [] corr = UB.
Proof. exact Calz_one_sample. Qed.
Print Assumptions C57_one_sample_refuted.
(** a decreasing curve is accepted, and never applied *)
Theorem C57_decreasing_refuted : forall pow10 lbda corr start step n c k lam, MakeCalzetti pow10 lbda corr start step n = Ok c -> first_step lbda < 0 -> (0 <= k < n)%Z ->
  GetDustCoeff c k lam = Ok 1.
Proof. exact Dust_decreasing. Qed.
Print Assumptions C57_decreasing_refuted.
(** a curve with less values than wavelengths is accepted: the coefficient of another E(B-V) is returned, or the table is overrun *)
Theorem C57_sizes_refuted : forall pow10, exists lbda corr c, MakeCalzetti pow10 lbda corr 0 1 2 = Ok c /\ length corr <> length lbda /\
  GetDustCoeff c 0 (19#10) = Ok (pow10 (-(4#10) * 7 * (0 + 1 * 1))) /\ GetDustCoeff c 1 (19#10) = UB.
Proof. exact Dust_short. Qed.
Print Assumptions C57_sizes_refuted.

(** ** the hypotheses are met *)
Definition c57_pow (x : Q) : Q := if Qle_bool 0 x then 1 + x else / (1 - x).
Example c57_pow_ok : power_of_ten c57_pow.
Proof.
  unfold power_of_ten, c57_pow. repeat split.
  - intros x y E. destruct (Qle_bool_spec 0 x), (Qle_bool_spec 0 y); try lra. rewrite E. reflexivity.
  - intro x. destruct (Qle_bool_spec 0 x); [lra|]. apply Qinv_lt_0_compat. lra.
  - intros x y L. destruct (Qle_bool_spec 0 x), (Qle_bool_spec 0 y); try lra.
    + apply (Qle_trans _ 1); [|lra]. assert (H : / (1 - x) <= 1) by (apply Qle_shift_inv_r; lra). exact H.
    + destruct (Qlt_le_dec x y) as [H|H].
      * assert (A : 1 - y < 1 - x) by lra. apply Qlt_le_weak. rewrite <- Qinv_lt_contravar; lra.
      * assert (E : x == y) by lra. rewrite E. lra.
Qed.
Example c57_made : exists c, MakeCalzetti c57_pow [100; 110; 120; 130] [4; 3; 2; 1] 0 (1#10) 3 = Ok c /\ GetDustCoeff c 2 116 = Ok (c57_pow (-(4#10) * 2 * (0 + (1#10) * 2))).
Proof. eexists. split; reflexivity. Qed.
Example c57_refused : NewCalzettiCorrection [100; 110; 121] [4; 3; 2] = Throw BAD_CALZETTICORR.
Proof. reflexivity. Qed.
