(** C59: intergalactic extinction (Meiksin curves). *)
From Verif Require Import Base RangeModel RangeProofs AxisModel CalzModel LsfModel LsfSpec LsfProofs MeikModel MeikSpec MeikProofs.
Open Scope Q_scope.

(** ** the redshift bin *)
Theorem C59_redshift_index : forall m z, strictly_increasing (mk_zbins m) -> (2 <= length (mk_zbins m))%nat ->
  exists i, getRedshiftIndex m z = Ok i /\ bin_of (mk_zbins m) z i.
Proof. exact RedshiftIndex. Qed.
Print Assumptions C59_redshift_index.
(** a single boundary: no bin is ever found and the extinction is silently ignored *)
Theorem C59_single_boundary_refuted : forall m a, mk_zbins m = [a] -> forall z idx lam, idx <> (-1)%Z -> getRedshiftIndex m z = Ok (-1)%Z /\ getCorrection m z idx lam = Ok 1.
Proof. intros m a H z idx lam N. pose proof (RedshiftIndex_single m a z H) as R. split; [exact R|exact (proj1 (Corr_below m z idx lam N R))]. Qed.
Print Assumptions C59_single_boundary_refuted.
(** ** the wavelength index: the nearest node of the grid, the first and the last one outside *)
Theorem C59_wave_index : forall m w, (1 <= mk_fine m)%Z -> (0 <= getWaveIndex m w < mk_fine m)%Z /\
  forall j, (0 <= j < mk_fine m)%Z -> Qabs (w - node m (getWaveIndex m w)) <= Qabs (w - node m j).
Proof. exact WaveIndex. Qed.
Print Assumptions C59_wave_index.
(** ** no extinction above Lyman alpha, nor below the first redshift bin; an undefined curve index is refused *)
Theorem C59_above_lyman_alpha : forall m z idx lam, 1216 < lam -> getCorrection m z idx lam = Ok 1 /\ getCorrectionAndDeriv m z idx lam = Ok (1, Some 0).
Proof. exact Corr_above. Qed.
Print Assumptions C59_above_lyman_alpha.
Theorem C59_below_first_bin : forall m z idx lam, idx <> (-1)%Z -> mk_zbins m <> [] -> increasing (mk_zbins m) -> (forall x, In x (mk_zbins m) -> z < x) ->
  getCorrection m z idx lam = Ok 1 /\ getCorrectionAndDeriv m z idx lam = Ok (1, Some 0).
Proof. exact Below_first. Qed.
Print Assumptions C59_below_first_bin.
Theorem C59_undefined_index : forall m z lam, lam <= 1216 -> getCorrection m z (-1) lam = Throw INTERNAL_ERROR /\ getCorrectionAndDeriv m z (-1) lam = Throw INTERNAL_ERROR.
Proof. exact Corr_undef. Qed.
Print Assumptions C59_undefined_index.
(** ** well-formed tables are convolved by every LSF, and one curve is available for each bin and each index *)
Theorem C59_convolution : forall width nsigma kernel, lsf_total width kernel -> kernel_ok kernel -> 0 <= nsigma -> forall curves zbins n c m r,
  tables_ok curves zbins n c -> NewMeiksin curves zbins = Ok m -> exists m', convolveByLSF width nsigma kernel m r = Ok m' /\ mk_fine m' = Z.of_nat n /\ length (mk_cor m') = length curves.
Proof. exact Convolution. Qed.
Print Assumptions C59_convolution.
(** the LSFs of the library are such LSFs *)
Theorem C59_library_lsf : forall sqrtf prof, root_ok sqrtf -> (forall x y s, 0 < s -> 0 < prof x y s) -> forall l, NewLsf l = Ok l -> sorted_lsf l ->
  lsf_total (fun lam => GetWidth sqrtf l lam true) (getNormalizedProfileVector sqrtf prof l) /\ kernel_ok (getNormalizedProfileVector sqrtf prof l).
Proof. exact Library_lsf. Qed.
Print Assumptions C59_library_lsf.
(** ** the extinction after the first convolution: taken at the nearest node; within the bounds of the curves when this node, seen from the bin, falls in the observed range;
       0 otherwise *)
Theorem C59_value : forall width nsigma kernel, kernel_ok kernel -> forall curves zbins n c m m' r z i idx lam lo hi,
  tables_ok curves zbins n c -> NewMeiksin curves zbins = Ok m -> convolveByLSF width nsigma kernel m r = Ok m' -> getRedshiftIndex m' z = Ok (Z.of_nat i) -> (S i < length zbins)%nat ->
  (0 <= idx < Z.of_nat c)%Z -> lam <= 1216 -> (forall cu a, In cu curves -> In a (mc_corr cu) -> Forall (between lo hi) a) ->
  exists v zb ze k, getCorrection m' z idx lam = Ok v /\ nth_error zbins i = Some zb /\ nth_error zbins (S i) = Some ze /\
    (0 <= k < Z.of_nat n)%Z /\ (forall j, (0 <= j < Z.of_nat n)%Z -> Qabs (lam - node m k) <= Qabs (lam - node m j)) /\
    (rbeg r / (1 + ze) <= node m k <= rend r / (1 + zb) -> between lo hi v) /\ (~ (rbeg r / (1 + ze) <= node m k <= rend r / (1 + zb)) -> v = 0).
Proof. exact Value. Qed.
Print Assumptions C59_value.
(** a constant curve is not changed by the convolution *)
Theorem C59_constant_curve : forall width nsigma kernel, kernel_ok kernel -> forall curves zbins n c m m' r z i idx lam x,
  tables_ok curves zbins n c -> NewMeiksin curves zbins = Ok m -> convolveByLSF width nsigma kernel m r = Ok m' -> getRedshiftIndex m' z = Ok (Z.of_nat i) -> (S i < length zbins)%nat ->
  (0 <= idx < Z.of_nat c)%Z -> lam <= 1216 -> (forall cu a, In cu curves -> In a (mc_corr cu) -> Forall (fun v => v == x) a) ->
  (forall k zb ze, (0 <= k < Z.of_nat n)%Z -> In zb zbins -> In ze zbins -> rbeg r / (1 + ze) <= node m k <= rend r / (1 + zb)) ->
  exists v, getCorrection m' z idx lam = Ok v /\ v == x.
Proof. exact Constant_curve. Qed.
Print Assumptions C59_constant_curve.
(** ** for every history of convolutions, a transmission stays in [0, 1] *)
Theorem C59_transmission : forall curves zbins m, (forall cu a, In cu curves -> In a (mc_corr cu) -> Forall (between 0 1) a) -> configured curves zbins m ->
  forall z idx lam v, getCorrection m z idx lam = Ok v -> 0 <= v <= 1.
Proof. exact (fun c z m H C => proj2 (proj2 (Transmission c z m H C))). Qed.
Print Assumptions C59_transmission.
(** ** convolving again, by another LSF or for another range, changes no extinction: the first curves stay in use *)
Theorem C59_second_convolution_ignored : forall w1 s1 k1 w2 s2 k2 m r1 m1 r2 m2, convolveByLSF w1 s1 k1 m r1 = Ok m1 -> convolveByLSF w2 s2 k2 m1 r2 = Ok m2 ->
  (forall zi idx l v, getCorrectionIdx m1 zi idx l = Ok v -> getCorrectionIdx m2 zi idx l = Ok v) /\
  (forall z idx lam v, getCorrection m1 z idx lam = Ok v -> getCorrection m2 z idx lam = Ok v).
Proof. exact (fun w1 s1 k1 w2 s2 k2 m r1 m1 r2 m2 A B => proj2 (Reconvolve w1 s1 k1 w2 s2 k2 m r1 m1 r2 m2 A B)). Qed.
Print Assumptions C59_second_convolution_ignored.
(** so the extinction need not be that of the LSF last given *)
Theorem C59_last_lsf_refuted : exists curves zbins m m1 m2 m2' v v', NewMeiksin curves zbins = Ok m /\ tables_ok curves zbins 3 1 /\
  (let cv l m r := convolveByLSF (fun x => GetWidth (fun y => y) l x true) 4 (getNormalizedProfileVector (fun y => y) (fun x y s => 1 / (1 + (x - y) / s * ((x - y) / s))) l) m r in
   cv (ConstantWidth (1#100)) m (mkRange 0 10000) = Ok m1 /\ cv (ConstantWidth 1) m1 (mkRange 0 10000) = Ok m2 /\ cv (ConstantWidth 1) m (mkRange 0 10000) = Ok m2') /\
  getCorrection m2 (1#2) 0 (100005#100) = Ok v /\ getCorrection m2' (1#2) 0 (100005#100) = Ok v' /\ v == 1 /\ v' < 1#2.
Proof. exact Last_lsf. Qed.
Print Assumptions C59_last_lsf_refuted.
(** ** a table with as many boundaries as bins (one too few) is accepted by the constructor; the convolution then reads beyond the end *)
Theorem C59_boundaries_refuted : forall width nsigma kernel l ls arrs z r, (exists fine, SpreadOverEpsilon (mkRange l (last ls l)) fine_step false default_epsilon = Ok fine) ->
  exists m, NewMeiksin [mkMC (l :: ls) arrs] [z] = Ok m /\ convolveByLSF width nsigma kernel m r = UB.
Proof. exact Boundaries. Qed.
Print Assumptions C59_boundaries_refuted.
(** ** the nodes in a range, and the extinction at each of them *)
Theorem C59_wave_and_correction : forall m r z idx ws cs, (1 <= mk_fine m)%Z -> getWaveAndCorrectionVector m r z idx = Ok (ws, cs) ->
  exists i zi, (0 <= i)%Z /\ (i + Z.of_nat (length ws) <= mk_fine m)%Z /\ ws <> [] /\ length cs = length ws /\ getRedshiftIndex m z = Ok zi /\
  (forall k w, nth_error ws k = Some w -> w == node m (i + Z.of_nat k) /\ exists c, nth_error cs k = Some c /\
     (zi = (-1)%Z -> c = 1) /\ (zi <> (-1)%Z -> getCorrectionIdx m zi idx (i + Z.of_nat k) = Ok c)) /\
  (rbeg r <= node m (mk_fine m - 1) -> node m 0 <= rend r -> forall j, (0 <= j < mk_fine m)%Z -> ((i <= j < i + Z.of_nat (length ws))%Z <-> rbeg r <= node m j <= rend r)).
Proof. exact WaveCorr. Qed.
Print Assumptions C59_wave_and_correction.
(** ** the derivative is a finite difference over the neighbouring nodes; a grid of one node gives 0/0, a NaN *)
Theorem C59_derivative : forall m zi idx l c arr, (0 <= zi)%Z -> (0 <= idx)%Z -> (0 <= l < mk_fine m)%Z -> nth_error (mk_cor m) (Z.to_nat zi) = Some c -> nth_error (mc_corr c) (Z.to_nat idx) = Some arr ->
  Z.of_nat (length arr) = mk_fine m -> Z.of_nat (length (mc_lbda c)) = mk_fine m -> strictly_increasing (mc_lbda c) ->
  exists a b x0 x1 y0 y1, a = Z.max 0 (l - 1) /\ b = Z.min (mk_fine m - 1) (l + 1) /\
    nth_error (mc_lbda c) (Z.to_nat a) = Some x0 /\ nth_error (mc_lbda c) (Z.to_nat b) = Some x1 /\ nth_error arr (Z.to_nat a) = Some y0 /\ nth_error arr (Z.to_nat b) = Some y1 /\
    ((2 <= mk_fine m)%Z -> exists d, getDerivIdx m zi idx l = Ok (Some d) /\ d * (x1 - x0) == y1 - y0 /\ x0 < x1) /\
    (mk_fine m = 1%Z -> getDerivIdx m zi idx l = Ok None).
Proof. exact Derivative. Qed.
Print Assumptions C59_derivative.

(** ** the hypotheses are met *)
Example c59_tables : tables_ok ex_curves [0; 1] 3 1. Proof. exact ex_tables. Qed.
Example c59_new : exists m, NewMeiksin ex_curves [0; 1] = Ok m /\ strictly_increasing (mk_zbins m) /\ getRedshiftIndex m (1#2) = Ok 0%Z /\ getRedshiftIndex m (-1) = Ok (-1)%Z /\ getRedshiftIndex m 7 = Ok 0%Z.
Proof.
  eexists. split; [reflexivity|]. split; [|vm_compute; auto]. intros i j x y H Hx Hy. cbn [mk_zbins] in Hx, Hy. destruct i as [|[|i]], j as [|[|j]]; cbn in Hx, Hy; try lia; inversion Hx; inversion Hy; subst; try lra; try (destruct i; discriminate); destruct j; discriminate.
Qed.
Example c59_lsf : NewLsf (ConstantWidth (1#100)) = Ok (ConstantWidth (1#100)) /\ sorted_lsf (ConstantWidth (1#100)) /\ root_ok (fun y => y) /\ forall x y s, 0 < s -> 0 < 1 / (1 + (x - y) / s * ((x - y) / s)).
Proof.
  split; [reflexivity|]. split; [exact I|]. split; [intros x H; exact H|]. intros x y s _. apply Qlt_shift_div_l; [|lra]. assert (0 <= (x - y) / s * ((x - y) / s)) by apply Qsq_nonneg'. lra.
Qed.
Example c59_transmissions : forall cu a, In cu ex_curves -> In a (mc_corr cu) -> Forall (between 0 1) a.
Proof. intros cu a [<-|[]] [<-|[]]. repeat constructor; lra. Qed.
Example c59_spread : exists fine, SpreadOverEpsilon (mkRange 1000 (100010#100)) fine_step false default_epsilon = Ok fine /\ length fine = 3%nat.
Proof. eexists. split; [reflexivity|reflexivity]. Qed.
