(** C60: dust and igm extinction of a template. *)
From Verif Require Import Base RangeModel AxisModel CalzModel CalzSpec MeikModel TplModel TplSpec TplProofs TplProofs2.
Open Scope Q_scope.

(** ** for every program whose calls return, each sample of the flux is the original one times the amplitudes, times the extinctions of the last indices asked for *)
Theorem C60_flux : forall axis f0 t0 cs t', increasing axis -> NewTpl axis f0 = Ok t0 -> Forall convolved cs -> run t0 cs = Ok t' ->
  t_axis t' = axis /\ length (t_flux t') = length f0 /\ enabled t' = v_on (seen cs) /\
  forall k lam f, nth_error axis k = Some lam -> nth_error f0 k = Some f ->
    exists x d m, nth_error (t_flux t') k = Some x /\ dust_of (seen cs) k lam d /\ igm_of (seen cs) k lam m /\ x == f * v_amp (seen cs) * m * d.
Proof. exact Session. Qed.
Print Assumptions C60_flux.
(** so disabling gives back the original flux times the amplitudes *)
Theorem C60_disable : forall axis f0 t0 cs t' k lam f, increasing axis -> NewTpl axis f0 = Ok t0 -> Forall convolved cs -> run t0 (cs ++ [Disable]) = Ok t' ->
  nth_error axis k = Some lam -> nth_error f0 k = Some f -> exists x, nth_error (t_flux t') k = Some x /\ x == f * v_amp (seen cs).
Proof. exact Disabled. Qed.
Print Assumptions C60_disable.
(** ** the calls return for the indices of the tables *)
Theorem C60_dust_returns : forall axis f0 t0 cs t' cal k, increasing axis -> NewTpl axis f0 = Ok t0 -> Forall convolved cs -> run t0 cs = Ok t' -> v_on (seen cs) = true -> v_cal (seen cs) = Some cal ->
  (k < cz_n cal)%Z -> (forall lam, In lam axis -> (0 <= k)%Z -> exists d, GetDustCoeff cal k lam = Ok d) -> exists t2, ApplyDustCoeff t' k = (t2, Ok true) /\ run t0 (cs ++ [Dust k]) = Ok t2.
Proof. exact Dust_returns. Qed.
Print Assumptions C60_dust_returns.
(** the igm call tells whether a sample of the range is below Lyman alpha *)
Theorem C60_igm_returns : forall axis f0 t0 cs t' mei k, increasing axis -> NewTpl axis f0 = Ok t0 -> Forall convolved cs -> run t0 cs = Ok t' -> v_on (seen cs) = true -> v_mei (seen cs) = Some mei ->
  (forall zi l, (0 <= k)%Z -> (0 <= l < mk_fine mei)%Z -> getRedshiftIndex mei (v_z (seen cs)) = Ok zi -> zi <> (-1)%Z -> exists m, getCorrectionIdx mei zi k l = Ok m) ->
  exists t2 r, ApplyMeiksinCoeff t' k = (t2, Ok r) /\ run t0 (cs ++ [Igm k]) = Ok t2 /\ (r = true <-> exists i lam, in_range (seen cs) i /\ nth_error axis i = Some lam /\ lam <= 1216).
Proof. exact Igm_returns. Qed.
Print Assumptions C60_igm_returns.
(** ** the initialisation by a range of wavelengths covers exactly the samples of the range *)
Theorem C60_init_range : forall t r z cal mei, strictly_increasing (t_axis t) ->
  (exists a b, InitIsmIgmConfig_range t r z cal mei = InitIsmIgmConfig t (Z.of_nat a) (Z.of_nat b) z cal mei /\ (a <= b < length (t_axis t))%nat /\
     forall k lam, nth_error (t_axis t) k = Some lam -> ((a <= k <= b)%nat <-> rbeg r <= lam <= rend r)) \/
  ((exists e, InitIsmIgmConfig_range t r z cal mei = (t, Throw e)) /\ (rbeg r <= rend r -> forall lam, In lam (t_axis t) -> ~ rbeg r <= lam <= rend r)).
Proof. exact Init_range. Qed.
Print Assumptions C60_init_range.
(** a first index beyond the last one is not refused *)
Theorem C60_reversed_indices_refuted : forall t ks ke z cal mei m, (match mei with None => t_mei t | _ => mei end) = Some m -> (0 <= ke)%Z -> (ke + 1 < ks < Z.of_nat (length (t_axis t)))%Z -> (exists zi, getRedshiftIndex m z = Ok zi) ->
  exists t', InitIsmIgmConfig t ks ke z cal mei = (t', UB).
Proof. exact Init_reversed. Qed.
Print Assumptions C60_reversed_indices_refuted.
(** ** exceptions.  A dust index outside the table: refused once, then reported as applied *)
Theorem C60_bad_dust_index_refuted : forall t cal k, enabled t = true -> t_cal t = Some cal -> (0 <= k)%Z -> (cz_n cal <= k)%Z -> t_dust t <> k -> (0 <= t_ks t <= t_ke t)%Z -> (t_ke t < Z.of_nat (length (t_axis t)))%Z ->
  exists t', ApplyDustCoeff t k = (t', Throw INTERNAL_ERROR) /\ GetIsmCoeff t' = Ok k /\ t_flux t' = t_flux t /\ ApplyDustCoeff t' k = (t', Ok true).
Proof. exact Dust_bad_index. Qed.
Print Assumptions C60_bad_dust_index_refuted.
(** an igm index outside the table, or a table not convolved: not refused at all *)
Theorem C60_bad_igm_index_refuted : exists t t', run ex_t0 [Init 0 2 (5#2) (Some ex_cal) (Some ex_mei)] = Ok t /\ getIdxCount ex_mei = Ok 1%Z /\ ApplyMeiksinCoeff t 1 = (t', UB).
Proof. exact Igm_bad_index. Qed.
Print Assumptions C60_bad_igm_index_refuted.
Theorem C60_not_convolved_refuted : exists curves zbins m t t', NewMeiksin curves zbins = Ok m /\ run ex_t0 [Init 0 2 (5#2) None (Some m)] = Ok t /\ ApplyMeiksinCoeff t 0 = (t', UB).
Proof. exact Igm_not_convolved. Qed.
Print Assumptions C60_not_convolved_refuted.
(** a redshift without curve is refused, but the indices are already reset while the flux is still extincted, so that asking for no dust changes nothing *)
Theorem C60_missing_curve_refuted : exists cs t', run ex_t0 (removelast cs) <> UB /\ run_catch ex_t0 cs = Ok t' /\ GetIsmCoeff t' = Ok (-1)%Z /\ GetIgmCoeff t' = Ok (-1)%Z /\
  ApplyDustCoeff t' (-1) = (t', Ok true) /\ v_amp (seen cs) == 1 /\ ~ Forall2 Qeq (t_flux t') ex_flux.
Proof. exact Missing_curve. Qed.
Print Assumptions C60_missing_curve_refuted.
(** ** new wavelengths (accepted or not), or a refused flux: the extincted flux stays and can no longer be restored *)
Theorem C60_new_wavelengths_refuted : forall t ax t' r, SetSpectralAxis t ax = (t', r) -> t_flux t' = t_flux t /\ DisableIsmIgm t' = t' /\ enabled t' = false.
Proof. exact SetAxis_keeps. Qed.
Print Assumptions C60_new_wavelengths_refuted.
Theorem C60_refused_flux_refuted : forall t f t', length f <> length (t_axis t) -> SetFluxAxis t f = (t', Throw INVALID_SPECTRUM) -> t_flux t' = t_flux t /\ DisableIsmIgm t' = t' /\ enabled t' = false.
Proof. exact SetFlux_refused. Qed.
Print Assumptions C60_refused_flux_refuted.
Theorem C60_new_flux : forall t f, length f = length (t_axis t) -> exists t', SetFluxAxis t f = (t', Ok tt) /\ t_flux t' = f /\ t_axis t' = t_axis t /\ enabled t' = false.
Proof. exact SetFlux_ok. Qed.
Print Assumptions C60_new_flux.
(** ** an amplitude applied through the base class is lost when the extinction is disabled *)
Theorem C60_base_amplitude_refuted : forall t a, enabled t = true -> t_flux (BaseAmplitude t a) = map (fun x => a * x) (t_flux t) /\ t_flux (DisableIsmIgm (BaseAmplitude t a)) = t_flux (DisableIsmIgm t).
Proof. exact BaseAmp_lost. Qed.
Print Assumptions C60_base_amplitude_refuted.
(** ** the masked copy: dust commutes with the mask *)
Theorem C60_masked_dust : forall t mask t' k t2 t2', strictly_increasing (t_axis t) -> MaskedCopy t mask = Ok t' -> enabled t' = true -> ApplyDustCoeff t k = (t2, Ok true) -> ApplyDustCoeff t' k = (t2', Ok true) ->
  t_flux t2' = keep_masked mask (t_flux t2).
Proof. exact Masked_dust. Qed.
Print Assumptions C60_masked_dust.
(** the igm is never applied to a masked copy *)
Theorem C60_masked_igm_refuted : (forall t mask t' k m, MaskedCopy t mask = Ok t' -> enabled t' = true -> t_mei t = Some m -> exists t2, ApplyMeiksinCoeff t' k = (t2, Ok false) /\ t_flux t2 = t_flux t') /\
  exists t t', run ex_t0 [Init 0 2 (5#2) (Some ex_cal) (Some ex_mei)] = Ok t /\ MaskedCopy t [1; 1; 1] = Ok t' /\ enabled t' = true /\ t_axis t' = t_axis t /\ t_flux t' = t_flux t /\
  (exists t2, ApplyMeiksinCoeff t 0 = (t2, Ok true) /\ ~ Forall2 Qeq (t_flux t2) (t_flux t)) /\ (exists t2, ApplyMeiksinCoeff t' 0 = (t2, Ok false) /\ t_flux t2 = t_flux t').
Proof. exact (conj Masked_igm Masked_igm_ex). Qed.
Print Assumptions C60_masked_igm_refuted.
(** a mask with a hole over the range makes the copy throw *)
Theorem C60_masked_gap_refuted : exists t mask, run ex_t0 [Init 1 1 (5#2) (Some ex_cal) (Some ex_mei)] = Ok t /\ length mask = length (t_axis t) /\ MaskedCopy t mask = Throw CRANGE_NO_INTERSECTION.
Proof. exact Masked_gap. Qed.
Print Assumptions C60_masked_gap_refuted.
(** ** the indices to try *)
Theorem C60_index_lists : forall t opt fit, GetIsmIdxList t opt fit = idx_list opt fit (option_map (fun c => Ok (cz_n c)) (t_cal t)) /\ GetIgmIdxList t opt fit = idx_list opt fit (option_map getIdxCount (t_mei t)) /\
  forall count, (opt = false -> idx_list opt fit count = Ok [(-1)%Z]) /\ (opt = true -> count = None -> idx_list opt fit count = Throw INTERNAL_ERROR) /\
  (opt = true -> fit <> (-1)%Z -> count <> None -> idx_list opt fit count = Ok [fit]) /\
  (forall n, opt = true -> fit = (-1)%Z -> count = Some (Ok n) -> (0 <= n)%Z -> exists l, idx_list opt fit count = Ok l /\ length l = Z.to_nat n /\ forall i, (i < Z.to_nat n)%nat -> nth_error l i = Some (Z.of_nat i)).
Proof. intros t opt fit. split; [reflexivity|]. split; [reflexivity|]. intro count. exact (Idx_lists opt fit count). Qed.
Print Assumptions C60_index_lists.

(** ** the hypotheses are met *)
Example c60_axis : increasing ex_axis /\ NewTpl ex_axis ex_flux = Ok ex_t0. Proof. split; [exact (strictly_increasing_increasing _ ex_increasing)|reflexivity]. Qed.
Example c60_conv : Forall convolved [Init 0 2 (5#2) (Some ex_cal) (Some ex_mei); Dust 1; Igm 0; Amp 3]. Proof. repeat constructor; cbn; lia. Qed.
Example c60_run : exists t, run ex_t0 [Init 0 2 (5#2) (Some ex_cal) (Some ex_mei); Dust 1; Igm 0; Amp 3] = Ok t /\ map Qred (t_flux t) = [3; 6; 48] /\
  (exists t', run ex_t0 [Init 0 2 (5#2) (Some ex_cal) (Some ex_mei); Dust 1; Igm 0; Amp 3; Disable] = Ok t' /\ map Qred (t_flux t') = [24; 48; 96]).
Proof. match goal with |- exists t, ?X = _ /\ _ => let v := eval vm_compute in X in match v with Ok ?a => exists a end end. split; [vm_compute; reflexivity|]. split; [vm_compute; reflexivity|].
  match goal with |- exists t, ?X = _ /\ _ => let v := eval vm_compute in X in match v with Ok ?a => exists a end end. split; vm_compute; reflexivity. Qed.
Example c60_dust : forall lam, In lam ex_axis -> exists d, GetDustCoeff ex_cal 1 lam = Ok d. Proof. intros lam [<-|[<-|[<-|[]]]]; eexists; vm_compute; reflexivity. Qed.
Example c60_igm : forall l, (0 <= l < mk_fine ex_mei)%Z -> exists m, getCorrectionIdx ex_mei 0 0 l = Ok m.
Proof. intros l H. cbn in H. assert (l = 0 \/ l = 1)%Z as [-> | ->] by lia; eexists; vm_compute; reflexivity. Qed.
Example c60_masked : exists t t', run ex_t0 [Init 0 2 (5#2) (Some ex_cal) (Some ex_mei); Igm 0] = Ok t /\ MaskedCopy t [1; 0; 1] = Ok t' /\ enabled t' = true /\
  map Qred (t_flux (fst (ApplyDustCoeff t' 1))) = [1; 16].
Proof. match goal with |- exists t, _ => let v := eval vm_compute in (run ex_t0 [Init 0 2 (5#2) (Some ex_cal) (Some ex_mei); Igm 0]) in match v with Ok ?a => exists a; let w := eval vm_compute in (MaskedCopy a [1;0;1]) in match w with Ok ?b => exists b end end end. repeat split; vm_compute; reflexivity. Qed.
