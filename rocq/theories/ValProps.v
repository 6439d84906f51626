(** C62: the validation of an input spectrum. *)
From Verif Require Import Base F64 RangeModel AxisModel FluxSpec ValModel ValSpec ValProofs.
Open Scope Q_scope.

(** ** without correction, a spectrum is accepted exactly if every sample of the common wavelengths, the upper bound excluded, has a finite flux and a usable noise,
    if a flux there is not null, and if the LSF covers the bounds; the spectrum is left as it was *)
Theorem C62_accepted : forall s r lo hi, well_formed s -> common s r lo hi -> rbeg r < rend r -> lo < hi ->
  fst (ValidateSpectrum s r false) = s /\ (snd (ValidateSpectrum s r false) = Ok tt <-> sane_between s lo hi /\ lsf_covers s lo /\ lsf_covers s hi).
Proof. intros s r lo hi W Cm R L. rewrite (Validate_plain s r lo hi W Cm R L). split; [reflexivity|]. apply (checks_iff s r lo hi W Cm L). Qed.
Print Assumptions C62_accepted.
(** the error code tells what is wrong, in the order flux, noise, LSF *)
Theorem C62_error_codes : forall s r lo hi, well_formed s -> common s r lo hi -> rbeg r < rend r -> lo < hi ->
  (snd (ValidateSpectrum s r false) = Throw INVALID_SPECTRUM_FLUX <-> ~ ((forall i x, sample_in s lo hi i -> nth_error (v_flux s) i = Some x -> valid_flux x) /\
                                                                        exists i q, sample_in s lo hi i /\ nth_error (v_flux s) i = Some (Fin q) /\ ~ q == 0)) /\
  (snd (ValidateSpectrum s r false) = Throw INVALID_NOISE <-> (forall i x, sample_in s lo hi i -> nth_error (v_flux s) i = Some x -> valid_flux x) /\
     (exists i q, sample_in s lo hi i /\ nth_error (v_flux s) i = Some (Fin q) /\ ~ q == 0) /\ ~ (forall i x, sample_in s lo hi i -> nth_error (v_noise s) i = Some x -> valid_noise x)) /\
  (snd (ValidateSpectrum s r false) = Throw INVALID_LSF <-> sane_between s lo hi /\ ~ (lsf_covers s lo /\ lsf_covers s hi)).
Proof. intros s r lo hi W Cm R L. rewrite (Validate_plain s r lo hi W Cm R L). cbn [snd]. destruct (checks_iff s r lo hi W Cm L) as (_ & A & B & C). exact (conj A (conj B C)). Qed.
Print Assumptions C62_error_codes.
(** ** with correction: if one sample is valid (and ten times the noises does not overflow), every sample of [lo, hi[ is valid afterwards, the valid ones and those outside being
    unchanged; the spectrum is then accepted exactly if a valid flux was not null and the LSF covers the bounds *)
Theorem C62_corrected : forall s r lo hi i f, well_formed s -> common s r lo hi -> rbeg r < rend r -> lo < hi -> representable (v_flux s) -> representable (v_noise s) ->
  sample_in s lo hi i -> valid_at (v_flux s) (v_noise s) i -> nth_error (v_flux s) i = Some (Fin f) -> ~ Qabs f == DBL_MAX ->
  (forall k e, sample_in s lo hi k -> valid_at (v_flux s) (v_noise s) k -> nth_error (v_noise s) k = Some (Fin e) -> e * 10 <= DBL_MAX) ->
  exists s', fst (ValidateSpectrum s r true) = s' /\ v_axis s' = v_axis s /\ v_lsf s' = v_lsf s /\
    (forall k, sample_in s lo hi k -> valid_at (v_flux s') (v_noise s') k) /\
    (forall k, ~ (sample_in s lo hi k /\ ~ valid_at (v_flux s) (v_noise s) k) -> nth_error (v_flux s') k = nth_error (v_flux s) k /\ nth_error (v_noise s') k = nth_error (v_noise s) k) /\
    (snd (ValidateSpectrum s r true) = Ok tt <->
       (exists k q, sample_in s lo hi k /\ valid_at (v_flux s) (v_noise s) k /\ nth_error (v_flux s) k = Some (Fin q) /\ ~ q == 0) /\ lsf_covers s lo /\ lsf_covers s hi).
Proof.
  intros s r lo hi i f W Cm R L Rf Rn Hi Hv Hf Hm Hn. destruct (Corrected s r lo hi W Cm R L Rf Rn) as [_ K]. destruct (K i f Hi Hv Hf Hm Hn) as (s' & E & W' & Ax & Lf & Va & Gd & NN).
  exists s'. rewrite E. split; [reflexivity|]. split; [auto|]. split; [auto|]. split; [auto|]. split; [auto|]. cbn [snd].
  assert (common s' r lo hi) as Cm' by (unfold common; rewrite Ax; exact Cm). rewrite (proj1 (checks_iff s' r lo hi W' Cm' L)). unfold lsf_covers. rewrite Lf, <- NN. unfold sane_between. split.
  - intros ([_ N] & C1 & C2). split; [exact N|]. split; [exact C1|exact C2].
  - intros (N & C1 & C2). split; [split; [|exact N]|split; [exact C1|exact C2]]. intros k Hk. apply Va. unfold sample_in in Hk |- *. rewrite Ax in Hk. exact Hk.
Qed.
Print Assumptions C62_corrected.
(** without a valid sample the correction fails and nothing changes *)
Theorem C62_correction_fails : forall s r lo hi, well_formed s -> common s r lo hi -> rbeg r < rend r -> lo < hi -> representable (v_flux s) -> representable (v_noise s) ->
  (forall i f, sample_in s lo hi i -> valid_at (v_flux s) (v_noise s) i -> nth_error (v_flux s) i = Some (Fin f) -> Qabs f == DBL_MAX) -> ValidateSpectrum s r true = (s, Throw SPECTRUM_CORRECTION_ERROR).
Proof. intros s r lo hi W Cm R L Rf Rn. exact (proj1 (Corrected s r lo hi W Cm R L Rf Rn)). Qed.
Print Assumptions C62_correction_fails.
(** ** the range must meet the spectrum *)
Theorem C62_refused : forall s r c,
  (ValidAxes s = true <-> length (v_flux s) = length (v_axis s) /\ v_axis s <> [] /\ strictly_increasing (v_axis s)) /\
  (ValidAxes s = false -> ValidateSpectrum s r c = (s, Throw INVALID_SPECTRUM)) /\
  (ValidAxes s = true -> rbeg r == rend r -> ValidateSpectrum s r c = (s, Throw INVALID_WAVELENGTH_RANGE)) /\
  (ValidAxes s = true -> ~ rbeg r == rend r -> length (v_axis s) = 1%nat -> ValidateSpectrum s r c = (s, Throw INVALID_SPECTRUM_WAVELENGTH)) /\
  (forall lo hi, well_formed s -> common s r lo hi -> rbeg r < rend r -> hi <= lo -> ValidateSpectrum s r c = (s, Throw INVALID_WAVELENGTH_RANGE)).
Proof. intros s r c. split; [apply ValidAxes_spec|]. apply Validate_refuses. Qed.
Print Assumptions C62_refused.
(** ** the sample at the upper bound is never looked at: whatever its flux and noise, the spectrum is still accepted *)
Theorem C62_last_sample_refuted : forall s s' r lo hi, well_formed s -> well_formed s' -> common s r lo hi -> rbeg r < rend r -> lo < hi -> v_axis s' = v_axis s -> v_lsf s' = v_lsf s ->
  (forall i, sample_in s lo hi i -> nth_error (v_flux s') i = nth_error (v_flux s) i /\ nth_error (v_noise s') i = nth_error (v_noise s) i) ->
  ValidateSpectrum s r false = (s, Ok tt) -> ValidateSpectrum s' r false = (s', Ok tt).
Proof. exact Blind. Qed.
Print Assumptions C62_last_sample_refuted.
(** a noise axis of another size is read beyond its end *)
Theorem C62_short_noise_refuted : exists s r, ValidAxes s = true /\ length (v_noise s) <> length (v_flux s) /\ snd (ValidateSpectrum s r false) = UB.
Proof. exact Short_noise. Qed.
Print Assumptions C62_short_noise_refuted.

(** ** the hypotheses are met *)
Definition ex_val : vspc := mkV [1; 2; 3; 4] [Fin 1; Fin 0; Fin 2; NaN] [Fin 1; Fin 1; Fin 3; Fin 0] (Some (fun x => Qle_bool x 4)).
Definition ex_bad : vspc := mkV [1; 2; 3; 4] [Fin 1; NaN; Fin 2; NaN] [Fin 1; Fin 1; Fin 3; Fin 0] None.
Example c62_well : well_formed ex_val /\ common ex_val (mkRange 0 5) 1 4.
Proof. split; [split; [cbn; lia|split; [apply sorted_axis_spec; reflexivity|split; reflexivity]]|]. exists 1, 4. repeat split; reflexivity. Qed.
(** the last sample, inside the range, has no valid flux nor noise *)
Example c62_accepted : ValidateSpectrum ex_val (mkRange 0 5) false = (ex_val, Ok tt) /\ nth_error (v_flux ex_val) 3 = Some NaN /\ nth_error (v_axis ex_val) 3 = Some 4. Proof. vm_compute. auto. Qed.
Example c62_rejected : ValidateSpectrum ex_bad (mkRange 0 5) false = (ex_bad, Throw INVALID_SPECTRUM_FLUX). Proof. vm_compute. auto. Qed.
Example c62_corrected : exists s, ValidateSpectrum ex_bad (mkRange 0 5) true = (s, Ok tt) /\ v_flux s = [Fin 1; Fin (1 / 10); Fin 2; NaN] /\ v_noise s = [Fin 1; Fin 30; Fin 3; Fin 0].
Proof. eexists. split; [vm_compute; reflexivity|]. split; vm_compute; reflexivity. Qed.
