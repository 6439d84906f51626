(** C56: the raw flux, the continuum and the continuum-free flux of a spectrum stay consistent whatever is called on it. *)
From Coq Require Import String List ZArith QArith Lia Lqa Bool.
From Verif Require Import Base FluxModel SpcModel SpcSpec SpcProofs SpcFacts.
Import ListNotations.
Open Scope Q_scope.

(** after any history of calls, failing ones included, the two components which the getters give add up to the raw flux *)
Theorem C56_decomposition : forall remover corrector smoother, honest corrector -> forall a f s h s' s1 c s2 n,
  NewSpectrum remover a f = Ok s -> run remover corrector smoother s h = Some s' ->
  GetContinuumFluxAxis remover s' = (s1, Ok c) -> GetWithoutContinuumFluxAxis remover s1 = (s2, Ok n) ->
  s2 = s1 /\ s_raw s1 = s_raw s' /\ decomposed (s_raw s') c n.
Proof. exact decomposition. Qed.
Print Assumptions C56_decomposition.
(** ... and they are what the present settings give for the present raw flux, up to the scalings since the estimation.  Missing:
    histories with SetSpectralAxis or SetErrorAxis (see the two refutations), the manual continuum *)
Theorem C56_up_to_date_partial : forall remover corrector smoother, honest corrector -> forall a f s h s' s1 n,
  NewSpectrum remover a f = Ok s -> run remover corrector smoother s h = Some s' -> forallb keeps_setup h = true ->
  GetWithoutContinuumFluxAxis remover s' = (s1, Ok n) -> s_noc s1 = n /\ same_data s' s1 /\ up_to_date remover s1.
Proof. exact up_to_date_history. Qed.
Print Assumptions C56_up_to_date_partial.
(** new wavelengths do not make the continuum be estimated again *)
Theorem C56_new_wavelengths_refuted : forall remover s a, s_removed s = true -> length a = length (f_s (shown s)) ->
  exists s', SetSpectralAxis remover s a = (s', Ok tt) /\ s_axis s' = a /\ GetContinuumFluxAxis remover s' = (s', Ok (s_cont s)) /\
    GetWithoutContinuumFluxAxis remover s' = (s', Ok (s_noc s)).
Proof. exact stale_wavelengths. Qed.
Print Assumptions C56_new_wavelengths_refuted.
(** nor do new errors (the odd reflection fits the borders with them) *)
Theorem C56_new_errors_refuted : forall remover s e, s_removed s = true -> s_type s = Raw -> length e = length (f_e (s_raw s)) ->
  exists s', SetErrorAxis remover s e = (s', Ok tt) /\ f_e (s_raw s') = e /\ GetContinuumFluxAxis remover s' = (s', Ok (s_cont s)) /\
    GetWithoutContinuumFluxAxis remover s' = (s', Ok (s_noc s)).
Proof. exact stale_errors. Qed.
Print Assumptions C56_new_errors_refuted.
(** an unknown method, or a remover which refuses, is an error and not a zero continuum *)
Theorem C56_unknown_method : forall remover s, s_removed s = false -> ~ In (s_method s) ["irregularSamplingMedian"; "raw"; "zero"; "manual"]%string ->
  GetContinuumFluxAxis remover s = (s, Throw INTERNAL_ERROR) /\ GetWithoutContinuumFluxAxis remover s = (s, Throw INTERNAL_ERROR).
Proof. exact unknown_method. Qed.
Print Assumptions C56_unknown_method.
Theorem C56_refused_remover : forall remover s, s_removed s = false -> s_method s = "irregularSamplingMedian"%string -> f_s (s_raw s) <> [] ->
  remover (s_axis s) (s_raw s) (s_win s) (s_even s) = Refused ->
  snd (GetContinuumFluxAxis remover s) = Throw INTERNAL_ERROR /\ snd (GetWithoutContinuumFluxAxis remover s) = Throw INTERNAL_ERROR.
Proof. exact refused_remover. Qed.
Print Assumptions C56_refused_remover.
(** reading the flux of a spectrum whose type is not raw, with odd reflections, never ends when the continuum is not estimated yet *)
Theorem C56_odd_reflection_refuted : forall remover s, s_removed s = false -> s_method s = "irregularSamplingMedian"%string -> s_even s = false ->
  s_type s <> Raw -> (exists l, remover (s_axis s) (s_raw s) (s_win s) false = Wrote true l) -> snd (GetFluxAxis remover s) = UB.
Proof. exact endless. Qed.
Print Assumptions C56_odd_reflection_refuted.

(** ** sizes *)
Theorem C56_sizes : forall remover corrector smoother, honest corrector -> keeps_size corrector smoother -> forall a f s h s',
  NewSpectrum remover a f = Ok s -> run remover corrector smoother s h = Some s' -> forallb no_alias h = true ->
  length (f_s (s_raw s')) = length (s_axis s') /\
  (forall s1 c, GetContinuumFluxAxis remover s' = (s1, Ok c) -> length (f_s c) = length (s_axis s')) /\
  (forall s1 c, GetWithoutContinuumFluxAxis remover s' = (s1, Ok c) -> length (f_s c) = length (s_axis s')).
Proof. intros r c m H (K1 & K2). exact (sizes r c m H K1 K2). Qed.
Print Assumptions C56_sizes.
(** SetFluxAxis with the continuum, or the continuum-free flux, of the spectrum itself succeeds and empties its flux *)
Theorem C56_own_component_refuted : forall s, s_removed s = true -> decomposed (s_raw s) (s_cont s) (s_noc s) -> length (f_s (s_raw s)) = length (s_axis s) ->
  forall a, a = OwnContinuum \/ a = OwnNoContinuum -> exists s', SetFluxAxis_ref s a = (s', Ok tt) /\ f_s (s_raw s') = [] /\ s_axis s' = s_axis s.
Proof. exact alias_flux. Qed.
Print Assumptions C56_own_component_refuted.
(** and its own continuum cannot be made its manual continuum *)
Theorem C56_own_manual_refuted : forall s a, s_axis s <> [] -> a = OwnContinuum \/ a = OwnNoContinuum -> snd (SetManual s a) = Throw INTERNAL_ERROR.
Proof. exact alias_manual. Qed.
Print Assumptions C56_own_manual_refuted.

(** ** the manual continuum *)
Theorem C56_manual : forall remover s c s', SetManual s (Val c) = (s', Ok tt) -> length (f_s (s_raw s)) = length (s_axis s) ->
  exists s1, GetContinuumFluxAxis remover s' = (s1, Ok c) /\ s_raw s1 = s_raw s.
Proof. exact manual_used. Qed.
Print Assumptions C56_manual.
(** a rejected manual continuum has already replaced the method: the components cannot be read any more *)
Theorem C56_manual_rejected_refuted : forall remover s c, length (f_s c) <> length (s_axis s) -> f_s (s_raw s) <> [] ->
  exists s', SetManual s (Val c) = (s', Throw INTERNAL_ERROR) /\ s_method s' = "manual"%string /\
    snd (GetContinuumFluxAxis remover s') = Throw INTERNAL_ERROR /\ snd (GetWithoutContinuumFluxAxis remover s') = Throw INTERNAL_ERROR.
Proof. exact SetManual_wrong. Qed.
Print Assumptions C56_manual_rejected_refuted.
(** nor can they after a new flux *)
Theorem C56_manual_after_new_flux_refuted : forall remover s f s', s_method s = "manual"%string -> f_s f <> [] -> SetFluxAxis_ref s (Val f) = (s', Ok tt) ->
  snd (GetContinuumFluxAxis remover s') = Throw INTERNAL_ERROR.
Proof. exact manual_lost. Qed.
Print Assumptions C56_manual_after_new_flux_refuted.
(** an amplitude scales the three fluxes once they are estimated ... *)
Theorem C56_amplitude : forall remover s k s1 n, s_removed s = true -> GetWithoutContinuumFluxAxis remover (ApplyAmplitude s k) = (s1, Ok n) ->
  n = flux_scale k (s_noc s) /\ s_cont s1 = flux_scale k (s_cont s) /\ s_raw s1 = flux_scale k (s_raw s).
Proof. exact amplitude_estimated. Qed.
Print Assumptions C56_amplitude.
(** ... but not a manual continuum which was not read yet *)
Theorem C56_amplitude_manual_refuted : forall remover s c k s0, SetManual s (Val c) = (s0, Ok tt) -> length (f_s (s_raw s)) = length (s_axis s) ->
  exists s1, GetContinuumFluxAxis remover (ApplyAmplitude s0 k) = (s1, Ok c).
Proof. exact amplitude_pending_manual. Qed.
Print Assumptions C56_amplitude_manual_refuted.

(** ** correction of the invalid samples *)
Theorem C56_correction_partial : forall remover corrector s lo hi k s', s_type s = Raw -> correctSpectrum remover corrector s lo hi k = (s', Ok true) ->
  exists f, corrector (s_axis s) (s_raw s) lo hi k = Ok (true, f) /\ s_raw s' = f /\ s_removed s' = false.
Proof. exact correction_kept. Qed.
Print Assumptions C56_correction_partial.
(** the correction of a component is announced and thrown away *)
Theorem C56_correction_refuted : forall remover corrector s lo hi k s', s_type s <> Raw -> correctSpectrum remover corrector s lo hi k = (s', Ok true) ->
  s_raw s' = s_raw s /\ s_removed s' = false /\ f_s (s_cont s') = [] /\ f_s (s_noc s') = [].
Proof. exact correction_dropped. Qed.
Print Assumptions C56_correction_refuted.

(** ** rebinning *)
(** without fine grid, Rebin always interpolates the present wavelengths and flux *)
Theorem C56_rebin_present : forall remover s lo hi s1 a g, r_kind (s_rebin s) <> FineGrid -> Rebin remover s lo hi = (s1, Ok (ORebin a g)) ->
  a = s_axis s /\ s_axis s1 = s_axis s /\ s_raw s1 = s_raw s /\ s_type s1 = s_type s /\ exists f, GetFluxAxis remover s1 = (s1, Ok f) /\ g = f_s f.
Proof. intros r s lo hi s1 a g K. apply Rebin_uses; auto. Qed.
Print Assumptions C56_rebin_present.
(** with the fine grid it does after the histories of [grid_safe] calls.  Missing: the other calls, see the refutations *)
Theorem C56_fine_grid_partial : forall remover corrector smoother a f s s0 h s' lo hi s1 b g, NewSpectrum remover a f = Ok s ->
  setRebinInterpMethod s "preComputedFineGrid" = (s0, Ok tt) -> safe_run (step remover corrector smoother) s0 h -> run remover corrector smoother s0 h = Some s' ->
  Rebin remover s' lo hi = (s1, Ok (ORebin b g)) ->
  b = s_axis s' /\ s_axis s1 = s_axis s' /\ s_raw s1 = s_raw s' /\ s_type s1 = s_type s' /\ exists f, GetFluxAxis remover s1 = (s1, Ok f) /\ g = f_s f.
Proof. exact fine_grid. Qed.
Print Assumptions C56_fine_grid_partial.
Theorem C56_fine_grid_kept : forall remover s lo hi s1 a g, r_kind (s_rebin s) = FineGrid -> Rebin remover s lo hi = (s1, Ok (ORebin a g)) -> grid_of s1 g.
Proof. exact Rebin_grid. Qed.
Print Assumptions C56_fine_grid_kept.
Theorem C56_fine_grid_used : forall remover s g lo hi a0 t, grid_of s g -> s_type s = Raw -> length (f_s (s_raw s)) = length (s_axis s) ->
  s_axis s = a0 :: t -> sorted_axis (s_axis s) = true -> a0 <= lo -> hi <= last (s_axis s) a0 -> Rebin remover s lo hi = (s, Ok (ORebin (s_axis s) g)).
Proof. exact grid_reused. Qed.
Print Assumptions C56_fine_grid_used.
(** the grid of the old flux is used after InvertFlux, *)
Theorem C56_fine_grid_invert_refuted : forall s g, grid_of s g -> grid_of (InvertFlux s) g.
Proof. exact invert_grid. Qed.
Print Assumptions C56_fine_grid_invert_refuted.
(** after SetSpectralAxis, *)
Theorem C56_fine_grid_wavelengths_refuted : forall remover s g a s', grid_of s g -> s_type s = Raw -> SetSpectralAxis remover s a = (s', Ok tt) -> grid_of s' g.
Proof. exact axis_grid. Qed.
Print Assumptions C56_fine_grid_wavelengths_refuted.
(** and after a new flux given while another interpolation is selected *)
Theorem C56_fine_grid_convert_refuted : forall s g s1 s2 s3 f, grid_of s g -> setRebinInterpMethod s "lin" = (s1, Ok tt) -> SetFluxAxis_move s1 f = (s2, Ok tt) ->
  setRebinInterpMethod s2 "preComputedFineGrid" = (s3, Ok tt) -> grid_of s3 g /\ s_raw s3 = f /\ s_type s3 = Raw /\ s_axis s3 = s_axis s.
Proof. exact convert_grid. Qed.
Print Assumptions C56_fine_grid_convert_refuted.

(** ** copies *)
(** a copy gives what the original gives, and has no fine grid *)
Theorem C56_copy : forall remover o c, Copy remover o = Ok c ->
  snd (GetFluxAxis remover c) = snd (GetFluxAxis remover o) /\ snd (GetContinuumFluxAxis remover c) = snd (GetContinuumFluxAxis remover o) /\
  snd (GetWithoutContinuumFluxAxis remover c) = snd (GetWithoutContinuumFluxAxis remover o) /\
  s_axis c = s_axis o /\ s_raw c = s_raw o /\ s_type c = s_type o /\ s_method c = s_method o /\ s_win c = s_win o /\ s_even c = s_even o /\
  r_kind (s_rebin c) = r_kind (s_rebin o) /\ r_grid (s_rebin c) = None.
Proof. exact copy_getters. Qed.
Print Assumptions C56_copy.
Theorem C56_copy_valid : forall remover o, match IsValid remover o with
  | (o', Ok true) => exists c, Copy remover o = Ok c /\ c = with_rebin o' (mkRebin (r_kind (s_rebin o)) None) /\ same_data o o'
  | (_, Ok false) => Copy remover o = Throw INVALID_SPECTRUM
  | (_, Throw e) => Copy remover o = Throw e
  | (_, UB) => Copy remover o = UB end.
Proof. exact copy_spec. Qed.
Print Assumptions C56_copy_valid.
(** a masked copy has the samples kept of the three fluxes, which still add up *)
Theorem C56_masked_copy : forall o mask c, MaskedCopy o mask = Ok c -> (s_removed o = true -> decomposed (s_raw o) (s_cont o) (s_noc o)) ->
  f_s (s_raw c) = keep mask (f_s (s_raw o)) /\ s_axis c = keep mask (s_axis o) /\ s_removed c = s_removed o /\ s_method c = s_method o /\ s_type c = s_type o /\
  (s_removed o = true -> f_s (s_cont c) = keep mask (f_s (s_cont o)) /\ f_s (s_noc c) = keep mask (f_s (s_noc o)) /\ decomposed (s_raw c) (s_cont c) (s_noc c)).
Proof. exact masked_parts. Qed.
Print Assumptions C56_masked_copy.
(** but a manual continuum not read yet is not copied *)
Theorem C56_masked_manual_refuted : forall remover s f s0 mask c, SetManual s (Val f) = (s0, Ok tt) -> MaskedCopy s0 mask = Ok c -> s_axis c <> [] ->
  length (f_s (s_raw c)) = length (s_axis c) -> snd (GetContinuumFluxAxis remover c) = Throw INTERNAL_ERROR.
Proof. exact masked_manual_lost. Qed.
Print Assumptions C56_masked_manual_refuted.
(** an assignment leaves the observation identifier and the photometry of the target, a copy takes those of the original *)
Theorem C56_assignment_identity_refuted : forall target o, i_obs (assign_ident target o) = i_obs target /\ i_phot (assign_ident target o) = i_phot target /\
  i_name (assign_ident target o) = i_name o /\ i_lsf (assign_ident target o) = i_lsf o /\ (i_obs target <> i_obs o -> assign_ident target o <> copy_ident o).
Proof. intros [n b l p] [n' b' l' p']. cbn. repeat split. intros N E. inversion E. congruence. Qed.
Print Assumptions C56_assignment_identity_refuted.

(** the errors of both components are those of the raw flux *)
Theorem C56_component_errors : forall remover s s1 c s2 n, s_removed s = false -> s_method s = "irregularSamplingMedian"%string -> f_s (s_raw s) <> [] -> f_s (s_noc s) = [] ->
  GetContinuumFluxAxis remover s = (s1, Ok c) -> GetWithoutContinuumFluxAxis remover s1 = (s2, Ok n) -> f_e c = f_e (s_raw s) /\ f_e n = f_e (s_raw s).
Proof. exact component_errors. Qed.
Print Assumptions C56_component_errors.
(** an extract holds the samples from i to j, both included *)
Theorem C56_extract : forall remover o i j c, Extract remover o i j = Ok c -> (i <= j)%nat -> (j < length (s_axis o))%nat -> length (f_s (s_raw o)) = length (s_axis o) -> length (f_e (s_raw o)) = length (s_axis o) ->
  length (s_axis c) = (j - i + 1)%nat /\ length (f_s (s_raw c)) = (j - i + 1)%nat /\ length (f_e (s_raw c)) = (j - i + 1)%nat /\
  (forall k, (k <= j - i)%nat -> nth_error (s_axis c) k = nth_error (s_axis o) (i + k) /\ nth_error (f_s (s_raw c)) k = nth_error (f_s (s_raw o)) (i + k) /\ nth_error (f_e (s_raw c)) k = nth_error (f_e (s_raw o)) (i + k)) /\
  s_type c = Raw /\ s_removed c = false /\ s_method c = s_method o /\ s_win c = s_win o /\ s_even c = s_even o.
Proof. exact extracted. Qed.
Print Assumptions C56_extract.

(** ** examples *)
  (** a remover which takes the mean of the flux as continuum, refuses a window of 0, and fits the borders with odd reflections *)
Definition c56_rem (ax : list Q) (f : flux) (w : Z) (even : bool) : removal :=
    if (w <=? 0)%Z then Refused
    else Wrote (negb even) (map (fun x => x - fold_right Qplus 0 (f_s f) / inject_Z (Z.of_nat (length (f_s f)))) (f_s f)).
Definition c56_cor (ax : list Q) (f : flux) (l1 l2 c : Q) : res (bool * flux) :=
    if forallb (fun x => negb (Qeq_bool x 7)) (f_s f) then Ok (false, f) else Ok (true, mkFlux (map (fun x => if Qeq_bool x 7 then 0 else x) (f_s f)) (f_e f)).
Definition c56_smo (k : Z) (l : list Q) : list Q := map (fun x => x + 1) l.
Definition c56_ax := [1; 2; 3; 4].
Definition c56_fl := mkFlux [2; 4; 6; 8] [1; 1; 1; 1].
Definition c56_s0 := fresh_spc c56_ax c56_fl.
Example rem_ok : honest c56_cor /\ keeps_size c56_cor c56_smo.
Proof.
    split; [|split].
    - intros a f l1 l2 c f'. unfold c56_cor. destruct (forallb _ _); intro H; inversion H; auto.
    - intros a f l1 l2 c b f'. unfold c56_cor. destruct (forallb _ _); intro H; inversion H; subst; cbn; auto. rewrite map_length. reflexivity.
    - intros. apply map_length.
  Qed.
Definition c56_hist : list op := [CGetContinuum; CSetMethod "irregularSamplingMedian"; CGetContinuum; CSetWinsize 5; CSetType NoContinuum; CGetFlux;
    CSetFluxAxis (Val (mkFlux [1] [1])); CAmplitude (1#2); CInvert; CSetEven true; CRebin 1 3; CCorrect 1 4 2].
Example hist_ok : exists s', NewSpectrum c56_rem c56_ax c56_fl = Ok c56_s0 /\ run c56_rem c56_cor c56_smo c56_s0 c56_hist = Some s' /\ forallb keeps_setup c56_hist = true /\ forallb no_alias c56_hist = true /\
    exists s1 n, GetWithoutContinuumFluxAxis c56_rem s' = (s1, Ok n) /\ veq (f_s n) [3#2; 1#2; -1#2; -3#2] /\ s_removed s' = true /\ s_type s' = NoContinuum.
Proof. eexists. split; [reflexivity|]. split; [vm_compute; reflexivity|]. split; [reflexivity|]. split; [reflexivity|].
    eexists; eexists. split; [reflexivity|]. split; [|split; reflexivity]. repeat constructor; vm_compute; reflexivity. Qed.
  (** the refused window: the first reading throws, the spectrum can be used after another window is set *)
Example refused : snd (GetContinuumFluxAxis c56_rem (with_win (with_method c56_s0 "irregularSamplingMedian") 0)) = Throw INTERNAL_ERROR.
Proof. reflexivity. Qed.
  (** the theorem on the histories does not hold with SetSpectralAxis: this remover gives the wavelengths *)
Definition c56_rem2 (ax : list Q) (f : flux) (w : Z) (even : bool) : removal := Wrote false ax.
Example not_up_to_date : exists s' s1 n, run c56_rem2 c56_cor c56_smo c56_s0 [CSetMethod "irregularSamplingMedian"; CGetContinuum; CSetSpectralAxis [1; 2; 3; 5]] = Some s' /\
    GetWithoutContinuumFluxAxis c56_rem2 s' = (s1, Ok n) /\ ~ up_to_date c56_rem2 s1.
Proof.
    let r := eval vm_compute in (run c56_rem2 c56_cor c56_smo c56_s0 [CSetMethod "irregularSamplingMedian"; CGetContinuum; CSetSpectralAxis [1; 2; 3; 5]]) in
    match r with Some ?x => exists x; let q := eval vm_compute in (GetWithoutContinuumFluxAxis c56_rem2 x) in match q with (?y, Ok ?z) => exists y, z end end.
    split; [vm_compute; reflexivity|]. split; [vm_compute; reflexivity|]. intro U. destruct U as (k & r0 & n0 & _ & _ & E & V).
    { cbn. discriminate. }
    cbn in E. destruct E as [(_ & [(b & E)|(E & _)])|[(E & _)|(E & _)]]; try discriminate. inversion E; subst. cbn in V.
    inversion V as [|? ? ? ? V1 V2]; subst. inversion V2 as [|? ? ? ? V3 V4]; subst. inversion V4 as [|? ? ? ? V5 V6]; subst. inversion V6 as [|? ? ? ? V7 V8]; subst. lra.
  Qed.
Example endless_ok : snd (GetFluxAxis c56_rem (with_type (with_even (with_win (with_method c56_s0 "irregularSamplingMedian") 5) false) NoContinuum)) = UB.
Proof. reflexivity. Qed.
  (** the fine grid after InvertFlux and after a change of interpolation *)
Example grid_ok : exists s1, Rebin c56_rem (fst (setRebinInterpMethod c56_s0 "preComputedFineGrid")) 1 4 = (s1, Ok (ORebin c56_ax [2; 4; 6; 8])) /\
    snd (Rebin c56_rem (InvertFlux s1) 1 4) = Ok (ORebin c56_ax [2; 4; 6; 8]) /\ f_s (s_raw (InvertFlux s1)) = [-2; -4; -6; -8] /\
    run c56_rem c56_cor c56_smo s1 [CSetInterp "lin"; CSetFluxAxis (Val (mkFlux [1; 1; 1; 1] [1; 1; 1; 1])); CSetInterp "preComputedFineGrid"] <> None /\
    match run c56_rem c56_cor c56_smo s1 [CSetInterp "lin"; CSetFluxAxis (Val (mkFlux [1; 1; 1; 1] [1; 1; 1; 1])); CSetInterp "preComputedFineGrid"] with
    | Some s2 => snd (Rebin c56_rem s2 1 4) = Ok (ORebin c56_ax [2; 4; 6; 8]) | None => False end.
Proof. eexists. split; [reflexivity|]. split; [reflexivity|]. split; [reflexivity|]. split; [discriminate|]. reflexivity. Qed.
Example safe_ok : safe_run (step c56_rem c56_cor c56_smo) (fst (setRebinInterpMethod c56_s0 "preComputedFineGrid"))
    [CSetMethod "zero"; CRebin 1 4; CSetType ContinuumOnly; CRebin 1 4; CAmplitude 2; CSetFluxAxis (Val (mkFlux [1; 1; 1; 1] [1; 1; 1; 1])); CRebin 1 4].
Proof. cbn. repeat split; reflexivity. Qed.
Example correct_ok : correctSpectrum c56_rem c56_cor (with_raw (SetType (SetMethod c56_s0 "zero") NoContinuum) (mkFlux [7; 1; 1; 1] [1; 1; 1; 1])) 1 4 2 =
    (ResetContinuum (with_raw (SetType (SetMethod c56_s0 "zero") NoContinuum) (mkFlux [7; 1; 1; 1] [1; 1; 1; 1])), Ok true).
Proof. reflexivity. Qed.
Example manual_ok : exists s1, SetManual c56_s0 (Val (mkFlux [1; 1; 1; 1] [])) = (s1, Ok tt) /\
    exists c, MaskedCopy s1 [true; false; true; true] = Ok c /\ snd (GetContinuumFluxAxis c56_rem c) = Throw INTERNAL_ERROR /\ s_axis c = [1; 3; 4].
Proof. eexists. split; [reflexivity|]. eexists. split; [reflexivity|]. split; reflexivity. Qed.
Example alias_ok : match run c56_rem c56_cor c56_smo c56_s0 [CSetMethod "zero"; CGetContinuum; CSetFluxAxis OwnNoContinuum; CIsValid] with
    Some s' => f_s (s_raw s') = [] /\ snd (IsValid c56_rem s') = Ok false | None => False end.
Proof. cbn. auto. Qed.
Example c56_extract : exists o c, NewSpectrum (fun _ _ _ _ => Refused) [1; 2; 3; 4] (mkFlux [5; 6; 7; 8] [1; 1; 2; 2]) = Ok o /\ Extract (fun _ _ _ _ => Refused) o 1 2 = Ok c /\ s_axis c = [2; 3] /\ s_raw c = mkFlux [6; 7] [1; 2].
Proof. eexists _, _. split; [reflexivity|]. split; [reflexivity|]. split; reflexivity. Qed.
Example c56_component_errors : exists s s1 c n, s_removed s = false /\ s_method s = "irregularSamplingMedian"%string /\ f_s (s_raw s) <> [] /\ f_s (s_noc s) = [] /\
  GetContinuumFluxAxis (fun _ _ _ _ => Wrote false [1; 0]) s = (s1, Ok c) /\ GetWithoutContinuumFluxAxis (fun _ _ _ _ => Wrote false [1; 0]) s1 = (s1, Ok n) /\ f_e n = [7; 8].
Proof. exists (mkSpc [1; 2] (mkFlux [3; 4] [7; 8]) (mkFlux [] []) (mkFlux [] []) Raw false "irregularSamplingMedian" 5 true (mkRebin Lin None)). eexists _, _, _. repeat split; try discriminate. Qed.
