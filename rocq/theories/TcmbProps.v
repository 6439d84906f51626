(** C84: the fit of a linear combination of templates.
    [least_squares] is the contract of GSL's weighted linear fit (a minimum, its sum of squares, the inverse of the normal matrix); [gs_full] meets it. *)
From Coq Require Import Qabs Lqa Permutation.
From Verif Require Import Base RangeModel AxisModel RebinModel RebinSpec CalzModel MeikModel TplModel TplSpec SvdModel SvdSpec TcmbModel TcmbSpec TcmbProofs3 TcmbProofs4 TcmbProofs5 TcmbProofs6 TcmbProofs7 TcmbProofs8 TcmbProofs9.
Open Scope Q_scope.

Theorem C84_solver_exists : least_squares gs_full.
Proof. exact gs_full_ok. Qed.
Print Assumptions C84_solver_exists.

(** ** the result of a fit: samples, templates, tables, best cell, last cell, overlaps *)
Theorem C84_fit : forall sqrtf solve dblmin, least_squares solve -> 0 < dblmin ->
  forall axis flux err ts lr z thr ext dust mask cal mei ml el r,
  strictly_increasing axis -> rbeg lr < rend lr -> 0 <= z -> Forall wf_source ts -> overlapping axis ts lr z -> (forall k, usable axis ts lr z k -> ~ at_ err k == 0) -> fine_ok mei -> ml <> [] ->
  BasicFit sqrtf solve dblmin axis flux err ts lr z thr ext dust mask cal mei ml el = Ok r ->
  right_result sqrtf dblmin axis flux err ts lr z thr ext dust cal mei ml el r.
Proof. exact BasicFit_ok. Qed.
Print Assumptions C84_fit.
(** with one igm index and one dust index, the amplitudes returned are of least chi square, and give the chi square returned *)
Theorem C84_amplitudes : forall sqrtf dblmin axis flux err ts lr z thr ext dust cal mei m e r, right_result sqrtf dblmin axis flux err ts lr z thr ext dust cal mei [m] [e] r ->
  exists ax fs ks ke ki ms, rest z axis ax /\ (forall k, usable axis ts lr z k <-> (ks <= k <= ke)%nat) /\ Forall2 (fun s f => interpolated s ax ks ke f) ts fs /\ b_igm (r_best r) = ki /\ ebmv_of cal dust e (b_ebmv (r_best r)) /\
    Forall2 (seen_through z cal mei ks ke (if dust then e else (-1)%Z) ki ax) fs ms /\ best_amplitudes flux err ms ks ke (f_amp (r_last r)) /\ b_chi (r_best r) == chi2 flux err ms (f_amp (r_last r)) ks (S ke - ks).
Proof. exact coherent. Qed.
Print Assumptions C84_amplitudes.
(** with several they are those of the last fit: the chi square of the amplitudes returned is not the one returned *)
Theorem C84_amplitudes_refuted : exists r, ex_fit [1; 1; 2; 1] [ex_T1; ex_T2] 1 false true (Some ex_dust) None [(-1)%Z] [0; 1]%Z = Ok r /\ b_chi (r_best r) == 0 /\ b_ebmv (r_best r) == 0 /\
  Forall2 (seen_through 1 (Some ex_dust) None 0 3 0 (-1) [1000; 1100; 1200; 1300]) [[1; 0; 1; 0]; [0; 1; 1; 1]] [[1; 0; 1; 0]; [0; 1; 1; 1]] /\
  ~ chi2 [1; 1; 2; 1] ex_ones [[1; 0; 1; 0]; [0; 1; 1; 1]] (f_amp (r_last r)) 0 4 == b_chi (r_best r).
Proof. exact stale_amplitudes. Qed.
Print Assumptions C84_amplitudes_refuted.
(** the covariance returned is that of the amplitudes divided by the scale of the flux: not the covariance of the amplitudes returned *)
Theorem C84_covariance_refuted : exists r, ex_fit [2; 0; 2; 1] [ex_T1; ex_T2] 1 false false None None [(-1)%Z] [(-1)%Z] = Ok r /\
  (exists m, is_inverse 2 (information ex_ones [[1; 0; 1; 0]; [0; 1; 1; 1]] 0 4) m) /\ ~ is_inverse 2 (information ex_ones [[1; 0; 1; 0]; [0; 1; 1; 1]] 0 4) (entry (f_cov (r_last r))).
Proof. exact stale_covariance. Qed.
Print Assumptions C84_covariance_refuted.
(** templates without a common wavelength are not refused *)
Theorem C84_common_wavelengths_refuted : exists r, BasicFit (fun v => v) gs_full (1 # 1000) ex_ax [2; 4; 2; 1] ex_ones [mkSource [1000; 1110] [1; 1] [0; 0]; mkSource [1190; 1300] [1; 1] [0; 0]] (mkRange 2000 2600) 1 (1 # 2) false false ex_mask None None [(-1)%Z] [(-1)%Z] = Ok r /\
  b_chi (r_best r) == 2 /\ forall k, ~ usable ex_ax [mkSource [1000; 1110] [1; 1] [0; 0]; mkSource [1190; 1300] [1; 1] [0; 0]] (mkRange 2000 2600) 1 k.
Proof. exact disjoint. Qed.
Print Assumptions C84_common_wavelengths_refuted.

(** ** when it succeeds *)
Theorem C84_succeeds : forall sqrtf solve dblmin axis flux err ts lr z thr mask cal mei, strictly_increasing axis -> rbeg lr < rend lr -> 0 < 1 + z -> Forall wf_source ts ->
  length flux = length axis -> length err = length axis -> length mask = length axis ->
  (exists l, NoDup l /\ length l = length ts /\ forall k, In k l -> usable axis ts lr z k) -> (2 <= length ts)%nat -> (forall s, In s ts -> thr <= share axis lr z s) ->
  exists r, BasicFit sqrtf solve dblmin axis flux err ts lr z thr false false mask cal mei [(-1)%Z] [(-1)%Z] = Ok r.
Proof. exact succeeds. Qed.
Print Assumptions C84_succeeds.
Theorem C84_needs : forall sqrtf solve dblmin axis flux err ts lr z thr ext dust mask cal mei ml el r, strictly_increasing axis -> rbeg lr < rend lr -> 0 < 1 + z -> Forall wf_source ts -> overlapping axis ts lr z ->
  BasicFit sqrtf solve dblmin axis flux err ts lr z thr ext dust mask cal mei ml el = Ok r -> (2 <= length ts)%nat /\ exists l, NoDup l /\ length l = length ts /\ forall k, In k l -> usable axis ts lr z k.
Proof. exact enough. Qed.
Print Assumptions C84_needs.
(** a catalogue of one template is never fitted *)
Theorem C84_one_template_refuted : forall sqrtf solve dblmin axis flux err s lr z thr ext dust mask cal mei ml el r, BasicFit sqrtf solve dblmin axis flux err [s] lr z thr ext dust mask cal mei ml el <> Ok r.
Proof. exact single_fails. Qed.
Print Assumptions C84_one_template_refuted.

(** ** the model of a candidate: the combination whose chi square is that of the fit, on the axis of the spectrum multiplied by 1 + z *)
Theorem C84_model : forall axis ts z ebmv igm amps lr thr cal mei ax' fl e,
  strictly_increasing axis -> rbeg lr < rend lr -> 0 < 1 + z -> Forall wf_source ts -> overlapping axis ts lr z -> fine_ok mei ->
  (0 < ebmv -> exists c, cal = Some c /\ ~ cz_bstep c == 0 /\ (0 <= e)%Z /\ ebmv = cz_bstart c + cz_bstep c * inject_Z e) ->
  ComputeSpectrumModel axis ts z ebmv igm amps lr thr cal mei = Ok (ax', fl) ->
  Forall2 (fun l l' => l' == l * (1 + z)) axis ax' /\
  exists ax fs ks ke, rest z axis ax /\ (forall k, usable axis ts lr z k <-> (ks <= k <= ke)%nat) /\ Forall2 (fun s f => interpolated s ax ks ke f) ts fs /\ (length ts <= length amps)%nat /\ length fl = length axis /\
    forall ms, Forall2 (seen_through z cal mei ks ke (if Qltb 0 ebmv then e else (-1)%Z) (if (-1 <? igm)%Z then igm else (-1)%Z) ax) fs ms -> forall k, (k < length axis)%nat -> at_ fl k == combination ms amps k.
Proof. exact model_ok. Qed.
Print Assumptions C84_model.
Theorem C84_model_wavelengths_refuted : exists ax' fl, ComputeSpectrumModel ex_ax [ex_T1; ex_T2] 1 0 (-1) [2; 1] (mkRange 2000 2600) (1 # 2) None None = Ok (ax', fl) /\ Forall2 Qeq fl [2; 1; 3; 1] /\ ~ Forall2 Qeq ax' ex_ax.
Proof. exact model_shifted. Qed.
Print Assumptions C84_model_wavelengths_refuted.

(** ** all the redshifts: sorted, one fit for each, over the clamped range; the additional masks change nothing *)
Theorem C84_redshifts : forall sqrtf solve dblmin axis flux err ts lr zs thr masks ext dust cal mei fitE fitM zs' rs,
  Compute sqrtf solve dblmin axis flux err ts lr zs thr masks ext dust cal mei fitE fitM = Ok (zs', rs) ->
  ts <> [] /\ zs <> [] /\ Permutation zs' zs /\ increasing zs' /\ (dust = true -> cal <> None) /\ (ext = true -> mei <> None) /\ (length masks = 0 \/ length masks = length zs)%nat /\
  exists clr ml el, ClampLambdaRange axis lr = Ok clr /\ idx_list ext fitM (option_map getIdxCount mei) = Ok ml /\ idx_list dust fitE (option_map (fun c => Ok (cz_n c)) cal) = Ok el /\
    Forall2 (fun z r => forall mask, length mask = length flux -> BasicFit sqrtf solve dblmin axis flux err ts clr z thr ext dust mask cal mei ml el = Ok r) zs' rs.
Proof. exact Compute_ok. Qed.
Print Assumptions C84_redshifts.
Theorem C84_clamped_range : forall axis ts lr clr z k, strictly_increasing axis -> rbeg lr < rend lr -> ClampLambdaRange axis lr = Ok clr -> (usable axis ts clr z k <-> usable axis ts lr z k).
Proof. exact usable_clamped. Qed.
Print Assumptions C84_clamped_range.

(** ** the components: dust everywhere but in the spectrum without continuum *)
Theorem C84_component : forall c ext dust, SolveOptions (One c) ext dust = [(c, ext, match c with NoContinuum => false | _ => dust end)].
Proof. intros [] ext dust; reflexivity. Qed.
Print Assumptions C84_component.
(** when all the components are fitted the continuum, fitted after the spectrum without continuum, is fitted without dust *)
Theorem C84_components_refuted : SolveOptions All true true = [(Raw, true, true); (NoContinuum, true, false); (ContinuumOnly, true, false)] /\ SolveOptions (One ContinuumOnly) true true = [(ContinuumOnly, true, true)].
Proof. split; reflexivity. Qed.
Print Assumptions C84_components_refuted.

(** ** the templates accepted *)
Theorem C84_templates : forall ts, (checkTemplates ts = Ok tt <-> exists r ts', ts = r :: ts' /\ Forall (fun t => Forall2 (fun a b => Qabs (a - b) <= 1 # 100000000) r t) ts) /\
  (ts = [] -> checkTemplates ts = Throw BAD_TEMPLATECATALOG) /\ (ts <> [] -> checkTemplates ts = Ok tt \/ checkTemplates ts = Throw INTERNAL_ERROR).
Proof. exact checkTemplates_ok. Qed.
Print Assumptions C84_templates.

(** ** a case: two templates, two igm and two dust indices, four samples at redshift 1 *)
Definition right_hyps axis err ts lr z mei : Prop :=
  strictly_increasing axis /\ rbeg lr < rend lr /\ 0 <= z /\ Forall wf_source ts /\ overlapping axis ts lr z /\ (forall k, usable axis ts lr z k -> ~ at_ err k == 0) /\ fine_ok mei.
Example C84_fit_case : right_hyps ex_ax ex_ones [ex_T1; ex_T2] (mkRange 2000 2600) 1 None /\
  (exists r, ex_fit [1; 1; 2; 1] [ex_T1; ex_T2] 1 false true (Some ex_dust) None [(-1)%Z] [0; 1]%Z = Ok r /\ r_overlap r == 1 /\ length (r_cols r) = 1%nat) /\
  (exists r, ex_fit [2; 0; 2; 1] [ex_T1; ex_T2] 1 false false None None [(-1)%Z] [(-1)%Z] = Ok r /\ Forall2 Qeq (f_amp (r_last r)) [9 # 5; 2 # 5] /\ b_chi (r_best r) == 3 # 5).
Proof.
  split; [|split].
  - split; [exact ex_si|]. split; [reflexivity|]. split; [lra|]. split; [exact ex_wf|]. split; [exact ex_overlap|]. split; [exact ex_err|exact I].
  - let v := eval vm_compute in (ex_fit [1; 1; 2; 1] [ex_T1; ex_T2] 1 false true (Some ex_dust) None [(-1)%Z] [0; 1]%Z) in match v with Ok ?r => exists r end. split; [vm_compute; reflexivity|]. split; reflexivity.
  - let v := eval vm_compute in (ex_fit [2; 0; 2; 1] [ex_T1; ex_T2] 1 false false None None [(-1)%Z] [(-1)%Z]) in match v with Ok ?r => exists r end. split; [vm_compute; reflexivity|]. split; [repeat constructor|reflexivity].
Qed.
Example C84_compute_case : exists rs, Compute (fun v => v) gs_full (1 # 1000) ex_ax [2; 0; 2; 1] ex_ones [ex_T1; ex_T2] (mkRange 1000 2600) [1; 101 # 100; 99 # 100] (1 # 2) [] false false None None (-1) (-1) = Ok ([99 # 100; 1; 101 # 100], rs) /\ length rs = 3%nat.
Proof. let v := eval vm_compute in (Compute (fun v => v) gs_full (1 # 1000) ex_ax [2; 0; 2; 1] ex_ones [ex_T1; ex_T2] (mkRange 1000 2600) [1; 101 # 100; 99 # 100] (1 # 2) [] false false None None (-1) (-1)) in match v with Ok (_, ?r) => exists r end. split; vm_compute; reflexivity. Qed.
