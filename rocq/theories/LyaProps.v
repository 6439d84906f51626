(** C90: the profiles of Lya and of the lines absorbed by the intergalactic medium. *)
From Coq Require Import String Sorting.Sorted.
From Verif Require Import Base RangeModel F64 RatSpec LyaModel LyaSpec LyaProofs LyaProofs2 LyaProofs3 LyaProofs4 LyaProofs5 LyaProofs6.
Open Scope Q_scope.

(** an element registers its asymmetric and absorbed lines, each once, and no other *)
Theorem C90_registered : forall l allout out, wf_elt (new_elt l allout out) /\
  forall i x, nth_error l i = Some x -> (In i (e_asym (new_elt l allout out)) <-> (isAsym (snd x) || isSymIgm (snd x))%bool = true).
Proof. exact new_wf. Qed.
Print Assumptions C90_registered.
(** the first registered line, when asymmetric, takes the profile chosen from the one of the catalogue with the same identifier; every absorbed line takes the curve
    and redshift of the continuum, or is to be fitted; nothing else changes *)
Theorem C90_set : forall f cont z cat es k0 i0 p0 id ref, wf es -> first_marked es k0 i0 -> prof es k0 i0 = Some p0 -> line_id es k0 i0 = Some id ->
  (isAsym p0 = true -> at_ cat id = Ok ref) -> setLyaProfile f cont z cat es = Ok (remap (set_fun f cont z ref k0 i0) es).
Proof. exact set_spec. Qed.
Print Assumptions C90_set.
(** a line which is not in the catalogue: the error of the look-up *)
Theorem C90_catalogue_missing : forall f cont z cat es k0 i0 p0 id e, wf es -> first_marked es k0 i0 -> prof es k0 i0 = Some p0 -> line_id es k0 i0 = Some id ->
  isAsym p0 = true -> at_ cat id = Throw e -> setLyaProfile f cont z cat es = Throw e.
Proof. exact set_missing. Qed.
Print Assumptions C90_catalogue_missing.
Theorem C90_catalogue_lookup : forall cat id, match at_ cat id with Ok p => In (id, p) cat | Throw e => e = STD_out_of_range /\ forall p, ~ In (id, p) cat | UB => False end.
Proof. exact at_spec. Qed.
Print Assumptions C90_catalogue_lookup.
Theorem C90_no_line : forall f cont z cat es, no_marked es -> setLyaProfile f cont z cat es = Ok es.
Proof. exact set_none. Qed.
Print Assumptions C90_no_line.
(** the registration stays right *)
Theorem C90_set_keeps : forall f cont z cat es es', wf es -> setLyaProfile f cont z cat es = Ok es' -> wf es' /\ same_shape es es'.
Proof. exact prepare_total_wf. Qed.
Print Assumptions C90_set_keeps.
(** no profile is fitted in the first pass *)
Theorem C90_first_pass : forall f ref, isAsymFit (chosen (setPassMode 1 f) ref) = false /\ (isAsym ref = false -> chosen (setPassMode 1 f) ref = ref).
Proof. exact pass1_spec. Qed.
Print Assumptions C90_first_pass.
(** the two switches in the second pass *)
Theorem C90_second_pass : forall f n a c, chosen (setPassMode 2 f) (Fit n a c) = (if f_optdisable f then Fixed n a c else Fit n a c) /\
  chosen (setPassMode 2 f) (Fixed n a c) = (if f_optforce f then Fit n a c else Fixed n a c).
Proof. exact pass2_spec. Qed.
Print Assumptions C90_second_pass.
Theorem C90_third_pass : forall f ref, (isAsymFit ref = true -> chosen (setPassMode 3 f) ref = ref).
Proof. exact pass3_spec. Qed.
Print Assumptions C90_third_pass.
(** fixed to fitted and back: the same parameters and support *)
Theorem C90_conversion : forall p, isAsym p = true -> GetAsymParams (cloneToASYM p) = GetAsymParams p /\ GetAsymParams (cloneToASYMFIT p) = GetAsymParams p /\
  GetNSigmaSupport (cloneToASYM p) = GetNSigmaSupport p /\ GetNSigmaSupport (cloneToASYMFIT p) = GetNSigmaSupport p /\
  isAsymFit (cloneToASYM p) = false /\ isAsymFit (cloneToASYMFIT p) = true /\ cloneToASYM (cloneToASYMFIT p) = cloneToASYM p.
Proof. exact conversion_spec. Qed.
Print Assumptions C90_conversion.
(** the support of a profile, in widths of the line *)
Theorem C90_support : forall n a c, (forall f i z, GetNSigmaSupport (Sym n) = n /\ GetNSigmaSupport (Lor n) = n /\ GetNSigmaSupport (Igm n f i z) = n) /\
  GetNSigmaSupport (Fixed n a c) = GetNSigmaSupport (Fit n a c) /\
  (c = "mean"%string \/ c = "mode"%string -> GetNSigmaSupport (Fit n a c) == (5 # 2) * n * a_sigma a) /\ (c <> "mean"%string -> c <> "mode"%string -> GetNSigmaSupport (Fit n a c) == n * a_sigma a).
Proof. exact support_spec. Qed.
Print Assumptions C90_support.
(** before the fit the parameters of the fitted profiles go back to their defaults, in every element *)
Theorem C90_reset : forall es, wf es -> resetAsymfitParams es = Ok (remap (fun _ _ p => resetParams p) es).
Proof. exact reset_spec. Qed.
Print Assumptions C90_reset.
(** the values of a parameter: from the minimum step by step, up to half a step above the maximum *)
Theorem C90_grid : forall l, 0 < l_step l -> l_min l <= l_max l -> l_max l - l_min l < 2147483640 * l_step l -> exists vs, steps l = Ok vs /\ values l vs.
Proof. exact steps_spec. Qed.
Print Assumptions C90_grid.
Theorem C90_null_step : forall l, l_step l == 0 -> steps l = UB.
Proof. exact steps_zero. Qed.
Print Assumptions C90_null_step.
(** the fit: the asymmetric line gets the first parameters of least residual among all the triples with a positive amplitude (the default when there is none), when it is to
    be fitted and in the range; then the absorbed lines to fit of the elements in the range get together the first curve of least residual (-1 when none counts); all the rest is unchanged *)
Theorem C90_fit : forall v z es k0 i0 p0 e0 ws as_ ds, wf es -> first_marked es k0 i0 -> prof es k0 i0 = Some p0 -> nth_error es k0 = Some e0 ->
  steps (v_width v) = Ok ws -> steps (v_asym v) = Ok as_ -> steps (v_delta v) = Ok ds ->
  exists ks c es1, StronglySorted lt ks /\ (forall k, In k ks <-> fits_igm es k) /\
    (isAsymFit p0 = true -> nth i0 (e_out e0) false = false ->
       exists a, best_or (asym_key v k0 i0 es) (all_params ds ws as_) default_params a /\ es1 = remap (fun k _ p => put_asym k0 a k p) es) /\
    (isAsymFit p0 = false \/ nth i0 (e_out e0) false = true -> es1 = es) /\
    best_or (igm_key v ks z es1) (map Z.of_nat (seq 0 (v_count v))) (-1)%Z c /\
    fitLyaProfile v z es = Ok (remap (fun k _ p => put_igm ks c z k p) es1).
Proof. exact fit_spec. Qed.
Print Assumptions C90_fit.
Theorem C90_fit_no_line : forall v z es, no_marked es -> fitLyaProfile v z es = Ok es.
Proof. exact fit_none. Qed.
Print Assumptions C90_fit_no_line.
(** the profiles made at a redshift do not depend on those left by the previous one *)
Theorem C90_history : forall v f cont z cat es es', wf es -> similar es es' -> prepare v f cont z cat es' = prepare v f cont z cat es.
Proof. exact history_spec. Qed.
Print Assumptions C90_history.
(** what a visit leaves is such a state *)
Theorem C90_visit_state : forall v f cont z cat es es', wf es -> grids v ->
  (forall k i id, first_marked es k i -> line_id es k i = Some id -> exists ref, at_ cat id = Ok ref /\ isAsym ref = true) ->
  prepare v f cont z cat es = Ok es' -> similar es es'.
Proof. exact prepare_similar. Qed.
Print Assumptions C90_visit_state.
(** so after any sequence of redshifts, passes and ratios, the profiles are those of a fresh model *)
Theorem C90_visits : forall v es, wf es -> grids v -> forall l f cont z cat es', 
  (forall k i id, first_marked es k i -> line_id es k i = Some id -> forall x, In x l -> exists ref, at_ (snd x) id = Ok ref /\ isAsym ref = true) ->
  visits v l es = Ok es' -> prepare v f cont z cat es' = prepare v f cont z cat es.
Proof. exact visits_spec. Qed.
Print Assumptions C90_visits.

(** ** what does not hold *)
(** the line of the third element is asymmetric and fitted in the catalogue: it keeps its fixed profile (2) *)
Theorem C90_only_first_asymmetric_line_refuted : wf esx /\ prof esx 2 0 = Some (Fixed 8 ax "none") /\ at_ catx 3 = Ok (Fit 9 ax "mode") /\
  showe (prepare (envx 3 1) off None 6 catx esx) = Some [[(0, 0, 0, 0)]; [(3, 2, 1, 0); (4, 1, 1, 6)]; [(2, 4, 1, 3)]]%Z.
Proof. split; [exact esx_wf|]. split; [reflexivity|]. split; [reflexivity|exact (proj1 ex_prepare)]. Qed.
Print Assumptions C90_only_first_asymmetric_line_refuted.
(** after a catalogue (a ratio) with a symmetric Lya, the asymmetric one of the next catalogue is not taken any more *)
Theorem C90_symmetric_catalogue_sticks_refuted :
  showe (setLyaProfile off None 6 catx esx) = Some [[(0, 0, 0, 0)]; [(3, 4, 1, 3); (4, 1, 5, -1)]; [(2, 4, 1, 3)]]%Z /\
  showe (do es <- setLyaProfile off None 6 catsym esx; setLyaProfile off None 6 catx es) = Some [[(0, 0, 0, 0)]; [(0, 0, 0, 0); (4, 1, 5, -1)]; [(2, 4, 1, 3)]]%Z.
Proof. split; [exact (proj1 ex_set)|exact ex_sticky]. Qed.
Print Assumptions C90_symmetric_catalogue_sticks_refuted.
(** the values 0, 3/5, 6/5 for the range [0, 1] *)
Theorem C90_grid_inside_limits_refuted : showq (steps (mkLim 0 1 (3 # 5))) = Some [(0%Z, 1%positive); (3%Z, 5%positive); (6%Z, 5%positive)].
Proof. exact ex_grid. Qed.
Print Assumptions C90_grid_inside_limits_refuted.
(** no positive amplitude: the parameters (2, 2, 0) are outside of the limits, and the curve -1 is set *)
Theorem C90_fitted_inside_limits_refuted : showq (steps (mkLim 3 5 1)) = Some [(3%Z, 1%positive); (4%Z, 1%positive); (5%Z, 1%positive)] /\
  showe (prepare (mkEnv (fun _ _ _ => Some 0) (fun _ _ => Fin 1) 0 (mkLim 3 5 1) (mkLim 3 5 1) (mkLim 1 2 1)) off None 6 catx esx) =
  Some [[(0, 0, 0, 0)]; [(3, 2, 2, 0); (4, 1, -1, 6)]; [(2, 4, 1, 3)]]%Z.
Proof. exact ex_default. Qed.
Print Assumptions C90_fitted_inside_limits_refuted.

(** ** the hypotheses are met *)
Example C90_hypotheses_example : wf esx /\ first_marked esx 1 0 /\
  similar esx (remap (fun _ _ p => match p with Igm n _ _ _ => Igm n true 2 (Some 4) | Fixed n a c => if String.eqb c "mean" then Fit 3 (mkA 0 0 0) "none" else p | _ => p end) esx).
Proof. split; [exact esx_wf|]. split; [exact esx_first|exact esx_similar]. Qed.
Example C90_visits_example : grids (envx 3 1) /\ (forall k i id, first_marked esx k i -> line_id esx k i = Some id -> exists ref, at_ catx id = Ok ref /\ isAsym ref = true) /\
  exists es', visits (envx 3 1) [(off, None, 5, catx); (setPassMode 1 off, Some 2%Z, 4, catx)] esx = Ok es'.
Proof. exact ex_visits. Qed.
Example C90_set_example : showe (setLyaProfile (setPassMode 1 off) (Some 2%Z) 6 catx esx) = Some [[(0, 0, 0, 0)]; [(2, 4, 1, 3); (4, 0, 2, 6)]; [(2, 4, 1, 3)]]%Z.
Proof. exact (proj2 ex_set). Qed.
Example C90_fit_example : showe (prepare (envx 3 1) off None 6 catx esx) = Some [[(0, 0, 0, 0)]; [(3, 2, 1, 0); (4, 1, 1, 6)]; [(2, 4, 1, 3)]]%Z.
Proof. exact (proj1 ex_prepare). Qed.
