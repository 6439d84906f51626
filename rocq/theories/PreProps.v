(** C89: the fit of the continuum templates before each pass of the line model.  [op] is any result of the template fitting operators (C64, C81). *)
From Coq Require Import String.
From Verif Require Import Base RangeModel RangeSpec CalzModel FitStoreModel FitStoreSpec PreModel PreSpec PreProofs PreProofs2 PreProofs3 PreProofs4.
Open Scope Q_scope.

(** the fft operator: asked for in that pass and 100 redshifts at least *)
Theorem C89_fft : forall c pass zs, isfftprocessingActive c pass (List.length zs) = uses_fft c pass zs.
Proof. exact fft_spec. Qed.
Print Assumptions C89_fft.
(** whatever the fits before, the operator is the one for the last redshifts, and masks the lines when asked to unless it is the fft one *)
Theorem C89_operator_history : forall c pass, forall zss op, op_ok c op -> zss <> [] ->
  let zs := last zss [] in
  fold_left (fun o z => prepare_operator c (isfftprocessingActive c pass (List.length z)) o) zss op = Some (uses_fft c pass zs, (k_ignore c && negb (uses_fft c pass zs))%bool).
Proof. exact fft_any_history. Qed.
Print Assumptions C89_operator_history.
(** the first pass: the store holds, at each redshift, the fits of all the templates ranked, and the continuum is decided from the largest significance of the best fits *)
Theorem C89_first_pass : forall op c zs s, zs <> [] -> distinct zs -> op_ok c (o_op s) -> tplfit (o_comp s) = true ->
  let fft := uses_fft c 1 zs in let reqs := requests c fft zs (everything c fft) in
  k_tpls c fft <> [] -> (k_maxN c <= List.length (k_tpls c fft))%nat ->
  exists t m, holds op reqs zs t /\ strongest op reqs zs m /\ decided c (with_pass s 1) m (rmap o_comp (first_pass op c zs s)) /\
    forall s', first_pass op c zs s = Ok s' -> o_first s' = Some t /\ o_used s' = Some t /\ op_ok c (o_op s') /\ o_cands s' = o_cands s /\ o_second s' = o_second s.
Proof. exact first_pass_spec. Qed.
Print Assumptions C89_first_pass.
Theorem C89_first_pass_without_templates : forall op c zs s, tplfit (o_comp s) = false -> first_pass op c zs s = Ok (with_pass s 1).
Proof. exact first_pass_none. Qed.
Print Assumptions C89_first_pass_without_templates.
(** any pass: the same for the templates of that pass *)
Theorem C89_fit_and_decision : forall op c zs cand s ts, zs <> [] -> distinct zs -> op_ok c (o_op s) ->
  let fft := uses_fft c (o_pass s) zs in
  let s1 := with_op s (Some (fft, (k_ignore c && negb fft)%bool)) in
  templates c s1 cand fft = Ok ts -> (k_maxN c <= List.length ts)%nat -> ts <> [] ->
  let reqs := requests c fft zs ts in
  exists t m, holds op reqs zs t /\ t_snrmax t = snr_max (t_all t) /\
    (forall i q, (i < List.length zs)%nat -> In q reqs -> In (q_tpl q, op q i) (t_all t)) /\
    (forall d, In d (t_all t) -> exists i q, (i < List.length zs)%nat /\ In q reqs /\ d = (q_tpl q, op q i)) /\
    strongest op reqs zs m /\
    decided c s m (rmap (fun p => o_comp (snd p)) (PrecomputeContinuumFit op c zs cand s)) /\
    (forall t' s', PrecomputeContinuumFit op c zs cand s = Ok (t', s') -> t' = t /\ s' = with_comp (with_used s1 (Some t)) (o_comp s')).
Proof. exact precompute_spec. Qed.
Print Assumptions C89_fit_and_decision.
Theorem C89_too_few_templates : forall op c zs cand s ts, zs <> [] -> distinct zs -> op_ok c (o_op s) ->
  let fft := uses_fft c (o_pass s) zs in
  templates c (with_op s (Some (fft, (k_ignore c && negb fft)%bool))) cand fft = Ok ts -> (List.length ts < k_maxN c)%nat ->
  PrecomputeContinuumFit op c zs cand s = Throw INTERNAL_ERROR.
Proof. exact precompute_few. Qed.
Print Assumptions C89_too_few_templates.
(** the signal to noise kept is the largest one, 0 when there is none *)
Theorem C89_snr : forall l, 0 <= snr_max l /\ (forall d x, In d l -> v_snr (snd d) = Some x -> x <= snr_max l) /\
  (snr_max l == 0 \/ exists d x, In d l /\ v_snr (snd d) = Some x /\ snr_max l = x).
Proof. exact snr_max_spec. Qed.
Print Assumptions C89_snr.
(** the templates fitted again around a candidate are the k_maxN first ones of the first pass at the sample just below its redshift, with their dust and Meiksin curve *)
Theorem C89_refit : forall op reqs zs c s fs cand z fft k l, o_first s = Some fs -> holds op reqs zs fs -> strictly_increasing zs -> zs <> [] ->
  nth_error (o_cands s) cand = Some z -> bracket_below zs z k -> nth_error (fs_vals (t_fs fs)) k = Some l -> (k_maxN c <= List.length reqs)%nat ->
  (forall q, In q reqs -> In (q_tpl q) (k_tpls c fft)) -> (k_dust c = true -> ~ cz_bstep (k_calz c) == 0) ->
  exists ts, getContinuumInfoFromFirstpassFitStore c s (Z.of_nat cand) fft = Ok ts /\ List.length ts = k_maxN c /\
    forall r x, nth_error ts r = Some x -> exists f d e, nth_error l r = Some f /\ nth_error (t_all fs) (f_tag f) = Some d /\ dust_index c d e /\ x = (fst d, e, igm_index c d).
Proof. exact info_spec. Qed.
Print Assumptions C89_refit.
Theorem C89_refit_out_of_range : forall c s cand fft, (cand < 0 \/ Z.of_nat (List.length (o_cands s)) <= cand)%Z -> getContinuumInfoFromFirstpassFitStore c s cand fft = Throw INTERNAL_ERROR.
Proof. exact info_range. Qed.
Print Assumptions C89_refit_out_of_range.
Theorem C89_refit_below_grid : forall c s fs cand z fft, o_first s = Some fs -> nth_error (o_cands s) cand = Some z -> increasing (fs_grid (t_fs fs)) -> fs_grid (t_fs fs) <> [] ->
  (forall x, In x (fs_grid (t_fs fs)) -> z < x) -> (0 < k_maxN c)%nat -> getContinuumInfoFromFirstpassFitStore c s (Z.of_nat cand) fft = Throw INTERNAL_ERROR.
Proof. exact info_below. Qed.
Print Assumptions C89_refit_below_grid.
(** the second pass keeps the component and the candidates; one store by candidate on its own redshifts, or the store of the first pass *)
Theorem C89_second_pass : forall op c m ws s s', second_pass op c m ws s = Ok s' -> (forall w, In w ws -> distinct w) -> op_ok c (o_op s) ->
  o_comp s' = o_comp s /\ o_first s' = o_first s /\ o_cands s' = o_cands s /\
  (m = "retryAll" \/ m = "reFitFirstPass" -> tplfit (o_comp s) = true ->
    List.length (o_second s') = List.length (o_cands s) /\
    forall j, (j < List.length (o_cands s))%nat -> exists t w ts, nth_error ws j = Some w /\ nth_error (o_second s') j = Some (Some t) /\
      asked c m s j (uses_fft c 2 w) ts /\ (k_maxN c <= List.length ts)%nat /\ holds op (requests c (uses_fft c 2 w) w ts) w t /\ t_snrmax t = snr_max (t_all t))%string /\
  (m = "fromFirstPass" -> tplfit (o_comp s) = true -> o_second s' = [o_first s] /\ o_used s' = o_first s)%string /\
  (tplfit (o_comp s) = false -> o_second s' = o_second s /\ o_used s' = o_used s).
Proof. exact second_pass_spec. Qed.
Print Assumptions C89_second_pass.
Theorem C89_second_pass_unknown : forall op c m ws s, (m <> "fromFirstPass" /\ m <> "retryAll" /\ m <> "reFitFirstPass")%string -> second_pass op c m ws s = Throw INTERNAL_ERROR.
Proof. exact second_pass_unknown. Qed.
Print Assumptions C89_second_pass_unknown.

(** ** what does not hold *)
(** the best fits have significance -2: with the threshold -1 the first pass takes the continuum from the spectrum (component 2), the second one keeps the templates
    (component 1) and goes on: the break after a change to the spectrum continuum is never taken *)
Theorem C89_negative_continuum_second_pass_refuted : showx (first_pass opx (cfgx (-1) 1) [1; 2; 3] (stx TplFitAuto)) = Some (2%nat, Some (false, true), []) /\
  showx second_neg = Some (1%nat, Some (false, true), [2; 4]%nat).
Proof. split; [exact (proj1 (proj2 ex_neg))|exact ex_second]. Qed.
Print Assumptions C89_negative_continuum_second_pass_refuted.
Theorem C89_empty_redshifts_refuted : PrecomputeContinuumFit opx (cfgx (-3) (-2)) [] (-1)%Z (stx TplFit) = UB.
Proof. exact ex_empty. Qed.
Print Assumptions C89_empty_redshifts_refuted.
Theorem C89_no_template_refuted : first_pass opx (mkCfg false false true 0 true true (-1) 1 (fun _ => []) calx) [1] (stx TplFit) = UB.
Proof. exact ex_no_tpl. Qed.
Print Assumptions C89_no_template_refuted.

(** ** the hypotheses are met, and the four outcomes *)
Example C89_outcomes_example : first_pass opx (cfgx (-1) 1) [1; 2; 3] (stx TplFit) = Throw NEGATIVE_CONTINUUM /\
  showx (first_pass opx (cfgx (-1) 1) [1; 2; 3] (stx TplFitAuto)) = Some (2%nat, Some (false, true), []) /\
  showx (first_pass opx (cfgx (-3) 1) [1; 2; 3] (stx TplFitAuto)) = Some (3%nat, Some (false, true), []) /\
  showx (first_pass opx (cfgx (-3) (-2)) [1; 2; 3] (stx TplFitAuto)) = Some (1%nat, Some (false, true), []).
Proof. exact ex_neg. Qed.
Example C89_refit_example : (do s <- first_pass opx (cfgx (-3) (-2)) [1; 2; 3] (stx TplFitAuto); getContinuumInfoFromFirstpassFitStore (cfgx (-3) (-2)) s 1 false) =
  Ok [("a"%string, 1%Z, 1%Z); ("b"%string, 2%Z, 2%Z)].
Proof. exact ex_info. Qed.
Example C89_hypotheses_example : op_ok (cfgx (-1) 1) (o_op (stx TplFit)) /\ distinct [1; 2; 3] /\ strictly_increasing [1; 2; 3].
Proof. exact ex_ok. Qed.
