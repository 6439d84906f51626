(** C64: the fit of a template at one redshift. *)
From Verif Require Import Base CalzModel MeikModel TplModel TplSpec TplProofs2 TFitModel TFitSpec TFitProofs TFitProofs2 TFitProofs3 TFitProofs4 TFitProofs5 TFitProofs6 TFitProofs7.
Open Scope Q_scope.

(** ** the tables and the best fit *)
Theorem C64_tables : forall sqrtf thr z begins opt_ext dust cal mei priors ml el os b cols,
  os <> [] -> Forall fresh os -> (match mei with Some m => (1 <= mk_fine m)%Z | None => True end) -> Forall2 begins_before begins os -> ((1 < length ml)%nat -> Forall reaches_above os) ->
  BasicFit sqrtf thr z begins opt_ext dust cal mei priors ml el os = Ok (b, cols) ->
  exists eff, fit_tables sqrtf thr z opt_ext dust cal mei priors ml el os b cols eff.
Proof. exact Fit_spec. Qed.
Print Assumptions C64_tables.
(** with a null threshold and no prior the best fit is at least as good as every model of the grid with every amplitude which is not negative *)
Theorem C64_best_of_grid : forall sqrtf z begins opt_ext dust cal mei ml el os b cols,
  (forall x, 0 < x -> 0 < sqrtf x) -> os <> [] -> Forall fresh os -> (match mei with Some m => (1 <= mk_fine m)%Z | None => True end) -> Forall2 begins_before begins os -> ((1 < length ml)%nat -> Forall reaches_above os) ->
  BasicFit sqrtf 0 z begins opt_ext dust cal mei [] ml el os = Ok (b, cols) ->
  0 <= f_ampl (b_fit b) /\
  forall kd ki ms a, (if dust then In kd el else kd = (-1)%Z) -> ((opt_ext = true /\ below_lya os -> In ki ml) /\ (~ (opt_ext = true /\ below_lya os) -> ki = (-1)%Z)) ->
    Forall2 (is_model z cal mei kd ki) os ms -> 0 <= a -> f_chi2 (b_fit b) <= chi2 (all_fitted os ms) a.
Proof. exact Best_of_grid. Qed.
Print Assumptions C64_best_of_grid.
Theorem C64_exact_data : forall sqrtf z begins opt_ext dust cal mei ml el os b cols,
  (forall x, 0 < x -> 0 < sqrtf x) -> os <> [] -> Forall fresh os -> (match mei with Some m => (1 <= mk_fine m)%Z | None => True end) -> Forall2 begins_before begins os -> ((1 < length ml)%nat -> Forall reaches_above os) ->
  BasicFit sqrtf 0 z begins opt_ext dust cal mei [] ml el os = Ok (b, cols) ->
  forall kd ki ms a, (if dust then In kd el else kd = (-1)%Z) -> ((opt_ext = true /\ below_lya os -> In ki ml) /\ (~ (opt_ext = true /\ below_lya os) -> ki = (-1)%Z)) ->
    Forall2 (is_model z cal mei kd ki) os ms -> 0 <= a -> chi2 (all_fitted os ms) a == 0 -> f_chi2 (b_fit b) == 0.
Proof. exact Exact_data. Qed.
Print Assumptions C64_exact_data.
(** ** a template left by an earlier fit *)
Theorem C64_reused_template : forall t t0 ks ke z cal mei, (t_axis t = t_axis t0 /\ t_flux t = t_flux t0 /\ t_no t = []) -> NewTpl (t_axis t0) (t_flux t0) = Ok t0 -> (cal <> None /\ mei <> None) \/ (t_cal t = cal /\ t_mei t = mei) ->
  snd (InitIsmIgmConfig t ks ke z cal mei) = Ok tt -> t_zi t = (-1)%Z \/ mei <> None -> InitIsmIgmConfig t ks ke z cal mei = InitIsmIgmConfig t0 ks ke z cal mei.
Proof. exact Init_reused. Qed.
Print Assumptions C64_reused_template.
(** ** the signal to noise ratio is the significance of the amplitude when it is not negative, else zero *)
Theorem C64_snr : forall sqrtf thr c p, 0 < c_t c -> is_sqrt sqrtf (c_t c) -> is_sqrt sqrtf (1 / c_t c) -> ~ active p ->
  exists s, SNRCalculation sqrtf (c_x c) (c_t c) = Some s /\ (0 <= c_x c -> s == f_sig (ComputeAmplitudeAndChi2 sqrtf thr c p)) /\ (c_x c <= 0 -> s == 0).
Proof. exact Snr. Qed.
Print Assumptions C64_snr.
(** ** what goes wrong *)
(** all the samples at or below Lyman alpha: from the second igm index on, the samples are counted twice, once with the igm of the first index: here a model which
    fits exactly is given a chi square of 4 *)
Theorem C64_blue_only_refuted : exists b c0 c1, fresh exf_blue /\
  BasicFit rsqrt 0 (5#2) [1050] true false None (Some exf_mei) [] [0; 1]%Z [(-1)%Z] [exf_blue] = Ok (b, [[(c0, - (1), 0%Z)]; [(c1, - (1), 1%Z)]]) /\ c1 == 4 /\
  is_model (5#2) None (Some exf_mei) (-1) 1 exf_blue [4; 8] /\ chi2 (all_fitted [exf_blue] [[4; 8]]) (1#2) == 0.
Proof. exact Blue_only. Qed.
Print Assumptions C64_blue_only_refuted.
(** igm fitted (several indices) without dust: the fit fails at every redshift where no range begins at or below Lyman alpha *)
Theorem C64_igm_not_in_range_refuted : forall sqrtf thr z begins opt_ext cal mei m0 m1 ml e el o os, NewTpl (axis_of o) (flux_of o) = Ok (o_tpl o) -> (forall b, In b begins -> 1216 < b) ->
  BasicFit sqrtf thr z begins opt_ext false cal mei [] (m0 :: m1 :: ml) (e :: el) (o :: os) = Throw INTERNAL_ERROR.
Proof. exact Igm_not_in_range. Qed.
Print Assumptions C64_igm_not_in_range_refuted.
(** priors on the dust given without fitting it: the prior of index -1 is read *)
Theorem C64_prior_without_dust_refuted : forall sqrtf thr z begins opt_ext c mei p priors m ml os os1, Z.of_nat (length (p :: priors)) = cz_n c ->
  (if (opt_ext && igmIsInRange begins)%bool then init_all z (Some c) mei os else Ok os) = Ok os1 -> opt_ext = false \/ (forall b, In b begins -> 1216 < b) ->
  BasicFit sqrtf thr z begins opt_ext false (Some c) mei (p :: priors) (m :: ml) [(-1)%Z] os = UB.
Proof. exact Prior_without_dust. Qed.
Print Assumptions C64_prior_without_dust_refuted.
(** no dust index: undefined *)
Theorem C64_no_dust_values_refuted : forall sqrtf thr z begins opt_ext dust cal mei priors ml os, BasicFit sqrtf thr z begins opt_ext dust cal mei priors ml [] os = UB.
Proof. exact No_dust_values. Qed.
Print Assumptions C64_no_dust_values_refuted.

(** ** the hypotheses are met: two observations, two dust and two igm indices, a masked sample; y = 3/2 times the model of igm 1 *)
Definition exf_a : obs := mkObs [6; 99; 48] [1; 2; 1#2] [1; 0; 1]%N 0 2 (exf_tpl [950; 1100; 1300] [8; 16; 32]).
Definition exf_b : obs := mkObs [3; 6] [1; 1] [1; 1]%N 0 1 (exf_tpl [1500; 1600] [2; 4]).
Example c64_fresh : Forall fresh [exf_a; exf_b] /\ Forall reaches_above [exf_a; exf_b] /\ Forall2 begins_before [940; 1500] [exf_a; exf_b].
Proof.
  split; [|split].
  - apply Forall_cons; [|apply Forall_cons; [|apply Forall_nil]]; (apply exf_fresh; [|reflexivity|cbn; lia]); intros [|[|[|i]]] [|[|[|j]]] a c H Ha Hc; cbn in *; try lia; try discriminate; try (destruct i; discriminate); try (destruct j; discriminate); inversion Ha; inversion Hc; subst; reflexivity.
  - (repeat constructor); intros lam H; cbn in H; inversion H; subst; first [reflexivity|discriminate].
  - (repeat constructor); intros lam H; cbn in H; inversion H; subst; first [reflexivity|discriminate].
Qed.
Example c64_runs : exists b cols, BasicFit rsqrt 0 (5#2) [940; 1500] true true (Some ex_cal) (Some exf_mei) [] [0; 1]%Z [0; 1]%Z [exf_a; exf_b] = Ok (b, cols) /\
  f_ampl (b_fit b) == 3#2 /\ f_chi2 (b_fit b) == 0 /\ b_ebmv b == 0 /\ b_igm b = 1%Z /\ length cols = 2%nat.
Proof.
  match goal with |- exists b cols, ?t = _ /\ _ => let v := eval vm_compute in t in match v with Ok (?x, ?y) => exists x, y end end.
  repeat split; vm_compute; reflexivity.
Qed.
Example c64_below : below_lya [exf_a; exf_b].
Proof. exists exf_a, O, 950. split; [left; reflexivity|]. split; [cbn; lia|]. split; [reflexivity|]. lra. Qed.
Example c64_reused : exists t, reused t ex_t0 /\ t_cal t = Some ex_cal /\ t_dust t = 1%Z /\ snd (InitIsmIgmConfig t 0 2 (5#2) (Some ex_cal) (Some exf_mei)) = Ok tt.
Proof. exists (mkTpl [950; 1100; 1300] [8; 16; 32] [] 1 0 0 0 2 1 [1;1;1] [1;1;1] (Some ex_cal) (Some exf_mei)). repeat split; vm_compute; reflexivity. Qed.
Example c64_sqrt : is_sqrt rsqrt 4 /\ is_sqrt rsqrt (1 / 4). Proof. repeat split; vm_compute; reflexivity. Qed.
