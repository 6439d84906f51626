(** Property C52: fit of the line-ratio catalogs to the measured line amplitudes. *)
From Verif Require Import Base TplRatioModel TplRatioSpec TplRatioProofs.
Open Scope Q_scope.

(** the value of a catalog is the smallest chi-square over every common scale, reached by the returned amplitudes *)
Theorem C52_least_squares : forall lm err tpl, length lm = length err -> length lm = length tpl -> (forall e, In e err -> ~ e == 0) ->
  ~ cross_sum (zip3 lm err tpl) == 0 -> ~ tpl_sum (zip3 lm err tpl) == 0 ->
  exists a fit corr, computeFitValue lm err tpl = Ok (Some (fit, corr)) /\
    fit == chi2 a (zip3 lm err tpl) /\ (forall b, fit <= chi2 b (zip3 lm err tpl)) /\ corr = map (fun t => t * a) tpl.
Proof. intros lm err tpl L1 L2 Ne. exact (proj2 (computeFitValue_spec lm err tpl L1 L2 Ne)). Qed.
Print Assumptions C52_least_squares.
Example C52_least_squares_nonvacuous :
  ~ cross_sum (zip3 [1; 2] [1; 1#2] [2; 3]) == 0 /\ ~ tpl_sum (zip3 [1; 2] [1; 1#2] [2; 3]) == 0 /\ (forall e, In e [1; 1#2] -> ~ e == 0).
Proof. split; [intro H; discriminate|split; [intro H; discriminate|]]. intros e [<-|[<-|[]]] H; discriminate. Qed.
(** measures orthogonal to the template, or a null template: the value is -1 *)
Theorem C52_no_fit : forall lm err tpl, length lm = length err -> length lm = length tpl -> (forall e, In e err -> ~ e == 0) ->
  cross_sum (zip3 lm err tpl) == 0 \/ tpl_sum (zip3 lm err tpl) == 0 -> computeFitValue lm err tpl = Ok (Some (-1, [])).
Proof. intros lm err tpl L1 L2 Ne. exact (proj1 (computeFitValue_spec lm err tpl L1 L2 Ne)). Qed.
Print Assumptions C52_no_fit.
Example C52_no_fit_nonvacuous : cross_sum (zip3 [1; -1] [1; 1] [1; 1]) == 0. Proof. reflexivity. Qed.
Theorem C52_chi2_is_nonnegative : forall a l, (forall y e t, In (y, e, t) l -> ~ e == 0) -> 0 <= chi2 a l.
Proof. exact fit_nonneg. Qed.
Print Assumptions C52_chi2_is_nonnegative.

(** no catalog has a strictly positive value: -1, no corrected amplitude, no catalog *)
Theorem C52_nothing_found : forall cats valid lm err fs,
  (length valid <= length lm)%nat -> (length valid <= length err)%nat ->
  Forall2 (fun c f => exists r, getFitForOneCatalog valid lm err c = Ok r /\ option_map fst r = f) cats fs ->
  (forall f, In (Some f) fs -> ~ 0 < f) -> exists cm, GetBestFit cats valid lm err = Ok (cm, [], None) /\ cm == -1.
Proof. exact GetBestFit_none. Qed.
Print Assumptions C52_nothing_found.
(** full statement: the same selection, with the scaled amplitudes returned, for every input; proved here only when
    every line is masked (negative amplitude or no error), since the function is undefined otherwise (next theorem): the first catalog with the smallest strictly positive value *)
Theorem C52_best_catalog_partial : forall cats valid lm err fs,
  length valid = length lm -> (length valid <= length err)%nat ->
  Forall2 (fun c f => exists r, getFitForOneCatalog valid lm err c = Ok r /\ option_map fst r = f) cats fs ->
  (exists f, In (Some f) fs /\ 0 < f) ->
  (forall k a e, nth_error lm k = Some a -> nth_error err k = Some e -> a < 0 \/ e <= 0) ->
  exists k v, GetBestFit cats valid lm err = Ok (v, [], Some k) /\ first_best fs k v.
Proof. intros cats valid lm err fs L1 L2 F P. exact (proj2 (GetBestFit_found cats valid lm err fs L1 L2 F P)). Qed.
Print Assumptions C52_best_catalog_partial.
(** an unmasked line and a catalog with a positive value: the function writes out of the bounds of the vector it has just
    cleared *)
Theorem C52_corrected_amplitudes_refuted : forall cats valid lm err fs,
  length valid = length lm -> (length valid <= length err)%nat ->
  Forall2 (fun c f => exists r, getFitForOneCatalog valid lm err c = Ok r /\ option_map fst r = f) cats fs ->
  (exists f, In (Some f) fs /\ 0 < f) ->
  (exists k a e, (k < length valid)%nat /\ nth_error lm k = Some a /\ nth_error err k = Some e /\ 0 <= a /\ 0 < e) ->
  GetBestFit cats valid lm err = UB.
Proof. intros cats valid lm err fs L1 L2 F P. exact (proj1 (GetBestFit_found cats valid lm err fs L1 L2 F P)). Qed.
Print Assumptions C52_corrected_amplitudes_refuted.
(** hypotheses of the three theorems above on two lines and two catalogs *)
Example C52_nonvacuous :
  (exists fs, Forall2 (fun c f => exists r, getFitForOneCatalog [0; 1]%nat [-1; -2] [1; 1] c = Ok r /\ option_map fst r = f) [[1; 1]; [1; 3]] fs /\
     exists f, In (Some f) fs /\ 0 < f) /\
  GetBestFit [[1; 1]; [1; 3]] [0; 1]%nat [1; 2] [1; 1] = UB /\
  GetBestFit [[0; 0]] [0; 1]%nat [1; 2] [1; 1] = Ok (-1, [], None) /\
  (exists v, GetBestFit [[1; 1]; [1; 3]] [0; 1]%nat [-1; -2] [1; 1] = Ok (v, [], Some 1%nat)).
Proof.
  split; [|split; [vm_compute; reflexivity|split; [vm_compute; reflexivity|]]].
  - eexists. split.
    + constructor; [eexists; split; reflexivity|]. constructor; [eexists; split; reflexivity|]. constructor.
    + eexists. split; [left; reflexivity|reflexivity].
  - eexists. vm_compute. reflexivity.
Qed.
(** a catalog matching the measures exactly (value 0) is never chosen, another one is *)
Theorem C52_exact_match_wins_refuted : exists cats valid lm err v,
  (exists f corr, getFitForOneCatalog valid lm err (nth 0 cats []) = Ok (Some (f, corr)) /\ f == 0) /\ 0 < v /\
  GetBestFit cats valid lm err = Ok (v, [], Some 1%nat).
Proof.
  exists [[1; 1]; [1; 2]], [0; 1]%nat, [-1; -1], [1; 1]. eexists. split; [eexists; eexists; split; [vm_compute; reflexivity|reflexivity]|].
  split; [|vm_compute; reflexivity]. reflexivity.
Qed.
Print Assumptions C52_exact_match_wins_refuted.
