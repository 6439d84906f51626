(** C88: the velocities and the fits of the second pass of the line model. *)
From Verif Require Import Base RangeModel F64 RatSpec VfitModel VfitSpec VfitProofs VfitProofs2 VfitProofs3 VfitProofs4 VfitProofs5.
Open Scope Q_scope.

(** ** the velocities tested: inf, inf + step, ... as long as one more step does not exceed the maximum *)
Theorem C88_velocities : forall l, 0 < l_step l -> l_sup l - l_inf l < 2147483647 * l_step l -> l_inf l <= l_sup l ->
  exists vs, velfitlist l = Ok vs /\
    (forall v, (exists v', In v' vs /\ v' == v) <-> exists i, v == l_inf l + inject_Z (Z.of_nat i) * l_step l /\ v + l_step l <= l_sup l) /\
    (forall i v, nth_error vs i = Some v -> v == l_inf l + inject_Z (Z.of_nat i) * l_step l).
Proof. exact velfitlist_spec. Qed.
Print Assumptions C88_velocities.
(** the largest velocity allowed is never tested, whatever the limits *)
Theorem C88_largest_tested_refuted : forall l vs, 0 < l_step l -> l_sup l - l_inf l < 2147483647 * l_step l -> l_inf l <= l_sup l ->
  velfitlist l = Ok vs -> forall v, In v vs -> l_inf l <= v <= l_sup l - l_step l.
Proof. exact max_never. Qed.
Print Assumptions C88_largest_tested_refuted.
(** less than a step between the limits, or limits in the wrong order: nothing is tested *)
Theorem C88_nothing_tested : forall l, 0 < l_step l -> l_inf l - l_sup l < 2147483647 * l_step l -> l_sup l - l_inf l < l_step l -> velfitlist l = Ok [].
Proof. exact velfitlist_none. Qed.
Print Assumptions C88_nothing_tested.
(** no step: the count of the velocities is undefined *)
Theorem C88_no_step_refuted : forall l, l_step l == 0 -> velfitlist l = UB.
Proof. exact velfitlist_zero. Qed.
Print Assumptions C88_no_step_refuted.
Example C88_velocities_example : velfitlist (mkL 20 100 20) = Ok [20 + 0 * 20; 20 + 1 * 20; 20 + 2 * 20; 20 + 3 * 20].
Proof. reflexivity. Qed.

(** ** the redshifts tested: those of the window, at most six samples away from the candidate *)
Theorem C88_redshifts : forall zs ib ie Zidx z, In z (near_samples zs ib ie Zidx) <->
  exists k, nth_error zs k = Some z /\ (ib <= k <= ie)%nat /\ (Zidx <= k + 6)%nat /\ (k <= Zidx + 6)%nat.
Proof. exact near_samples_in. Qed.
Print Assumptions C88_redshifts.
Theorem C88_pairs : forall zs vs z v, In (z, v) (tests zs vs) <-> In z zs /\ In v vs.
Proof. exact tests_in. Qed.
Print Assumptions C88_pairs.

(** ** one candidate: the first least merit over the absorption velocities, then over the emission velocities with that absorption velocity;
    nothing changes for the other candidates and redshifts; fitter, continuum and flag are put back *)
Theorem C88_two_scans : forall e c zs ext Zidx cand n s w ib ie vsA vsE a0 e0 c0 zf zb,
  nth_error ext cand = Some w -> front w = Ok zf -> back w = Ok zb -> first_at zs zf ib -> first_at zs zb ie ->
  (Zidx < length (s_sol s))%nat -> nth_error (s_chi s) Zidx = Some c0 ->
  nth_error (s_alv s) cand = Some a0 -> nth_error (s_elv s) cand = Some e0 ->
  velfitlist (k_abs c) = Ok vsA -> velfitlist (k_em c) = Ok vsE ->
  let u := vel_setup c (s_cont s) (s_noism s) n in
  let zw := near_samples zs ib ie Zidx in
  exists s' a1 e1 c1 c2,
    fitVelocity e c zs ext Zidx cand n s = Ok s' /\
    scanned (fun p => e_merit e (abs_run u (s_ve s) p)) (tests zw vsA) (s_va s) a0 c0 (s_va s') a1 c1 /\
    scanned (fun p => e_merit e (em_run u (s_va s') p)) (tests zw vsE) (s_ve s) e0 c1 (s_ve s') e1 c2 /\
    nth_error (s_alv s') cand = Some a1 /\ nth_error (s_elv s') cand = Some e1 /\ nth_error (s_chi s') Zidx = Some c2 /\
    only_at cand (s_alv s) (s_alv s') /\ only_at cand (s_elv s) (s_elv s') /\
    only_at Zidx (s_chi s) (s_chi s') /\ only_at Zidx (s_sol s) (s_sol s') /\
    s_fitter s' = s_fitter s /\ s_cont s' = s_cont s /\ s_noism s' = (if k_tplratio c then false else s_noism s) /\
    (forall q z v, tests zw vsE = (q ++ [(z, v)])%list -> nth_error (s_sol s') Zidx = Some (em_run u (s_va s') (z, v))).
Proof. exact fitVelocity_spec. Qed.
Print Assumptions C88_two_scans.
(** when the emission velocity in use is one of those tested, the chi-square after both scans is not larger than any of the first scan *)
Theorem C88_second_scan_improves : forall e u zw vsA vsE va0 ve0 a0 e0 c0 va1 a1 c1 ve1 e1 c2 z v,
  scanned (fun p => e_merit e (abs_run u (Some ve0) p)) (tests zw vsA) va0 a0 c0 va1 a1 c1 ->
  scanned (fun p => e_merit e (em_run u va1 p)) (tests zw vsE) (Some ve0) e0 c1 ve1 e1 c2 -> In ve0 vsE ->
  In (z, v) (tests zw vsA) -> flt (e_merit e (abs_run u (Some ve0) (z, v))) PInf = true ->
  flt (e_merit e (abs_run u (Some ve0) (z, v))) c2 = false.
Proof. exact scanned_improves. Qed.
Print Assumptions C88_second_scan_improves.
(** ** all the candidates: each starts from the velocities left by the one before, and keeps what was found for it *)
Theorem C88_all_candidates : forall e c zs ext vsA vsE cs, keeps e -> k_fit c = true -> velfitlist (k_abs c) = Ok vsA -> velfitlist (k_em c) = Ok vsE ->
  forall i s,
  (forall j z, nth_error cs j = Some z -> exists k w ib ie, first_at zs z k /\ nth_error ext (i + j) = Some w /\ bounds zs w ib ie) ->
  length (s_sol s) = length zs -> length (s_chi s) = length zs -> (i + length cs <= length (s_alv s))%nat -> (i + length cs <= length (s_elv s))%nat ->
  exists s' (va ve : nat -> option Q), EstimateSecondPassParameters e c zs ext i cs s = Ok s' /\
    va 0%nat = s_va s /\ ve 0%nat = s_ve s /\ va (length cs) = s_va s' /\ ve (length cs) = s_ve s' /\
    s_fitter s' = s_fitter s /\ length (s_sol s') = length (s_sol s) /\ length (s_chi s') = length (s_chi s) /\
    length (s_alv s') = length (s_alv s) /\ length (s_elv s') = length (s_elv s) /\
    (forall j z k w ib ie, nth_error cs j = Some z -> first_at zs z k -> nth_error ext (i + j) = Some w -> bounds zs w ib ie ->
      exists cont b a0 e0 a1 e1 c0 c1 c2, let u := vel_setup c (first_cont c (i + j) cont) b (reest1 c) in let zw := near_samples zs ib ie k in
        (k_tplfit c = false -> cont = s_cont s) /\ (k_tplratio c = false -> b = s_noism s) /\
        nth_error (s_alv s) (i + j) = Some a0 /\ nth_error (s_elv s) (i + j) = Some e0 /\
        scanned (fun p => e_merit e (abs_run u (ve j) p)) (tests zw vsA) (va j) a0 c0 (va (S j)) a1 c1 /\
        scanned (fun p => e_merit e (em_run u (va (S j)) p)) (tests zw vsE) (ve j) e0 c1 (ve (S j)) e1 c2 /\
        nth_error (s_alv s') (i + j) = Some a1 /\ nth_error (s_elv s') (i + j) = Some e1) /\
    (forall j, ~ (i <= j < i + length cs)%nat -> nth_error (s_alv s') j = nth_error (s_alv s) j /\ nth_error (s_elv s') j = nth_error (s_elv s) j).
Proof. exact estimate_all_fit. Qed.
Print Assumptions C88_all_candidates.
(** the velocities of the candidates are among those tested, or are not changed *)
Theorem C88_on_grid : forall e c zs ext vsA vsE cs s, keeps e -> k_fit c = true -> velfitlist (k_abs c) = Ok vsA -> velfitlist (k_em c) = Ok vsE ->
  (forall j z, nth_error cs j = Some z -> exists k w ib ie, first_at zs z k /\ nth_error ext j = Some w /\ bounds zs w ib ie) ->
  sized zs (length cs) s ->
  exists s', EstimateSecondPassParameters e c zs ext 0 cs s = Ok s' /\ sized zs (length cs) s' /\
    (forall i x, nth_error (s_alv s') i = Some x -> nth_error (s_alv s) i = Some x \/ exists v, x = Some v /\ In v vsA) /\
    (forall i x, nth_error (s_elv s') i = Some x -> nth_error (s_elv s) i = Some x \/ exists v, x = Some v /\ In v vsE).
Proof. exact fit_on_grid. Qed.
Print Assumptions C88_on_grid.
(** without fit of the velocities all the candidates have the velocities of the model *)
Theorem C88_without_fit : forall e c zs ext cs, keeps e -> k_fit c = false -> (forall z, In z cs -> exists k, first_at zs z k) -> forall i s,
  length (s_sol s) = length zs -> (i + length cs <= length (s_alv s))%nat -> (i + length cs <= length (s_elv s))%nat ->
  exists s', EstimateSecondPassParameters e c zs ext i cs s = Ok s' /\ s_va s' = s_va s /\ s_ve s' = s_ve s /\
    s_fitter s' = s_fitter s /\ s_noism s' = s_noism s /\ s_chi s' = s_chi s /\ length (s_sol s') = length (s_sol s) /\
    length (s_alv s') = length (s_alv s) /\ length (s_elv s') = length (s_elv s) /\
    (forall j, (i <= j < i + length cs)%nat -> nth_error (s_alv s') j = Some (s_va s) /\ nth_error (s_elv s') j = Some (s_ve s)) /\
    (forall j, ~ (i <= j < i + length cs)%nat -> nth_error (s_alv s') j = nth_error (s_alv s) j /\ nth_error (s_elv s') j = nth_error (s_elv s) j).
Proof. exact estimate_all_nofit. Qed.
Print Assumptions C88_without_fit.
(** a candidate off the grid, or a window with an end off the grid *)
Theorem C88_candidate_off_grid : forall e c zs ext vsA vsE pre z post s, keeps e -> velfitlist (k_abs c) = Ok vsA -> velfitlist (k_em c) = Ok vsE ->
  (forall j y, nth_error pre j = Some y -> exists k w ib ie, first_at zs y k /\ nth_error ext j = Some w /\ bounds zs w ib ie) ->
  length (s_sol s) = length zs -> length (s_chi s) = length zs -> (length pre <= length (s_alv s))%nat -> (length pre <= length (s_elv s))%nat ->
  (forall x, In x zs -> ~ x == z) ->
  EstimateSecondPassParameters e c zs ext 0 (pre ++ z :: post) s = Throw INTERNAL_ERROR.
Proof. exact estimate_off_grid. Qed.
Print Assumptions C88_candidate_off_grid.
Theorem C88_window_off_grid : forall e c zs ext i n s w idx, nth_error ext i = Some w -> w <> [] ->
  (forall x, In x zs -> ~ x == hd 0 w) \/ (forall x, In x zs -> ~ x == last w 0) -> fitVelocity e c zs ext idx i n s = Throw INTERNAL_ERROR.
Proof. exact window_off. Qed.
Print Assumptions C88_window_off_grid.

(** ** the fits of the windows: the redshifts of no window are untouched; the others have the chi-square and the solution of one and the same
    fit, made there with the velocities of the last candidate whose window contains them *)
Theorem C88_windows : forall e c o zs ext cs, keeps e -> forall i s,
  (forall j z, nth_error cs j = Some z -> (exists k, first_at zs z k) /\
     exists w, nth_error ext (i + j) = Some w /\ w <> [] /\ forall y, In y w -> exists k, first_at zs y k) ->
  length (s_sol s) = length zs -> length (s_chi s) = length zs -> (i + length cs <= length (s_alv s))%nat -> (i + length cs <= length (s_elv s))%nat ->
  exists s', recompute_loop e c o zs ext i cs s = Ok s' /\ s_fitter s' = s_fitter s /\ s_noism s' = s_noism s /\ s_alv s' = s_alv s /\ s_elv s' = s_elv s /\
    (forall j, S j = length cs -> nth_error (s_alv s) (i + j) = Some (s_va s') /\ nth_error (s_elv s) (i + j) = Some (s_ve s')) /\
    length (s_sol s') = length zs /\ length (s_chi s') = length zs /\
    (forall k, (forall j w, (j < length cs)%nat -> nth_error ext (i + j) = Some w -> ~ in_window zs w k) ->
       nth_error (s_sol s') k = nth_error (s_sol s) k /\ nth_error (s_chi s') k = nth_error (s_chi s) k) /\
    (forall k j w va ve, (j < length cs)%nat -> nth_error ext (i + j) = Some w -> in_window zs w k ->
       (forall j' w', (j < j' < length cs)%nat -> nth_error ext (i + j') = Some w' -> ~ in_window zs w' k) ->
       nth_error (s_alv s) (i + j) = Some va -> nth_error (s_elv s) (i + j) = Some ve ->
       exists prev, let r := mkRun (mkS (s_fitter s) (s_noism s) (second_cont c o (i + j) prev) (reest2 c)) (nth k zs 0) va ve in
         (k_tplfit c = false \/ (3 < o)%nat -> prev = s_cont s) /\
         nth_error (s_sol s') k = Some r /\ nth_error (s_chi s') k = Some (e_merit e r)).
Proof. exact recompute_spec. Qed.
Print Assumptions C88_windows.
Theorem C88_no_candidate : forall e c o zs ext s, RecomputeAroundCandidates e c o zs ext [] s = Throw INTERNAL_ERROR.
Proof. reflexivity. Qed.
Print Assumptions C88_no_candidate.
Theorem C88_window_point_off_grid : forall e zs n p z q s, keeps e -> (forall z, In z p -> exists k, first_at zs z k) -> (forall x, In x zs -> ~ x == z) ->
  length (s_sol s) = length zs -> length (s_chi s) = length zs -> window_loop e zs n (p ++ z :: q) s = Throw INTERNAL_ERROR.
Proof. exact window_loop_off. Qed.
Print Assumptions C88_window_point_off_grid.

(** ** what does not hold.  The merits of the witnesses are functions of the redshift, the absorption and the emission velocity. *)
(** the pair of velocities found, (0, 1) of merit 4, is not the best pair tested: (1, 1) has merit 1 *)
Theorem C88_best_pair_refuted : show (EstimateSecondPassParameters (env0 m_joint) (cfg0 true) [3] [[3]] 0 [3] (st0 1 1)) =
  Some ([Some 0%Z], [Some 1%Z], [Some 4%Z], (Some 0%Z, Some 1%Z)) /\ m_joint 3 1 1 = Fin 1.
Proof. split; [exact joint_wit|reflexivity]. Qed.
Print Assumptions C88_best_pair_refuted.
(** the velocities of the candidate at 10 are (0, 0) when it is alone and (1, 0), with a larger merit, after the candidate at 0 *)
Theorem C88_independent_candidates_refuted :
  show (EstimateSecondPassParameters (env0 m_hist) (cfg0 true) [0; 10] [[10]] 0 [10] (st0 2 1)) =
    Some ([Some 0%Z], [Some 0%Z], [Some 100%Z; Some 1%Z], (Some 0%Z, Some 0%Z)) /\
  show (EstimateSecondPassParameters (env0 m_hist) (cfg0 true) [0; 10] [[0]; [10]] 0 [0; 10] (st0 2 2)) =
    Some ([Some 0%Z; Some 1%Z], [Some 1%Z; Some 0%Z], [Some 2%Z; Some 2%Z], (Some 1%Z, Some 0%Z)).
Proof. exact hist_wit. Qed.
Print Assumptions C88_independent_candidates_refuted.
(** until the windows are fitted, the chi-square of the candidate at 0 is the one of a fit at 1 (4, when every fit at 0 gives 9), and the solution kept
    beside it is of another fit, the last one *)
Theorem C88_chi_square_of_the_candidate_refuted :
  show (EstimateSecondPassParameters (env0 m_other) (cfg0 true) [0; 1] [[0; 1]] 0 [0] (st0 2 1)) =
    Some ([Some 0%Z], [Some 0%Z], [Some 4%Z; Some 100%Z], (Some 0%Z, Some 0%Z)) /\
  (forall va ve, m_other 0 va ve = Fin 9) /\
  match EstimateSecondPassParameters (env0 m_other) (cfg0 true) [0; 1] [[0; 1]] 0 [0] (st0 2 1) with
  | Ok s => match s_sol s with r :: _ => (Qfloor (r_z r), Qfloor (vq (r_va r)), Qfloor (vq (r_ve r))) = (1, 0, 1)%Z | _ => False end
  | _ => False end.
Proof. exact other_wit. Qed.
Print Assumptions C88_chi_square_of_the_candidate_refuted.
(** no merit is a number: the model had the velocities (7, 0) and is left with the last ones tested; the candidate keeps its own *)
Theorem C88_velocities_restored_refuted : show (EstimateSecondPassParameters (env0 (fun _ _ _ => NaN)) (cfg0 true) [3] [[3]] 0 [3] (st0 1 1)) =
  Some ([Some 50%Z], [Some 60%Z], [Some 100%Z], (Some 1%Z, Some 1%Z)).
Proof. exact nan_wit. Qed.
Print Assumptions C88_velocities_restored_refuted.

(** ** the hypotheses are met: two windows sharing a redshift, without and with fit *)
Example C88_keeps_example : keeps (env0 m_joint).
Proof. exact (env0_keeps m_joint). Qed.
Example C88_windows_example : show (RecomputeAroundCandidates (env0 (fun z va ve => Fin (z * 100 + va * 10 + ve))) (cfg0 true) 2 [1; 2; 3; 4] [[1; 2]; [2; 3]] [1; 3]
    (with_elv (with_alv (st0 4 2) [Some 5; Some 6]) [Some 7; Some 8])) =
  Some ([Some 5%Z; Some 6%Z], [Some 7%Z; Some 8%Z], [Some 157%Z; Some 268%Z; Some 368%Z; Some 100%Z], (Some 6%Z, Some 8%Z)).
Proof. exact recompute_wit. Qed.
Example C88_without_fit_example : show (EstimateSecondPassParameters (env0 m_other) (cfg0 false) [0; 1] [] 0 [1; 0] (st0 2 2)) =
  Some ([Some 7%Z; Some 7%Z], [Some 0%Z; Some 0%Z], [Some 100%Z; Some 100%Z], (Some 7%Z, Some 0%Z)).
Proof. exact nofit_wit. Qed.
