(** C87: candidates between the two passes of the line model.  Statements only. *)
From Coq Require Import String Reals.
From Coq Require Import Lra.
From Verif Require Import Base RangeModel RangeSpec RBase RangeLogModel RangeLogSpec RangeLogProps FpcModel FpcLogModel FpcSpec FpcProofs FpcProofs2 FpcProofs3 FpcProofs4 FpcLogProofs.
Open Scope Q_scope.

(** SetFirstPassCandidates: whatever the object held before, each candidate gets the velocities and the continuum of the result at its redshift *)
Theorem C87_set : forall r p zs, complete r -> real zs -> (forall c z, In c zs -> at_z c z -> on_grid r z) ->
  exists p', SetFirstPassCandidates r p zs = Ok p' /\ p_cands p' = zs /\ whole p' /\ p_ext p' = p_ext p /\
    (forall i c z l t, nth_error zs i = Some c -> at_z c z -> solution r z l t ->
      nth_error (p_elv p') i = Some (l_elv l) /\ nth_error (p_alv p') i = Some (l_alv l) /\ nth_error (p_tpl p') i = Some t).
Proof. exact set_ok. Qed.
Print Assumptions C87_set.
Theorem C87_set_off_grid : forall r p zs c z, complete r -> real zs -> In c zs -> at_z c z -> ~ on_grid r z -> SetFirstPassCandidates r p zs = Throw INTERNAL_ERROR.
Proof. exact set_off_grid. Qed.
Print Assumptions C87_set_off_grid.
Theorem C87_set_forgets : forall r p q zs p' q', SetFirstPassCandidates r p zs = Ok p' -> SetFirstPassCandidates r q zs = Ok q' ->
  p_cands p' = p_cands q' /\ p_tpl p' = p_tpl q' /\ p_elv p' = p_elv q' /\ p_alv p' = p_alv q'.
Proof. exact set_forgets. Qed.
Print Assumptions C87_set_forgets.

(** Combine_firstpass_candidates: the candidates of the other pass that are near none of ours are appended, in order, with their velocities
    and the continuum of our result at their redshift; ours are untouched *)
Theorem C87_combine : forall r p b, complete r -> whole p -> whole b ->
  (forall c z, In c (p_cands b) -> new_in (p_cands p) c -> at_z c z -> exists l t, solution r z l t /\ t_name t <> ""%string) ->
  exists p' us, Combine_firstpass_candidates r p b = Ok p' /\
    ((forall j, In j us <-> exists x, nth_error (p_cands b) j = Some x /\ new_in (p_cands p) x) /\
     (forall i j a c, (i < j)%nat -> nth_error us i = Some a -> nth_error us j = Some c -> (a < c)%nat)) /\
    whole p' /\ p_ext p' = p_ext p /\
    List.length (p_cands p') = (List.length (p_cands p) + List.length us)%nat /\
    (forall i, (i < List.length (p_cands p))%nat -> nth_error (p_cands p') i = nth_error (p_cands p) i /\ nth_error (p_tpl p') i = nth_error (p_tpl p) i /\
       nth_error (p_elv p') i = nth_error (p_elv p) i /\ nth_error (p_alv p') i = nth_error (p_alv p) i /\ nth_error (p_gelv p') i = nth_error (p_gelv p) i /\ nth_error (p_galv p') i = nth_error (p_galv p) i) /\
    (forall m j, nth_error us m = Some j -> let i := (List.length (p_cands p) + m)%nat in
       nth_error (p_cands p') i = nth_error (p_cands b) j /\ nth_error (p_elv p') i = nth_error (p_elv b) j /\ nth_error (p_alv p') i = nth_error (p_alv b) j /\
       (forall c z l t, nth_error (p_cands b) j = Some c -> at_z c z -> solution r z l t -> nth_error (p_tpl p') i = Some t)).
Proof. exact combine_ok. Qed.
Print Assumptions C87_combine.
(** the only failures: a kept candidate off our grid or whose continuum has no template *)
Theorem C87_combine_fails : forall r p b, complete r -> whole p -> whole b ->
  match Combine_firstpass_candidates r p b with
  | Ok _ => True
  | UB => False
  | Throw e => exists c z, In c (p_cands b) /\ new_in (p_cands p) c /\ at_z c z /\
      ((e = INTERNAL_ERROR /\ ~ on_grid r z) \/ (e = TPL_NAME_EMPTY /\ exists l t, solution r z l t /\ t_name t = ""%string))
  end.
Proof. exact combine_fails. Qed.
Print Assumptions C87_combine_fails.
(** no redshift of either pass is lost, and no redshift already there is added *)
Theorem C87_combine_covers : forall r p b p', whole p -> whole b -> Combine_firstpass_candidates r p b = Ok p' ->
  whole p' /\ (exists added, p_cands p' = (p_cands p ++ added)%list /\ (forall c, In c added <-> In c (p_cands b) /\ new_in (p_cands p) c)) /\
  (forall c z, In c (p_cands p) \/ In c (p_cands b) -> at_z c z -> exists c' z', In c' (p_cands p') /\ at_z c' z' /\ near z z').
Proof. exact combine_covers. Qed.
Print Assumptions C87_combine_covers.
(** combining a second time changes nothing *)
Theorem C87_combine_twice : forall r p b p', whole p -> whole b -> Combine_firstpass_candidates r p b = Ok p' -> Combine_firstpass_candidates r p' b = Ok p'.
Proof. exact combine_twice. Qed.
Print Assumptions C87_combine_twice.
(** two candidates of the other pass near one another are both kept *)
Theorem C87_close_candidates_refuted : exists r p b p' i j ci cj zi zj, complete r /\ whole p /\ whole b /\ Combine_firstpass_candidates r p b = Ok p' /\ (i < j)%nat /\
  nth_error (p_cands p') i = Some ci /\ nth_error (p_cands p') j = Some cj /\ at_z ci zi /\ at_z cj zj /\ near zi zj.
Proof. exact close_witness. Qed.
Print Assumptions C87_close_candidates_refuted.
(** an appended candidate comes with the velocity of its pass but not with the continuum of its pass *)
Theorem C87_other_continuum_refuted : exists rA rB cs pa pb p' i c z l t, complete rA /\ complete rB /\ r_z rA = r_z rB /\ whole pa /\
  SetFirstPassCandidates rB empty_pass cs = Ok pb /\ Combine_firstpass_candidates rA pa pb = Ok p' /\
  nth_error (p_cands p') i = Some c /\ In c cs /\ at_z c z /\ solution rB z l t /\ nth_error (p_elv p') i = Some (l_elv l) /\ nth_error (p_tpl p') i <> Some t.
Proof. exact continuum_witness. Qed.
Print Assumptions C87_other_continuum_refuted.

(** buildFirstPassExtremaResults *)
Theorem C87_report : forall r, complete r -> forall cs, real cs -> (forall c z, In c cs -> at_z c z -> on_grid r z) ->
  exists xs, buildFirstPassExtremaResults r cs = Ok xs /\ List.length xs = List.length cs /\
    forall i id c l t, nth_error cs i = Some (id, Some c) -> solution r (c_z c) l t ->
      exists x, nth_error xs i = Some x /\ x_id x = id /\ x_cand x = c /\ x_elv x = l_elv l /\ x_alv x = l_alv l /\ x_lines x = l /\
        t_amp (x_tpl x) = t_amp t /\ t_rest (x_tpl x) = t_rest t /\
        ((exists a, t_amp t = Some a /\ a == 0) -> t_name (x_tpl x) = "noContinuum"%string) /\
        (~ (exists a, t_amp t = Some a /\ a == 0) -> t_name (x_tpl x) = t_name t).
Proof. exact build_ok. Qed.
Print Assumptions C87_report.
Theorem C87_report_agrees : forall r p zs p' xs, complete r -> SetFirstPassCandidates r p zs = Ok p' -> buildFirstPassExtremaResults r (p_cands p') = Ok xs ->
  map x_elv xs = p_elv p' /\ map x_alv xs = p_alv p' /\ map (fun x => (x_id x, Some (x_cand x))) xs = zs.
Proof. exact report_agrees. Qed.
Print Assumptions C87_report_agrees.
(** after combining, the reported velocity of an appended candidate is not the one kept for the second pass *)
Theorem C87_report_velocity_refuted : exists r p b p' xs i x e, complete r /\ whole p /\ whole b /\ Combine_firstpass_candidates r p b = Ok p' /\ buildFirstPassExtremaResults r (p_cands p') = Ok xs /\
  nth_error xs i = Some x /\ nth_error (p_elv p') i = Some e /\ x_elv x <> e.
Proof. exact velocity_witness. Qed.
Print Assumptions C87_report_velocity_refuted.

(** the refined grid around a candidate, linear sampling; the last part: the grid rebuilt for the integration of the pdf from the ends of the window is the same *)
Theorem C87_window_linear : forall g half step z, hd 0 g <= z -> z <= last g 0 -> 0 <= half -> default_epsilon < step -> (2 * half + default_epsilon) / step < int32_max ->
  exists v, SpanRedshiftWindow g half step z = Ok v /\ strictly_increasing v /\
    (forall x, In x v -> Qabs (x - z) <= half /\ hd 0 g <= x <= last g 0) /\ near_uniform v step default_epsilon /\
    (exists i x, nth_error v i = Some x /\ x == z) /\
    (exists a, nth_error v 0 = Some a /\ (a < z - half + step \/ a < hd 0 g + step)) /\
    (exists b, nth_error v (List.length v - 1) = Some b /\ (z + half - step < b \/ last g 0 - step < b)) /\
    exists v', spanCenteredWindow_lin (range_of v) z step = Ok v' /\ Forall2 Qeq v v'.
Proof. exact window_ok. Qed.
Print Assumptions C87_window_linear.
Theorem C87_windows : forall g half step p, real (p_cands p) -> 0 <= half -> default_epsilon < step -> (2 * half + default_epsilon) / step < int32_max ->
  (forall c z, In c (p_cands p) -> at_z c z -> hd 0 g <= z <= last g 0) -> p_ext p = [] ->
  exists p', buildExtendedRedshifts g half step p = Ok p' /\ List.length (p_ext p') = List.length (p_cands p) /\
    p' = mkPass (p_cands p) (p_tpl p) (p_ext p') (p_elv p) (p_alv p) (p_gelv p) (p_galv p) /\
    forall i c z, nth_error (p_cands p) i = Some c -> at_z c z -> exists v, nth_error (p_ext p') i = Some v /\ SpanRedshiftWindow g half step z = Ok v.
Proof. exact extended_ok. Qed.
Print Assumptions C87_windows.
(** logarithmic sampling: the window is the set of redshifts at a distance at most h in ln(1+z) *)
Theorem C87_window_log : forall g h step z, (hd 0 g <= z <= last g 0 -> 0 < 1 + hd 0 g - / 100000000 -> 0 < h -> 0 < step ->
  / 100000000 < (1 + hd 0 g - / 100000000) * (exp step - 1) ->
  ln ((1 + last g 0 + / 100000000) / (1 + hd 0 g - / 100000000)) / step < 2147483647 ->
  exists v, SpanRedshiftWindow_log g h step z = Ok v /\ Rstrictly_increasing v /\
    (forall x, In x v -> Rabs (ln (1 + x) - ln (1 + z)) <= h /\ hd 0 g <= x <= last g 0) /\ near_geometric v step /\ In z v /\
    (exists a, nth_error v 0 = Some a /\ (ln (1 + a) < ln (1 + z) - h + step \/ ln (1 + a) < ln (1 + hd 0 g) + step)) /\
    (exists b, nth_error v (length v - 1) = Some b /\ (ln (1 + z) + h - step < ln (1 + b) \/ ln (1 + last g 0) - step < ln (1 + b))))%R.
Proof. exact window_log_ok. Qed.
Print Assumptions C87_window_log.

Open Scope string_scope.
(** the hypotheses are met: one candidate at 1, a second pass with candidates at 1 and 2; the second one is appended; then at 4 the template has no name *)
Example C87_nonvacuous : complete exA /\ whole pA /\ whole pB /\ map fst (p_cands pAB) = ["FPE0"; "FPB1"] /\ p_elv pAB = [Some 100; Some 210] /\ map t_name (p_tpl pAB) = ["a1"; "a2"] /\
  solution exA 2 (mkLS (Some 200) (Some 201) 0) (mkTS "a2" (Some 0) 0) /\
  Combine_firstpass_candidates exA pA (get empty_pass (SetFirstPassCandidates exB empty_pass [at' "FPB0" 4])) = Throw TPL_NAME_EMPTY /\
  SetFirstPassCandidates exA pA [at' "FPE0" 5] = Throw INTERNAL_ERROR /\
  map (fun x => t_name (x_tpl x)) (get [] (buildFirstPassExtremaResults exA (p_cands pAB))) = ["a1"; "noContinuum"].
Proof. split; [split; reflexivity|]. split; [exact wA|]. split; [exact wB|]. repeat (split; [vm_compute; reflexivity|]). split; [exact solA|]. repeat split; vm_compute; reflexivity. Qed.
Example C87_window_nonvacuous : (2 * (1 # 2) + default_epsilon) / (1 # 5) < int32_max /\
  match buildExtendedRedshifts [0; 1; 2] (1 # 2) (1 # 5) pA with Ok p => List.length (p_ext p) = 1%nat | _ => False end /\
  match SpanRedshiftWindow [0; 1; 2] (1 # 2) (1 # 5) 1 with Ok [a; b; c; d; e] => a == 3 # 5 /\ c == 1 /\ e == 7 # 5 | _ => False end.
Proof. repeat split; vm_compute; reflexivity. Qed.
Example C87_window_log_nonvacuous : (let g := [0; 6] in let step := / 1000 in let e := / 100000000 in hd 0 g <= 2 <= last g 0 /\ 0 < 1 + hd 0 g - e /\ 0 < step /\
  e < (1 + hd 0 g - e) * (exp step - 1) /\ ln ((1 + last g 0 + e) / (1 + hd 0 g - e)) / step < 2147483647)%R.
Proof.
  cbv zeta. cbn [hd last]. pose proof (exp_ineq1 (/ 1000) ltac:(lra)) as E. repeat split; try lra.
  assert (ln ((1 + 6 + / 100000000) / (1 + 0 - / 100000000)) <= 10)%R.
  { apply RangeLogProps.ln_le_10; [apply Rdiv_lt_0_compat; lra|]. apply (Rmult_le_reg_r (1 + 0 - / 100000000)); [lra|]. unfold Rdiv. rewrite Rmult_assoc, Rinv_l by lra. lra. }
  unfold Rdiv. rewrite Rinv_inv. lra.
Qed.
