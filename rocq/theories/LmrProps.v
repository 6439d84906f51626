(** Property C78: the table of line-model results and the two passes that fill it. *)
From Verif Require Import Base RangeModel RangeSpec RangeProofs ZGridModel ZGridSpec ZGridProofs LmrModel LmrSpec LmrProofs LmrProofs2 LmrProofs3 LmrProofs4.
Open Scope Q_scope.

(** Init gives one empty row per redshift, and the priors of the template ratios; another number of priors is rejected. *)
Theorem C78_init : forall z nT nR priors, length priors = nR ->
  exists r, Init empty_res z nT nR priors = Ok r /\ r_z r = z /\ r_prior r = priors /\ table r nT nR (repeat (no_row nT nR) (length z)).
Proof. exact init_spec. Qed.
Print Assumptions C78_init.
Theorem C78_init_priors : forall r z nT nR priors, length priors <> nR -> Init r z nT nR priors = Throw INTERNAL_ERROR.
Proof. exact init_throw. Qed.
Print Assumptions C78_init_priors.

(** Storing a fit replaces the row of its redshift as a whole, and no other. *)
Theorem C78_store : forall r nT nR rows i o w, table r nT nR rows -> length (r_z r) = length rows -> nth_error rows i = Some w ->
  shaped nT nR o ->
  exists r' w', store r i o = Ok r' /\ r_z r' = r_z r /\ r_prior r' = r_prior r /\ from_call o (w_cont w) w' /\
    table r' nT nR (upd rows i w').
Proof. exact store_spec. Qed.
Print Assumptions C78_store.
(** Template-ratio results of another number of ratios, or for an index past the grid, are rejected. *)
Theorem C78_ratio_sizes : forall r i q, (1 <= length (q_chi2 q))%nat ->
  ((length (r_z r) <= i)%nat \/ length (q_chi2 q) <> length (r_rchi2 r) \/ length (q_marg q) <> length (q_chi2 q) \/
   length (q_strong q) <> length (q_chi2 q) \/ length (q_nl q) <> length (q_chi2 q) \/ length (q_pl q) <> length (q_chi2 q)) ->
  SetChisquareTplratioResult r i q = Throw INTERNAL_ERROR.
Proof. exact ratio_sizes. Qed.
Print Assumptions C78_ratio_sizes.

(** Inserting a sub-grid: the rows it replaces give way to that many empty rows, in every column of the table. *)
Theorem C78_grid_update : forall r nT nR rows idx ndup count, table r nT nR rows -> (ndup <= count)%nat ->
  (idx + ndup <= length rows)%nat ->
  exists r', updateVectors r idx ndup count = Ok r' /\ r_z r' = r_z r /\ r_prior r' = r_prior r /\
    table r' nT nR (spl rows idx ndup count (no_row nT nR)).
Proof. exact updateVectors_spec. Qed.
Print Assumptions C78_grid_update.

(** The first pass: the row of every redshift comes from the call of fit() made at that redshift. *)
Theorem C78_first_pass : forall fitf nT nR z priors, (forall n x, shaped nT nR (fitf n x)) -> length priors = nR ->
  exists r0 r rows, Init empty_res z nT nR priors = Ok r0 /\ first_pass fitf r0 = Ok r /\ r_z r = z /\ r_prior r = priors /\
    table r nT nR rows /\ length rows = length z /\
    forall k x w, nth_error z k = Some x -> nth_error rows k = Some w -> from_call (fitf k x) (repeat (Some dbl_max) nT) w.
Proof. exact first_pass_spec. Qed.
Print Assumptions C78_first_pass.

(** Both passes: the final grid is the first one with the windows inserted; every row is what one call of fit() gave at its
    own redshift: a call of the second pass inside the windows, of the first pass elsewhere; the priors are kept. *)
Theorem C78_two_passes : forall fitf nT nR, (forall n x, shaped nT nR (fitf n x)) -> forall z priors cands,
  strictly_increasing z -> length priors = nR -> cands <> [] -> spaced z ->
  insertable_all (map snd cands) z -> apart (map snd cands) ->
  (forall Zc s, In (Zc, s) cands -> In Zc z /\ In Zc s) ->
  exists r grid rows, two_passes fitf z nT nR priors cands = Ok r /\ insert_all (map snd cands) z = Ok grid /\
    r_z r = grid /\ r_prior r = priors /\ table r nT nR rows /\ length rows = length grid /\
    forall k x w, nth_error grid k = Some x -> nth_error rows k = Some w ->
      ((exists s, In s (map snd cands) /\ replaced s x) /\ exists c, (length z <= c)%nat /\ from_call (fitf c x) (repeat (Some dbl_max) nT) w) \/
      ((forall s, In s (map snd cands) -> ~ replaced s x) /\ exists i, nth_error z i = Some x /\ from_call (fitf i x) (repeat (Some dbl_max) nT) w).
Proof. exact two_passes_spec. Qed.
Print Assumptions C78_two_passes.
(** No candidate: an error. *)
Theorem C78_no_candidate : forall fitf nT nR, (forall n x, shaped nT nR (fitf n x)) -> forall z priors, length priors = nR ->
  two_passes fitf z nT nR priors [] = Throw INTERNAL_ERROR.
Proof. exact no_candidate. Qed.
Print Assumptions C78_no_candidate.

(** The getters give the entries of the row asked for; past the end of the grid, nothing or an exception. *)
Theorem C78_getters : forall r nT nR rows k w, table r nT nR rows -> length (r_z r) = length rows -> nth_error rows k = Some w ->
  getChisquareTplContinuumResult r k = Ok (w_cont w) /\ getChisquareTplratioResult r k = Ok (w_rchi2 w) /\
  getScaleMargCorrTplratioResult r k = Ok (w_rmarg w) /\ getStrongELPresentTplratioResult r k = Ok (w_strong w) /\
  getHaELPresentTplratioResult r k = Ok (w_ha w) /\ getNLinesAboveSNRTplratioResult r k = Ok (w_nl w) /\
  getPriorLinesTplratioResult r k = Ok (w_pl w).
Proof. exact getters_spec. Qed.
Print Assumptions C78_getters.
Theorem C78_getters_past_the_end : forall r nT nR rows k, table r nT nR rows -> length (r_z r) = length rows -> (length rows <= k)%nat ->
  ((0 < nT)%nat -> getChisquareTplContinuumResult r k = Throw STD_out_of_range) /\
  ((0 < nR)%nat -> getChisquareTplratioResult r k = Throw STD_out_of_range) /\
  getScaleMargCorrTplratioResult r k = Ok [] /\ getStrongELPresentTplratioResult r k = Ok [] /\
  getHaELPresentTplratioResult r k = Ok [] /\ getNLinesAboveSNRTplratioResult r k = Ok [] /\
  getPriorLinesTplratioResult r k = Ok [].
Proof. exact getters_past. Qed.
Print Assumptions C78_getters_past_the_end.

(** The comment of RecomputeAroundCandidates says that the merits of the continuum templates are kept from the first pass.
    They are not: at every redshift of a window they are DBL_MAX, for all templates. *)
Theorem C78_continuum_merits_kept_refuted : ~ (forall fitf nT nR z priors cands r k x m,
  (forall n y, shaped nT nR (fitf n y)) -> strictly_increasing z -> length priors = nR -> spaced z ->
  insertable_all (map snd cands) z -> apart (map snd cands) -> (forall Zc s, In (Zc, s) cands -> In Zc z /\ In Zc s) ->
  (forall c y, (length z <= c)%nat -> o_cont (fitf c y) = None) ->
  two_passes fitf z nT nR priors cands = Ok r -> nth_error (r_z r) k = Some x ->
  (exists i, nth_error z i = Some x /\ o_cont (fitf i x) = Some m) -> getChisquareTplContinuumResult r k = Ok m).
Proof. exact kept_refuted. Qed.
Print Assumptions C78_continuum_merits_kept_refuted.
Theorem C78_continuum_merits_lost : forall fitf nT nR, (forall n x, shaped nT nR (fitf n x)) -> forall z priors cands,
  strictly_increasing z -> length priors = nR -> cands <> [] -> spaced z ->
  insertable_all (map snd cands) z -> apart (map snd cands) ->
  (forall Zc s, In (Zc, s) cands -> In Zc z /\ In Zc s) ->
  (forall c y, (length z <= c)%nat -> o_cont (fitf c y) = None) ->
  exists r, two_passes fitf z nT nR priors cands = Ok r /\
    forall k x s, nth_error (r_z r) k = Some x -> In s (map snd cands) -> replaced s x ->
      getChisquareTplContinuumResult r k = Ok (repeat (Some dbl_max) nT).
Proof. exact merits_lost. Qed.
Print Assumptions C78_continuum_merits_lost.

(** Windows that overlap: the second window removes redshifts of the first, and the second pass fails although both windows
    can be inserted. *)
Theorem C78_overlapping_windows_refuted : ~ (forall fitf nT nR, (forall n x, shaped nT nR (fitf n x)) -> forall z priors cands,
  strictly_increasing z -> length priors = nR -> cands <> [] -> spaced z -> insertable_all (map snd cands) z ->
  (forall Zc s, In (Zc, s) cands -> In Zc z /\ In Zc s) -> exists r, two_passes fitf z nT nR priors cands = Ok r).
Proof. exact overlap_refuted. Qed.
Print Assumptions C78_overlapping_windows_refuted.

(** Init again with no template ratio leaves the previous H-alpha flags: reading them on a longer grid is a read past the
    end of a vector. *)
Theorem C78_reinit_refuted : ~ (forall r0 z1 nT1 nR1 p1 z2 nT2 p2 r1 r2 k, Init r0 z1 nT1 nR1 p1 = Ok r1 -> Init r1 z2 nT2 0 p2 = Ok r2 ->
  (k < length z2)%nat -> getHaELPresentTplratioResult r2 k = Ok []).
Proof. exact reinit_refuted. Qed.
Print Assumptions C78_reinit_refuted.

(** *** non-vacuity *)
Example C78_ex_shaped : forall n x, shaped 1 1 (ex_fit n x).
Proof. exact ex_fit_shaped. Qed.
Example C78_ex_hyps : strictly_increasing ex_z /\ spaced ex_z /\ insertable_all (map snd ex_cands) ex_z /\ apart (map snd ex_cands) /\
  (forall Zc s, In (Zc, s) ex_cands -> In Zc ex_z /\ In Zc s).
Proof. exact ex_hyps. Qed.
Example C78_ex_run : match two_passes ex_fit ex_z 1 1 [1] ex_cands with
  | Ok r => r_z r = [0; (1#2); 1; (3#2); 2; 3] /\ r_chi2 r = map Some [0; 4; 5; 6; 2; 3] | _ => False end.
Proof. vm_compute. split; reflexivity. Qed.
