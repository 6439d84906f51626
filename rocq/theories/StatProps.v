(** C92: the statistics of the whole line model. *)
From Verif Require Import Base RangeModel EfitModel F64 StatModel StatSpec StatProofs StatProofs2 StatProofs3 StatProofs4.
Open Scope Q_scope.

(** 0 exactly on the supports of the lines *)
Theorem C92_mask : forall o, sup_ok o ->
  exists m, getOutsideLinesMask o = Ok m /\ length m = length (s_axis o) /\
    forall j, (j < length (s_axis o))%nat -> nth_error m j = Some (negb (existsb (Nat.eqb j) (s_sup o))).
Proof. exact mask_spec. Qed.
Print Assumptions C92_mask.
(** the root of the mean square of the samples of the range which are under no line; NaN without any *)
Theorem C92_std : forall sqrtf o t which, usable o -> sup_ok o -> (which = 1 \/ which = 2)%Z ->
  (out_of_lines o = [] -> getOutsideLinesSTD sqrtf (o :: t) which = Ok None) /\
  (out_of_lines o <> [] -> exists q, getOutsideLinesSTD sqrtf (o :: t) which = Ok (Some (sqrtf q)) /\
     q == total (fun j => sq (at_ (if (which =? 1)%Z then s_noc o else s_err o) j)) (out_of_lines o) / inject_Z (Z.of_nat (length (out_of_lines o)))).
Proof. exact std_spec. Qed.
Print Assumptions C92_std.
Theorem C92_std_argument : forall sqrtf os which, which <> 1%Z -> which <> 2%Z -> getOutsideLinesSTD sqrtf os which = Throw INTERNAL_ERROR.
Proof. exact std_argument. Qed.
Print Assumptions C92_std_argument.
(** the merit of the continuum alone *)
Theorem C92_continuum_merit : forall os comp c, (forall o, In o os -> usable o) ->
  exists v, getLeastSquareContinuumMerit os comp c = Ok v /\
    v == over os (fun o => chi o (fun j => at_ (s_raw o) j - at_ (s_cont o) j)) + (if isTpl comp then c_lp c else 0).
Proof. exact continuum_merit. Qed.
Print Assumptions C92_continuum_merit.
Theorem C92_dtd : forall os nc, (forall o, In o os -> usable o) ->
  exists v, EstimateDTransposeD os nc = Ok v /\
    v == over os (fun o => chi o (fun j => at_ (if nc then s_noc o else s_raw o) j)).
Proof. exact dtd_spec. Qed.
Print Assumptions C92_dtd.
Theorem C92_mtm : forall os, (forall o, In o os -> usable o) ->
  exists v, EstimateMTransposeM os = Ok v /\ v == over os (fun o => chi o (fun j => at_ (s_model o) j)).
Proof. exact mtm_spec. Qed.
Print Assumptions C92_mtm.
(** the number of samples these sums count *)
Theorem C92_samples : forall os, (forall o, In o os -> usable o /\ ordered (s_range o)) -> computeSpcNSamples os = Ok (count_of os counted).
Proof. exact nsamples. Qed.
Print Assumptions C92_samples.
(** the quick merit is the direct one when the sums of the template fit are over the same samples (missing: see C92_fast_merit_refuted) *)
Theorem C92_fast_merit_partial : forall os c (tpl : spc -> nat -> Q) dtd,   (forall o, In o os -> usable o) ->
  (forall o j, In o os -> In j (counted o) -> at_ (s_cont o) j == c_amp c * tpl o j) ->
  c_dtm c == over os (fun o j => at_ (s_raw o) j * tpl o j / sq (at_ (s_err o) j)) ->
  c_mtm c == over os (fun o j => sq (tpl o j) / sq (at_ (s_err o) j)) ->
  EstimateDTransposeD os false = Ok dtd ->
  exists v, getLeastSquareContinuumMerit os TplFit c = Ok v /\ getLeastSquareContinuumMeritFast dtd TplFit c == v.
Proof. exact fast_is_direct. Qed.
Print Assumptions C92_fast_merit_partial.
Theorem C92_fast_merit_other : forall os comp c dtd, comp <> TplFit -> (forall o, In o os -> usable o) ->
  (forall o j, In o os -> In j (counted o) -> at_ (s_noc o) j == at_ (s_raw o) j - at_ (s_cont o) j) ->
  EstimateDTransposeD os true = Ok dtd ->
  exists v, getLeastSquareContinuumMerit os comp c = Ok v /\ getLeastSquareContinuumMeritFast dtd comp c == v.
Proof. exact fast_other. Qed.
Print Assumptions C92_fast_merit_other.
(** the constant of the likelihood is over the closed range *)
Theorem C92_likelihood : forall ln ln2pi os, (forall o, In o os -> usable o /\ inside_range o <> [] /\ ordered (s_range o)) ->
  exists v, EstimateLikelihoodCstLog ln ln2pi os = Ok v /\
    v == total (fun o => total (fun j => - (1 # 2) * ln2pi - ln (at_ (s_err o) j)) (inside_range o)) os.
Proof. exact likelihood. Qed.
Print Assumptions C92_likelihood.
Theorem C92_likelihood_throws : forall ln ln2pi os o, In o os -> (forall o, In o os -> usable o) -> ordered (s_range o) -> inside_range o = [] ->
  EstimateLikelihoodCstLog ln ln2pi os = Throw CRANGE_VECTBORDERS_OUTSIDERANGE \/ EstimateLikelihoodCstLog ln ln2pi os = Throw CRANGE_NO_INTERSECTION.
Proof. exact likelihood_throws. Qed.
Print Assumptions C92_likelihood_throws.
(** which has at most one sample more than the other sums *)
Theorem C92_one_sample_more : forall o, usable o -> ordered (s_range o) ->
  let lost := filter (fun j => Qle_bool (rbeg (s_range o)) (at_ (s_axis o) j) && Qle_bool (at_ (s_axis o) j) (rend (s_range o))
                 && (Qeq_bool (at_ (s_axis o) j) (rend (s_range o)) || (S j =? length (s_axis o))%nat)) (seq 0 (length (s_axis o))) in
  length (inside_range o) = (length (counted o) + length lost)%nat /\ (length lost <= 1)%nat.
Proof. exact closed_more. Qed.
Print Assumptions C92_one_sample_more.
(** the cached values are those of the component as long as it does not change *)
Theorem C92_cache_fresh : forall ln ln2pi o t comp h l s, other_range (h_range h) (s_range o) ->
  (forall a, In a l -> a = Ask \/ a = Force) -> In Ask l \/ In Force l ->
  history ln ln2pi (o :: t) (comp, h) l = Ok s ->
  fst s = comp /\ EstimateDTransposeD (o :: t) (negb (isTpl comp)) = Ok (h_dtd (snd s)) /\
  EstimateLikelihoodCstLog ln ln2pi (o :: t) = Ok (h_cst (snd s)) /\
  getDTransposeD ln ln2pi (o :: t) s = Ok (h_dtd (snd s)).
Proof. exact cache_fresh. Qed.
Print Assumptions C92_cache_fresh.
(** or as soon as the computation is forced *)
Theorem C92_cache_forced : forall ln ln2pi o t l s s1 s2, history ln ln2pi (o :: t) s l = Ok s1 -> act ln ln2pi (o :: t) s1 Force = Ok s2 ->
  fst s2 = fst s1 /\ EstimateDTransposeD (o :: t) (negb (isTpl (fst s1))) = Ok (h_dtd (snd s2)) /\ getDTransposeD ln ln2pi (o :: t) s2 = Ok (h_dtd (snd s2)).
Proof. exact cache_forced. Qed.
Print Assumptions C92_cache_forced.
Theorem C92_cache_component : forall ln ln2pi o t s c, h_range (snd s) = s_range o ->
  exists s', act ln ln2pi (o :: t) s (SetComponent c) = Ok s' /\ fst s' = c /\ getDTransposeD ln ln2pi (o :: t) s' = getDTransposeD ln ln2pi (o :: t) s.
Proof. exact cache_component. Qed.
Print Assumptions C92_cache_component.
(** the merged supports: same samples, every line in one of them, strong when one of its lines is *)
Theorem C92_merge : forall n, forall l, (length l <= n)%nat -> (forall p, In p l -> sup_wf p) ->
  (forall q, In q (merge n l) -> sup_wf q) /\
  (forall i, (exists q, In q (merge n l) /\ under q i) <-> (exists p, In p l /\ under p i)) /\
  (forall p, In p l -> exists q, In q (merge n l) /\ within p q /\ (p_strong p = true -> p_strong q = true)) /\
  (forall q, In q (merge n l) -> p_strong q = true -> exists p, In p l /\ within p q /\ p_strong p = true).
Proof. exact merge_spec. Qed.
Print Assumptions C92_merge.
(** supports of at least two samples listed by their start: at most a bound in common after the merge *)
Theorem C92_merge_sorted : forall l, (forall p, In p l -> (p_beg p < p_end p)%nat) -> by_start l -> pairwise nearly_apart (merge (length l) l).
Proof. exact merge_nearly. Qed.
Print Assumptions C92_merge_sorted.
Theorem C92_merge_apart : forall n, forall l, (length l <= n)%nat -> pairwise apart l -> merge n l = l.
Proof. exact merge_apart. Qed.
Print Assumptions C92_merge_apart.
(** the lines which count: those in the range of the emission elements *)
Theorem C92_lines_counted : forall el p, In p (line_supports el) <-> emission_support el p.
Proof. exact line_supports_in. Qed.
Print Assumptions C92_lines_counted.
(** both bounds included, nothing for a support of one sample *)
Theorem C92_range_snr : forall o p, usable o -> (p_end p < length (s_axis o))%nat ->
  exists f v, getSNROnRange o (p_beg p, p_end p) = Ok (f, v) /\
    ((p_end p <= p_beg p)%nat -> f = 0 /\ v = 0) /\
    ((p_beg p < p_end p)%nat -> f == flux_under o p /\ v == var_under o p).
Proof. exact range_snr. Qed.
Print Assumptions C92_range_snr.
(** lines apart from each other *)
Theorem C92_snr : forall sqrtf o t el,   usable o -> pairwise apart (line_supports el) ->
  (forall p, emission_support el p -> wide p /\ (p_end p < length (s_axis o))%nat) ->
  exists f v sf sv, getCumulSNRStrongEL sqrtf (o :: t) el = Ok (snr sqrtf f v, snr sqrtf sf sv) /\
    f == total (flux_under o) (line_supports el) /\ v == total (var_under o) (line_supports el) /\
    sf == total (flux_under o) (filter p_strong (line_supports el)) /\ sv == total (var_under o) (filter p_strong (line_supports el)).
Proof. exact snr_apart. Qed.
Print Assumptions C92_snr.
(** the ratio to a square root *)
Theorem C92_ratio : forall sqrtf s v,   (~ sqrtf v == 0 -> snr sqrtf s v = Fin (s / sqrtf v)) /\ (sqrtf v == 0 -> 0 < s -> snr sqrtf s v = PInf) /\
  (sqrtf v == 0 -> s < 0 -> snr sqrtf s v = NInf) /\ (sqrtf v == 0 -> s == 0 -> snr sqrtf s v = NaN).
Proof. exact ratio_spec. Qed.
Print Assumptions C92_ratio.
Theorem C92_snr_no_line : forall sqrtf o t el, sqrtf 0 == 0 -> line_supports el = [] -> getCumulSNRStrongEL sqrtf (o :: t) el = Ok (NaN, NaN).
Proof. exact snr_none. Qed.
Print Assumptions C92_snr_no_line.
Theorem C92_snr_no_strong_line : forall sqrtf o t el r, sqrtf 0 == 0 -> (forall p, emission_support el p -> sup_wf p /\ p_strong p = false) ->
  getCumulSNRStrongEL sqrtf (o :: t) el = Ok r -> snd r = NaN.
Proof. exact snr_no_strong. Qed.
Print Assumptions C92_snr_no_strong_line.

(** ** what does not hold *)
(** with the sums of the template fit over the closed range (C64) the quick merit is -9 for a direct merit of 0 *)
Theorem C92_fast_merit_refuted : exists o c (tpl : nat -> Q) v dtd, usable o /\ ordered (s_range o) /\
  (forall j, (j < 3)%nat -> at_ (s_cont o) j == c_amp c * tpl j) /\
  c_dtm c == total (fun j => at_ (s_raw o) j * tpl j / sq (at_ (s_err o) j)) (inside_range o) /\
  c_mtm c == total (fun j => sq (tpl j) / sq (at_ (s_err o) j)) (inside_range o) /\
  EstimateDTransposeD [o] false = Ok dtd /\ getLeastSquareContinuumMerit [o] TplFit c = Ok v /\ v == 0 /\
  getLeastSquareContinuumMeritFast dtd TplFit c == -9.
Proof. exact fast_closed. Qed.
Print Assumptions C92_fast_merit_refuted.
(** the last sample is never counted *)
Theorem C92_samples_in_range_refuted : exists o, usable o /\ ordered (s_range o) /\ length (inside_range o) = 3%nat /\ computeSpcNSamples [o] = Ok 2%nat.
Proof. exact count_differs. Qed.
Print Assumptions C92_samples_in_range_refuted.
(** a reversed range has samples *)
Theorem C92_samples_reversed_refuted : exists o, usable o /\ counted o = [] /\ computeSpcNSamples [o] = Ok 3%nat.
Proof. exact count_reversed. Qed.
Print Assumptions C92_samples_reversed_refuted.
(** a change of component does not refresh the cached value *)
Theorem C92_cache_refuted : exists o h l s d1 d2, usable o /\ other_range (h_range h) (s_range o) /\
  history (fun _ => 0) 0 [o] (TplFit, h) l = Ok s /\ fst s = NoContinuum /\
  getDTransposeD (fun _ => 0) 0 [o] s = Ok d1 /\ EstimateDTransposeD [o] (negb (isTpl (fst s))) = Ok d2 /\ ~ d1 == d2.
Proof. exact stale. Qed.
Print Assumptions C92_cache_refuted.
(** the merge is one pass: samples count twice *)
Theorem C92_merge_chain_refuted : exists o el f v, usable o /\ (forall p, emission_support el p -> wide p /\ (p_end p < length (s_axis o))%nat) /\
  (forall sqrtf, getCumulSNRStrongEL sqrtf [o] el = Ok (snr sqrtf f v, snr sqrtf 0 0)) /\
  v == 17 /\ total (fun i => sq (at_ (s_err o) i)) (union_of el) == 15.
Proof. exact chained. Qed.
Print Assumptions C92_merge_chain_refuted.
(** and so does a shared bound *)
Theorem C92_merge_touching_refuted : exists o el f v, usable o /\ (forall p, emission_support el p -> wide p /\ (p_end p < length (s_axis o))%nat) /\
  by_start (line_supports el) /\ (forall sqrtf, getCumulSNRStrongEL sqrtf [o] el = Ok (snr sqrtf f v, snr sqrtf 0 0)) /\
  v == 6 /\ total (fun i => sq (at_ (s_err o) i)) (union_of el) == 5.
Proof. exact touching. Qed.
Print Assumptions C92_merge_touching_refuted.
(** a strong line of one sample is ignored *)
Theorem C92_snr_one_sample_refuted : exists o el, usable o /\ emission_support el (mkSup 3 3 true) /\ flux_under o (mkSup 3 3 true) == 1 /\
  forall sqrtf, sqrtf 0 == 0 -> getCumulSNRStrongEL sqrtf [o] el = Ok (NaN, NaN).
Proof. exact one_sample. Qed.
Print Assumptions C92_snr_one_sample_refuted.

(** ** the hypotheses are met *)
Example C92_spectrum_example : usable ex_o /\ sup_ok ex_o /\ counted ex_o = [1; 2; 3]%nat /\ inside_range ex_o = [1; 2; 3; 4]%nat /\
  out_of_lines ex_o = [1%nat] /\ ordered (s_range ex_o).
Proof. exact (conj ex_usable (conj ex_sup ex_counted)). Qed.
Example C92_lines_example : pairwise apart (line_supports ex_el) /\ forall p, emission_support ex_el p -> wide p /\ (p_end p < length (s_axis ex_o))%nat.
Proof. exact ex_el_apart. Qed.
Example C92_value_example : exists f v sf sv, getCumulSNRStrongEL (fun x => x) [ex_o] ex_el = Ok (snr (fun x => x) f v, snr (fun x => x) sf sv) /\
  f == 11 /\ v == 11 /\ sf == 0 /\ sv == 5.
Proof. exact ex_el_value. Qed.
Example C92_merge_example : merge 3 [mkSup 0 4 false; mkSup 2 6 true; mkSup 8 9 false] = [mkSup 0 6 true; mkSup 8 9 false].
Proof. exact ex_merge. Qed.
