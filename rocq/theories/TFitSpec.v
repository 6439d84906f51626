(** Vocabulary for C64 and C65. *)
From Verif Require Import Base CalzModel MeikModel TplModel TplSpec TFitModel.
Open Scope Q_scope.

Definition at_ (l : list Q) (i : nat) : Q := nth i l 0.
(** the samples fitted, as (flux, model, error): those between the first and the last one whose mask is not null *)
Definition sample (o : obs) (m : list Q) (j : nat) : list (Q * Q * Q) :=
  match nth_error (o_mask o) j with Some w => if N.eqb w 0 then [] else [(at_ (o_y o) j, at_ m j, at_ (o_e o) j)] | None => [] end.
Definition fitted (o : obs) (m : list Q) : list (Q * Q * Q) := flat_map (sample o m) (seq (o_ks o) (S (o_ke o) - o_ks o)).
Definition all_fitted (os : list obs) (ms : list (list Q)) : list (Q * Q * Q) := flat_map (fun p => fitted (fst p) (snd p)) (combine os ms).

Definition sum (l : list Q) : Q := fold_right Qplus 0 l.
Definition residual (a : Q) (s : Q * Q * Q) : Q := let '(y, t, e) := s in (y - a * t) / e.
(** the chi square of a model of amplitude a *)
Definition chi2 (l : list (Q * Q * Q)) (a : Q) : Q := sum (map (fun s => residual a s * residual a s) l).
(** the inverse variance of the amplitude *)
Definition information (l : list (Q * Q * Q)) : Q := sum (map (fun s => let '(_, t, e) := s in (t / e) * (t / e)) l).

(** the prior on the amplitude (a Gaussian of mean p_amean and deviation p_asigma, to the power p_betaA) is used when both are positive *)
Definition active (p : prior) : Prop := 0 < p_asigma p /\ 0 < p_betaA p.
Definition prior_term (p : prior) (a : Q) : Q := p_betaA p * ((a - p_amean p) / p_asigma p) * ((a - p_amean p) / p_asigma p).
(** what the other priors add: - 2 times their weighted logarithms *)
Definition other_priors (p : prior) : Q := - (2) * (p_betaTE p * p_lTE p + p_betaA p * p_lA p + p_betaZ p * p_lZ p).

(** [f] is the fit of the samples without prior: [a0] is the least squares amplitude, its significance is a0 over its error, and it is replaced by
    zero when the significance is below the threshold *)
Definition is_fit (sqrtf : Q -> Q) (thr : Q) (l : list (Q * Q * Q)) (f : fit) : Prop :=
  exists a0, (forall b, chi2 l a0 <= chi2 l b) /\ f_sig f == a0 / f_err f /\
    (exists v, v == 1 / information l /\ f_err f = sqrtf v) /\
    ((thr <= f_sig f /\ f_ampl f == a0) \/ (f_sig f < thr /\ f_ampl f == 0)) /\
    f_chi2 f == chi2 l (f_ampl f) /\ f_logprior f == 0.
(** the same with an active prior *)
Definition is_fit_prior (sqrtf : Q -> Q) (thr : Q) (l : list (Q * Q * Q)) (p : prior) (f : fit) : Prop :=
  exists a0, (forall b, chi2 l a0 + prior_term p a0 <= chi2 l b + prior_term p b) /\ f_sig f == a0 / f_err f /\
    ((thr <= f_sig f /\ f_ampl f == a0) \/ (f_sig f < thr /\ f_ampl f == 0)) /\
    f_chi2 f == chi2 l (f_ampl f) + f_logprior f /\ f_logprior f == other_priors p + prior_term p (f_ampl f).

(** the template of an observation before the fit: just rebinned *)
Definition axis_of (o : obs) : list Q := t_axis (o_tpl o).
Definition flux_of (o : obs) : list Q := t_flux (o_tpl o).
Definition fresh (o : obs) : Prop := NewTpl (axis_of o) (flux_of o) = Ok (o_tpl o) /\ increasing (axis_of o) /\ (o_ks o <= o_ke o < length (axis_of o))%nat.
(** [m] is the template of the observation seen through the dust of index kd and the igm of index ki (negative: none) *)
Definition is_model (z : Q) (cal : option calz) (mei : option meik) (kd ki : Z) (o : obs) (m : list Q) : Prop :=
  let v := mkView true (Z.of_nat (o_ks o)) (Z.of_nat (o_ke o)) z cal mei kd ki 1 in
  length m = length (flux_of o) /\
  forall k lam f, nth_error (axis_of o) k = Some lam -> nth_error (flux_of o) k = Some f ->
    exists x d g, nth_error m k = Some x /\ dust_of v k lam d /\ igm_of v k lam g /\ x == f * g * d.
(** a fitted sample is at or below Lyman alpha *)
Definition below_lya (os : list obs) : Prop := exists o k lam, In o os /\ (o_ks o <= k <= o_ke o)%nat /\ nth_error (axis_of o) k = Some lam /\ lam <= 1216.
(** the last fitted sample is above Lyman alpha *)
Definition reaches_above (o : obs) : Prop := forall lam, nth_error (axis_of o) (o_ke o) = Some lam -> 1216 < lam.

(** [f] is the fit, with prior p, of the template seen through the dust of index kd and the igm of index ki *)
Definition seen_fit (sqrtf : Q -> Q) (thr z : Q) (cal : option calz) (mei : option meik) (os : list obs) (kd ki : Z) (p : prior) (f : fit) : Prop :=
  exists ms, Forall2 (is_model z cal mei kd ki) os ms /\ 0 < information (all_fitted os ms) /\
    (active p -> is_fit_prior sqrtf thr (all_fitted os ms) p f) /\ (~ active p -> is_fit sqrtf thr (all_fitted os ms) f).
(** the priors are used when there is one for each value of the table of dust coefficients *)
Definition priors_used (priors : list prior) (cal : option calz) : Prop := priors <> [] /\ exists c, cal = Some c /\ Z.of_nat (length priors) = cz_n c.
Definition prior_of (priors : list prior) (cal : option calz) (e : Z) (p : prior) : Prop :=
  (priors_used priors cal /\ (0 <= e)%Z /\ nth_error priors (Z.to_nat e) = Some p) \/ (~ priors_used priors cal /\ p = no_prior).
(** the E(B-V) written in the tables *)
Definition ebmv_of (cal : option calz) (dust : bool) (e : Z) (v : Q) : Prop := (dust = true /\ exists c, cal = Some c /\ v = cz_bstart c + cz_bstep c * inject_Z e) \/ (dust = false /\ v = - (1)).
(** a range begins before the first sample fitted *)
Definition begins_before (b : Q) (o : obs) : Prop := forall lam, nth_error (axis_of o) (o_ks o) = Some lam -> b <= lam.
(** the errors of the samples fitted are not null *)
Definition no_null_error (o : obs) : Prop := forall i w, (o_ks o <= i <= o_ke o)%nat -> nth_error (o_mask o) i = Some w -> w <> 0%N -> ~ at_ (o_e o) i == 0.
(** (k, i) comes before (k', i') *)
Definition before (k i k' i' : nat) : Prop := (k < k' \/ (k = k' /\ i < i'))%nat.
(** the tables and the best fit for the igm indices [ml] and the dust indices [el]; [eff]: the igm is asked for and has an effect.  Each entry is the chi square of
    the fit of the template seen through its dust and its igm; the best fit is the first of those of smallest chi square, igm index by igm index; the errors of
    the samples fitted are not null *)
Definition fit_tables (sqrtf : Q -> Q) (thr z : Q) (opt_ext dust : bool) (cal : option calz) (mei : option meik) (priors : list prior) (ml el : list Z) (os : list obs) (b : best) (cols : list (list entry)) (eff : bool) : Prop :=
  (eff = true <-> opt_ext = true /\ below_lya os) /\ length cols = length ml /\
  (forall k m, nth_error ml k = Some m -> exists col, nth_error cols k = Some col /\ length col = length el /\
     forall i e, nth_error el i = Some e -> exists f p v, nth_error col i = Some (f_chi2 f, v, if eff then m else nth 0 ml 0%Z) /\ ebmv_of cal dust e v /\ prior_of priors cal e p /\
       seen_fit sqrtf thr z cal mei os (if dust then e else (-1)%Z) (if eff then m else (-1)%Z) p f) /\
  (exists k m i e p, nth_error ml k = Some m /\ nth_error el i = Some e /\ prior_of priors cal e p /\
     seen_fit sqrtf thr z cal mei os (if dust then e else (-1)%Z) (if eff then m else (-1)%Z) p (b_fit b) /\ ebmv_of cal dust e (b_ebmv b) /\ b_igm b = (if eff then m else (-1)%Z) /\
     forall k' i' col c v g, nth_error cols k' = Some col -> nth_error col i' = Some (c, v, g) ->
       f_chi2 (b_fit b) <= c /\ (before k' i' k i -> f_chi2 (b_fit b) < c)) /\
  Forall no_null_error os.
Definition is_sqrt (sqrtf : Q -> Q) (x : Q) : Prop := 0 < sqrtf x /\ sqrtf x * sqrtf x == x.
