(** Direct least squares, without Fourier transforms. *)
From Verif Require Import Base RBase.
Open Scope R_scope.

(** Σ_j w_j·x_j·y_j *)
Fixpoint wdot (w x y : list R) : R :=
  match w, x, y with
  | a :: w', b :: x', c :: y' => a * b * c + wdot w' x' y'
  | _, _, _ => 0
  end.
(** Σ_j w_j·(d_j - a·t_j)² *)
Fixpoint chi2_of (w d t : list R) (a : R) : R :=
  match w, d, t with
  | v :: w', x :: d', y :: t' => v * (x - a * y) * (x - a * y) + chi2_of w' d' t' a
  | _, _, _ => 0
  end.
(** the amplitude: least squares, 0 when its significance is below the threshold or the template is null *)
Definition amplitude (thr : R) (w d t : list R) : R :=
  if Reqb (wdot w t t) 0 then 0
  else if Rltb (wdot w d t / sqrt (wdot w t t)) thr then 0
  else wdot w d t / wdot w t t.
Definition merit (thr : R) (w d t : list R) : R := chi2_of w d t (amplitude thr w d t).

(** the [n] samples from index [i] *)
Definition window (i n : nat) (l : list R) : list R := firstn n (skipn i l).

(** [p] is the first best of the values [f] over the candidates *)
Definition first_best {A} (f : A -> R) (cands : list A) (x : A) : Prop :=
  exists before after, cands = before ++ x :: after /\
    (forall y, In y before -> f x < f y) /\ (forall y, In y after -> f x <= f y).

(** logarithmic grids: spectrum, template and redshifts with the same step, the redshift of index i
    matching the template sample p + (n-1-i) with the first sample of the spectrum *)
Definition log_grid (x0 step : R) (n : nat) : list R := map (fun j => x0 * exp (INR j * step)) (seq 0 n).
Definition redshift_grid (s0 : R) (tpl : list R) (p n : nat) : list R :=
  map (fun i => s0 / nth (p + (n - 1 - i)) tpl 0 - 1) (seq 0 n).

(** the values reported for template samples [t]: least-squares fit of the data *)
From Verif Require Import LfitModel.
Definition is_fit (thr : R) (w d t : list R) (ebmv : R) (igm : Z) (c : cell) : Prop :=
  c_chi2 c = merit thr w d t /\ c_amp c = amplitude thr w d t /\
  c_err c = (if Reqb (wdot w t t) 0 then 0 else sqrt (1 / wdot w t t)) /\
  c_sigma c = Some (if Reqb (wdot w t t) 0 then 0 else wdot w d t / sqrt (wdot w t t)) /\
  c_dtm c = wdot w d t /\ c_mtm c = wdot w t t /\
  c_snr c = (if Rltb 0 (wdot w t t) then wdot w d t / sqrt (wdot w t t) else -1) /\
  c_ebmv c = ebmv /\ c_igm c = igm.

(** the igm has no effect when the first template sample is beyond Lyman-alpha (only decided with
    more than one igm index) *)
Definition igm_hidden (l0 : R) (MeiksinList : list Z) : bool := (Rltb 1216 l0 && (1 <? length MeiksinList)%nat)%bool.

(** what the fit of a range of redshifts should be.  [tpl igm ism]: the corrected template;
    redshift i matches the template sample kstart + (n-1-i) *)
Definition range_fitted (thr : R) (enIGM enISM : bool) (ebmvValue : Z -> R) (w data : list R)
    (tpl : option Z -> option Z -> list R) (l0 : R) (kstart n : nat) (MeiksinList EbmvList : list Z)
    (bests : list (option cell)) (inter : list (list (list R))) : Prop :=
  let hidden := igm_hidden l0 MeiksinList in
  let igm_of m := if (enIGM && negb hidden)%bool then Some m else None in
  let ism_of e := if enISM then Some e else None in
  let at_z i m e := window (kstart + (n - 1 - i)) (length data) (tpl (igm_of m) (ism_of e)) in
  let igms := if hidden then firstn 1 MeiksinList else MeiksinList in
  length bests = n /\ length inter = n /\
  forall i, (i < n)%nat ->
    (exists m e c, nth_error bests i = Some (Some c) /\
       first_best (fun me => merit thr w data (at_z i (fst me) (snd me))) (list_prod igms EbmvList) (m, e) /\
       is_fit thr w data (at_z i m e) (if enISM then ebmvValue e else -1)
              (if (enIGM && negb hidden)%bool then m else (-1)%Z) c) /\
    exists cube, nth_error inter i = Some cube /\ length cube = length EbmvList /\
      forall kism e, nth_error EbmvList kism = Some e ->
        exists line, nth_error cube kism = Some line /\ length line = length MeiksinList /\
          forall kigm m, nth_error MeiksinList kigm = Some m ->
            nth_error line kigm = Some (merit thr w data (at_z i m e)).

(** consecutive non-empty index ranges from [b] to [n]-1 *)
Fixpoint chain (b : nat) (ranges : list (nat * Z)) (n : nat) : Prop :=
  match ranges with
  | [] => b = n
  | (b', e) :: r => b' = b /\ (Z.of_nat b <= e)%Z /\ chain (S (Z.to_nat e)) r n
  end.

(** the row of the global result made from the best fit of a redshift: unchanged without priors,
    with the prior of its redshift index and dust index otherwise *)
Definition row_made (thr : R) (ebmvIndex : R -> res nat) (dtd : R) (logpriorze : list (list ptze)) (iz : nat)
    (best : option cell) (inter : list (list R)) (r : row) : Prop :=
  r_inter r = inter /\
  match logpriorze with
  | [] => r_best r = best /\ r_logprior r = 0
  | _ => exists c kism ps p c', best = Some c /\
           (if Reqb (c_ebmv c) (-1) then kism = 0%nat else ebmvIndex (c_ebmv c) = Ok kism) /\
           nth_error logpriorze iz = Some ps /\ nth_error ps kism = Some p /\
           applyPrior thr dtd c p = Ok (c', r_logprior r) /\ r_best r = Some c'
  end.

(** the rows [b]..[e] of the result of the whole grid: fitted with the template corrected for the
    first redshift of the range *)
Definition rows_fitted (thr : R) (enIGM enISM : bool) (ebmvValue : Z -> R) (ebmvIndex : R -> res nat)
    (flux : nat -> nat -> R -> option Z -> option Z -> list R) (s0 : R) (tpl data w : list R) (p n : nat)
    (MeiksinList EbmvList : list Z) (logpriorze : list (list ptze)) (result : list (option row)) (b e : nat) : Prop :=
  let first := (p + (n - 1 - e))%nat in
  let last := (p + (n - 1 - b) + length data - 1)%nat in
  exists bests inter,
    range_fitted thr enIGM enISM ebmvValue w data (flux first last (s0 / nth (p + (n - 1 - b)) tpl 0 - 1))
      (nth first tpl 0) first (e + 1 - b) MeiksinList EbmvList bests inter /\
    forall i c t, nth_error bests i = Some c -> nth_error inter i = Some t ->
      exists r, nth_error result (b + i) = Some (Some r) /\
        row_made thr ebmvIndex (wdot w data data) logpriorze (b + i) c t r.

(** spectrum of nS samples, template of N samples and n redshifts on the same logarithmic grid, the
    template being long enough; as many data and errors as samples, at least one igm and one dust index *)
Definition setting (s0 t0 step : R) (nS N p n : nat) (data err : list R)
    (flux : nat -> nat -> R -> option Z -> option Z -> list R) (M E : list Z) : Prop :=
  0 < s0 /\ 0 < t0 /\ 0 < step /\ (2 <= nS)%nat /\ (1 <= n)%nat /\ (p + n + nS <= N + 1)%nat /\
  (Z.of_nat N <= 2147483647)%Z /\ length data = nS /\ length err = nS /\
  (forall a b z igm ism, length (flux a b z igm ism) = N) /\ M <> [] /\ E <> [].

(** the prior of the direct method (templatefitting.cpp, C64) with real numbers *)
From Verif Require TFitModel.
Definition prior_of (p : TFitModel.prior) : ptze :=
  mkPrior (Q2R (TFitModel.p_betaTE p)) (Q2R (TFitModel.p_lTE p)) (Q2R (TFitModel.p_betaA p)) (Q2R (TFitModel.p_lA p))
          (Q2R (TFitModel.p_betaZ p)) (Q2R (TFitModel.p_lZ p)) (Q2R (TFitModel.p_amean p)) (Q2R (TFitModel.p_asigma p)).

(** the weights of the merit: inverse of the squared errors *)
Definition inverse_variances (err : list R) : list R := map (fun e => 1 / (e * e)) err.
