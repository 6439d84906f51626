(** Model of RedshiftLibrary/src/lib/spectrum/fluxaxis.cpp (CSpectrumFluxAxis) and noiseaxis.cpp
    (CSpectrumNoiseAxis). *)
From Verif Require Import Base F64 MedianModel.
Open Scope Q_scope.

(** fluxaxis.cpp:113-116 and 138-141: the samples of [left, right] around index i.
    max(0, i-k), min(N-1, i+k); begin+left after begin+right+1 (k < 0) is UB. *)
Definition window (v : list Q) (i : nat) (k : Z) : res (list Q) :=
  let N := Z.of_nat (length v) in
  let left := Z.max 0 (Z.of_nat i - k) in
  let right := Z.min (N - 1) (Z.of_nat i + k) in
  if (right + 1 <? left)%Z then UB
  else Ok (firstn (Z.to_nat (right + 1 - left)) (skipn (Z.to_nat left) v)).
(** the loops of fluxaxis.cpp:112-117 and 137-142 *)
Fixpoint smooth_loop (stat : list Q -> res Q) (v : list Q) (k : Z) (i n : nat) : res (list Q) :=
  match n with
  | O => Ok []
  | S m => do w <- window v i k; do x <- stat w; do t <- smooth_loop stat v k (S i) m; Ok (x :: t)
  end.
(** fluxaxis.cpp:98-147: (returned flag, new samples) *)
Definition smooth (stat : list Q -> res Q) (v : list Q) (k : Z) : res (bool * list Q) :=
  if (k =? 0)%Z then Ok (false, v)
  else if (Z.of_nat (length v) <? k + 1)%Z then Ok (false, v)
  else do t <- smooth_loop stat v k 0 (length v); Ok (true, t).
(** fluxaxis.cpp:98-121 *)
Definition ApplyMedianSmooth (v : list Q) (k : Z) : res (bool * list Q) := smooth Find v k.
(** fluxaxis.cpp:123-147 *)
Definition ApplyMeanSmooth (v : list Q) (k : Z) : res (bool * list Q) := smooth MeanFind v k.

(** ** flux and noise validity *)
(** fluxaxis.cpp:215-223 *)
Definition flux_valid (x : f64) : bool := is_finite x.
Definition checkFlux (v : list f64) : list bool := map flux_valid v.
(** noiseaxis.cpp:63-73: below DBL_MIN, not finite, or 1/x^2 not finite (overflow of 1/(x*x)).
    The bound 1/x^2 <= DBL_MAX is taken exactly (no rounding). *)
Definition noise_valid (x : f64) : bool :=
  match x with
  | Fin m => negb (Qltb m DBL_MIN || Qltb DBL_MAX (1 / (m * m)))%bool
  | _ => false
  end.
Definition checkNoise (v : list f64) : list bool := map noise_valid v.

(** the sample at index i is valid: both flags are read (fluxaxis.cpp:238, 254); reading past a vector is UB *)
Definition sample_valid (fl no : list f64) (i : nat) : res bool :=
  do a <- vget (checkNoise no) i;
  do b <- vget (checkFlux fl) i;
  Ok (a && b)%bool.

(** fluxaxis.cpp:237-243; state (maxNoise, minFlux), [n] samples from index [i] *)
Fixpoint scan_valid (fl no : list f64) (i n : nat) (st : Q * Q) : res (Q * Q) :=
  match n with
  | O => Ok st
  | S k =>
      do ok <- sample_valid fl no i;
      if negb ok then scan_valid fl no (S i) k st
      else
        do e <- vget no i; do f <- vget fl i;
        match e, f with
        | Fin e, Fin f => scan_valid fl no (S i) k (Qmaxb (fst st) e, Qminb (Qabs f) (Qabs (snd st)))
        | _, _ => UB                              (* not reached: valid samples are finite *)
        end
  end.
(** fluxaxis.cpp:252-262; state (flux, noise, nCorrected).  The validity vectors were computed before the loop
    (lines 234-235), from [fl0], [no0]. *)
Fixpoint correct_loop (fl0 no0 : list f64) (noise_value flux_value : f64) (i n : nat)
         (st : list f64 * list f64 * nat) : res (list f64 * list f64 * nat) :=
  match n with
  | O => Ok st
  | S k =>
      let '(fl, no, c) := st in
      do ok <- sample_valid fl0 no0 i;
      if (ok : bool) then correct_loop fl0 no0 noise_value flux_value (S i) k st
      else
        do no1 <- vset no i noise_value;
        do fl1 <- vset fl i flux_value;
        correct_loop fl0 no0 noise_value flux_value (S i) k (fl1, no1, S c)
  end.
(** fluxaxis.cpp:225-273.  Result: (corrected, flux, noise, number of corrected samples: the one written to the
    log).  A finite coefficient.  iMin..iMax are Int32: a negative iMin with iMin < iMax is UB.
    Simplification: setError (82-87) cannot throw here, its argument is a modified copy of the noise axis. *)
Definition correctFluxAndNoiseAxis (fl no : list f64) (iMin iMax : Z) (coeff : Q)
  : res (bool * list f64 * list f64 * nat) :=
  let n := Z.to_nat (iMax - iMin) in
  if ((iMin <? 0) && (iMin <? iMax))%Z%bool then UB
  else
    do st <- scan_valid fl no (Z.to_nat iMin) n (- DBL_MAX, DBL_MAX);
    let '(maxNoise, minFlux) := st in
    if Qeq_bool minFlux DBL_MAX then Throw SPECTRUM_CORRECTION_ERROR
    else if Qeq_bool maxNoise (- DBL_MAX) then Throw SPECTRUM_CORRECTION_ERROR
    else
      do r <- correct_loop fl no (fmul maxNoise coeff) (fdiv minFlux coeff) (Z.to_nat iMin) n (fl, no, O);
      let '(fl1, no1, c) := r in
      Ok (negb (Nat.eqb c 0), fl1, no1, c).

(** fluxaxis.cpp:82-87 *)
Definition setError {A} (current other : list A) : res (list A) :=
  if Nat.eqb (length other) (length current) then Ok other else Throw INTERNAL_ERROR.
(** fluxaxis.cpp:275-285 *)
Definition Subtract (v other : list Q) : res (list Q) :=
  if Nat.eqb (length other) (length v) then Ok (map (fun p => fst p - snd p) (combine v other)) else Throw INTERNAL_ERROR.
(** fluxaxis.cpp:287-293 *)
Definition FluxInvert (v : list Q) : list Q := map Qopp v.
(** fluxaxis.cpp:149-156: std::max_element keeps the first of the largest; an empty range dereferences end() *)
Fixpoint max_abs_from (best : Q) (l : list Q) : Q :=
  match l with
  | [] => best
  | x :: t => max_abs_from (if Qltb (Qabs best) (Qabs x) then x else best) t
  end.
Definition computeMaxAbsValue (v : list Q) (imin imax : nat) : res Q :=
  if (Nat.ltb imax (length v) && Nat.leb imin (S imax))%bool then
    match firstn (S imax - imin) (skipn imin v) with
    | [] => if Nat.ltb imin (length v) then do x <- vget v imin; Ok (Qabs x) else UB
    | x :: t => Ok (Qabs (max_abs_from x t))
    end
  else UB.
