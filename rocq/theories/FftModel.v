(** Cross-correlations by FFT of the template fitting on a logarithmic grid:
    RedshiftLibrary/src/lib/operator/templatefittinglog.cpp, EstimateMtMFast (151-171), EstimateXtY
    (173-272), InitFFT (274-313), freeFFTPrecomputedBuffers (315-324).

    Numbers are reals (rounding is not modelled).  The FFTW library is modelled by its documented
    transforms (not its code): fftw_plan_dft_r2c_1d computes the first n/2+1 terms of the discrete
    Fourier transform and leaves the rest of the output array as it was; fftw_plan_dft_c2r_1d reads
    only the first n/2+1 terms and computes the (unnormalised) real inverse transform.
    Memory allocation failures are not modelled. *)
From Verif Require Import Base RBase.
Open Scope R_scope.

Definition complex := (R * R)%type.

(** sum of f k for k < n *)
Fixpoint rsum (n : nat) (f : nat -> R) : R :=
  match n with O => 0 | S m => rsum m f + f m end.

Definition angle (n k t : nat) : R := 2 * PI * INR k * INR t / INR n.

(** FFTW manual, "The 1d Real-data DFT": term k of the forward transform of [l] (sign -1) *)
Definition dft (n : nat) (l : list R) (k : nat) : complex :=
  (rsum n (fun t => nth t l 0 * cos (angle n k t)),
   - rsum n (fun t => nth t l 0 * sin (angle n k t))).

(** fftw_execute of a r2c plan: only the terms up to n/2 are written *)
Definition r2c (n : nat) (l : list R) (old : list complex) : list complex :=
  map (fun k => if (k <=? n / 2)%nat then dft n l k else nth k old (0, 0)) (seq 0 n).

(** fftw_execute of a c2r plan: term k > n/2 is the conjugate of term n-k, and the imaginary parts
    of the terms 0 and n/2 (n even) are ignored *)
Definition c2r (n : nat) (h : list complex) : list R :=
  let re k := fst (nth k h (0, 0)) in
  let im k := snd (nth k h (0, 0)) in
  map (fun t =>
         re 0%nat
         + rsum ((n - 1) / 2) (fun j => 2 * (re (S j) * cos (angle n (S j) t) - im (S j) * sin (angle n (S j) t)))
         + (if Nat.even n then re (n / 2)%nat * cos (angle n (n / 2) t) else 0))
      (seq 0 n).

(** the FFT members of COperatorTemplateFittingLog; the input buffers are written before being
    read at each call, so only the complex buffers are kept *)
Record fft := mkfft {
  nPadded : nat;                       (* m_nPaddedSamples, also the size of the buffers *)
  outSpc : list complex;
  outTpl : list complex;
  fluxOverErr2 : option (list complex);  (* precomputedFFT_spcFluxOverErr2, null = None *)
  oneOverErr2 : option (list complex) }. (* precomputedFFT_spcOneOverErr2 *)

(** InitFFT (274-313), templatefittinglog.cpp: the contents of the new buffers are arbitrary [j1 j2] *)
Definition InitFFT (n : nat) (j1 j2 : list complex) : fft := mkfft n j1 j2 None None.

(** lines 197-200: zeros, then X reversed *)
Definition padSpc (n : nat) (X : list R) : list R :=
  let before := (n - length X)%nat in
  map (fun k => if (k <? before)%nat then 0 else nth (length X - 1 - (k - before)) X 0) (seq 0 n).

(** lines 242-247: Y, then zeros *)
Definition padTpl (n : nat) (Y : list R) : list R :=
  map (fun k => if (k <? length Y)%nat then nth k Y 0 else 0) (seq 0 n).

(** lines 253-258 *)
Definition cmul (a b : complex) : complex :=
  (fst a * fst b - snd a * snd b, fst a * snd b + snd a * fst b).

(** lines 190-240: the transform of the spectrum, computed or taken back from the buffer of the slot *)
Definition spcFFT (st : fft) (X : list R) (slot : Z) : fft :=
  let n := nPadded st in
  let fresh := r2c n (padSpc n X) (outSpc st) in
  if (slot =? 0)%Z then
    match fluxOverErr2 st with
    | Some b => mkfft n b (outTpl st) (Some b) (oneOverErr2 st)
    | None => mkfft n fresh (outTpl st) (Some fresh) (oneOverErr2 st)
    end
  else if (slot =? 1)%Z then
    match oneOverErr2 st with
    | Some b => mkfft n b (outTpl st) (fluxOverErr2 st) (Some b)
    | None => mkfft n fresh (outTpl st) (fluxOverErr2 st) (Some fresh)
    end
  else mkfft n fresh (outTpl st) (fluxOverErr2 st) (oneOverErr2 st).

(** EstimateXtY (173-272).  Writing outside the padded buffers is UB, so is the front() of an empty
    vector; resize to a negative size throws. *)
Definition EstimateXtY (st : fft) (X Y : list R) (slot : Z) : res (fft * list R) :=
  let n := nPadded st in
  let used := ((slot =? 0)%Z && match fluxOverErr2 st with Some _ => true | None => false end)
              || ((slot =? 1)%Z && match oneOverErr2 st with Some _ => true | None => false end) in
  if (negb used && (n <? length X)%nat)%bool then UB
  else if (n <? length Y)%nat then UB
  else
    let st1 := spcFFT st X slot in
    let ot := r2c n (padTpl n Y) (outTpl st1) in
    let outCombined := map (fun k => cmul (nth k ot (0, 0)) (nth k (outSpc st1) (0, 0))) (seq 0 n) in
    let inCombined := c2r n outCombined in
    if (length Y + 1 <? length X)%nat then Throw STD_length_error
    else if (length Y + 1 =? length X)%nat then UB
    else
      let nshifts := (length Y - length X + 1)%nat in
      Ok (mkfft n (outSpc st1) ot (fluxOverErr2 st1) (oneOverErr2 st1),
          nth (n - 1) inCombined 0 / INR n
          :: map (fun k => nth (k - 1) inCombined 0 / INR n) (seq 1 (nshifts - 1))).

(** EstimateMtMFast (151-171): running sum.  [start] is the value of XtY[0], [k] the next shift *)
Fixpoint mtmLoop (X Y : list R) (prev : R) (k todo : nat) : res (list R) :=
  match todo with
  | O => Ok []
  | S m =>
      do x0 <- vget X 0; do y0 <- vget Y (k - 1);
      do xl <- vget X (length X - 1); do yl <- vget Y (length X - 1 + k - 1);
      let v := prev - x0 * y0 + xl * yl in
      do r <- mtmLoop X Y v (S k) m;
      Ok (v :: r)
  end.
(** the first sum, lines 158-161 *)
Fixpoint dotLoop (X Y : list R) : res R :=
  match X with
  | [] => Ok 0
  | x :: X' => match Y with
               | [] => UB
               | y :: Y' => do s <- dotLoop X' Y'; Ok (x * y + s)
               end
  end.
Definition EstimateMtMFast (X Y : list R) (nShifts : nat) : res (list R) :=
  match nShifts with
  | O => UB
  | S m => do s <- dotLoop X Y; do r <- mtmLoop X Y s 1 m; Ok (s :: r)
  end.

(** a sequence of calls after InitFFT *)
Fixpoint calls (st : fft) (l : list (list R * list R * Z)) : res (list (list R)) :=
  match l with
  | [] => Ok []
  | (X, Y, slot) :: t =>
      do (st', r) <- EstimateXtY st X Y slot;
      do rs <- calls st' t;
      Ok (r :: rs)
  end.
