(** Model of the sample lookups of RedshiftLibrary/src/lib/spectrum/spectralaxis.cpp (CSpectrumSpectralAxis)
    and of src/lib/spectrum/axis.cpp (CSpectrumAxis).  An axis is its vector of samples (exact rationals);
    the cached verdicts are modelled apart, in AxisFlagModel.v. *)
From Coq Require Import NArith.
From Verif Require Import Base RangeModel MaskModel.
Open Scope Q_scope.

(** axis.cpp:78-92.  Any sample type; the mask value kept is 1. *)
Fixpoint keep_masked {A} (mask : list Q) (v : list A) : list A :=
  match mask, v with
  | m :: ms, x :: xs => if Qeq_bool m 1 then x :: keep_masked ms xs else keep_masked ms xs
  | _, _ => []
  end.
Definition maskVector {A} (mask : list Q) (v : list A) : res (list A) :=
  if Nat.eqb (length mask) (length v) then Ok (keep_masked mask v) else Throw INTERNAL_ERROR.

(** spectralaxis.cpp:326-340; m_Samples[lo] on an empty axis is UB *)
Definition GetIndexAtWaveLength (s : list Q) (w : Q) : res nat :=
  do f <- front s;
  if Qle_bool w f then Ok 0%nat
  else
    do b <- back s;
    if Qle_bool b w then Ok (length s - 1)%nat
    else Ok (lower_bound s w).
(** spectralaxis.cpp:313-321 *)
Definition GetIndexesAtWaveLengthRange (s : list Q) (r : range) : res (nat * nat) :=
  do b <- GetIndexAtWaveLength s (rbeg r);
  do e <- GetIndexAtWaveLength s (rend r);
  Ok (b, e).

(** spectralaxis.cpp:179-199 *)
Definition GetResolution (s : list Q) (w : Q) : res Q :=
  if Nat.ltb (length s) 2 then Ok 0
  else if Qle_bool 0 w then
    do i0 <- GetIndexAtWaveLength s w;
    let i1 := if Nat.ltb (length s - 1) i0 then (length s - 1)%nat else i0 in
    let i := if Nat.ltb i1 1 then 1%nat else i1 in
    do y <- vget s i; do x <- vget s (i - 1); Ok (y - x)
  else do y <- vget s 1; do x <- vget s 0; Ok (y - x).

(** spectralaxis.cpp:208-211: [n] steps from index [i] *)
Fixpoint sum_steps (s : list Q) (i n : nat) (acc : Q) : res Q :=
  match n with
  | O => Ok acc
  | S k => do y <- vget s (S i); do x <- vget s i; sum_steps s (S i) k (acc + (y - x))
  end.
(** spectralaxis.cpp:201-218; indices are Int32, a negative begin reads before the array (UB) *)
Definition GetMeanResolution_range (s : list Q) (ib ie : Z) : res Q :=
  if (ie - ib <? 1)%Z then Ok 0
  else if (ib <? 0)%Z then UB
  else do sum <- sum_steps s (Z.to_nat ib) (Z.to_nat (ie - ib)) 0;
       Ok (sum / inject_Z (ie - ib)).
(** spectralaxis.h:90-92 *)
Definition GetMeanResolution (s : list Q) : res Q :=
  GetMeanResolution_range s 0 (Z.of_nat (length s) - 1).

(** spectralaxis.cpp:223-227 *)
Definition GetLambdaRange (s : list Q) : res range :=
  if Nat.ltb (length s) 2 then Ok (mkRange 0 0)
  else do f <- front s; do b <- back s; Ok (mkRange f b).

(** spectralaxis.cpp:232-247 *)
Definition in_lambda (r : range) (x : Q) : bool := (Qle_bool (rbeg r) x && Qle_bool x (rend r))%bool.
Definition GetMask (s : list Q) (r : range) : mask :=
  map (fun x => if in_lambda r x then 1%N else 0%N) s.

(** spectralaxis.cpp:258-269: returns (otherRate, selfRate); omask[i] is read for samples inside the range
    only, and reading past the mask is UB *)
Fixpoint overlap_counts (s : list Q) (r : range) (om : mask) (i : nat) (c : Z * Z) : res (Z * Z) :=
  match s with
  | [] => Ok c
  | x :: t =>
      if in_lambda r x then
        do m <- vget om i;
        overlap_counts t r om (S i)
          ((if (m =? 0)%N then fst c else (fst c + 1)%Z), (snd c + 1)%Z)
      else overlap_counts t r om (S i) c
  end.
(** spectralaxis.cpp:252-275 *)
Definition IntersectMaskAndComputeOverlapFraction_axis (s : list Q) (r : range) (om : mask) : res Q :=
  do c <- overlap_counts s r om 0 (0%Z, 0%Z);
  if (snd c =? 0)%Z then Ok 0 else Ok (inject_Z (fst c) / inject_Z (snd c)).

(** spectralaxis.cpp:280-308 (the output reference is the returned range; on a throw the caller's range has
    been overwritten, which is not modelled) *)
Definition ClampLambdaRange (s : list Q) (r : range) : res range :=
  do e <- GetLambdaRange s;
  if GetIsEmpty r then Throw INVALID_WAVELENGTH_RANGE
  else if GetIsEmpty e then Throw INVALID_SPECTRUM_WAVELENGTH
  else
    let start := if Qltb (rbeg r) (rbeg e) then rbeg e else rbeg r in
    let stop := if Qltb (rend e) (rend r) then rend e else rend r in
    if Qle_bool (stop - start) 0 then Throw INVALID_WAVELENGTH_RANGE
    else Ok (mkRange start stop).

(** spectralaxis.h:67 *)
Inductive shift_direction := nShiftForward | nShiftBackward.
(** spectralaxis.cpp:148-165 (samples only; both enumerators are handled, so line 153 never throws) *)
Definition ShiftByWaveLength (s : list Q) (off : Q) (d : shift_direction) : res (list Q) :=
  if Qltb off 0 then Throw INTERNAL_ERROR
  else if Qeq_bool off 0 then Ok s
  else match d with
       | nShiftForward => Ok (map (fun x => x * off) s)
       | nShiftBackward => Ok (map (fun x => x / off) s)
       end.

(** spectralaxis.cpp:445-448: [i] is decremented by [ratio]; [fuel] bounds the number of iterations (a run
    that needs more never ends: ratio <= 0). *)
Fixpoint submask_loop (fuel : nat) (mask : list Q) (i ib ratio : Z) : res (list Q) :=
  match fuel with
  | O => UB
  | S f =>
      if (i <? ib)%Z then Ok mask
      else if (i <? 0)%Z then UB
      else do m <- vset mask (Z.to_nat i) 1; submask_loop f m (i - ratio) ib ratio
  end.
(** spectralaxis.cpp:431-450.  [islog] is the answer of IsLogSampled().  Line 438 compares an Int32 with an
    unsigned 64-bit size: a negative end is a huge number, and size()-1 of an empty axis is huge too. *)
Definition GetSubSamplingMask (islog : bool) (n : nat) (ratio ib ie : Z) : res (list Q) :=
  if negb islog then Throw INTERNAL_ERROR
  else if (ib <? 0)%Z then Throw INTERNAL_ERROR
  else if (((Z.of_nat n - 1) mod 2 ^ 64) <? (ie mod 2 ^ 64))%Z then Throw INTERNAL_ERROR
  else if (ratio =? 1)%Z then Ok (repeat 1 n)
  else submask_loop (S (S n)) (repeat 0 n) ie ib ratio.
(** spectralaxis.cpp:418-420 *)
Definition GetSubSamplingMask_all (islog : bool) (n : nat) (ratio : Z) : res (list Q) :=
  GetSubSamplingMask islog n ratio 0 (Z.of_nat n - 1).
(** spectralaxis.cpp:422-427 *)
Definition GetSubSamplingMask_lambda (islog : bool) (s : list Q) (ratio : Z) (r : range) : res (list Q) :=
  do ij <- getClosedIntervalIndices r s;
  GetSubSamplingMask islog (length s) ratio (Z.of_nat (fst ij)) (Z.of_nat (snd ij)).

(** std::round: halves away from zero *)
Definition Qround_away (x : Q) : Z := if Qltb x 0 then Qceiling (x - (1#2)) else Qfloor (x + (1#2)).
(** spectralaxis.cpp:462-472: (ratio, modulo); the conversion to Int32 is UB when it does not fit, the
    division by a null step gives inf/NaN whose conversion is UB *)
Definition GetLogSamplingIntegerRatio (islog : bool) (step logstep : Q) : res (Z * Q) :=
  if negb islog then Throw INTERNAL_ERROR
  else if Qeq_bool step 0 then UB
  else
    let ratio := Qround_away (logstep / step) in
    if (Z.leb (-2147483648) ratio && Z.leb ratio 2147483647)%bool
    then Ok (ratio, logstep - inject_Z ratio * step) else UB.
