(** Model of CPeakDetection (RedshiftLibrary/src/lib/operator/peakdetection.cpp).  Fluxes and wavelengths are exact
    rationals (no NaN, no rounding); indices are Int32 without overflow. *)
From Verif Require Import Base MedianModel FluxModel AxisModel.
Open Scope Q_scope.

(** XMad, peakdetection.cpp:263-285: sorted absolute deviations, middle value or mean of the two middle values;
    n = 0 reads xdata[-1] *)
Definition XMad (x : list Q) (median : Q) : res Q := BeersFind (map (fun v => Qabs (v - median)) x).

(** the iterator range [begin + start, begin + stop) *)
Definition slice {A} (l : list A) (start stop : nat) : res (list A) :=
  if (Nat.leb start stop && Nat.leb stop (length l))%bool then Ok (firstn (stop - start) (skipn start l)) else UB.

(** peakdetection.cpp:200-203; GetIndexAtWaveLength is never negative *)
Definition window_bounds (spectral : list Q) (s : nat) (winsize : Q) (i : nat) : res (nat * nat) :=
  do l <- vget spectral i;
  do start <- GetIndexAtWaveLength spectral (l - winsize / 2);
  do stop <- GetIndexAtWaveLength spectral (l + winsize / 2);
  Ok (start, Nat.min s stop).
(** peakdetection.cpp:192-211, 235: is sample [i] above its threshold? *)
Definition above_threshold (flux spectral : list Q) (winsize cut offset : Q) (i : nat) : res bool :=
  do (start, stop) <- window_bounds spectral (length flux) winsize i;
  do w <- slice flux start stop;
  do med <- Find w;
  do mad <- XMad w med;
  do f <- vget flux i;
  Ok (Qltb (med + (1 # 2) * cut * (mad + offset)) f).
(** loops 192 and 234: the flags of the samples from [i], [n] samples *)
Fixpoint flags (flux spectral : list Q) (winsize cut offset : Q) (i n : nat) : res (list bool) :=
  match n with
  | O => Ok []
  | S m => do b <- above_threshold flux spectral winsize cut offset i;
           do t <- flags flux spectral winsize cut offset (S i) m; Ok (b :: t)
  end.
(** points[0..j-1], 231-236 *)
Fixpoint points_from (i : Z) (l : list bool) : list Z :=
  match l with [] => [] | b :: t => if b then i :: points_from (i + 1) t else points_from (i + 1) t end.
(** peakdetection.cpp:247-260; [rest] is points[i..j] *)
Fixpoint group (start current : Z) (rest : list Z) : list (Z * Z) :=
  match rest with
  | [] => []
  | p :: t => if (p - 1 =? current)%Z then group start p t else (start, current) :: group p p t
  end.
(** the vector points has one more element, initialised to 0 (231) *)
Definition runs (points : list Z) : list (Z * Z) :=
  match points with [] => [] | p :: t => group p p (t ++ [0%Z]) end.
(** FindPossiblePeaks, peakdetection.cpp:179-261 *)
Definition FindPossiblePeaks (flux spectral : list Q) (winsize cut offset : Q) : res (list (Z * Z)) :=
  do l <- flags flux spectral winsize cut offset 0 (length flux); Ok (runs (points_from 0 l)).

(** peakdetection.cpp:151-155: (centerVal, centerPos), [n] samples from [i] *)
Fixpoint center_loop (flux : list Q) (i : Z) (n : nat) (st : Q * Z) : res (Q * Z) :=
  match n with
  | O => Ok st
  | S m => do f <- (if (i <? 0)%Z then UB else vget flux (Z.to_nat i));
           center_loop flux (i + 1) m (if Qltb (fst st) f then (f, i) else st)
  end.
(** GetNewBorder, peakdetection.cpp:121-133; out of fuel is UB *)
Fixpoint GetNewBorder (fuel : nat) (flux : list Q) (new old : Z) (isRightSide : bool) : res (Z * Z) :=
  match fuel with
  | O => UB
  | S k =>
      let border := if isRightSide then (Z.of_nat (length flux) - 1)%Z else 0%Z in
      do a <- (if (new <? 0)%Z then UB else vget flux (Z.to_nat new));
      do b <- (if (old <? 0)%Z then UB else vget flux (Z.to_nat old));
      if Qle_bool a b then
        if (new =? border)%Z then Ok (new, if isRightSide then new else 0%Z)
        else GetNewBorder k flux (if isRightSide then Z.max 0 (new + 1) else Z.max 0 (new - 1))%Z new isRightSide
      else Ok (new, old)
  end.
(** one peak of RedefineBorders, peakdetection.cpp:144-175: is it kept? *)
Definition keep_peak (flux : list Q) (peak : Z * Z) : res bool :=
  let n := Z.of_nat (length flux) in
  let (start, stop) := (fst peak, snd peak + 1)%Z in
  do (_, center) <- center_loop flux start (Z.to_nat (stop - start)) ((-1000000000000 # 1)%Q, (-1)%Z);
  let new_left := Z.max 0 (center - 1) in
  let new_right := Z.min n (center + 1) in
  if ((new_left =? 0) || (new_right =? n))%Z%bool then Ok false
  else
    do (l, _) <- GetNewBorder (S (length flux)) flux new_left center false;
    do (r, _) <- GetNewBorder (S (length flux)) flux new_right center true;
    Ok (negb (r =? l)%Z).
(** RedefineBorders, peakdetection.cpp:139-177: the peaks are visited from the last one, erasing one does not move the
    ones still to be visited *)
Fixpoint RedefineBorders (flux : list Q) (peaks : list (Z * Z)) : res (list (Z * Z)) :=
  match peaks with
  | [] => Ok []
  | p :: t => do t' <- RedefineBorders flux t; do b <- keep_peak flux p; Ok (if b : bool then p :: t' else t')
  end.

(** FindGaussianFitStartAndStop, peakdetection.cpp:97-119 *)
Definition FindGaussianFitStartAndStop (i : nat) (peaks : list (Z * Z)) (enlargeRate len : Z) : res (Z * Z) :=
  do (b, e) <- vget peaks i;
  let fitStart := b in
  let fitStop := (e + 1)%Z in
  let width := (fitStop - fitStart)%Z in
  let fitStart := Z.max 0 (fitStart - enlargeRate * width) in
  let fitStop := Z.min len (fitStop + enlargeRate * width) in
  do fitStart <- (match i with
                  | O => Ok fitStart
                  | S p => do (_, pe) <- vget peaks p; Ok (if (-1 <? pe)%Z then Z.max pe fitStart else fitStart)
                  end);
  do fitStop <- (if Nat.ltb i (length peaks - 1)
                 then do (nb, _) <- vget peaks (S i); Ok (if (-1 <? nb)%Z then Z.min nb fitStop else fitStop)
                 else Ok fitStop);
  Ok (fitStart, fitStop).
Fixpoint enlarge_from (i : nat) (n : nat) (peaks : list (Z * Z)) (rate len : Z) : res (list (Z * Z)) :=
  match n with
  | O => Ok []
  | S m => do r <- FindGaussianFitStartAndStop i peaks rate len; do t <- enlarge_from (S i) m peaks rate len; Ok (r :: t)
  end.

(** Compute, peakdetection.cpp:61-95: [None] is the NULL result, otherwise (PeakList, EnlargedPeakList) *)
Definition Compute (flux spectral : list Q) (winsize cut offset : Q) (halfWidth rate : Z)
  : res (option (list (Z * Z) * list (Z * Z))) :=
  do smoothed <- (if (halfWidth =? 0)%Z then Ok flux else do (_, s) <- ApplyMedianSmooth flux halfWidth; Ok s);
  do peaks <- FindPossiblePeaks smoothed spectral winsize cut offset;
  match peaks with
  | [] => Ok None
  | _ =>
      do peaks <- RedefineBorders smoothed peaks;
      do enlarged <- (if (rate =? 0)%Z then Ok peaks
                      else enlarge_from 0 (length peaks) peaks rate (Z.of_nat (length spectral)));
      Ok (Some (peaks, enlarged))
  end.
