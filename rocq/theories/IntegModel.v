(** Model of the integration of a flux and of its statistics: RedshiftLibrary/src/lib/spectrum/spectrum.cpp:369-389, 692-718 and
    fluxaxis.cpp:158-213.  Exact rationals; the special values of the divisions by a null error are kept (no overflow). *)
From Verif Require Import Base RangeModel CalzModel F64 AxisModel.
Open Scope Q_scope.

(** the loop of one range of indices, spectrum.cpp:707-714: [n] steps from index [t]; unchecked reads *)
Fixpoint trapz_loop (xs ys es : list Q) (t : Z) (n : nat) (acc : Q * Q) : res (Q * Q) :=
  match n with
  | O => Ok acc
  | S k =>
      do x1 <- zget xs (t + 1); do x0 <- zget xs t;
      let w := (x1 - x0) * (1 # 2) in
      do y1 <- zget ys (t + 1); do y0 <- zget ys t;
      do e0 <- zget es t; do e1 <- zget es (t + 1);
      trapz_loop xs ys es (t + 1) k (fst acc + w * (y1 + y0), snd acc + w * w * (e1 * e1 + e0 * e0))
  end.
(** the loop on the ranges, spectrum.cpp:706-716; a range is its first and last index *)
Fixpoint trapz_ranges (xs ys es : list Q) (rs : list (Z * Z)) (acc : Q * Q) : res (Q * Q) :=
  match rs with
  | [] => Ok acc
  | (b, e) :: t => do a <- trapz_loop xs ys es b (Z.to_nat (e - b)) acc; trapz_ranges xs ys es t a
  end.
(** integrateFluxes_usingTrapez, spectrum.cpp:692-718 *)
Definition integrate (xs ys es : list Q) (rs : list (Z * Z)) : res (Q * Q) :=
  if Nat.ltb (length xs) 2 then Throw INTERNAL_ERROR
  else if negb (Nat.eqb (length xs) (length ys)) then Throw INTERNAL_ERROR
  else trapz_ranges xs ys es rs (0, 0).

(** ** IEEE operations on the special values (no overflow, no signed zero: every null divisor here is a square, +0) *)
Definition xsign (a : Q) : comparison := Qcompare a 0.
Definition xinf (c : comparison) : f64 := match c with Eq => NaN | Lt => NInf | Gt => PInf end.
Definition copp (c : comparison) : comparison := match c with Eq => Eq | Lt => Gt | Gt => Lt end.
Definition xmul (a b : f64) : f64 :=
  match a, b with
  | Fin x, Fin y => Fin (x * y)
  | NaN, _ | _, NaN => NaN
  | Fin x, PInf | PInf, Fin x => xinf (xsign x)
  | Fin x, NInf | NInf, Fin x => xinf (copp (xsign x))
  | PInf, PInf | NInf, NInf => PInf
  | PInf, NInf | NInf, PInf => NInf
  end.
Definition xadd (a b : f64) : f64 :=
  match a, b with
  | Fin x, Fin y => Fin (x + y)
  | NaN, _ | _, NaN => NaN
  | PInf, NInf | NInf, PInf => NaN
  | PInf, _ | _, PInf => PInf
  | NInf, _ | _, NInf => NInf
  end.
Definition xneg (a : f64) : f64 := match a with NaN => NaN | PInf => NInf | NInf => PInf | Fin x => Fin (- x) end.
Definition xdiv (a b : f64) : f64 :=
  match a, b with
  | Fin x, Fin y => if Qeq_bool y 0 then xinf (xsign x) else Fin (x / y)
  | NaN, _ | _, NaN => NaN
  | Fin _, _ => Fin 0
  | PInf, Fin y => if Qltb y 0 then NInf else PInf
  | NInf, Fin y => if Qltb y 0 then PInf else NInf
  | _, _ => NaN
  end.

(** the sums of the loop, fluxaxis.cpp:172-186 *)
Record sums := mkSums { s1 : f64; s2 : f64; sw : f64; sw2 : f64 }.
Fixpoint mean_loop (mask ys es : list f64) (a : sums) : sums :=
  match mask, ys, es with
  | m :: mt, y :: yt, e :: et =>
      let w := xdiv (Fin 1) (xmul e e) in
      mean_loop mt yt et (mkSums (xadd (s1 a) (xmul (xmul m y) w)) (xadd (s2 a) (xmul (xmul (xmul m y) y) w))
                                 (xadd (sw a) (xmul m w)) (xadd (sw2 a) (xmul (xmul m w) w)))
  | _, _, _ => a
  end.
(** ComputeMeanAndSDev, fluxaxis.cpp:158-195: the returned flag, the mean and the square of the standard deviation (the argument of
    the square root).  The error axis has as many samples as the flux (fluxaxis.cpp:51-80); the masks are 0 and 1. *)
Definition ComputeMeanAndSDev (mask : list N) (ys es : list f64) : res (bool * f64 * f64) :=
  if negb (Nat.eqb (length mask) (length ys)) then Throw INTERNAL_ERROR
  else
    let a := mean_loop (map (fun n => Fin (inject_Z (Z.of_N n))) mask) ys es (mkSums (Fin 0) (Fin 0) (Fin 0) (Fin 0)) in
    if flt (Fin 0) (sw a) then
      let mean := xdiv (s1 a) (sw a) in
      Ok (true, mean, xdiv (xadd (s2 a) (xneg (xmul (xmul mean mean) (sw a)))) (xadd (sw a) (xneg (xdiv (sw2 a) (sw a)))))
    else Ok (false, NaN, NaN).
(** GetMeanAndStdFluxInRange, spectrum.cpp:369-389.  [None]: the call returned false and gave nothing. *)
Definition GetMeanAndStdFluxInRange (axis : list Q) (ys es : list f64) (r : range) : res (option (f64 * f64)) :=
  do l <- GetLambdaRange axis;
  if Qltb (rbeg r) (rbeg l) then Ok None
  else if Qltb (rend l) (rend r) then Ok None
  else do x <- ComputeMeanAndSDev (GetMask axis r) ys es; Ok (Some (snd (fst x), snd x)).
(** ComputeRMSDiff, fluxaxis.cpp:197-213: the square of the result, NaN never occurs as an empty axis gives an empty sum *)
Fixpoint rms_loop (a b : list Q) (weight acc : Q) : Q :=
  match a, b with x :: s, y :: t => rms_loop s t weight (acc + (x - y) * (x - y) / weight) | _, _ => acc end.
Definition ComputeRMSDiff2 (a b : list Q) : res Q :=
  if negb (Nat.eqb (length b) (length a)) then Throw INTERNAL_ERROR else Ok (rms_loop a b (inject_Z (Z.of_nat (length a))) 0).
