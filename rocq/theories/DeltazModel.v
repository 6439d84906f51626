(** Model of CDeltaz (RedshiftLibrary/src/lib/statistics/deltaz.cpp, default arguments of deltaz.h:57: gslfit = 0).
    Values are real numbers: rounding is not modelled.  The GSL quadratic fit (Compute3ddl, only with gslfit = 1, a
    value no caller uses) is not modelled. *)
From Verif Require Import Base RBase.
Open Scope R_scope.

(** std::lower_bound on a sorted vector *)
Fixpoint Rlower_bound (l : list R) (v : R) : nat :=
  match l with [] => O | x :: t => if Rltb x v then S (Rlower_bound t v) else O end.

(** GetIndices, deltaz.cpp:87-107: (iz, izmin, izmax) *)
Definition GetIndices (redshifts : list R) (redshift : R) (half : Z) : res (Z * Z * Z) :=
  let k := Rlower_bound redshifts redshift in
  match nth_error redshifts k with
  | None => Throw INTERNAL_ERROR
  | Some x =>
      if negb (Reqb x redshift) then Throw INTERNAL_ERROR else
      let iz := Z.of_nat k in
      Ok (iz, Z.max (iz - half) 0, Z.min (iz + half) (Z.of_nat (length redshifts) - 1))%Z
  end.

(** deltaz.cpp:120-128, [n] samples from [i]: (sum, sum2) *)
Fixpoint curv_loop (merits z : list R) (x0 y0 : R) (i n : nat) (sum sum2 : R) : res (R * R) :=
  match n with
  | O => Ok (sum, sum2)
  | S m =>
      do x <- vget z i; do y <- vget merits i;
      let xi2 := (x - x0) * (x - x0) in
      let yi := y0 - y in
      curv_loop merits z x0 y0 (S i) m (sum + xi2 * yi) (sum2 + xi2 * xi2)
  end.
(** Compute, deltaz.cpp:109-137.  [None] is NaN: 0/0 when every sample of the window is at x0 (sum is then null too);
    the comparison with 0 is then false. *)
Definition Compute (merits z : list R) (iz izmin izmax : Z) : res (option R) :=
  do x0 <- vget z (Z.to_nat iz);
  do y0 <- vget merits (Z.to_nat iz);
  do (sum, sum2) <- curv_loop merits z x0 y0 (Z.to_nat izmin) (Z.to_nat (izmax + 1 - izmin)) 0 0;
  if Reqb sum2 0 then Ok None
  else let c0 := sum / sum2 in
       if Rleb c0 0 then Throw DZ_NOT_COMPUTABLE else Ok (Some (sqrt (1 / c0))).

(** GetDeltaz, deltaz.cpp:51-85: [fuel] attempts left, [deltaz_i] the current one.  GetIndices is outside the try. *)
Fixpoint attempts (z pdf : list R) (redshift : R) (fuel : nat) (deltaz_i : Z) (dz : option R) : res (option R) :=
  match fuel with
  | O => Ok dz
  | S f =>
      do (iz, izmin, izmax) <- GetIndices z redshift (5 / (deltaz_i + 1));
      match Compute pdf z iz izmin izmax with
      | Ok d => Ok d
      | Throw _ => attempts z pdf redshift f (deltaz_i + 1) None
      | UB => UB
      end
  end.
Definition GetDeltaz (z pdf : list R) (redshift : R) : res R :=
  if Nat.eqb (length z) 0 then Throw INTERNAL_ERROR else
  do dz <- attempts z pdf redshift 2 0 None;
  Ok (match dz with Some d => d | None => 1 / 1000 end).
