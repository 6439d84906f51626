(** Model of the air/vacuum converters (RedshiftLibrary/src/lib/line/airvacuum.cpp,
    RedshiftLibrary/RedshiftLibrary/line/airvacuum.h).  Exact rationals. *)
From Coq Require Import String.
From Verif Require Import Base.
Open Scope Q_scope.

(** CAirVacuum, airvacuum.h:70-76, with the range accepted by CheckWaveRange ([None]: no upper limit) and whether AirToVac is
    the direct one (CAirVacMorton2000) *)
Record conv := mkConv { k_a : Q; k_b1 : Q; k_b2 : Q; k_c1 : Q; k_c2 : Q; k_min : Q; k_max : option Q; k_direct : bool }.
(** airvacuum.h:82-130 and CheckWaveRange, airvacuum.cpp:166-232 *)
Definition edlen1953 : conv := mkConv (64328 # 1000000000) (294981 # 10000000) (25540 # 100000000) 146 41 2000 None false.
Definition edlen1966 : conv := mkConv (834213 # 10000000000) (2406030 # 100000000) (15997 # 100000000) 130 (389 # 10) 2000 None false.
Definition PeckReeder1972 : conv := mkConv 0 (5791817 # 100000000) (167909 # 100000000) (2380185 # 10000) (57362 # 1000) 3000 (Some 19000) false.
Definition ciddor1996 : conv := mkConv 0 (5792105 # 100000000) (167917 # 100000000) (2380185 # 10000) (57362 # 1000) 3000 (Some 19000) false.
Definition morton2000 : conv := mkConv (834254 # 10000000000) (2406147 # 100000000) (15998 # 100000000) 130 (389 # 10) 3000 (Some 19000) true.
(** CAirVacuumConverter::Get, airvacuum.cpp:48-65 *)
Definition Get (name : string) : res conv :=
  if String.eqb name "edlen1953" then Ok edlen1953 else
  if String.eqb name "edlen1966" then Ok edlen1966 else
  if String.eqb name "PeckReeder1972" then Ok PeckReeder1972 else
  if String.eqb name "ciddor1996" then Ok ciddor1996 else
  if String.eqb name "morton2000" then Ok morton2000 else Throw UNKNOWN_AIR_VACUUM_CONVERSION.
(** std::min_element, std::max_element *)
Fixpoint qmin (m : Q) (l : list Q) : Q := match l with [] => m | x :: t => qmin (if Qltb x m then x else m) t end.
Fixpoint qmax (m : Q) (l : list Q) : Q := match l with [] => m | x :: t => qmax (if Qltb m x then x else m) t end.
(** CheckWaveRange, airvacuum.cpp:166-232 *)
Definition CheckWaveRange (c : conv) (l : list Q) : res unit :=
  match l with
  | [] => Throw INTERNAL_ERROR
  | x :: t =>
      if Qltb (qmin x t) (k_min c) then Throw INTERNAL_ERROR else
      match k_max c with
      | None => Ok tt
      | Some m => if Qltb m (qmax x t) then Throw INTERNAL_ERROR else Ok tt
      end
  end.
(** AirRefractiveIndex, airvacuum.cpp:153-164 *)
Definition refractive (c : conv) (w : Q) : Q := let s := 100000000 / (w * w) in 1 + k_a c + k_b1 c / (k_c1 c - s) + k_b2 c / (k_c2 c - s).
(** VacToAir, airvacuum.cpp:67-83 *)
Definition VacToAir (c : conv) (l : list Q) : res (list Q) := do _ <- CheckWaveRange c l; Ok (map (fun w => w / refractive c w) l).
(** std::transform with std::minus *)
Fixpoint minus2 (a b : list Q) : list Q := match a, b with x :: a', y :: b' => (x - y) :: minus2 a' b' | _, _ => [] end.
(** the element of largest absolute value, the first one, airvacuum.cpp:111-114 *)
Fixpoint max_abs (m : Q) (l : list Q) : Q := match l with [] => m | x :: t => max_abs (if Qltb (Qabs m) (Qabs x) then x else m) t end.
(** the loop of AirToVac, airvacuum.cpp:101-118: [n] iterations may follow this one; the boolean is the warning (121-126) *)
Fixpoint air_iter (c : conv) (n : nat) (vac air : list Q) : res (list Q * bool) :=
  do v <- VacToAir c vac;
  let delta := minus2 v air in
  let vac' := minus2 vac delta in
  match delta with
  | [] => UB
  | d :: t => if Qle_bool (max_abs d t) (1 # 1000000000) then Ok (vac', false) else
              match n with O => Ok (vac', true) | S m => air_iter c m vac' air end
  end.
(** the index of the direct inversion, airvacuum.cpp:139-143 *)
Definition refractive_air (w : Q) : Q := let s := 100000000 / (w * w) in
  1 + (8336624212083 # 100000000000000000) + (2408926869968 # 100000000000000) / ((1301065924522 # 10000000000) - s) + (1599740894897 # 10000000000000000) / ((3892568793293 # 100000000000) - s).
(** AirToVac, airvacuum.cpp:85-129 and 131-151 *)
Definition AirToVac (c : conv) (l : list Q) : res (list Q * bool) :=
  if k_direct c then do _ <- CheckWaveRange c l; Ok (map (fun w => w * refractive_air w) l, false)
  else do _ <- CheckWaveRange c l; air_iter c 29 l l.
