(** Vocabulary for C57. *)
From Verif Require Import Base CalzModel.
Open Scope Q_scope.

(** the table of the extinction curve as the constructors read it: at least two wavelengths *)
Definition first_step (lbda : list Q) : Q := match lbda with a :: b :: _ => b - a | _ => 0 end.
(** steps all equal to the first one, up to 1e-8 of it *)
Definition nearly_regular (lbda : list Q) : Prop :=
  forall i x y, nth_error lbda i = Some x -> nth_error lbda (S i) = Some y -> Qabs ((y - x) - first_step lbda) <= (1#100000000) * Qabs (first_step lbda).
(** the two constructors in a row *)
Definition MakeCalzetti (pow10 : Q -> Q) (lbda corr : list Q) (start step : Q) (n : Z) : res calz :=
  do cc <- NewCalzettiCorrection lbda corr; NewCalzetti pow10 cc start step n.
(** the properties of 10^x used: 10^0 = 1, positive, increasing *)
Definition power_of_ten (f : Q -> Q) : Prop := (forall x y, x == y -> f x == f y) /\ f 0 == 1 /\ (forall x, 0 < f x) /\ (forall x y, x <= y -> f x <= f y).
