(** Vocabulary for C58. *)
From Verif Require Import Base RangeModel LsfModel.
Open Scope Q_scope.

(** the wavelengths of a variable width are sorted (the code does not check it) *)
Definition sorted_lsf (l : lsf) : Prop := match l with VariableWidth ax _ => increasing ax | _ => True end.
(** what is used of the square root *)
Definition root_ok (f : Q -> Q) : Prop := forall x, 0 < x -> 0 < f x.
(** the value at lam of the line through (x, w) and (y, v) *)
Definition on_segment (x w y v lam r : Q) : Prop := x < y /\ x <= lam <= y /\ r * (y - x) == w * (y - lam) + v * (lam - x).
(** first and last wavelengths *)
Definition ends (ax : list Q) (a b : Q) : Prop := nth_error ax 0 = Some a /\ nth_error ax (length ax - 1) = Some b.
