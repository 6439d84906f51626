(** Vocabulary for the range / grid properties (C01-C09). Independent of the model's functions:
    only the data type [range] is shared. *)
From Verif Require Import Base RangeModel.
Open Scope Q_scope.

(** the closed interval described by a range *)
Definition inside (r : range) (x : Q) : Prop := rbeg r <= x /\ x <= rend r.
Definition well_formed (r : range) : Prop := rbeg r <= rend r.
(** the union of a list of closed intervals *)
Definition covered (l : list range) (x : Q) : Prop := exists r, In r l /\ inside r x.
(** any two ranges, in list order, are separated by a non-empty gap *)
Definition separated (l : list range) : Prop :=
  forall i j a b, (i < j)%nat -> nth_error l i = Some a -> nth_error l j = Some b -> rend a < rbeg b.

(** [v] is the arithmetic progression x0, x0+d, ..., of [length v] terms *)
Definition arithmetic (v : list Q) (x0 d : Q) : Prop :=
  forall i x, nth_error v i = Some x -> x == x0 + d * inject_Z (Z.of_nat i).

Definition first_is (v : list Q) (x : Q) : Prop := exists y, nth_error v 0 = Some y /\ y == x.
Definition last_is (v : list Q) (x : Q) : Prop := exists y, nth_error v (length v - 1) = Some y /\ y == x.

(** the largest index bracketing from below / smallest from above *)
Definition bracket_below (l : list Q) (b : Q) (i : nat) : Prop :=
  exists x, nth_error l i = Some x /\ x <= b /\
  (forall j y, (i < j)%nat -> nth_error l j = Some y -> b < y \/ y == x).
Definition bracket_above (l : list Q) (e : Q) (i : nat) : Prop :=
  exists x, nth_error l i = Some x /\ e <= x /\ (forall j y, (j < i)%nat -> nth_error l j = Some y -> y < e).

(** index of a sample at minimal distance of v *)
Definition nearest (l : list Q) (v : Q) (i : nat) : Prop :=
  exists x, nth_error l i = Some x /\ forall y, In y l -> Qabs (x - v) <= Qabs (y - v).

(** largest number of steps for which the Int32 count is representable *)
Definition int32_max : Q := 2147483647.

(** Description of the epsilon grids (both directions).
    [d] step; consecutive samples differ by exactly the step, except at the clamped end where the
    difference is short of it by at most [eps]. *)
Definition near_uniform (v : list Q) (d eps : Q) : Prop :=
  forall i x y, nth_error v i = Some x -> nth_error v (S i) = Some y -> d - eps <= y - x /\ y - x <= d.
