(** Specification vocabulary for C36. *)
From Verif Require Import Base RangeModel RangeSpec.
Open Scope Q_scope.

Definition eps : Q := 1 # 100000000.
(** the zone replaced by a sub-grid: from its first to its last sample, widened by epsilon *)
Definition replaced (sub : list Q) (x : Q) : Prop :=
  exists a b, nth_error sub 0 = Some a /\ nth_error sub (length sub - 1) = Some b /\ a - eps <= x /\ x <= b + eps.

(** the sub-grid as inserted: its ends are moved onto the ends of the grid when they reach them *)
Definition inserted (sub z sub' : list Q) : Prop :=
  length sub' = length sub /\
  forall k x', nth_error sub' k = Some x' -> exists x, nth_error sub k = Some x /\
    ((x' = x /\ (k = 0%nat -> forall zf, nth_error z 0 = Some zf -> zf < x - eps) /\
                (k = (length sub - 1)%nat -> forall zb, nth_error z (length z - 1) = Some zb -> x + eps < zb)) \/
     (k = 0%nat /\ nth_error z 0 = Some x' /\ x - eps <= x') \/
     (k = (length sub - 1)%nat /\ nth_error z (length z - 1) = Some x' /\ x' <= x + eps)).

(** a sub-grid that can be inserted: at least as many samples as it replaces, at least one, and only its first (last)
    sample may lie outside the grid *)
Definition insertable (sub z : list Q) : Prop :=
  strictly_increasing sub /\ strictly_increasing z /\ (2 <= length z)%nat /\
  (exists x, In x z /\ replaced sub x) /\
  (forall i j xi xj, nth_error z i = Some xi -> nth_error z j = Some xj -> replaced sub xi -> replaced sub xj ->
     (j - i < length sub)%nat) /\
  (forall k x zf, (0 < k)%nat -> nth_error sub k = Some x -> nth_error z 0 = Some zf -> zf < x) /\
  (forall k x zb, (k < length sub - 1)%nat -> nth_error sub k = Some x -> nth_error z (length z - 1) = Some zb -> x < zb).
