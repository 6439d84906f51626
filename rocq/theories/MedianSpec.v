(** Vocabulary for C10. *)
From Verif Require Import Base.
Open Scope Q_scope.

(** number of samples satisfying a predicate *)
Definition count (f : Q -> bool) (l : list Q) : nat := length (filter f l).
(** [v] is a sample of [l] and is its k-th order statistic (k from 0): fewer than k+1 samples are
    strictly below it and at least k+1 samples are not above it. *)
Definition order_statistic (l : list Q) (k : nat) (v : Q) : Prop :=
  (exists x, In x l /\ x == v) /\
  (count (fun x => Qltb x v) l <= k)%nat /\ (k < count (fun x => Qle_bool x v) l)%nat.
(** at least half of the samples are on each side *)
Definition weak_median (l : list Q) (v : Q) : Prop :=
  (length l <= 2 * count (fun x => Qle_bool x v) l)%nat /\
  (length l <= 2 * count (fun x => Qle_bool v x) l)%nat.
