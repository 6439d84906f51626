(** Vocabulary for C40. *)
From Verif Require Import Base.
Open Scope Q_scope.

(** number of samples different from zero *)
Definition nonzeros (y : list Q) : nat := length (filter (fun x => negb (Qeq_bool x 0)) y).
(** [k0] and [k1] are the first and the last sample different from zero *)
Definition effective (y : list Q) (k0 k1 : nat) : Prop :=
  (k0 <= k1)%nat /\ (exists a, nth_error y k0 = Some a /\ ~ a == 0) /\ (exists b, nth_error y k1 = Some b /\ ~ b == 0) /\
  (forall j x, nth_error y j = Some x -> (j < k0 \/ k1 < j)%nat -> x == 0).
(** all the samples of [y] of index at most [r] away from [i] are between [lo] and [hi] *)
Definition near_between (y : list Q) (i r : nat) (lo hi : Q) : Prop :=
  forall j x, (i <= j + r)%nat -> (j <= i + r)%nat -> nth_error y j = Some x -> lo <= x /\ x <= hi.
(** [z] has as many samples as [y], each of them within the values of [y] up to [r] samples away *)
Definition local_average (r : nat) (y z : list Q) : Prop :=
  length z = length y /\ forall i v lo hi, nth_error z i = Some v -> near_between y i r lo hi -> lo <= v /\ v <= hi.
(** samples multiplied by [a] *)
Definition scaled (a : Q) (y y' : list Q) : Prop := Forall2 (fun x x' => x' == a * x) y y'.
Definition oscaled (a : Q) (y y' : list (option Q)) : Prop :=
  Forall2 (fun x x' => match x, x' with Some u, Some u' => u' == a * u | None, None => True | _, _ => False end) y y'.
(** the samples of index in [a, b), as far as they exist *)
Definition samples (y : list Q) (a b : nat) : list Q := firstn (b - a) (skipn a y).
Fixpoint total (l : list Q) : Q := match l with [] => 0 | x :: t => x + total t end.
(** index in [k0, k1] *)
Definition inside (k0 k1 j : nat) : Prop := (k0 <= j)%nat /\ (j <= k1)%nat.
