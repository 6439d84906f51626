(** Vocabulary for the logarithmic grids (C07, C08). *)
From Verif Require Import Base RBase RangeLogModel.
Open Scope R_scope.

Definition Rinside (r : rrange) (x : R) : Prop := rb r <= x <= re r.
(** x_i + offset = (x0 + offset) * exp(i * delta) for every sample *)
Definition geometric (v : list R) (x0 delta offset : R) : Prop :=
  forall i x, nth_error v i = Some x -> x + offset = (x0 + offset) * exp (INR i * delta).
(** consecutive samples: the ratio of (1+z) is exactly exp(delta), except for the first and the last
    interval where it may only be smaller *)
Definition near_geometric (v : list R) (delta : R) : Prop :=
  forall i x y, nth_error v i = Some x -> nth_error v (S i) = Some y ->
    y + 1 <= (x + 1) * exp delta /\
    ((0 < i)%nat -> (S (S i) < length v)%nat -> y + 1 = (x + 1) * exp delta).
