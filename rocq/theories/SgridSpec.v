(** Vocabulary of C93. *)
From Coq Require Import String.
From Verif Require Import Base RBase RangeModel RangeLogModel FpcModel FpcSpec SgridModel.
Open Scope Q_scope.

(** the grid v of a range, of the steps f 0, f 1, ...: all those which do not exceed the end by more than eps, the last one at most at the end *)
Definition laid (f : nat -> Q) (e eps : Q) (v : list Q) : Prop :=
  exists N, length v = S N /\ f N <= e + eps /\ e + eps < f (S N) /\
    forall i x, nth_error v i = Some x -> x == Qmin (f i) e.
Definition laidR (f : nat -> R) (e eps : R) (v : list R) : Prop :=
  exists N, length v = S N /\ (f N <= e + eps)%R /\ (e + eps < f (S N))%R /\
    forall i x, nth_error v i = Some x -> x = Rmin (f i) e.
Definition nQ (i : nat) : Q := inject_Z (Z.of_nat i).
(** regular steps in z, or in log(1 + z) *)
Definition lin_steps (b step : Q) (i : nat) : Q := b + step * nQ i.
Definition log_steps (b step : R) (i : nat) : R := ((b + 1) * exp (INR i * step) - 1)%R.
(** what the grid builders need: a range, a step larger than the tolerance of 1e-8, at most 2^31 samples *)
Definition fit_lin (r : range) (step : Q) : Prop :=
  rbeg r <= rend r /\ default_epsilon < step /\ (rend r - rbeg r + default_epsilon) / step < 2147483647.
Definition fit_log (r : rrange) (step : R) : Prop :=
  (0 < rb r + 1 /\ rb r <= re r /\ 0 < step /\ epsR < (re r + 1) * (exp step - 1) /\ ln ((re r + epsR + 1) / (rb r + 1)) / step < 2147483647)%R.
(** same redshifts, in any order and number *)
Definition same_redshifts (a b : list ranked) : Prop := forall z, (exists c, In c a /\ at_z c z) <-> (exists c, In c b /\ at_z c z).
(** nothing was fitted at this redshift: no positive line, a continuum amplitude which is a number and not positive *)
Definition null_fit (f : fitted) : Prop := (forall x, In (Some x) (f_amps f) -> x <= 0) /\ exists a, f_cont f = Some a /\ a <= 0.
