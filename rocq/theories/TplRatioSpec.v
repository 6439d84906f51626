(** Vocabulary for C52. *)
From Verif Require Import Base.
Open Scope Q_scope.

(** chi-square of measured amplitudes against [a] times the template amplitudes; a line is (measured, error, template) *)
Fixpoint chi2 (a : Q) (l : list (Q * Q * Q)) : Q :=
  match l with
  | [] => 0
  | (y, e, t) :: r => (y - a * t) * (y - a * t) / (e * e) + chi2 a r
  end.
Definition zip3 (y e t : list Q) : list (Q * Q * Q) := combine (combine y e) t.
(** template and measures uncorrelated / null template *)
Fixpoint cross_sum (l : list (Q * Q * Q)) : Q := match l with [] => 0 | (y, e, t) :: r => y * t / (e * e) + cross_sum r end.
Fixpoint tpl_sum (l : list (Q * Q * Q)) : Q := match l with [] => 0 | (y, e, t) :: r => t * t / (e * e) + tpl_sum r end.
(** [k] is the first index with the smallest strictly positive value of [l] *)
Definition first_best (l : list (option Q)) (k : nat) (v : Q) : Prop :=
  nth_error l k = Some (Some v) /\ 0 < v /\
  forall j w, nth_error l j = Some (Some w) -> 0 < w -> v <= w /\ ((j < k)%nat -> v < w).
