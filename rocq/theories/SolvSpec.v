(** Vocabulary for C74. *)
From Verif Require Import Base SolvModel.
Open Scope Q_scope.

(** where the values can go from p0 *)
Definition in_range (p0 p : params) : Prop :=
  (Qmin (p_cut p0) (Qmin (p_strong p0) (-188 # 100)) <= p_cut p <= Qmax (p_cut p0) (Qmax (p_strong p0) 10)) /\
  (Qmin (p_strong p0) (1 # 100) <= p_strong p <= Qmax (p_strong p0) 10) /\
  (p_win p0 <= p_win p <= Qmax (p_win p0) 11800) /\
  (Qmin (p_fwhh p0) (1 # 1000) <= p_fwhh p <= Qmax (p_fwhh p0) 10).
Section S.
Variables (dynamic : bool) (detect : params -> res Z) (match_ : params -> res bool) (p0 : params).
Definition loop (n : nat) : res (search + ending) := run dynamic detect match_ n (start p0).
(** the parameters of the turn number i *)
Definition tried (i : nat) (p : params) : Prop := exists st, loop i = Ok (inl st) /\ cur st = p.
(** the turn number i is the last one, with a redshift *)
Definition ends_at (i : nat) (p : params) : Prop := tried i p /\ loop (S i) = Ok (inr Found).
(** all the values were used before the turn i *)
Definition exhausted (i : nat) : Prop := exists st, loop i = Ok (inl st) /\ bypass st = true.
(** p was used in a turn before n, no turn before n had more lines, and the later ones had less *)
Definition last_best (n : nat) (p : params) : Prop :=
  exists k c, (k < n)%nat /\ tried k p /\ detect p = Ok c /\ forall i q d, (i < n)%nat -> tried i q -> detect q = Ok d -> (d <= c)%Z /\ ((k < i)%nat -> (d < c)%Z).
End S.
