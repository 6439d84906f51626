(** Vocabulary for C21 and C22. *)
From Verif Require Import Base F64.
Open Scope Q_scope.

(** the samples whose index is at most k away from i, in order (the window is truncated at the borders) *)
Definition neighbours (v : list Q) (i : nat) (k : Z) : list Q :=
  map (fun j => nth j v 0)
      (filter (fun j => (Z.abs (Z.of_nat j - Z.of_nat i) <=? k)%Z) (seq 0 (length v))).

(** valid flux: a finite number.  valid noise: a finite number, at least the smallest normal double, whose
    inverse square is representable *)
Definition valid_flux (x : f64) : Prop := exists q, x = Fin q.
Definition valid_noise (x : f64) : Prop := exists q, x = Fin q /\ DBL_MIN <= q /\ 1 / (q * q) <= DBL_MAX.
(** index i of the spectrum lies in [iMin, iMax[ and has valid flux and noise *)
Definition in_zone (iMin iMax : Z) (i : nat) : Prop := (iMin <= Z.of_nat i < iMax)%Z.
Definition valid_at (fl no : list f64) (i : nat) : Prop :=
  exists f e, nth_error fl i = Some f /\ nth_error no i = Some e /\ valid_flux f /\ valid_noise e.
(** the largest valid noise and the smallest valid absolute flux of the zone *)
Definition largest_noise (fl no : list f64) (iMin iMax : Z) (m : Q) : Prop :=
  (exists i, in_zone iMin iMax i /\ valid_at fl no i /\ exists e, nth_error no i = Some (Fin e) /\ e == m) /\
  (forall i e, in_zone iMin iMax i -> valid_at fl no i -> nth_error no i = Some (Fin e) -> e <= m).
Definition smallest_flux (fl no : list f64) (iMin iMax : Z) (m : Q) : Prop :=
  (exists i, in_zone iMin iMax i /\ valid_at fl no i /\ exists f, nth_error fl i = Some (Fin f) /\ Qabs f == m) /\
  (forall i f, in_zone iMin iMax i -> valid_at fl no i -> nth_error fl i = Some (Fin f) -> m <= Qabs f).
(** every double is a number of absolute value at most DBL_MAX *)
Definition representable (v : list f64) : Prop := forall q, In (Fin q) v -> Qabs q <= DBL_MAX.
