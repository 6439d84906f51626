(** Vocabulary for C65. *)
From Verif Require Import Base RangeModel AxisModel ElemModel.
Open Scope Z_scope.

(** a support is a range of samples [fst p .. snd p] *)
Definition nonempty (p : Z * Z) : Prop := fst p <= snd p.
Definition in_support (t : Z) (p : Z * Z) : Prop := fst p <= t <= snd p.
Definition inside (p q : Z * Z) : Prop := fst q <= fst p /\ snd p <= snd q.
(** two supports have at least two samples in common *)
Definition overlap (p q : Z * Z) : Prop := exists t, in_support t p /\ in_support t q /\ in_support (t + 1) p /\ in_support (t + 1) q.
(** two lines are linked when one goes from the first to the second through lines whose supports overlap *)
Inductive linked (inr : nat -> Prop) (theo : nat -> Z * Z) (k : nat) : nat -> Prop :=
| linked_refl : inr k -> linked inr theo k k
| linked_step l m : linked inr theo k l -> inr m -> overlap (theo l) (theo m) -> linked inr theo k m.

(** line [k] of the element is used *)
Definition used (s : support) (k : nat) : Prop := (k < s_size s)%nat /\ s_out s k = false.

Open Scope Q_scope.
(** the window of a line, limited to the wavelength range *)
Definition win_lo (mu w : Q) (r : range) : Q := Qmax (mu - w / 2) (rbeg r).
Definition win_hi (mu w : Q) (r : range) : Q := Qmin (mu + w / 2) (rend r).
Definition nth_is (axis : list Q) (t : Z) (x : Q) : Prop := (0 <= t)%Z /\ nth_error axis (Z.to_nat t) = Some x.
(** consecutive samples are not further apart than [d] *)
Definition step_le (axis : list Q) (d : Q) : Prop := forall i x y, nth_error axis i = Some x -> nth_error axis (S i) = Some y -> y - x <= d.
(** the wavelength range is inside the spectral axis *)
Definition range_in_axis (axis : list Q) (r : range) : Prop :=
  exists f l, nth_error axis 0 = Some f /\ nth_error axis (length axis - 1) = Some l /\ f <= rbeg r /\ rbeg r <= rend r /\ rend r <= l.
(** the observed position of a line and the width of its window *)
Definition line_mu (l : sline) (z : Q) : Q := l_pos l * (1 + z) * (1 + l_off l / speed_of_light) - l_delta l.
Definition line_win (width : Q -> Q) (l : sline) (z max_offset : Q) : Q :=
  l_nsigma l * width (line_mu l z) + 2 * (max_offset / speed_of_light) * line_mu l z.
(** a line is used when its support is not empty, begins before the last third (of the window) of the range and ends after the first third of the range *)
Definition kept (axis : list Q) (r : range) (mu w : Q) : Prop :=
  exists b e xb xe, EstimateIndexRange axis mu r w = Ok (b, e) /\ (b <= e)%Z /\ nth_is axis b xb /\ nth_is axis e xe /\
    xb < rend r - overlap_threshold * w /\ rbeg r + overlap_threshold * w < xe.

