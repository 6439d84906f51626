(** What is expected of the peak detection. *)
From Verif Require Import Base MedianSpec.
Open Scope Q_scope.

(** the samples strictly above the threshold [t] *)
Definition above (flux thr : list Q) (i : Z) : Prop :=
  exists f t, (0 <= i)%Z /\ nth_error flux (Z.to_nat i) = Some f /\ nth_error thr (Z.to_nat i) = Some t /\ t < f.
(** [a, b] is a maximal run of indices satisfying [P] *)
Definition maximal_run (P : Z -> Prop) (ab : Z * Z) : Prop :=
  (fst ab <= snd ab)%Z /\ (forall i, (fst ab <= i <= snd ab)%Z -> P i) /\ ~ P (fst ab - 1)%Z /\ ~ P (snd ab + 1)%Z.
(** consecutive intervals are in order and separated by at least one index *)
Fixpoint separated_runs (l : list (Z * Z)) : Prop :=
  match l with
  | a :: ((b :: _) as t) => (snd a + 1 < fst b)%Z /\ separated_runs t
  | _ => True
  end.

(** conventional median: middle value, or mean of the two middle values *)
Definition conventional_median (l : list Q) (m : Q) : Prop :=
  if Nat.odd (length l) then order_statistic l (Nat.div2 (length l)) m
  else exists lo hi, m = (1 # 2) * (lo + hi) /\
         order_statistic l (Nat.div2 (length l) - 1) lo /\ order_statistic l (Nat.div2 (length l)) hi.
(** [f] is the flux sample at index [i] *)
Definition sample (flux : list Q) (i : Z) (f : Q) : Prop := (0 <= i)%Z /\ nth_error flux (Z.to_nat i) = Some f.
(** [c] is the first index of the largest flux of the interval *)
Definition first_maximum (flux : list Q) (ab : Z * Z) (c : Z) (m : Q) : Prop :=
  (fst ab <= c <= snd ab)%Z /\ sample flux c m /\
  forall i f, (fst ab <= i <= snd ab)%Z -> sample flux i f -> f <= m /\ ((i < c)%Z -> f < m).

(** the median of the library (property C10): conventional up to 1000 samples, the lower of the two middle values above *)
Definition library_median (l : list Q) (m : Q) : Prop :=
  if (Nat.odd (length l) || Nat.leb (length l) 1000)%bool then conventional_median l m
  else order_statistic l (Nat.div2 (length l) - 1) m.
(** [a] is the index of the first wavelength not below [w] *)
Definition first_not_below (s : list Q) (w : Q) (a : nat) : Prop :=
  (forall j x, (j < a)%nat -> nth_error s j = Some x -> x < w) /\ exists x, nth_error s a = Some x /\ w <= x.
(** the background window of sample [i]: from the first wavelength not below lambda_i - w/2 (included) to the first one
    not below lambda_i + w/2 (excluded), the last sample of the spectrum being always excluded *)
Definition window_of (s : list Q) (winsize : Q) (i a b : nat) : Prop :=
  exists l, nth_error s i = Some l /\ first_not_below s (l - winsize / 2) a /\
    (first_not_below s (l + winsize / 2) b \/
     (b = (length s - 1)%nat /\ forall x, In x s -> x < l + winsize / 2)).
(** the threshold of sample [i]: median + half of the cut times (median absolute deviation + offset) over its window *)
Definition threshold (flux spectral : list Q) (winsize cut offset : Q) (i : nat) (t : Q) : Prop :=
  exists a b med mad, window_of spectral winsize i a b /\ (a < b)%nat /\
    let w := firstn (b - a) (skipn a flux) in
    library_median w med /\ conventional_median (map (fun y => Qabs (y - med)) w) mad /\
    t = med + (1 # 2) * cut * (mad + offset).

(** the (first) maximum of the interval is more than one sample away from the first sample and not the last one, and its
    flux is above -1e12 *)
Definition interior_maximum (flux : list Q) (ab : Z * Z) : Prop :=
  exists c m, first_maximum flux ab c m /\ (-1000000000000 # 1) < m /\ (2 <= c)%Z /\ (c + 1 < Z.of_nat (length flux))%Z.
(** a subsequence *)
Inductive sublist {A} : list A -> list A -> Prop :=
| sub_nil : sublist [] []
| sub_skip x l m : sublist l m -> sublist l (x :: m)
| sub_take x l m : sublist l m -> sublist (x :: l) (x :: m).
(** [a, b) is the fit range of peak [p], the [i]-th one: it contains the peak, stays in the spectrum and does not run past
    the neighbouring peaks; it is [rate] times the width of the peak on each side, unless limited by those *)
Definition enlarged_from (peaks : list (Z * Z)) (rate len : Z) (i : nat) (p : Z * Z) (a b : Z) : Prop :=
  let width := (snd p + 1 - fst p)%Z in
  (0 <= a <= fst p)%Z /\ (snd p + 1 <= b <= len)%Z /\
  (fst p - rate * width <= a)%Z /\ (b <= snd p + 1 + rate * width)%Z /\
  match i with
  | O => a = Z.max 0 (fst p - rate * width)
  | S j => match nth_error peaks j with
           | Some q => (snd q <= a)%Z /\ (a = snd q \/ a = Z.max 0 (fst p - rate * width))
           | None => False
           end
  end /\
  match nth_error peaks (S i) with
  | Some q => (b <= fst q)%Z /\ (b = fst q \/ b = Z.min len (snd p + 1 + rate * width))
  | None => b = Z.min len (snd p + 1 + rate * width)
  end.
