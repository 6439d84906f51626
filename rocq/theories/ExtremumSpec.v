(** Specification vocabulary for the peak finder (C25-C27). *)
From Verif Require Import Base RangeModel ExtremumModel.
Open Scope Q_scope.

(** the values Y are the ones of the list on the search window [b, e], none is NaN *)
Definition values_on (y : list (option Q)) (b e : nat) (Y : nat -> Q) : Prop :=
  forall i, (b <= i <= e)%nat -> nth_error y i = Some (Some (Y i)).

Definition plateau (Y : nat -> Q) (s t : nat) : Prop := forall j, (s <= j <= t)%nat -> Y j == Y s.
(** the run starting at s is entered by going up (or starts at an accepted border) *)
Definition rises_into (Y : nat -> Q) (b : nat) (border : bool) (s : nat) : Prop :=
  (s = b /\ border = true) \/ ((b < s)%nat /\ Y (s - 1)%nat < Y s).
(** the run ending at t is left by going down (or ends at an accepted border) *)
Definition falls_after (Y : nat -> Q) (e : nat) (border : bool) (t : nat) : Prop :=
  (t = e /\ border = true) \/ ((t < e)%nat /\ Y (t + 1)%nat < Y t).

(** i is a strict local maximum, or the middle of a plateau higher than both its neighbours *)
Definition is_maximum (Y : nat -> Q) (b e : nat) (border : bool) (i : nat) : Prop :=
  exists s t, (b <= s)%nat /\ (s <= t)%nat /\ (t <= e)%nat /\ plateau Y s t /\
    rises_into Y b border s /\ falls_after Y e border t /\ i = (t - (t - s + 1) / 2)%nat.

(** a plateau of at least two samples that is not entered from below and not left upwards *)
Definition stair (Y : nat -> Q) (b e : nat) (border : bool) : Prop :=
  exists s t, (b <= s)%nat /\ (s < t)%nat /\ (t <= e)%nat /\ plateau Y s t /\
    ((s = b /\ border = false) \/ ((b < s)%nat /\ Y s < Y (s - 1)%nat)) /\ falls_after Y e border t.

Definition increasing_idx (l : list nat) : Prop := StronglySorted lt l.

(** the sorted index vector: a permutation of the indexes, by decreasing value *)
Definition sorts_desc (l : list Q) (perm : list nat) : Prop :=
  Permutation perm (seq 0 (length l)) /\
  forall a b i j vi vj, (a < b)%nat -> nth_error perm a = Some i -> nth_error perm b = Some j ->
    nth_error l i = Some vi -> nth_error l j = Some vj -> vj <= vi.

(** std::sort of numbers *)
Definition sorts (xsort : list Q -> list Q) : Prop := forall l, Permutation (xsort l) l /\ increasing (xsort l).

(** two peaks are separated when their windows of half width (sep/2)(1+x) do not meet *)
Definition separated (sep a b : Q) : Prop :=
  (a < b /\ a + sep / 2 * (1 + a) < b - sep / 2 * (1 + b)) \/
  (b < a /\ b + sep / 2 * (1 + b) < a - sep / 2 * (1 + a)).

Definition pairwise {A} (R : A -> A -> Prop) (l : list A) : Prop :=
  forall i j x y, (i < j)%nat -> nth_error l i = Some x -> nth_error l j = Some y -> R x y.

(** the samples searched: the whole array for an empty search range, else the samples inside the range *)
Definition window_of (p : params) (x : list Q) (b e : nat) : Prop :=
  (if GetIsEmpty (p_xrange p) then Ok (0%nat, (length x - 1)%nat) else getClosedIntervalIndices (p_xrange p) x) = Ok (b, e).

(** what Find returns, in terms of the samples of the input: K lists the indexes of the returned samples *)
Definition find_result (p : params) (x : list Q) (Y : nat -> Q) (b e : nat) (pts : list point) (K : list nat) : Prop :=
  let S := fun i => Y i * p_sign p in
  length pts = length K /\ NoDup K /\
  (forall k i, nth_error K k = Some i -> is_maximum S b e (p_border p) i /\
     exists xi q, nth_error x i = Some xi /\ nth_error pts k = Some q /\ pX q = xi /\ pY q == Y i) /\
  (forall k k' i i', (k < k')%nat -> nth_error K k = Some i -> nth_error K k' = Some i' -> S i' <= S i) /\
  (forall i j xi xj, In i K -> In j K -> i <> j -> nth_error x i = Some xi -> nth_error x j = Some xj -> separated (p_sep p) xi xj) /\
  (Z.of_nat (length K) <= p_max p)%Z /\
  (exists i, hd_error K = Some i /\ forall j, is_maximum S b e (p_border p) j -> S j <= S i) /\
  (forall j xj, is_maximum S b e (p_border p) j -> nth_error x j = Some xj -> ~ In j K ->
     (exists i xi, In i K /\ nth_error x i = Some xi /\ S j <= S i /\ ~ separated (p_sep p) xi xj) \/
     (Z.of_nat (length K) = p_max p /\ forall i, In i K -> S j <= S i)).

(** without peak separation: the top maxima, in decreasing order *)
Definition top_result (p : params) (x : list Q) (Y : nat -> Q) (b e : nat) (pts : list point) (K : list nat) : Prop :=
  let S := fun i => Y i * p_sign p in
  length pts = length K /\ NoDup K /\
  (forall k i, nth_error K k = Some i -> is_maximum S b e (p_border p) i /\
     exists xi q, nth_error x i = Some xi /\ nth_error pts k = Some q /\ pX q = xi /\ pY q == Y i) /\
  (forall k k' i i', (k < k')%nat -> nth_error K k = Some i -> nth_error K k' = Some i' -> S i' <= S i) /\
  (Z.of_nat (length K) <= p_max p)%Z /\
  (forall j, is_maximum S b e (p_border p) j -> ~ In j K ->
     Z.of_nat (length K) = p_max p /\ forall i, In i K -> S j <= S i).
