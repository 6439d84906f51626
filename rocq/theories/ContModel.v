(** Model of the continuum removal (RedshiftLibrary/src/lib/continuum/irregularsamplingmedian.cpp).  Exact rationals;
    NaN is [None].  Sizes and indices are naturals: no Int32 overflow. *)
From Verif Require Import Base MedianModel.
Open Scope Q_scope.

(** the samples of [a, b) *)
Definition slice {A} (y : list A) (a b : nat) : list A := firstn (b - a) (skipn a y).
(** the window of sample [i], irregularsamplingmedian.cpp:97-107 and 128-136 *)
Definition window (y : list Q) (n i : nat) : list Q :=
  let half := Nat.div n 2 in let rest := (n - 2 * half)%nat in
  slice y (i - half) (Nat.min (i + half + rest) (length y)).
Fixpoint mapM {A B} (f : A -> res B) (l : list A) : res (list B) :=
  match l with [] => Ok [] | x :: t => do y <- f x; do r <- mapM f t; Ok (y :: r) end.
(** MedianSmooth, irregularsamplingmedian.cpp:88-111 *)
Definition MedianSmooth (y : list Q) (n : nat) : res (list Q) := mapM (fun i => Find (window y n i)) (seq 0 (length y)).
(** CMean::Find, mean.hpp:39-46, with its NaN *)
Definition mean_find (v : list Q) : option Q := match v with [] => None | _ => Some (qsum v / inject_Z (Z.of_nat (length v))) end.
(** MeanSmooth, irregularsamplingmedian.cpp:116-139 *)
Definition MeanSmooth (y : list Q) (n : nat) : list (option Q) := map (fun i => mean_find (window y n i)) (seq 0 (length y)).
(** OddMirror, irregularsamplingmedian.cpp:146-169: out[N-1-j] = 2 b - in[j], out[end+j] = 2 e - in[size-1-j]; a reflection larger than the input
    reads outside of it *)
Definition OddMirror (y : list Q) (n : nat) (b e : Q) : res (list Q) :=
  if (length y <? n)%nat then UB else
  Ok (map (fun x => 2 * b - x) (rev (firstn n y)) ++ y ++ map (fun x => 2 * e - x) (firstn n (rev y)))%list.
(** EvenMirror, irregularsamplingmedian.cpp:174-190 *)
Definition EvenMirror (y : list Q) (n : nat) : res (list Q) :=
  if (length y <? n)%nat then UB else Ok (rev (firstn n y) ++ y ++ firstn n (rev y))%list.

Definition nonzero (x : Q) : bool := negb (Qeq_bool x 0).
(** first loop of FindEffectiveSpectrumBorder, irregularsamplingmedian.cpp:217-222 *)
Fixpoint first_nz (y : list Q) (j : nat) : option nat :=
  match y with [] => None | x :: t => if nonzero x then Some j else first_nz t (S j) end.
(** second loop, 225-230, downwards: [r] is the reversed list and [j] the index of its first sample *)
Fixpoint last_nz (r : list Q) (j : nat) : option nat :=
  match r with [] => None | x :: t => if nonzero x then Some j else last_nz t (j - 1) end.
(** third loop, 233-240 *)
Fixpoint count_nz (y : list Q) (k : nat) : nat :=
  match y with [] => k | x :: t => let k' := if nonzero x then S k else k in if (10 <? k')%nat then k' else count_nz t k' end.
(** FindEffectiveSpectrumBorder, irregularsamplingmedian.cpp:211-247: k0 and k1 keep the 0 of the caller when nothing is found *)
Definition FindEffectiveSpectrumBorder (y : list Q) : bool * nat * nat :=
  let k0 := match first_nz y 0 with Some j => j | None => 0%nat end in
  let k1 := match last_nz (rev y) (length y - 1) with Some j => j | None => 0%nat end in
  ((10 <? count_nz y 0)%nat, k0, k1).
(** boost::algorithm::clamp, in a build without assertions (the assertion hi >= lo fails when the mean amplitude is 1) *)
Definition clamp (v lo hi : nat) : nat := if (v <? lo)%nat then lo else if (hi <? v)%nat then hi else v.
Fixpoint times {A} (n : nat) (f : A -> res A) (x : A) : res A := match n with O => Ok x | S m => do y <- f x; times m f y end.
(** a - b with a NaN *)
Definition osub (a : Q) (b : option Q) : option Q := match b with Some x => Some (a - x) | None => None end.
Fixpoint sub2 (a : list Q) (b : list (option Q)) : list (option Q) := match a, b with x :: a', y :: b' => osub x y :: sub2 a' b' | _, _ => [] end.

Section Remove.
  (** FitBorder, irregularsamplingmedian.cpp:193-209: the value of a linear regression (GSL, not modelled) between two samples, at the left or right one *)
  Context (fit : nat -> nat -> bool -> Q).
  (** the rounded amplitudes, in samples: round(amplitude / resolution), 277 and 291 *)
  Context (mean0 median0 cycles : Z) (even : bool).
  (** the size of the reflection, 317-318; round(nd / 2.) *)
  Definition reflex (nd mean : nat) : nat := clamp (Nat.div (nd + 1) 2) 10 (5 * mean).
  (** the smoothing, 345-374 *)
  Definition smooth (big : list Q) (mean median : nat) : res (list (option Q)) :=
    do s1 <- times (Z.to_nat cycles) (fun y => MedianSmooth y (2 * median + 1)) big;
    do s2 <- times (Z.to_nat cycles) (fun y => MedianSmooth y (if Nat.odd median then median else S median)) s1;
    Ok (MeanSmooth s2 (Nat.div mean 4)).
  (** ProcessRemoveContinuum, irregularsamplingmedian.cpp:265-397: the returned boolean, and the axis when it is written *)
  Definition ProcessRemoveContinuum (flux : list Q) : res (bool * option (list (option Q))) :=
    let norig := length flux in
    if (mean0 <=? 0)%Z then Ok (false, None) else
    let mean := Nat.min (Z.to_nat mean0) (Nat.div norig 2) in
    if (cycles <=? 0)%Z then Ok (false, None) else
    if (median0 <=? 0)%Z then Ok (false, None) else
    let median := Nat.max mean (Z.to_nat median0) in
    let '(found, k0, k1) := FindEffectiveSpectrumBorder flux in
    if negb found then Ok (false, Some (map (fun _ => Some 0) flux)) else
    let nreflex := reflex (k1 - k0 + 1) mean in
    let eff := slice flux k0 (k1 + 1) in
    do big <- (if even then EvenMirror eff nreflex
               else OddMirror eff nreflex (fit k0 (Nat.max (k0 + nreflex) k1) false) (fit (Nat.min k0 (k1 - nreflex)) k1 true));
    do sm <- smooth big mean median;
    Ok (true, Some (map Some (firstn k0 flux) ++ sub2 eff (slice sm nreflex (nreflex + length eff)) ++ map Some (skipn (k1 + 1) flux))%list).
End Remove.
