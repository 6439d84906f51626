(** Vocabulary for C59. *)
From Verif Require Import Base RangeModel CalzModel LsfModel MeikModel.
Open Scope Q_scope.

(** the kernel of the LSF: as many values as wavelengths, not negative, sum 1 (C58_kernel) *)
Definition kernel_ok (kernel : list Q -> Q -> res (list Q)) : Prop :=
  forall ls l0 k, ls <> [] -> kernel ls l0 = Ok k -> length k = length ls /\ Forall (fun x => 0 <= x) k /\ qsum k == 1.
(** the LSF never fails (C58) *)
Definition lsf_total (width : Q -> res Q) (kernel : list Q -> Q -> res (list Q)) : Prop :=
  (forall l, exists w, width l = Ok w /\ 0 <= w) /\ (forall ls l0, ls <> [] -> exists k, kernel ls l0 = Ok k).
(** the wavelength of index i on the grid of the curves, in steps of 0.05 *)
Definition node (m : meik) (i : Z) : Q := mk_min m + (5#100) * inject_Z i.
(** the curves as the calibration files give them: the same [n] wavelengths in steps of 0.05 for each bin, the same number [c] of curves of [n] values,
    one bin boundary more than bins, redshifts above -1 *)
Definition tables_ok (curves : list mcurves) (zbins : list Q) (n c : nat) : Prop :=
  (1 <= n)%nat /\ inject_Z (Z.of_nat n) <= 2000000000 /\ length zbins = S (length curves) /\ curves <> [] /\ Forall (fun z => -1 < z) zbins /\
  forall i cu, nth_error curves i = Some cu ->
    length (mc_lbda cu) = n /\ length (mc_corr cu) = c /\ Forall (fun a => length a = n) (mc_corr cu) /\
    forall k l l0, nth_error (mc_lbda cu) k = Some l -> nth_error (mc_lbda cu) 0 = Some l0 -> l == l0 + (5#100) * inject_Z (Z.of_nat k).
(** lo <= v <= hi *)
Definition between (lo hi v : Q) : Prop := lo <= v <= hi.
(** the index of the redshift bin of z: below the first boundary, in a bin, above the last boundary (the last bin) *)
Definition bin_of (zbins : list Q) (z : Q) (i : Z) : Prop :=
  (i = (-1)%Z /\ forall x, In x zbins -> z < x) \/
  (exists k a b, i = Z.of_nat k /\ nth_error zbins k = Some a /\ nth_error zbins (S k) = Some b /\ a <= z /\ (z < b \/ S (S k) = length zbins)).

(** the objects a program can have: constructed from tables, then convolved any number of times, by any LSF *)
Inductive configured (curves : list mcurves) (zbins : list Q) : meik -> Prop :=
| conf_new : forall m, NewMeiksin curves zbins = Ok m -> configured curves zbins m
| conf_conv : forall m m' width nsigma kernel r, configured curves zbins m -> kernel_ok kernel -> convolveByLSF width nsigma kernel m r = Ok m' -> configured curves zbins m'.
