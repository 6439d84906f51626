(** C40: removal of the continuum by the median of the irregularly sampled spectrum. *)
From Verif Require Import Base MedianModel ContModel ContSpec ContProofs.
Open Scope Q_scope.

(** median smoothing: one value per sample, the median of the samples around it, cut at the borders; it never leaves the values around *)
Theorem C40_median_smoothing y n : (0 < n)%nat -> exists z, MedianSmooth y n = Ok z /\ local_average (Nat.div n 2) y z /\
  forall i v, nth_error z i = Some v -> Find (samples y (i - Nat.div n 2) (i + (n - Nat.div n 2))) = Ok v.
Proof. exact (median_window y n). Qed.
Print Assumptions C40_median_smoothing.

(** mean smoothing *)
Theorem C40_mean_smoothing y n : (0 < n)%nat -> exists z, MeanSmooth y n = map Some z /\ local_average (Nat.div n 2) y z /\
  forall i v, nth_error z i = Some v -> let w := samples y (i - Nat.div n 2) (i + (n - Nat.div n 2)) in v * inject_Z (Z.of_nat (length w)) == total w.
Proof. exact (mean_window y n). Qed.
Print Assumptions C40_mean_smoothing.

(** mirrors: the input in the middle, its reflection on each side *)
Theorem C40_even_mirror y n : (n <= length y)%nat -> exists z, EvenMirror y n = Ok z /\ length z = (length y + 2 * n)%nat /\
  (forall j, (j < length y)%nat -> nth_error z (n + j) = nth_error y j) /\
  (forall j, (j < n)%nat -> nth_error z (n - 1 - j) = nth_error y j /\ nth_error z (n + length y + j) = nth_error y (length y - 1 - j)).
Proof. exact (even_mirror y n). Qed.
Print Assumptions C40_even_mirror.
Theorem C40_odd_mirror y n b e : (n <= length y)%nat -> exists z, OddMirror y n b e = Ok z /\ length z = (length y + 2 * n)%nat /\
  (forall j, (j < length y)%nat -> nth_error z (n + j) = nth_error y j) /\
  (forall j, (j < n)%nat -> nth_error z (n - 1 - j) = option_map (fun x => 2 * b - x) (nth_error y j) /\ nth_error z (n + length y + j) = option_map (fun x => 2 * e - x) (nth_error y (length y - 1 - j))).
Proof. exact (odd_mirror y n b e). Qed.
Print Assumptions C40_odd_mirror.

(** the effective spectrum: found iff more than ten samples differ from zero, and then it goes from the first to the last of them *)
Theorem C40_effective_spectrum y : let '(found, k0, k1) := FindEffectiveSpectrumBorder y in
  (found = true <-> (10 < nonzeros y)%nat) /\ (found = true -> effective y k0 k1 /\ (k1 < length y)%nat /\ (k0 + 10 <= k1)%nat).
Proof. exact (borders y). Qed.
Print Assumptions C40_effective_spectrum.

(** removal: nothing is read outside, the size is kept, samples outside the effective spectrum are unchanged, inside a continuum is subtracted, which
    with the even reflection stays within the values of the effective spectrum *)
Theorem C40_removal fit mean0 median0 cycles even flux : (4 <= mean0)%Z -> (0 < median0)%Z -> (0 < cycles)%Z -> (10 < nonzeros flux)%nat ->
  exists k0 k1 out, effective flux k0 k1 /\ ProcessRemoveContinuum fit mean0 median0 cycles even flux = Ok (true, Some out) /\ length out = length flux /\
  (forall j x, nth_error flux j = Some x -> ~ inside k0 k1 j -> nth_error out j = Some (Some x)) /\
  (forall j x, nth_error flux j = Some x -> inside k0 k1 j -> exists c, nth_error out j = Some (Some (x - c)) /\
     (even = true -> forall lo hi, (forall i u, inside k0 k1 i -> nth_error flux i = Some u -> lo <= u /\ u <= hi) -> lo <= c /\ c <= hi)).
Proof.
  intros M M2 C N. destruct (found fit mean0 median0 cycles even (Z.lt_le_trans 0 4 mean0 eq_refl M) M2 C flux N) as [k0 [k1 [out [EF [L [K [E [Lo [Ho Hi]]]]]]]]].
  exists k0, k1, out. split; [exact EF|]. split; [exact E|]. split; [exact Lo|]. split; [exact Ho|]. intros j x Hx D. exact (proj2 (Hi j x Hx D) M).
Qed.
Print Assumptions C40_removal.

(** the size of the reflection on each side: half of the effective spectrum, at least ten samples and at most five mean windows *)
Theorem C40_reflection : forall nd mean, (2 <= mean)%nat -> (10 <= reflex nd mean <= 5 * mean)%nat /\ ((10 <= Nat.div (nd + 1) 2 <= 5 * mean)%nat -> reflex nd mean = Nat.div (nd + 1) 2).
Proof. exact reflection. Qed.
Print Assumptions C40_reflection.

(** a flat spectrum has no lines left *)
Theorem C40_flat fit mean0 median0 cycles flux k0 k1 c : (4 <= mean0)%Z -> (0 < median0)%Z -> (0 < cycles)%Z -> (10 < nonzeros flux)%nat -> effective flux k0 k1 ->
  (forall j x, inside k0 k1 j -> nth_error flux j = Some x -> x == c) ->
  exists out, ProcessRemoveContinuum fit mean0 median0 cycles true flux = Ok (true, Some out) /\ length out = length flux /\ forall j o, nth_error out j = Some o -> exists v, o = Some v /\ v == 0.
Proof. exact (flat fit mean0 median0 cycles flux k0 k1 c). Qed.
Print Assumptions C40_flat.

(** the result does not depend on the flux unit *)
Theorem C40_units a fit fit' mean0 median0 cycles even flux flux' b o : 0 < a -> (forall i j r, fit' i j r == a * fit i j r) -> scaled a flux flux' ->
  ProcessRemoveContinuum fit mean0 median0 cycles even flux = Ok (b, o) -> exists o', ProcessRemoveContinuum fit' mean0 median0 cycles even flux' = Ok (b, o') /\
  match o, o' with Some u, Some u' => oscaled a u u' | None, None => True | _, _ => False end.
Proof. intro Ha. exact (scaled_process a Ha fit fit' mean0 median0 cycles even flux flux' b o). Qed.
Print Assumptions C40_units.

(** refusals *)
Theorem C40_refusals fit mean0 median0 cycles even flux :
  ((mean0 <= 0)%Z \/ (cycles <= 0)%Z \/ (median0 <= 0)%Z -> ProcessRemoveContinuum fit mean0 median0 cycles even flux = Ok (false, None)) /\
  ((0 < mean0)%Z -> (0 < median0)%Z -> (0 < cycles)%Z -> (nonzeros flux <= 10)%nat -> ProcessRemoveContinuum fit mean0 median0 cycles even flux = Ok (false, Some (map (fun _ => Some 0) flux))).
Proof. exact (conj (refused fit mean0 median0 cycles even flux) (fun a b c => not_found fit mean0 median0 cycles even a b c flux)). Qed.
Print Assumptions C40_refusals.

(** a kernel narrower than four samples makes every sample of the effective spectrum NaN *)
Theorem C40_narrow_kernel_refuted fit mean0 median0 cycles even flux : (0 < mean0)%Z -> (mean0 < 4)%Z -> (0 < median0)%Z -> (0 < cycles)%Z -> (10 < nonzeros flux)%nat ->
  exists k0 k1 out, effective flux k0 k1 /\ ProcessRemoveContinuum fit mean0 median0 cycles even flux = Ok (true, Some out) /\
  (forall j x, nth_error flux j = Some x -> inside k0 k1 j -> nth_error out j = Some None).
Proof.
  intros M M4 M2 C N. destruct (found fit mean0 median0 cycles even M M2 C flux N) as [k0 [k1 [out [EF [L [K [E [Lo [Ho Hi]]]]]]]]].
  exists k0, k1, out. split; [exact EF|]. split; [exact E|]. intros j x Hx D. exact (proj1 (Hi j x Hx D) M4).
Qed.
Print Assumptions C40_narrow_kernel_refuted.

(** with the odd reflection the border values are never fitted near the border: only the regression over the whole effective spectrum is used *)
Theorem C40_border_fit_refuted fit fit' mean0 median0 cycles even flux : (forall k0 k1, effective flux k0 k1 -> fit k0 k1 false = fit' k0 k1 false /\ fit k0 k1 true = fit' k0 k1 true) ->
  ProcessRemoveContinuum fit mean0 median0 cycles even flux = ProcessRemoveContinuum fit' mean0 median0 cycles even flux.
Proof. exact (fit_whole fit fit' mean0 median0 cycles even flux). Qed.
Print Assumptions C40_border_fit_refuted.

Example C40_nonvacuous : let y := [0; 1; 1; 2; 1; 3; 1; 1; 2; 1; 1; 1; 5; 0] in (10 < nonzeros y)%nat /\ effective y 1 12 /\
  (exists out, ProcessRemoveContinuum (fun _ _ _ => 1) 4 6 2 true y = Ok (true, Some out) /\ nth_error out 12 <> nth_error out 11) /\
  effective (map (fun _ => 1) y) 0 13 /\ scaled 2 y (map (fun x => 2 * x) y).
Proof.
  cbv zeta. split; [vm_compute; lia|]. split; [|split; [|split]].
  - split; [lia|]. split; [exists 1; split; [reflexivity|vm_compute; discriminate]|]. split; [exists 5; split; [reflexivity|vm_compute; discriminate]|].
    intros j x E H. do 14 (destruct j as [|j]; [cbn in E; try lia; injection E as <-; reflexivity|]). cbn in E. destruct j; discriminate.
  - eexists. split; [vm_compute; reflexivity|]. vm_compute. discriminate.
  - split; [lia|]. split; [exists 1; split; [reflexivity|vm_compute; discriminate]|]. split; [exists 1; split; [reflexivity|vm_compute; discriminate]|].
    intros j x E H. apply nth_error_len in E. cbn in E. lia.
  - cbn [map]. repeat constructor; reflexivity.
Qed.
