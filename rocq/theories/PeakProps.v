(** Property C28: detection of spectral peaks. *)
From Verif Require Import Base MedianSpec FluxModel PeakModel PeakSpec PeakProofs.
Open Scope Q_scope.

(** The possible peaks are the maximal runs of samples strictly above their local threshold, in increasing order. *)
Theorem C28_possible_peaks : forall flux spectral winsize cut offset,
  strictly_increasing spectral -> length flux = length spectral -> 0 < winsize ->
  (flux = [] \/ exists x y, nth_error spectral (length spectral - 2) = Some x /\ nth_error spectral (length spectral - 1) = Some y /\
     (2 <= length spectral)%nat /\ y - x <= winsize / 2) ->
  exists peaks thr, FindPossiblePeaks flux spectral winsize cut offset = Ok peaks /\ length thr = length flux /\
    (forall i t, nth_error thr i = Some t -> threshold flux spectral winsize cut offset i t) /\
    separated_runs peaks /\ (forall r, In r peaks -> maximal_run (above flux thr) r) /\
    (forall i, above flux thr i -> exists r, In r peaks /\ (fst r <= i <= snd r)%Z).
Proof. exact (fun f s w c o A B C D => FindPossiblePeaks_spec f s w c o (conj A (conj B (conj C D)))). Qed.
Print Assumptions C28_possible_peaks.

Theorem C28_peaks_are_inside : forall flux thr r, maximal_run (above flux thr) r ->
  (0 <= fst r)%Z /\ (snd r < Z.of_nat (length flux))%Z.
Proof. exact maximal_inside. Qed.
Print Assumptions C28_peaks_are_inside.

(** The background window of the last sample never contains that sample: with one sample, or with a window narrower than
    twice the last step, a median of nothing is computed. *)
Theorem C28_narrow_window_refuted : forall flux spectral winsize cut offset,
  strictly_increasing spectral -> 0 < winsize -> length flux = length spectral -> (0 < length spectral)%nat ->
  (length spectral = 1%nat \/ exists x y, nth_error spectral (length spectral - 2) = Some x /\
     nth_error spectral (length spectral - 1) = Some y /\ winsize / 2 < y - x) ->
  FindPossiblePeaks flux spectral winsize cut offset = UB.
Proof. exact narrow_window_UB. Qed.
Print Assumptions C28_narrow_window_refuted.

(** Of those, the detection returns exactly the ones whose maximum is inside the spectrum, and their fit ranges. *)
Theorem C28_detection : forall flux spectral winsize cut offset rate,
  strictly_increasing spectral -> length flux = length spectral -> 0 < winsize ->
  (flux = [] \/ exists x y, nth_error spectral (length spectral - 2) = Some x /\ nth_error spectral (length spectral - 1) = Some y /\
     (2 <= length spectral)%nat /\ y - x <= winsize / 2) ->
  (0 <= rate)%Z ->
  exists thr all, length thr = length flux /\ (forall i t, nth_error thr i = Some t -> threshold flux spectral winsize cut offset i t) /\
    separated_runs all /\ (forall r, In r all -> maximal_run (above flux thr) r) /\
    (forall i, above flux thr i -> exists r, In r all /\ (fst r <= i <= snd r)%Z) /\
    (all = [] -> Compute flux spectral winsize cut offset 0 rate = Ok None) /\
    (all <> [] -> exists peaks enl, Compute flux spectral winsize cut offset 0 rate = Ok (Some (peaks, enl)) /\
       sublist peaks all /\ (forall p, In p peaks <-> In p all /\ interior_maximum flux p) /\ length enl = length peaks /\
       (rate = 0%Z -> enl = peaks) /\
       ((0 < rate)%Z -> forall k p, nth_error peaks k = Some p -> exists a b, nth_error enl k = Some (a, b) /\
          enlarged_from peaks rate (Z.of_nat (length flux)) k p a b)).
Proof. exact (fun f s w c o r A B C D E => Compute_spec f s w c o r (conj A (conj B (conj C D))) E). Qed.
Print Assumptions C28_detection.

(** With smoothing, it is the detection on the median-smoothed flux (property C21). *)
Theorem C28_smoothing_first : forall flux spectral winsize cut offset halfWidth rate s, (0 < halfWidth)%Z ->
  (exists b, ApplyMedianSmooth flux halfWidth = Ok (b, s)) ->
  Compute flux spectral winsize cut offset halfWidth rate = Compute s spectral winsize cut offset 0 rate.
Proof. exact Compute_smoothed. Qed.
Print Assumptions C28_smoothing_first.

(** A peak whose maximum is the second sample is dropped, one whose maximum is the last but one is kept. *)
Theorem C28_second_sample_refuted : exists flux spectral,
  FindPossiblePeaks flux spectral 20 1 (1#10) = Ok [(1, 1); (6, 6)]%Z /\
  Compute flux spectral 20 1 (1#10) 0 2 = Ok (Some ([(6, 6)], [(4, 8)])%Z).
Proof. exists [0; 9; 0; 0; 0; 0; 9; 0], [1; 2; 3; 4; 5; 6; 7; 8]. split; vm_compute; reflexivity. Qed.
Print Assumptions C28_second_sample_refuted.

Example C28_nonvacuous :
  let s := [10; 11; 12; 13; 14; 15; 16; 17; 18; 19] in
  let f := [0; 0; 0; 7; 8; 7; 0; 0; 5; 0] in
  FindPossiblePeaks f s 40 1 (1#10) = Ok [(3, 5); (8, 8)]%Z /\
  Compute f s 40 1 (1#10) 0 1 = Ok (Some ([(3, 5); (8, 8)], [(0, 8); (7, 10)])%Z) /\
  Compute f s 40 200 (1#10) 0 1 = Ok None /\
  FindPossiblePeaks [1] [10] 40 1 0 = UB.
Proof. vm_compute. repeat split; reflexivity. Qed.
