(** C80: the cross-correlations of the logarithmic template fitting are exact. *)
From Verif Require Import Base RBase FftModel FftSpec FftProofs2 FftProofs3.
Open Scope R_scope.

(** Whatever the sampling counts, the padding and the contents of the fresh buffers, the first call
    after the initialisation returns Σ_j X[j]·Y[j+k] for every shift k = 0 .. |Y|-|X|. *)
Theorem C80_fft_correlation_exact : forall n j1 j2 X Y slot, fits n X Y ->
  exists st', EstimateXtY (InitFFT n j1 j2) X Y slot = Ok (st', correlations X Y).
Proof. exact single. Qed.
Print Assumptions C80_fft_correlation_exact.

(** Any sequence of calls in which each kept slot is always used with the same spectrum vector
    returns the exact correlations, call by call. *)
Theorem C80_fft_calls_exact : forall n j1 j2 l, consistent l ->
  (forall X Y slot, In (X, Y, slot) l -> fits n X Y) ->
  calls (InitFFT n j1 j2) l = Ok (map (fun c => correlations (fst (fst c)) (snd (fst c))) l).
Proof. exact calls_correlations. Qed.
Print Assumptions C80_fft_calls_exact.

(** In general a slot keeps the spectrum vector of its first call. *)
Theorem C80_fft_slot_keeps_first : forall n j1 j2 l,
  (forall X Y slot, In (X, Y, slot) l -> fits n X Y) ->
  exists rs, calls (InitFFT n j1 j2) l = Ok rs /\ length rs = length l /\
    forall i X Y slot, nth_error l i = Some (X, Y, slot) ->
      nth_error rs i = Some (map (cyclic_at n (source (firstn i l) X slot) Y) (seq 0 (length Y - length X + 1))).
Proof. exact calls_values. Qed.
Print Assumptions C80_fft_slot_keeps_first.

(** So a second spectrum vector in the same slot, without a new initialisation, gets the answer of
    the first one. *)
Theorem C80_fft_slot_reuse_refuted : exists n X X' Y, fits n X Y /\ fits n X' Y /\
  forall j1 j2, exists r r', calls (InitFFT n j1 j2) [(X, Y, 0%Z); (X', Y, 0%Z)] = Ok [r; r'] /\
    r' <> correlations X' Y.
Proof. exact stale. Qed.
Print Assumptions C80_fft_slot_reuse_refuted.

(** The running-sum shortcut for a constant spectrum vector does not return the correlations... *)
Theorem C80_running_sum_refuted : exists n Y nShifts, (1 <= n)%nat /\ (length Y = n + nShifts - 1)%nat /\
  exists r, EstimateMtMFast (repeat 1 n) Y nShifts = Ok r /\ r <> correlations (repeat 1 n) Y.
Proof. exact MtMFast_wrong. Qed.
Print Assumptions C80_running_sum_refuted.

(** ... its error at shift k is c·(Y[n-1] - Y[n-1+k]): it adds the sample before the one that enters. *)
Theorem C80_running_sum_value : forall c n Y nShifts,
  (1 <= n)%nat -> (1 <= nShifts)%nat -> (n + nShifts - 1 <= length Y)%nat ->
  EstimateMtMFast (repeat c n) Y nShifts =
  Ok (map (fun k => correlation_at (repeat c n) Y k + c * (nth (n - 1) Y 0 - nth (n - 1 + k) Y 0)) (seq 0 nShifts)).
Proof. exact MtMFast_value. Qed.
Print Assumptions C80_running_sum_value.

(** the hypotheses are met: two template vectors, two slots, odd template padded to 4 *)
Example C80_example : let l := [([1; 2], [1; 0; 3], 0%Z); ([4; 5], [1; 0; 9], 1%Z); ([1; 2], [2; 7; 1], 0%Z)] in
  consistent l /\ (forall X Y slot, In (X, Y, slot) l -> fits 4 X Y) /\
  map (fun c => correlations (fst (fst c)) (snd (fst c))) l = [[1*1+(2*0+0); 1*0+(2*3+0)]; [4*1+(5*0+0); 4*0+(5*9+0)]; [1*2+(2*7+0); 1*7+(2*1+0)]].
Proof.
  cbv zeta. split; [|split].
  - intros X Y X' Y' s K [E|[E|[E|[]]]] [E'|[E'|[E'|[]]]]; congruence.
  - intros X Y s [E|[E|[E|[]]]]; injection E as <- <- <-; split; simpl; lia.
  - reflexivity.
Qed.
