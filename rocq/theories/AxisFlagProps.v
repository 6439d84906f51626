(** Property C17: cached verdicts of a spectral axis. *)
From Verif Require Import Base RBase RX AxisModel AxisFlagModel AxisFlagSpec AxisFlagProofs.
Open Scope R_scope.

(** The full property, "after ANY history the answers are those of a new axis with the same samples", is
    false: see the two [_refuted] theorems below.  It holds for the histories described by
    [keeps_sorted_verdict] (resp. [keeps_log_verdict]). *)
Theorem C17_sorted_verdict_partial : forall l ops a,
  safe_history keeps_sorted_verdict (fresh l) ops -> ax_run (fresh l) ops = Ok a ->
  (fst (isSorted a) = true <-> Rstrictly_increasing (samples a)).
Proof. exact sorted_history. Qed.
Print Assumptions C17_sorted_verdict_partial.

Theorem C17_log_verdict_partial : forall l ops a,
  safe_history keeps_log_verdict (fresh l) ops -> ax_run (fresh l) ops = Ok a ->
  answer (IsLogSampled a) = answer (IsLogSampled (fresh (samples a))) /\
  answer (GetlogGridStep a) = answer (GetlogGridStep (fresh (samples a))).
Proof. exact log_history. Qed.
Print Assumptions C17_log_verdict_partial.

(** What a new axis answers (positive samples, first two distinct). *)
Theorem C17_log_check_meaning : forall l s0 s1 b,
  positive_samples l -> nth_error l 0 = Some s0 -> nth_error l 1 = Some s1 -> s0 <> s1 ->
  nth_error l (length l - 1) = Some b ->
  (log_regular l -> answer (IsLogSampled (fresh l)) = Ok true /\
      answer (GetlogGridStep (fresh l)) = Ok (XFin (ln (b / s0) / (INR (length l) - 1)))) /\
  (~ log_regular l -> answer (IsLogSampled (fresh l)) = Ok false).
Proof. exact fresh_log_spec. Qed.
Print Assumptions C17_log_check_meaning.

(** Stale "sorted" verdicts: after masking, extracting or shrinking an axis known to be unsorted, after
    negating a one-sample axis, after a write through the vector reference. *)
Theorem C17_sorted_verdict_never_stale_refuted :
  stale_sorted [3; 1; 2] [OQuerySorted; OMask [0%Q; 1%Q; 1%Q]] /\
  stale_sorted [3; 1; 2] [OQuerySorted; OExtract 1 2] /\
  stale_sorted [1; 2; 0] [OQuerySorted; OSetSize 2] /\
  stale_sorted [1] [OQuerySorted; OScale (-1)] /\
  stale_sorted [2; 1] [OQuerySorted; ORawWrite 0 0].
Proof.
  exact (conj stale_after_mask (conj stale_after_extract (conj stale_after_shrink
        (conj stale_after_negation stale_after_raw_write)))).
Qed.
Print Assumptions C17_sorted_verdict_never_stale_refuted.

(** Stale "log-sampled" verdicts: a non-null offset keeps the verdict although it changes every ratio, a null
    offset forces the verdict to false (the test of ApplyOffset is inverted), an extraction keeps it. *)
Theorem C17_log_verdict_never_stale_refuted :
  stale_log g3 [OQueryLog; OOffset (4 / 5)] /\
  stale_log g3 [OOffset 0] /\
  stale_log [1; 2; 8; 32] [OQueryLog; OExtract 1 3].
Proof. exact (conj stale_after_offset (conj stale_after_null_offset stale_log_after_extract)). Qed.
Print Assumptions C17_log_verdict_never_stale_refuted.

(** The check itself lets NaN through: an axis whose first two samples have opposite signs is "log-sampled". *)
Theorem C17_nan_step_is_declared_regular_refuted : answer (IsLogSampled (fresh [-1; 1; 5; 6])) = Ok true.
Proof. exact crossing_zero_passes. Qed.
Print Assumptions C17_nan_step_is_declared_regular_refuted.

(** A safe history on which the caches are filled and survive a change of the samples. *)
Example C17_nonvacuous :
  let ops := [OQuerySorted; OQueryLog; OShift 2 nShiftForward; OScale (-1); OQuerySorted; OSetSamples [7; 8; 9]; OScale 3] in
  safe_history keeps_sorted_verdict (fresh g3) ops /\ safe_history keeps_log_verdict (fresh g3) ops /\
  exists a, ax_run (fresh g3) ops = Ok a /\ samples a = [7 * 3; 8 * 3; 9 * 3].
Proof.
  cbv zeta.
  destruct (fresh_log_spec g3 (1/5) (6/5) (36/5)) as [F _]; auto using g3_positive; try reflexivity; try lra.
  destruct (F g3_regular) as [F1 _].
  set (a1 := snd (isSorted (fresh g3))).
  assert (E1 : exists a2, IsLogSampled a1 = Ok (true, a2) /\ samples a2 = g3).
  { unfold answer in F1. unfold a1, isSorted. cbn [fresh srt snd].
    unfold IsLogSampled in *. cbn [fresh lg] in *.
    destruct (CheckLoglambdaSampling (fresh g3)) as [[b a2]| |] eqn:E; try discriminate.
    cbn in F1. inversion F1; subst b.
    unfold CheckLoglambdaSampling in *. cbn [fresh samples] in *. unfold g3 in *.
    destruct (some_bad_step (logstep (1 / 5) (6 / 5)) [1 / 5; 6 / 5; 36 / 5]); [discriminate|].
    cbn [rbind back vget length nth_error Nat.sub] in *. eexists; split; reflexivity. }
  destruct E1 as (a2 & E1 & S2).
  assert (S1 : samples a1 = g3) by reflexivity.
  assert (L : exists a, ax_run (fresh g3) [OQuerySorted; OQueryLog; OShift 2 nShiftForward; OScale (-1); OQuerySorted; OSetSamples [7; 8; 9]; OScale 3] = Ok a /\ samples a = [7 * 3; 8 * 3; 9 * 3]).
  { cbn [ax_run ax_step rbind]. fold a1. rewrite E1. cbn [rbind snd].
    rewrite (Rltb_false 2 0); [|lra]. rewrite (Reqb_false 2 0); [|lra]. cbn [rbind].
    eexists; split; [reflexivity|]. reflexivity. }
  split; [|split; [|exact L]].
  - cbn [safe_history keeps_sorted_verdict].
    split; [exact I|]. intros b1 H1. change (Ok a1 = Ok b1) in H1. injection H1 as H1. subst b1. cbn [ax_step].
    split; [exact I|]. rewrite E1. cbn [rbind snd]. intros b2 H2; inversion H2; subst b2.
    split; [exact I|]. rewrite (Rltb_false 2 0); [|lra]. rewrite (Reqb_false 2 0); [|lra].
    intros b3 H3; inversion H3; subst b3. cbn [scale samples]. rewrite S2.
    split; [right; simpl; lia|]. intros b4 H4; inversion H4; subst b4.
    split; [exact I|]. intros b5 H5. split; [exact I|]. intros b6 H6. inversion H6; subst b6. cbn [samples length].
    split; [left; lra|]. intros; exact I.
  - cbn [safe_history keeps_log_verdict].
    split; [exact I|]. intros b1 H1. change (Ok a1 = Ok b1) in H1. injection H1 as H1. subst b1. cbn [ax_step].
    split; [exact I|]. rewrite E1. cbn [rbind snd]. intros b2 H2; inversion H2; subst b2.
    split; [exact I|]. rewrite (Rltb_false 2 0); [|lra]. rewrite (Reqb_false 2 0); [|lra].
    intros b3 H3; inversion H3; subst b3. cbn [scale samples]. rewrite S2.
    split. { right. split; [lra|]. unfold g3. cbn [map]. repeat constructor; lra. }
    intros b4 H4; inversion H4; subst b4.
    split; [exact I|]. intros b5 H5. split; [exact I|]. intros b6 H6. inversion H6; subst b6. cbn [samples length].
    split; [left; lra|]. intros; exact I.
Qed.
