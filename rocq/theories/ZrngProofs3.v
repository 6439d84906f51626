From Verif Require Import Base RBase FftModel LfitModel LfitSpec LfitProofs LfitProofs2 LfitProofs3 LfitProofs4.
Open Scope R_scope.

(** an empty range in the list: reading the first redshift of an empty grid *)
Lemma FitAllz_empty thr enIGM enISM ebmvValue ebmvIndex flux junk s0 t0 step nS N p n data err M E before b rest :
  setting s0 t0 step nS N p n data err flux M E -> chain 0 before b -> (1 <= b < n)%nat ->
  FitAllz thr enIGM enISM ebmvValue flux ebmvIndex junk (log_grid s0 step nS) data err (log_grid t0 step N) step
    (redshift_grid s0 (log_grid t0 step N) p n) M E [] (before ++ (b, (Z.of_nat b - 1)%Z) :: rest) = UB.
Proof.
  intros HS C Hb. pose proof HS as (H1 & H2 & H3 & H4 & H5 & H6 & H7 & H8 & H9 & H10 & H11 & H12).
  unfold FitAllz. destruct (Nat.ltb_spec (length data) (length err)) as [K|_]; [lia|].
  assert (Lw : length (invErr2 err) = nS) by (unfold invErr2; rewrite map_length; exact H9).
  assert (Ed : sumDtD data (invErr2 err) = wdot (invErr2 err) data data) by (apply sumDtD_wdot; congruence).
  rewrite (loop_app thr enIGM enISM ebmvValue ebmvIndex flux junk s0 t0 step nS N p n).
  destruct (loop_prefix thr enIGM enISM ebmvValue ebmvIndex flux junk s0 t0 step nS N p n data (invErr2 err)
    (sumDtD data (invErr2 err)) M E [] H1 H2 H3 H4 H6 H7 H5 H8 Lw (invErr2_nn err) Ed H10 H11 H12 eq_refl before 0 b 0
    (repeat None (length (redshift_grid s0 (log_grid t0 step N) p n))) C) as (r & Er & Lr); [lia|rewrite repeat_length, redshift_grid_length; reflexivity|].
  rewrite Er. cbn [rbind].
  apply (loop_empty thr enIGM enISM ebmvValue ebmvIndex flux junk s0 t0 step nS N p n data (invErr2 err)
    (sumDtD data (invErr2 err)) M E [] H1 H2 H3 H4 H6 H7 H5 H8 Lw). all: assumption.
Qed.
