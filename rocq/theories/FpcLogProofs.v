From Verif Require Import Base RBase RangeLogModel RangeLogSpec RangeLogProofs FpcLogModel.
Open Scope R_scope.

Lemma bounds_log h z : z - half_l h z + 1 = (1 + z) * exp (- h) /\ z + half_r h z + 1 = (1 + z) * exp h.
Proof. unfold half_l, half_r. split; ring. Qed.
Lemma exp_ge h : 0 <= h -> 1 <= exp h /\ exp (- h) <= 1.
Proof.
  intro H. rewrite exp_Ropp. destruct H as [H| <-]; [|rewrite exp_0, Rinv_1; lra]. pose proof (exp_ineq1 h ltac:(lra)) as E.
  split; [lra|]. rewrite <- Rinv_1. apply Rinv_le_contravar; lra.
Qed.
Lemma window_log_ok g h step z : hd 0 g <= z <= last g 0 -> 0 < 1 + hd 0 g - / 100000000 -> 0 < h -> 0 < step ->
  / 100000000 < (1 + hd 0 g - / 100000000) * (exp step - 1) ->
  ln ((1 + last g 0 + / 100000000) / (1 + hd 0 g - / 100000000)) / step < 2147483647 ->
  exists v, SpanRedshiftWindow_log g h step z = Ok v /\ Rstrictly_increasing v /\
    (forall x, In x v -> Rabs (ln (1 + x) - ln (1 + z)) <= h /\ hd 0 g <= x <= last g 0) /\ near_geometric v step /\ In z v /\
    (exists a, nth_error v 0 = Some a /\ (ln (1 + a) < ln (1 + z) - h + step \/ ln (1 + a) < ln (1 + hd 0 g) + step)) /\
    (exists b, nth_error v (length v - 1) = Some b /\ (ln (1 + z) + h - step < ln (1 + b) \/ ln (1 + last g 0) - step < ln (1 + b))).
Proof.
  intros (Hz1 & Hz2) Hp Hh Hs He Hn. set (e := / 100000000) in *. assert (Pe : 0 < e) by (unfold e; lra).
  assert (P1 : 0 < 1 + z) by lra. destruct (bounds_log h z) as (B1 & B2). destruct (exp_ge h ltac:(lra)) as (X1 & X2).
  assert (Xp : 0 < exp (- h)) by apply exp_pos.
  assert (L1 : z - half_l h z <= z) by nra. assert (L2 : z <= z + half_r h z) by nra.
  unfold SpanRedshiftWindow_log, intersectR. cbn [rb re]. fold e.
  set (lo := Rmaxb (z - half_l h z) (hd 0 g)). set (hi := Rminb (z + half_r h z) (last g 0)).
  assert (Hlo : lo <= z /\ hd 0 g <= lo /\ z - half_l h z <= lo /\ (lo = z - half_l h z \/ lo = hd 0 g)).
  { unfold lo, Rmaxb. destruct (Rltb_spec (z - half_l h z) (hd 0 g)); repeat split; try lra; auto. }
  assert (Hhi : z <= hi /\ hi <= last g 0 /\ hi <= z + half_r h z /\ (hi = z + half_r h z \/ hi = last g 0)).
  { unfold hi, Rminb. destruct (Rltb_spec (last g 0) (z + half_r h z)); repeat split; try lra; auto. }
  clearbody lo hi. destruct Hlo as (A1 & A2 & A3 & A4). destruct Hhi as (C1 & C2 & C3 & C4).
  replace (Rleb lo hi) with true. 2:{ symmetry. unfold Rleb. destruct (Rle_dec lo hi); [reflexivity|lra]. }
  destruct (spanCenteredWindow_log_spec (mkRR lo hi) z step e) as (v & Ev & Si & In_ & Ng & Cz & (a & Ha & La) & (b & Hb & Lb)); cbn [rb re]; try (unfold Rinside; cbn [rb re]); try lra.
  - assert (0 < exp step - 1) by (pose proof (exp_ineq1 step ltac:(lra)); lra). nra.
  - apply Rle_lt_trans with (2 := Hn). apply Rmult_le_compat_r; [left; apply Rinv_0_lt_compat; lra|].
    assert (Q : (hi + e + 1) / (lo - e + 1) <= (1 + last g 0 + e) / (1 + hd 0 g - e)).
    { unfold Rdiv. apply Rmult_le_compat; [lra|left; apply Rinv_0_lt_compat; lra|lra|apply Rinv_le_contravar; lra]. }
    assert (0 < (hi + e + 1) / (lo - e + 1)) by (apply Rdiv_lt_0_compat; lra).
    destruct (Req_dec ((hi + e + 1) / (lo - e + 1)) ((1 + last g 0 + e) / (1 + hd 0 g - e))) as [->|N]; [lra|]. left. apply ln_increasing; lra.
  - exists v. split; [exact Ev|]. split; [exact Si|]. split.
    { intros x Hx. destruct (In_ x Hx) as (D1 & D2). cbn [rb re] in D1, D2. split; [|lra].
      assert (Px : 0 < 1 + x) by lra.
      assert (U1 : ln (1 + z) - h <= ln (1 + x)).
      { replace (ln (1 + z) - h) with (ln ((1 + z) * exp (- h))) by (rewrite ln_mult, ln_exp; lra). rewrite <- B1.
        destruct (Req_dec (z - half_l h z + 1) (1 + x)) as [->|N]; [lra|]. left. apply ln_increasing; [rewrite B1; nra|lra]. }
      assert (U2 : ln (1 + x) <= ln (1 + z) + h).
      { replace (ln (1 + z) + h) with (ln ((1 + z) * exp h)) by (rewrite ln_mult, ln_exp; [lra|lra|apply exp_pos]). rewrite <- B2.
        destruct (Req_dec (1 + x) (z + half_r h z + 1)) as [->|N]; [lra|]. left. apply ln_increasing; lra. }
      apply Rabs_le. lra. }
    split; [exact Ng|]. split; [exact Cz|].
    assert (Ia : Rinside (mkRR lo hi) a) by (apply In_; apply nth_error_In in Ha; exact Ha).
    assert (Ib : Rinside (mkRR lo hi) b) by (apply In_; apply nth_error_In in Hb; exact Hb). unfold Rinside in Ia, Ib. cbn [rb re] in *.
    split.
    + exists a. split; [exact Ha|]. assert (K : ln (1 + a) < ln (1 + lo) + step).
      { replace (ln (1 + lo) + step) with (ln ((lo + 1) * exp step)) by (rewrite ln_mult, ln_exp, (Rplus_comm lo); [lra|lra|apply exp_pos]). apply ln_increasing; lra. }
      destruct A4 as [E|E]; [left|right; rewrite <- E; exact K].
      replace (ln (1 + z) - h) with (ln (1 + lo)); [exact K|]. rewrite E, (Rplus_comm 1), B1, ln_mult, ln_exp; lra.
    + exists b. split; [exact Hb|]. assert (K : ln (1 + hi) < ln (1 + b) + step).
      { replace (ln (1 + b) + step) with (ln ((b + 1) * exp step)) by (rewrite ln_mult, ln_exp, (Rplus_comm b); [lra|lra|apply exp_pos]). apply ln_increasing; lra. }
      destruct C4 as [E|E]; [left|right; rewrite <- E; lra].
      replace (ln (1 + z) + h) with (ln (1 + hi)); [lra|]. rewrite E, (Rplus_comm 1), B2, ln_mult, ln_exp; [lra|lra|apply exp_pos].
Qed.
