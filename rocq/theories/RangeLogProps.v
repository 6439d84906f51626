(** Properties C07, C08: logarithmic grids (over the reals). *)
From Verif Require Import Base RBase RangeLogModel RangeLogSpec RangeLogProofs.
Open Scope R_scope.

Theorem C07_spread_over_log : forall r delta o,
  0 < rb r + o -> rb r <= re r -> 0 < delta ->
  ln ((re r + o) / (rb r + o)) / delta < 2147483647 ->
  exists v, SpreadOverLog r delta o false = Ok v /\
    geometric v (rb r) delta o /\
    Z.of_nat (length v) = (Rfloor (ln ((re r + o) / (rb r + o)) / delta) + 1)%Z /\
    (forall x, In x v -> Rinside r x) /\
    exists x, nth_error v (length v - 1) = Some x /\ re r + o < (x + o) * exp delta.
Proof. exact SpreadOverLog_forward_spec. Qed.
Print Assumptions C07_spread_over_log.

Theorem C07_spread_over_log_backward : forall r delta o,
  0 < rb r + o -> rb r <= re r -> 0 < delta ->
  ln ((re r + o) / (rb r + o)) / delta < 2147483647 ->
  exists v, SpreadOverLog r delta o true = Ok v /\
    (exists x0, geometric v x0 delta o /\ x0 + o < (rb r + o) * exp delta) /\
    Z.of_nat (length v) = (Rfloor (ln ((re r + o) / (rb r + o)) / delta) + 1)%Z /\
    (forall x, In x v -> Rinside r x) /\
    nth_error v (length v - 1) = Some (re r).
Proof. exact SpreadOverLog_backward_spec. Qed.
Print Assumptions C07_spread_over_log_backward.

Theorem C07_geometric_grids_increase : forall v x0 delta o,
  0 < delta -> 0 < x0 + o -> geometric v x0 delta o -> Rstrictly_increasing v.
Proof. exact geometric_strict. Qed.
Print Assumptions C07_geometric_grids_increase.

Theorem C07_bounds_of_opposite_sign_rejected : forall r delta o backward,
  (rb r + o) * (re r + o) < 0 -> SpreadOverLog r delta o backward = Throw INTERNAL_ERROR.
Proof. exact SpreadOverLog_sign_throw. Qed.
Print Assumptions C07_bounds_of_opposite_sign_rejected.

Theorem C08_centered_window_log : forall r center delta eps,
  Rinside r center -> 0 < rb r - eps + 1 -> 0 < delta -> 0 <= eps ->
  eps < (rb r - eps + 1) * (exp delta - 1) ->
  ln ((re r + eps + 1) / (rb r - eps + 1)) / delta < 2147483647 ->
  exists v, spanCenteredWindow_log r center delta eps = Ok v /\
    Rstrictly_increasing v /\ (forall x, In x v -> Rinside r x) /\ near_geometric v delta /\
    In center v /\
    (exists x, nth_error v 0 = Some x /\ x + 1 < (rb r + 1) * exp delta) /\
    (exists x, nth_error v (length v - 1) = Some x /\ re r + 1 < (x + 1) * exp delta).
Proof. exact spanCenteredWindow_log_spec. Qed.
Print Assumptions C08_centered_window_log.

(** hypotheses of the theorems are met by z in [0,6], step 1/1000, eps 1e-8, centre 2 *)
Lemma ln_le_10 x : 0 < x -> x <= 10 -> ln x <= 10.
Proof.
  intros H1 H2. left. apply Rlt_le_trans with (ln (exp 10)); [|rewrite ln_exp; lra].
  apply ln_increasing; [exact H1|]. pose proof (exp_ineq1 10 ltac:(lra)). lra.
Qed.
Example C07_C08_nonvacuous :
  let r := mkRR 0 6 in let delta := / 1000 in let eps := / 100000000 in
  0 < rb r + 1 /\ rb r <= re r /\ 0 < delta /\ Rinside r 2 /\ 0 < rb r - eps + 1 /\ 0 <= eps /\
  eps < (rb r - eps + 1) * (exp delta - 1) /\
  ln ((re r + eps + 1) / (rb r - eps + 1)) / delta < 2147483647 /\
  ln ((re r + 1) / (rb r + 1)) / delta < 2147483647.
Proof.
  cbv zeta. unfold Rinside; cbn [rb re].
  pose proof (exp_ineq1 (/ 1000) ltac:(lra)) as E.
  repeat split; try lra.
  - assert (ln ((6 + / 100000000 + 1) / (0 - / 100000000 + 1)) <= 10).
    { apply ln_le_10; [apply Rdiv_lt_0_compat; lra|]. apply Rmult_le_reg_r with (0 - / 100000000 + 1); [lra|].
      unfold Rdiv. rewrite Rmult_assoc, Rinv_l by lra. lra. }
    unfold Rdiv. rewrite Rinv_inv. lra.
  - assert (ln ((6 + 1) / (0 + 1)) <= 10) by (apply ln_le_10; lra).
    unfold Rdiv at 1. rewrite Rinv_inv. lra.
Qed.
