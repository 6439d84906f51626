From Verif Require Import Base RBase RangeLogModel RangeLogSpec.
Open Scope R_scope.

Lemma ln_div a b : 0 < a -> 0 < b -> ln (a / b) = ln a - ln b.
Proof. intros Ha Hb. unfold Rdiv. rewrite ln_mult; [|exact Ha|apply Rinv_0_lt_compat; exact Hb].
  rewrite ln_Rinv by exact Hb. reflexivity. Qed.

Lemma exp_INR i d : exp d ^ i = exp (INR i * d).
Proof.
  induction i as [|i IH]; [simpl; rewrite Rmult_0_l, exp_0; reflexivity|].
  rewrite <- tech_pow_Rmult, IH, S_INR, <- exp_plus. f_equal. ring.
Qed.

Lemma geom_length n : forall x e, length (geom n x e) = n.
Proof. induction n as [|n IH]; intros x e; simpl; [reflexivity|]. rewrite IH. reflexivity. Qed.

Lemma geom_nth n : forall x e i, (i < n)%nat -> nth_error (geom n x e) i = Some (x * e ^ i).
Proof.
  induction n as [|n IH]; intros x e i Hi; [lia|].
  destruct i as [|i]; simpl.
  - f_equal. ring.
  - rewrite IH by lia. f_equal. ring.
Qed.

Lemma nth_error_rev' {A} (l : list A) i : (i < length l)%nat ->
  nth_error (rev l) i = nth_error l (length l - S i).
Proof.
  intro H. destruct l as [|d l0] eqn:E; [simpl in H; lia|]. rewrite <- E in *. clear E.
  rewrite (nth_error_nth' (rev l) d) by (rewrite rev_length; exact H).
  rewrite (nth_error_nth' l d) by lia. f_equal. apply rev_nth. exact H.
Qed.

Section Log.
  Variables (r : rrange) (delta o : R).
  Hypothesis Hpos : 0 < rb r + o.
  Hypothesis Hwf : rb r <= re r.
  Hypothesis Hd : 0 < delta.
  Let lb := ln (rb r + o).
  Let le := ln (re r + o).
  Hypothesis Hcount : (le - lb) / delta < 2147483647.

  Lemma Hpose : 0 < re r + o. Proof. lra. Qed.
  Lemma exp_lb : exp lb = rb r + o. Proof. apply exp_ln; exact Hpos. Qed.
  Lemma exp_le : exp le = re r + o. Proof. apply exp_ln; apply Hpose. Qed.
  Lemma lb_le : lb <= le.
  Proof. destruct (Req_dec (rb r) (re r)) as [E|E]; [unfold lb, le; rewrite E; lra|].
    left. apply ln_increasing; lra. Qed.

  Let N := Rfloor ((le - lb) / delta).
  Lemma quot_eq : (le - lb) / delta * delta = le - lb. Proof. field. lra. Qed.
  Lemma quot_pos : 0 <= (le - lb) / delta.
  Proof. pose proof quot_eq. pose proof lb_le. nra. Qed.
  Lemma N_nonneg : (0 <= N)%Z.
  Proof.
    unfold N. pose proof (Rfloor_lt ((le - lb) / delta)). pose proof quot_pos.
    assert (-1 < Rfloor ((le - lb) / delta))%Z by (apply lt_IZR; simpl; lra). lia.
  Qed.
  Lemma N_fit : IZR N * delta <= le - lb.
  Proof. unfold N. pose proof (Rfloor_le ((le - lb) / delta)). pose proof quot_eq. nra. Qed.
  Lemma N_max : le - lb < IZR N * delta + delta.
  Proof. unfold N. pose proof (Rfloor_lt ((le - lb) / delta)). pose proof quot_eq. nra. Qed.
  Lemma N_short : log_short r delta o = true -> N = 0%Z.
  Proof.
    intro H. unfold log_short in H.
    assert (L : le - lb < delta).
    { destruct (Reqb_spec (rb r) (re r)) as [E|E].
      - unfold le, lb. rewrite E. lra.
      - destruct (Reqb_spec delta 0); [lra|]. cbn [orb] in H.
        destruct (Rltb_spec (re r - rb r) ((rb r + o) * exp delta - (rb r + o))) as [G|G]; [|discriminate].
        rewrite <- exp_lb in G.
        assert (exp le < exp (lb + delta)) by (rewrite exp_plus, exp_le, exp_lb in *; lra).
        apply exp_lt_inv in H0. lra. }
    pose proof N_nonneg. pose proof N_fit.
    destruct (Z.eq_dec N 0); auto. exfalso.
    assert (1 <= IZR N) by (apply IZR_le; lia). nra.
  Qed.
  Lemma sameSign_true : isSameSign r o = true.
  Proof. unfold isSameSign. rcase; auto. exfalso. apply n. pose proof Hpose. nra. Qed.
  Lemma log_count_ok : log_count r delta o = Ok (N + 1)%Z.
  Proof.
    unfold log_count, loggable. destruct (Rltb_spec 0 (re r + o)); [|pose proof Hpose; lra].
    destruct (Rltb_spec 0 (rb r + o)); [|lra]. cbn [andb]. fold lb le.
    apply Rto_int32_count; [apply quot_pos|exact Hcount].
  Qed.

  Lemma SpreadOverLog_fwd : exists v, SpreadOverLog r delta o false = Ok v /\
    length v = S (Z.to_nat N) /\
    forall i x, nth_error v i = Some x -> x + o = exp (lb + INR i * delta).
  Proof.
    unfold SpreadOverLog. rewrite sameSign_true. cbn [negb].
    pose proof N_nonneg as HN.
    destruct (log_short r delta o) eqn:E.
    - exists [rb r]. rewrite (N_short E). split; [reflexivity|]. split; [reflexivity|].
      intros i x H. destruct i as [|[|i]]; simpl in H; try discriminate.
      inversion H; subst. simpl. rewrite Rmult_0_l, Rplus_0_r, exp_lb. reflexivity.
    - rewrite log_count_ok. cbn [rbind]. destruct (Z.ltb_spec (N + 1) 0); [lia|].
      eexists. split; [reflexivity|]. split; [rewrite map_length, geom_length; lia|].
      intros i x Hx. pose proof (nth_error_len _ _ _ Hx) as Hi. rewrite map_length, geom_length in Hi.
      rewrite nth_error_map, geom_nth in Hx by exact Hi. simpl in Hx. inversion Hx; subst.
      rewrite exp_INR, exp_plus, exp_lb. ring.
  Qed.

  Lemma SpreadOverLog_bwd : exists v, SpreadOverLog r delta o true = Ok v /\
    length v = S (Z.to_nat N) /\
    forall i x, nth_error v i = Some x -> x + o = exp (le - INR (Z.to_nat N - i) * delta).
  Proof.
    unfold SpreadOverLog, SpreadOverLog_backward. rewrite sameSign_true. cbn [negb].
    pose proof N_nonneg as HN.
    destruct (log_short r delta o) eqn:E.
    - exists [re r]. rewrite (N_short E). split; [reflexivity|]. split; [reflexivity|].
      intros i x H. destruct i as [|[|i]]; simpl in H; try discriminate.
      inversion H; subst. simpl. rewrite Rmult_0_l, Rminus_0_r, exp_le. reflexivity.
    - rewrite log_count_ok. cbn [rbind]. destruct (Z.ltb_spec (N + 1) 0); [lia|].
      eexists. split; [reflexivity|]. split; [rewrite rev_length, map_length, geom_length; lia|].
      intros i x Hx. pose proof (nth_error_len _ _ _ Hx) as Hi. rewrite rev_length, map_length, geom_length in Hi.
      rewrite nth_error_rev' in Hx by (rewrite map_length, geom_length; exact Hi).
      rewrite map_length, geom_length in Hx.
      rewrite nth_error_map, geom_nth in Hx by lia. simpl in Hx. inversion Hx; subst.
      rewrite exp_INR. replace (Z.to_nat (N + 1) - S i)%nat with (Z.to_nat N - i)%nat by lia.
      unfold Rminus at 2. rewrite exp_plus, exp_le. rewrite Ropp_mult_distr_r. ring.
  Qed.

  Lemma INR_N : INR (Z.to_nat N) = IZR N.
  Proof. rewrite INR_IZR_INZ. rewrite Z2Nat.id by apply N_nonneg. reflexivity. Qed.
End Log.

Lemma exp_le_mono x y : x <= y -> exp x <= exp y.
Proof. intros [H| ->]; [left; apply exp_increasing; exact H|right; reflexivity]. Qed.

Lemma INR_le_mul i n d : (i <= n)%nat -> 0 < d -> INR i * d <= INR n * d.
Proof. intros H Hd. apply le_INR in H. nra. Qed.

Lemma SpreadOverLog_forward_spec r delta o :
  0 < rb r + o -> rb r <= re r -> 0 < delta ->
  ln ((re r + o) / (rb r + o)) / delta < 2147483647 ->
  exists v, SpreadOverLog r delta o false = Ok v /\
    geometric v (rb r) delta o /\
    Z.of_nat (length v) = (Rfloor (ln ((re r + o) / (rb r + o)) / delta) + 1)%Z /\
    (forall x, In x v -> Rinside r x) /\
    exists x, nth_error v (length v - 1) = Some x /\ re r + o < (x + o) * exp delta.
Proof.
  intros Hp Hw Hd Hc. rewrite ln_div in * by lra.
  destruct (SpreadOverLog_fwd r delta o Hp Hw Hd Hc) as (v & E & Hl & Hv).
  pose proof (N_nonneg r delta o Hp Hw Hd) as HN. pose proof (N_fit r delta o Hd) as HF.
  pose proof (N_max r delta o Hd) as HM. pose proof (INR_N r delta o Hp Hw Hd) as HI.
  pose proof (exp_lb r o Hp) as EB. pose proof (exp_le r o Hp Hw) as EE.
  set (N := Rfloor _) in *.
  exists v. split; [exact E|]. split; [|split; [|split]].
  - intros i x Hx. rewrite (Hv i x Hx), exp_plus, EB. reflexivity.
  - lia.
  - intros x Hx. apply In_nth_error in Hx. destruct Hx as [i Hi]. pose proof (Hv i x Hi) as Hx.
    pose proof (nth_error_len _ _ _ Hi) as Hil. rewrite Hl in Hil.
    pose proof (INR_le_mul i (Z.to_nat N) delta ltac:(lia) Hd). rewrite HI in H.
    pose proof (pos_INR i).
    assert (A1 : exp (ln (rb r + o)) <= exp (ln (rb r + o) + INR i * delta)) by (apply exp_le_mono; nra).
    assert (A2 : exp (ln (rb r + o) + INR i * delta) <= exp (ln (re r + o))) by (apply exp_le_mono; lra).
    unfold Rinside. lra.
  - destruct (nth_error_lt v (length v - 1)) as [x Hx]; [lia|]. exists x. split; [exact Hx|].
    rewrite (Hv _ x Hx), <- exp_plus, <- EE. apply exp_increasing. rewrite Hl.
    replace (S (Z.to_nat N) - 1)%nat with (Z.to_nat N) by lia. rewrite HI. lra.
Qed.

Lemma SpreadOverLog_backward_spec r delta o :
  0 < rb r + o -> rb r <= re r -> 0 < delta ->
  ln ((re r + o) / (rb r + o)) / delta < 2147483647 ->
  exists v, SpreadOverLog r delta o true = Ok v /\
    (exists x0, geometric v x0 delta o /\ x0 + o < (rb r + o) * exp delta) /\
    Z.of_nat (length v) = (Rfloor (ln ((re r + o) / (rb r + o)) / delta) + 1)%Z /\
    (forall x, In x v -> Rinside r x) /\
    nth_error v (length v - 1) = Some (re r).
Proof.
  intros Hp Hw Hd Hc. rewrite ln_div in * by lra.
  destruct (SpreadOverLog_bwd r delta o Hp Hw Hd Hc) as (v & E & Hl & Hv).
  pose proof (N_nonneg r delta o Hp Hw Hd) as HN. pose proof (N_fit r delta o Hd) as HF.
  pose proof (N_max r delta o Hd) as HM. pose proof (INR_N r delta o Hp Hw Hd) as HI.
  pose proof (exp_lb r o Hp) as EB. pose proof (exp_le r o Hp Hw) as EE.
  set (N := Rfloor _) in *.
  exists v. split; [exact E|]. split; [|split; [|split]].
  - exists (exp (ln (re r + o) - INR (Z.to_nat N) * delta) - o). split.
    + intros i x Hx. rewrite (Hv i x Hx). replace (exp (ln (re r + o) - INR (Z.to_nat N) * delta) - o + o)
        with (exp (ln (re r + o) - INR (Z.to_nat N) * delta)) by ring. rewrite <- exp_plus. f_equal.
      pose proof (nth_error_len _ _ _ Hx). rewrite minus_INR by lia. ring.
    + rewrite <- EB, <- exp_plus. replace (exp (ln (re r + o) - INR (Z.to_nat N) * delta) - o + o)
        with (exp (ln (re r + o) - INR (Z.to_nat N) * delta)) by ring.
      apply exp_increasing. rewrite HI. lra.
  - lia.
  - intros x Hx. apply In_nth_error in Hx. destruct Hx as [i Hi]. pose proof (Hv i x Hi) as Hx.
    pose proof (nth_error_len _ _ _ Hi) as Hil. rewrite Hl in Hil.
    pose proof (INR_le_mul (Z.to_nat N - i) (Z.to_nat N) delta ltac:(lia) Hd). rewrite HI in H.
    pose proof (pos_INR (Z.to_nat N - i)).
    assert (A1 : exp (ln (rb r + o)) <= exp (ln (re r + o) - INR (Z.to_nat N - i) * delta)) by (apply exp_le_mono; lra).
    assert (A2 : exp (ln (re r + o) - INR (Z.to_nat N - i) * delta) <= exp (ln (re r + o))) by (apply exp_le_mono; nra).
    unfold Rinside. lra.
  - destruct (nth_error_lt v (length v - 1)) as [x Hx]; [lia|]. rewrite Hx. f_equal.
    pose proof (Hv _ x Hx) as H. rewrite Hl in H.
    replace (Z.to_nat N - (S (Z.to_nat N) - 1))%nat with 0%nat in H by lia. simpl in H.
    rewrite Rmult_0_l, Rminus_0_r, EE in H. lra.
Qed.

Lemma geometric_strict v x0 delta o : 0 < delta -> 0 < x0 + o -> geometric v x0 delta o -> Rstrictly_increasing v.
Proof.
  intros Hd H0 Hg i j x y Hij Hx Hy. pose proof (Hg i x Hx). pose proof (Hg j y Hy).
  assert (exp (INR i * delta) < exp (INR j * delta)).
  { apply exp_increasing. apply Rmult_lt_compat_r; [exact Hd|]. apply lt_INR. exact Hij. }
  nra.
Qed.

Lemma SpreadOverLog_sign_throw r delta o back :
  (rb r + o) * (re r + o) < 0 -> SpreadOverLog r delta o back = Throw INTERNAL_ERROR.
Proof. intro H. unfold SpreadOverLog, isSameSign. rcase; [lra|]. reflexivity. Qed.

(** ** epsilon variants and the centred window *)
Definition clampR_at (r : rrange) (n i : nat) (x : R) : R :=
  let y := if Nat.eqb i 0 then Rmaxb x (rb r) else x in
  if Nat.eqb i (n - 1) then Rminb y (re r) else y.

Lemma backR_ok {A} (l : list A) : l <> [] -> exists x, back l = Ok x /\ nth_error l (length l - 1) = Some x.
Proof.
  intro H. destruct l as [|a t]; [contradiction|].
  destruct (nth_error_lt (a :: t) (length (a :: t) - 1)) as [x Hx]; [simpl; lia|].
  exists x. split; [|exact Hx]. unfold back, vget. rewrite Hx. reflexivity.
Qed.

Lemma clamp_endsR_spec r l : l <> [] -> exists l', clamp_endsR r l = Ok l' /\ length l' = length l /\
  forall i x, nth_error l i = Some x -> nth_error l' i = Some (clampR_at r (length l) i x).
Proof.
  intro Hne. destruct l as [|h t]; [contradiction|]. unfold clamp_endsR.
  set (l1 := Rmaxb h (rb r) :: t). destruct (backR_ok l1) as (b & Eb & Hb); [discriminate|].
  rewrite Eb. cbn [rbind].
  destruct (vset_ok l1 (length l1 - 1) (Rminb b (re r))) as (l' & Ev & Hl & Hn & Ho); [unfold l1; simpl; lia|].
  exists l'. split; [exact Ev|]. split; [exact Hl|].
  intros i x Hx. unfold clampR_at. change (length (h :: t)) with (length l1).
  assert (Hl1 : nth_error l1 i = Some (if Nat.eqb i 0 then Rmaxb x (rb r) else x)).
  { unfold l1. destruct i as [|i]; simpl in *; [inversion Hx; subst; reflexivity|exact Hx]. }
  destruct (Nat.eqb_spec i (length l1 - 1)) as [E|E].
  - subst i. rewrite Hn. rewrite Hb in Hl1. inversion Hl1; subst. reflexivity.
  - rewrite Ho by exact E. exact Hl1.
Qed.

(** sample i of the forward grid: exp(lc + i*delta) - 1, last one clamped at re *)
Lemma LogEps_forward r delta eps :
  0 < rb r + 1 -> rb r <= re r -> 0 < delta -> 0 <= eps ->
  eps < (re r + 1) * (exp delta - 1) ->
  ln ((re r + eps + 1) / (rb r + 1)) / delta < 2147483647 ->
  exists v N, SpreadOverLogZplusOneEpsilon r delta false eps = Ok v /\ length v = S N /\
    (forall i x, nth_error v i = Some x -> (i < N)%nat -> x + 1 = (rb r + 1) * exp (INR i * delta)) /\
    (forall i x, nth_error v i = Some x -> (i < N)%nat -> x < re r) /\
    (forall x, nth_error v N = Some x -> x + 1 <= (rb r + 1) * exp (INR N * delta) /\ rb r <= x <= re r
         /\ re r + 1 < (x + 1) * exp delta /\ (x = re r \/ x + 1 = (rb r + 1) * exp (INR N * delta))) /\
    (forall x, nth_error v 0 = Some x -> x = rb r) /\
    ((0 < N)%nat -> (rb r + 1) * exp (INR (N - 1) * delta) < re r + 1).
Proof.
  intros Hp Hw Hd He Hs Hc. unfold SpreadOverLogZplusOneEpsilon, SpreadOverLogZplusOne.
  set (r' := mkRR (rb r + 0) (re r + eps)).
  assert (B : rb r' = rb r) by (unfold r'; simpl; ring). assert (E' : re r' = re r + eps) by reflexivity.
  assert (Hp' : 0 < rb r' + 1) by (rewrite B; lra). assert (Hw' : rb r' <= re r') by (rewrite B, E'; lra).
  assert (Hc' : (ln (re r' + 1) - ln (rb r' + 1)) / delta < 2147483647).
  { rewrite <- ln_div by lra. rewrite B, E'. exact Hc. }
  destruct (SpreadOverLog_fwd r' delta 1 Hp' Hw' Hd Hc') as (w & Ew & Hl & Hv).
  pose proof (N_nonneg r' delta 1 Hp' Hw' Hd) as HN. pose proof (N_fit r' delta 1 Hd) as HF.
  pose proof (N_max r' delta 1 Hd) as HM. pose proof (INR_N r' delta 1 Hp' Hw' Hd) as HI.
  pose proof (exp_lb r' 1 Hp') as EB. pose proof (exp_le r' 1 Hp' Hw') as EE.
  set (NZ := Rfloor _) in *. set (N := Z.to_nat NZ) in *.
  rewrite Ew. cbn [rbind].
  destruct (clamp_endsR_spec r w) as (v & Ev & Hlv & Hcl); [intro K; rewrite K in Hl; discriminate|].
  assert (HV : forall i x, nth_error v i = Some x -> exists z, nth_error w i = Some z /\
     z + 1 = (rb r + 1) * exp (INR i * delta) /\ x = clampR_at r (S N) i z).
  { intros i x Hx. pose proof (nth_error_len _ _ _ Hx) as Hi. rewrite Hlv in Hi.
    destruct (nth_error_lt w i Hi) as [z Hz]. exists z. split; [exact Hz|]. split.
    - rewrite (Hv i z Hz), exp_plus, EB, B. reflexivity.
    - pose proof (Hcl i z Hz) as K. rewrite Hx in K. rewrite Hl in K. inversion K. reflexivity. }
  assert (Hge : forall i, rb r + 1 <= (rb r + 1) * exp (INR i * delta)).
  { intro i. pose proof (exp_le_mono 0 (INR i * delta)). rewrite exp_0 in H. pose proof (pos_INR i).
    assert (1 <= exp (INR i * delta)) by (apply H; nra). nra. }
  assert (Hlast : (rb r + 1) * exp (INR N * delta) <= re r + eps + 1).
  { rewrite <- B, <- E', <- EE, <- EB, <- exp_plus. apply exp_le_mono. rewrite HI. lra. }
  assert (Hnext : re r + eps + 1 < (rb r + 1) * exp (INR N * delta) * exp delta).
  { rewrite <- B, <- E', <- EE, <- EB, <- !exp_plus. apply exp_increasing. rewrite HI. lra. }
  assert (Hexpd : 1 < exp delta) by (rewrite <- exp_0; apply exp_increasing; exact Hd).
  assert (Hprev : (0 < N)%nat -> (rb r + 1) * exp (INR (N - 1) * delta) < re r + 1).
  { intro HN0. assert (X : (rb r + 1) * exp (INR N * delta) = (rb r + 1) * exp (INR (N - 1) * delta) * exp delta).
    { rewrite Rmult_assoc, <- exp_plus. f_equal. f_equal.
      rewrite <- (Rmult_1_l delta) at 3. rewrite <- Rmult_plus_distr_r. f_equal.
      replace N with (S (N - 1)) at 1 by lia. rewrite S_INR. reflexivity. }
    nra. }
  exists v, N. split; [exact Ev|]. split; [lia|].
  assert (Hint : forall i x, nth_error v i = Some x -> (i < N)%nat -> x + 1 = (rb r + 1) * exp (INR i * delta)).
  { intros i x Hx Hi. destruct (HV i x Hx) as (z & Hz & Ez & ->). unfold clampR_at.
    replace (S N - 1)%nat with N by lia. destruct (Nat.eqb_spec i N); [lia|].
    destruct (Nat.eqb_spec i 0) as [->|]; [|exact Ez].
    pose proof (Hge 0%nat). unfold Rmaxb. rcase; lra. }
  split; [exact Hint|]. split; [|split; [|split; [|exact Hprev]]].
  - intros i x Hx Hi. pose proof (Hint i x Hx Hi) as K.
    pose proof (exp_le_mono _ _ (INR_le_mul i (N - 1) delta ltac:(lia) Hd)) as M.
    pose proof (Hprev ltac:(lia)). nra.
  - intros x Hx. destruct (HV N x Hx) as (z & Hz & Ez & ->). unfold clampR_at.
    replace (S N - 1)%nat with N by lia. rewrite Nat.eqb_refl. pose proof (Hge N).
    assert (Y : (if Nat.eqb N 0 then Rmaxb z (rb r) else z) = z).
    { destruct (Nat.eqb_spec N 0) as [E0|]; [|reflexivity]. unfold Rmaxb. rcase; lra. }
    rewrite Y. unfold Rminb. rcase; (split; [nra|split; [lra|split; [nra|]]]); [left; reflexivity|right; lra].
  - intros x Hx. destruct (HV 0%nat x Hx) as (z & Hz & Ez & ->). simpl in Ez. rewrite Rmult_0_l, exp_0 in Ez.
    unfold clampR_at. simpl (Nat.eqb 0 0). cbv iota.
    assert (Y : Rmaxb z (rb r) = rb r) by (unfold Rmaxb; rcase; lra). rewrite Y.
    destruct (Nat.eqb 0 (S N - 1)); auto. unfold Rminb. rcase; lra.
Qed.

Lemma LogEps_backward r delta eps :
  0 < rb r - eps + 1 -> rb r <= re r -> 0 < delta -> 0 <= eps ->
  eps < (rb r - eps + 1) * (exp delta - 1) ->
  ln ((re r + 1) / (rb r - eps + 1)) / delta < 2147483647 ->
  exists v N, SpreadOverLogZplusOneEpsilon r delta true eps = Ok v /\ length v = S N /\
    (forall i x, nth_error v i = Some x -> (0 < i)%nat -> x + 1 = (re r + 1) * exp (- (INR (N - i) * delta))) /\
    (forall i x, nth_error v i = Some x -> (0 < i)%nat -> rb r < x) /\
    (forall x, nth_error v 0 = Some x -> (re r + 1) * exp (- (INR N * delta)) <= x + 1 /\ rb r <= x <= re r
         /\ x + 1 < (rb r + 1) * exp delta /\ (x = rb r \/ x + 1 = (re r + 1) * exp (- (INR N * delta)))) /\
    (forall x, nth_error v N = Some x -> x = re r).
Proof.
  intros Hp Hw Hd He Hs Hc. unfold SpreadOverLogZplusOneEpsilon, SpreadOverLogZplusOne.
  set (r' := mkRR (rb r - eps) (re r + 0)).
  assert (B : rb r' = rb r - eps) by reflexivity. assert (E' : re r' = re r) by (unfold r'; simpl; ring).
  assert (Hp' : 0 < rb r' + 1) by (rewrite B; lra). assert (Hw' : rb r' <= re r') by (rewrite B, E'; lra).
  assert (Hc' : (ln (re r' + 1) - ln (rb r' + 1)) / delta < 2147483647).
  { rewrite <- ln_div by lra. rewrite B, E'. exact Hc. }
  destruct (SpreadOverLog_bwd r' delta 1 Hp' Hw' Hd Hc') as (w & Ew & Hl & Hv).
  pose proof (N_nonneg r' delta 1 Hp' Hw' Hd) as HN. pose proof (N_fit r' delta 1 Hd) as HF.
  pose proof (N_max r' delta 1 Hd) as HM. pose proof (INR_N r' delta 1 Hp' Hw' Hd) as HI.
  pose proof (exp_lb r' 1 Hp') as EB. pose proof (exp_le r' 1 Hp' Hw') as EE.
  set (NZ := Rfloor _) in *. set (N := Z.to_nat NZ) in *.
  rewrite Ew. cbn [rbind].
  destruct (clamp_endsR_spec r w) as (v & Ev & Hlv & Hcl); [intro K; rewrite K in Hl; discriminate|].
  assert (HV : forall i x, nth_error v i = Some x -> exists z, nth_error w i = Some z /\
     z + 1 = (re r + 1) * exp (- (INR (N - i) * delta)) /\ x = clampR_at r (S N) i z).
  { intros i x Hx. pose proof (nth_error_len _ _ _ Hx) as Hi. rewrite Hlv in Hi.
    destruct (nth_error_lt w i Hi) as [z Hz]. exists z. split; [exact Hz|]. split.
    - rewrite (Hv i z Hz). unfold Rminus at 1. rewrite exp_plus, EE, E'. reflexivity.
    - pose proof (Hcl i z Hz) as K. rewrite Hx in K. rewrite Hl in K. inversion K. reflexivity. }
  assert (Hpe : 0 < re r + 1) by lra.
  assert (Hle1 : forall i, (re r + 1) * exp (- (INR i * delta)) <= re r + 1).
  { intro i. pose proof (exp_le_mono (- (INR i * delta)) 0). rewrite exp_0 in H. pose proof (pos_INR i).
    assert (exp (- (INR i * delta)) <= 1) by (apply H; nra). nra. }
  assert (Hfirst : rb r - eps + 1 <= (re r + 1) * exp (- (INR N * delta))).
  { rewrite <- B, <- EB. rewrite <- E', <- EE, <- exp_plus. apply exp_le_mono. rewrite HI. lra. }
  assert (Hnext : (re r + 1) * exp (- (INR N * delta)) < (rb r - eps + 1) * exp delta).
  { rewrite <- B, <- EB. rewrite <- E', <- EE, <- !exp_plus. apply exp_increasing. rewrite HI. lra. }
  assert (Hexpd : 1 < exp delta) by (rewrite <- exp_0; apply exp_increasing; exact Hd).
  assert (Hsecond : forall i, (0 < i)%nat -> (i <= N)%nat -> rb r + 1 < (re r + 1) * exp (- (INR (N - i) * delta))).
  { intros i Hi HiN. assert (X : (re r + 1) * exp (- (INR (N - 1) * delta)) = (re r + 1) * exp (- (INR N * delta)) * exp delta).
    { rewrite Rmult_assoc, <- exp_plus. f_equal. f_equal.
      replace N with (S (N - 1)) at 2 by lia. rewrite S_INR. ring. }
    assert (Y : (re r + 1) * exp (- (INR (N - 1) * delta)) <= (re r + 1) * exp (- (INR (N - i) * delta))).
    { apply Rmult_le_compat_l; [lra|]. apply exp_le_mono.
      pose proof (INR_le_mul (N - i) (N - 1) delta ltac:(lia) Hd). lra. }
    nra. }
  exists v, N. split; [exact Ev|]. split; [lia|].
  assert (Hint : forall i x, nth_error v i = Some x -> (0 < i)%nat -> x + 1 = (re r + 1) * exp (- (INR (N - i) * delta))).
  { intros i x Hx Hi. destruct (HV i x Hx) as (z & Hz & Ez & ->). unfold clampR_at.
    replace (S N - 1)%nat with N by lia. destruct (Nat.eqb_spec i 0); [lia|].
    destruct (Nat.eqb_spec i N) as [->|]; [|exact Ez].
    pose proof (Hle1 (N - N)%nat). unfold Rminb. rcase; lra. }
  split; [exact Hint|]. split; [|split].
  - intros i x Hx Hi. pose proof (Hint i x Hx Hi) as K. pose proof (nth_error_len _ _ _ Hx).
    pose proof (Hsecond i Hi ltac:(lia)). lra.
  - intros x Hx. destruct (HV 0%nat x Hx) as (z & Hz & Ez & ->). unfold clampR_at.
    rewrite Nat.sub_0_r in Ez. simpl (Nat.eqb 0 0). cbv iota. pose proof (Hle1 N).
    assert (Y : Rminb (Rmaxb z (rb r)) (re r) = Rmaxb z (rb r)) by (unfold Rminb, Rmaxb; repeat rcase; lra).
    assert (Y2 : (if Nat.eqb 0 (S N - 1) then Rminb (Rmaxb z (rb r)) (re r) else Rmaxb z (rb r)) = Rmaxb z (rb r))
      by (destruct (Nat.eqb 0 (S N - 1)); auto).
    rewrite Y2. unfold Rmaxb. rcase; (split; [nra|split; [lra|split; [nra|]]]); [left; reflexivity|right; lra].
  - intros x Hx. destruct (HV N x Hx) as (z & Hz & Ez & ->). rewrite Nat.sub_diag in Ez. simpl in Ez.
    rewrite Rmult_0_l, Ropp_0, exp_0 in Ez. unfold clampR_at.
    replace (S N - 1)%nat with N by lia. rewrite Nat.eqb_refl.
    destruct (Nat.eqb N 0); unfold Rminb, Rmaxb; repeat rcase; lra.
Qed.

Lemma exp_step a i d : (0 < i)%nat -> a * exp (INR i * d) = a * exp (INR (i - 1) * d) * exp d.
Proof.
  intro H. rewrite Rmult_assoc, <- exp_plus. f_equal. f_equal.
  replace i with (S (i - 1)) at 1 by lia. rewrite S_INR. ring.
Qed.

Lemma spanCenteredWindow_log_spec r center delta eps :
  Rinside r center -> 0 < rb r - eps + 1 -> 0 < delta -> 0 <= eps ->
  eps < (rb r - eps + 1) * (exp delta - 1) ->
  ln ((re r + eps + 1) / (rb r - eps + 1)) / delta < 2147483647 ->
  exists v, spanCenteredWindow_log r center delta eps = Ok v /\
    Rstrictly_increasing v /\ (forall x, In x v -> Rinside r x) /\ near_geometric v delta /\
    In center v /\
    (exists x, nth_error v 0 = Some x /\ x + 1 < (rb r + 1) * exp delta) /\
    (exists x, nth_error v (length v - 1) = Some x /\ re r + 1 < (x + 1) * exp delta).
Proof.
  intros [H1 H2] Hp Hd He Hs Hc. unfold spanCenteredWindow_log.
  assert (Hexpd : 1 < exp delta) by (rewrite <- exp_0; apply exp_increasing; exact Hd).
  assert (Hq : forall a b, 0 < b -> b <= a -> a <= re r + eps + 1 -> rb r - eps + 1 <= b -> ln (a / b) / delta < 2147483647).
  { intros a b Hb Hba Ha Hb'. assert (ln (a / b) <= ln ((re r + eps + 1) / (rb r - eps + 1))).
    { rewrite !ln_div by lra.
      assert (ln a <= ln (re r + eps + 1)) by (destruct Ha as [G| ->]; [left; apply ln_increasing; lra|lra]).
      assert (ln (rb r - eps + 1) <= ln b) by (destruct Hb' as [G|G]; [left; apply ln_increasing; lra|rewrite G; lra]).
      lra. }
    apply Rle_lt_trans with (2 := Hc). unfold Rdiv. apply Rmult_le_compat_r; [|exact H].
    left. apply Rinv_0_lt_compat. exact Hd. }
  destruct (LogEps_backward (mkRR (rb r) center) delta eps) as (v1 & N1 & E1 & L1 & A1 & B1 & C1 & D1);
    cbn [rb re] in *; auto; try (apply Hq; lra).
  destruct (LogEps_forward (mkRR center (re r)) delta eps) as (v2 & N2 & E2 & L2 & A2 & B2 & C2 & D2 & F2);
    cbn [rb re] in *; auto; try lra; try nra; try (apply Hq; lra).
  rewrite E1. cbn [rbind]. rewrite E2. cbn [rbind].
  destruct v2 as [|c t]; [discriminate|].
  assert (Ec : c = center) by (apply D2; reflexivity). subst c.
  assert (Hc1 : nth_error v1 N1 = Some center).
  { destruct (nth_error_lt v1 N1) as [x Hx]; [lia|]. rewrite Hx. f_equal. apply D1. exact Hx. }
  exists (v1 ++ t). split; [reflexivity|].
  assert (Ht : length t = N2) by (simpl in L2; lia).
  (* indices: 0..N1 from v1, N1+k (1<=k<=N2) is (center::t)[k] *)
  assert (HA : forall i x, nth_error (v1 ++ t) i = Some x -> (i <= N1)%nat -> nth_error v1 i = Some x).
  { intros i x Hx Hi. rewrite nth_error_app1 in Hx by lia. exact Hx. }
  assert (HB : forall i x, nth_error (v1 ++ t) i = Some x -> (N1 <= i)%nat -> nth_error (center :: t) (i - N1) = Some x).
  { intros i x Hx Hi. destruct (Nat.eq_dec i N1) as [->|Hn].
    - rewrite nth_error_app1 in Hx by lia. rewrite Nat.sub_diag. simpl. congruence.
    - rewrite nth_error_app2 in Hx by lia. replace (i - N1)%nat with (S (i - length v1)) by lia. exact Hx. }
  (* steps inside the left grid *)
  assert (SL : forall i x y, nth_error v1 i = Some x -> nth_error v1 (S i) = Some y ->
      x < y /\ y + 1 <= (x + 1) * exp delta /\ ((0 < i)%nat -> y + 1 = (x + 1) * exp delta)).
  { intros i x y Hx Hy. pose proof (nth_error_len _ _ _ Hy) as Hyl.
    pose proof (A1 (S i) y Hy ltac:(lia)) as Ey. pose proof (B1 (S i) y Hy ltac:(lia)) as Gy.
    assert (X : (center + 1) * exp (- (INR (N1 - S i) * delta)) = (center + 1) * exp (- (INR (N1 - i) * delta)) * exp delta).
    { rewrite Rmult_assoc, <- exp_plus. f_equal. f_equal.
      replace (N1 - i)%nat with (S (N1 - S i)) by lia. rewrite S_INR. ring. }
    destruct i as [|i].
    - destruct (C1 x Hx) as (Q1 & Q2 & Q3 & [Q4|Q4]); rewrite Nat.sub_0_r in X.
      + split; [lra|split; [nra|lia]].
      + assert (0 < x + 1) by lra. split; [nra|split; [nra|lia]].
    - pose proof (A1 (S i) x Hx ltac:(lia)) as Ex. assert (0 < x + 1) by (pose proof (B1 (S i) x Hx ltac:(lia)); lra).
      split; [nra|]. split; [nra|]. intros _. nra. }
  assert (SR : forall i x y, nth_error (center :: t) i = Some x -> nth_error (center :: t) (S i) = Some y ->
      x < y /\ y + 1 <= (x + 1) * exp delta /\ ((S i < N2)%nat -> y + 1 = (x + 1) * exp delta)).
  { intros i x y Hx Hy. pose proof (nth_error_len _ _ _ Hy) as Hyl. rewrite L2 in Hyl.
    pose proof (A2 i x Hx ltac:(lia)) as Ex. pose proof (B2 i x Hx ltac:(lia)) as Gx.
    pose proof (exp_step (center + 1) (S i) delta ltac:(lia)) as X. replace (S i - 1)%nat with i in X by lia.
    assert (0 < x + 1).
    { rewrite Ex. apply Rmult_lt_0_compat; [lra|apply exp_pos]. }
    destruct (Nat.eq_dec (S i) N2) as [E|E].
    - rewrite E in *. destruct (C2 y Hy) as (Q1 & Q2 & Q3 & [Q4|Q4]).
      + split; [lra|split; [nra|lia]].
      + split; [nra|split; [nra|lia]].
    - pose proof (A2 (S i) y Hy ltac:(lia)) as Ey. split; [nra|]. split; [nra|]. intros _. nra. }
  assert (Hlen : length (v1 ++ t) = (S N1 + N2)%nat) by (rewrite app_length; lia).
  assert (ST : forall i x y, nth_error (v1 ++ t) i = Some x -> nth_error (v1 ++ t) (S i) = Some y ->
      x < y /\ y + 1 <= (x + 1) * exp delta /\ ((0 < i)%nat -> (S (S i) < length (v1 ++ t))%nat -> y + 1 = (x + 1) * exp delta)).
  { intros i x y Hx Hy. destruct (le_lt_dec (S i) N1) as [K|K].
    - destruct (SL i x y (HA i x Hx ltac:(lia)) (HA (S i) y Hy K)) as (Q1 & Q2 & Q3). auto.
    - pose proof (HB (S i) y Hy ltac:(lia)) as Hy'. replace (S i - N1)%nat with (S (i - N1)) in Hy' by lia.
      destruct (SR (i - N1)%nat x y (HB i x Hx ltac:(lia)) Hy') as (Q1 & Q2 & Q3).
      split; [exact Q1|]. split; [exact Q2|]. intros _ G. apply Q3. lia. }
  split; [|split; [|split; [|split; [|split]]]].
  - intros i j x y Hij Hx Hy. revert y Hy. induction j as [|j IH]; [lia|]. intros y Hy.
    destruct (nth_error_lt (v1 ++ t) j) as [z Hz]; [pose proof (nth_error_len _ _ _ Hy); lia|].
    destruct (ST j z y Hz Hy) as [A _].
    destruct (Nat.eq_dec i j) as [->|E]; [assert (x = z) by congruence; subst; exact A|].
    apply Rlt_trans with z; [apply IH; auto; lia|exact A].
  - intros x Hx. apply In_nth_error in Hx. destruct Hx as [i Hi]. unfold Rinside.
    pose proof (nth_error_len _ _ _ Hi) as Hil.
    destruct (le_lt_dec i N1) as [K|K].
    + pose proof (HA i x Hi K) as Hv. destruct i as [|i].
      * destruct (C1 x Hv) as (_ & Q & _). lra.
      * pose proof (B1 _ x Hv ltac:(lia)). pose proof (A1 _ x Hv ltac:(lia)) as Ex.
        pose proof (exp_le_mono (- (INR (N1 - S i) * delta)) 0) as M. rewrite exp_0 in M.
        pose proof (pos_INR (N1 - S i)). assert (exp (- (INR (N1 - S i) * delta)) <= 1) by (apply M; nra).
        assert (x + 1 <= center + 1) by (rewrite Ex; nra). lra.
    + pose proof (HB i x Hi ltac:(lia)) as Hv. destruct (Nat.eq_dec (i - N1) N2) as [E|E].
      * rewrite E in Hv. destruct (C2 x Hv) as (_ & Q & _). lra.
      * pose proof (B2 _ x Hv ltac:(lia)). pose proof (A2 _ x Hv ltac:(lia)) as Ex.
        pose proof (exp_le_mono 0 (INR (i - N1) * delta)) as M. rewrite exp_0 in M.
        pose proof (pos_INR (i - N1)). assert (1 <= exp (INR (i - N1) * delta)) by (apply M; nra).
        assert (center + 1 <= x + 1) by (rewrite Ex; nra). lra.
  - intros i x y Hx Hy. destruct (ST i x y Hx Hy) as (_ & Q). exact Q.
  - apply in_or_app. left. eapply nth_error_In; eauto.
  - destruct (nth_error_lt v1 0) as [x Hx]; [lia|]. exists x. rewrite nth_error_app1 by lia. split; [exact Hx|].
    destruct (C1 x Hx) as (_ & _ & Q & _). exact Q.
  - destruct (nth_error_lt (v1 ++ t) (length (v1 ++ t) - 1)) as [x Hx]; [lia|]. exists x. split; [exact Hx|].
    pose proof (HB _ x Hx ltac:(lia)) as Hv. rewrite Hlen in Hv.
    replace (S N1 + N2 - 1 - N1)%nat with N2 in Hv by lia. destruct (C2 x Hv) as (_ & _ & Q & _). exact Q.
Qed.
