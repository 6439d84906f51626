(** C93: the logarithmic grids. *)
From Coq Require Import String.
From Verif Require Import Base RBase RangeModel RangeLogModel RangeLogSpec RangeLogProofs SgridModel SgridSpec.
Open Scope R_scope.

Lemma ln_le x y : 0 < x -> x <= y -> ln x <= ln y.
Proof. intros H [G| ->]; [left; apply ln_increasing; auto|right; reflexivity]. Qed.
Lemma Rle_div_r a b c : 0 < c -> a * c <= b -> a <= b / c.
Proof. intros H G. apply Rmult_le_reg_r with c; auto. unfold Rdiv. rewrite Rmult_assoc, Rinv_l by lra. lra. Qed.
Lemma Rle_div_l a b c : 0 < c -> a <= b * c -> a / c <= b.
Proof. intros H G. apply Rmult_le_reg_r with c; auto. unfold Rdiv. rewrite Rmult_assoc, Rinv_l by lra. lra. Qed.

Lemma Rminb_min a b : Rminb a b = Rmin a b.
Proof. unfold Rminb, Rmin. destruct (Rle_dec a b); rcase; lra. Qed.

Lemma log_steps_S b d i : log_steps b d (S i) + 1 = (log_steps b d i + 1) * exp d.
Proof. unfold log_steps. rewrite S_INR. replace ((INR i + 1) * d) with (INR i * d + d) by ring. rewrite exp_plus. ring. Qed.
Lemma log_steps_le b d i j : 0 < b + 1 -> 0 < d -> (i <= j)%nat -> log_steps b d i <= log_steps b d j.
Proof. intros Hb Hd H. unfold log_steps. pose proof (exp_le_mono _ _ (INR_le_mul i j d H Hd)). nra. Qed.
Lemma log_steps_0 b d : log_steps b d 0 = b.
Proof. unfold log_steps. cbn [INR]. rewrite Rmult_0_l, exp_0. ring. Qed.

Lemma grid_log_spec r step : fit_log r step ->
  exists v, grid_log r step = Ok v /\ laidR (log_steps (rb r) step) (re r) epsR v.
Proof.
  intros (Hp & Hw & Hd & Hs & Hc). assert (He : 0 <= epsR) by (unfold epsR; lra).
  unfold grid_log, SpreadOverLogZplusOneEpsilon, SpreadOverLogZplusOne. generalize dependent epsR. intros eps Hs Hc He. rename step into delta.
  set (r' := mkRR (rb r + 0) (re r + eps)).
  assert (B : rb r' = rb r) by (unfold r'; simpl; ring). assert (E' : re r' = re r + eps) by reflexivity.
  assert (Hp' : 0 < rb r' + 1) by (rewrite B; lra). assert (Hw' : rb r' <= re r') by (rewrite B, E'; lra).
  assert (Hc' : (ln (re r' + 1) - ln (rb r' + 1)) / delta < 2147483647).
  { rewrite <- ln_div by lra. rewrite B, E'. exact Hc. }
  destruct (SpreadOverLog_fwd r' delta 1 Hp' Hw' Hd Hc') as (w & Ew & Hl & Hv).
  pose proof (N_nonneg r' delta 1 Hp' Hw' Hd) as HN. pose proof (N_fit r' delta 1 Hd) as HF.
  pose proof (N_max r' delta 1 Hd) as HM. pose proof (INR_N r' delta 1 Hp' Hw' Hd) as HI.
  pose proof (exp_lb r' 1 Hp') as EB. pose proof (exp_le r' 1 Hp' Hw') as EE.
  set (NZ := Rfloor _) in *. set (N := Z.to_nat NZ) in *.
  rewrite Ew. cbn [rbind].
  destruct (clamp_endsR_spec r w) as (v & Ev & Hlv & Hcl); [intro K; rewrite K in Hl; discriminate|].
  assert (Hexpd : 1 < exp delta) by (rewrite <- exp_0; apply exp_increasing; exact Hd).
  assert (Hlast : (rb r + 1) * exp (INR N * delta) <= re r + eps + 1).
  { rewrite <- B, <- E', <- EE, <- EB, <- exp_plus. apply exp_le_mono. rewrite HI. lra. }
  assert (Hnext : re r + eps + 1 < (rb r + 1) * exp (INR N * delta) * exp delta).
  { rewrite <- B, <- E', <- EE, <- EB, <- !exp_plus. apply exp_increasing. rewrite HI. lra. }
  exists v. split; [exact Ev|]. exists N. split; [lia|]. split; [unfold log_steps; lra|].
  split. { pose proof (log_steps_S (rb r) delta N). unfold log_steps in *. nra. }
  intros i x Hx. pose proof (nth_error_len _ _ _ Hx) as Hi. rewrite Hlv in Hi.
  destruct (nth_error_lt w i Hi) as [z Hz].
  assert (Ez : z = log_steps (rb r) delta i).
  { pose proof (Hv i z Hz) as K. rewrite exp_plus, EB, B in K. unfold log_steps. lra. }
  pose proof (Hcl i z Hz) as K. rewrite Hx, Hl in K. injection K as ->. unfold clampR_at.
  replace (S N - 1)%nat with N by lia.
  assert (Y : (if Nat.eqb i 0 then Rmaxb z (rb r) else z) = z).
  { destruct (Nat.eqb_spec i 0) as [E0|]; [|reflexivity]. subst i. rewrite log_steps_0 in Ez. unfold Rmaxb. rcase; lra. }
  rewrite Y. destruct (Nat.eqb_spec i N) as [E|E]; [rewrite Rminb_min, Ez; reflexivity|].
  assert (L : (S i <= N)%nat) by lia. pose proof (log_steps_le (rb r) delta _ _ Hp Hd L) as M.
  pose proof (log_steps_S (rb r) delta i) as S'. unfold Rmin. destruct (Rle_dec (log_steps (rb r) delta i) (re r)) as [|G]; auto. exfalso.
  assert (log_steps (rb r) delta N <= re r + eps) by (unfold log_steps; lra). nra.
Qed.

Lemma laidR_first b d e v : b <= e -> laidR (log_steps b d) e epsR v -> nth_error v 0 = Some b.
Proof.
  intros He (N & L & _ & _ & H). destruct (nth_error_lt v 0) as (x & Hx); [lia|]. rewrite Hx. f_equal. rewrite (H 0%nat x Hx), log_steps_0. apply Rmin_left. exact He.
Qed.
Lemma laidR_inside b d e v x : 0 < b + 1 -> 0 < d -> b <= e -> laidR (log_steps b d) e epsR v -> In x v -> b <= x <= e.
Proof.
  intros Hb Hd He (N & L & _ & _ & H) Hx. apply In_nth_error in Hx. destruct Hx as (i & Hi). rewrite (H i x Hi).
  pose proof (log_steps_le b d 0 i Hb Hd ltac:(lia)) as P. rewrite log_steps_0 in P. split; [apply Rmin_glb; lra|apply Rmin_r].
Qed.
Lemma laidR_last b d e v : 0 < b + 1 -> 0 < d -> b <= e -> laidR (log_steps b d) e epsR v ->
  exists x, nth_error v (length v - 1) = Some x /\ e + 1 < (x + 1) * exp d.
Proof.
  intros Hb Hd He (N & L & F & G & H). destruct (nth_error_lt v N) as (x & Hx); [lia|]. exists x.
  split; [rewrite L; replace (S N - 1)%nat with N by lia; exact Hx|]. rewrite (H N x Hx).
  assert (0 < epsR) by (unfold epsR; lra). pose proof (log_steps_S b d N) as S'.
  assert (1 < exp d) by (rewrite <- exp_0; apply exp_increasing; exact Hd).
  unfold Rmin. destruct (Rle_dec (log_steps b d N) e); nra.
Qed.
Lemma laidR_coarse b d e (k : nat) vc vf : 0 < b + 1 -> 0 < d -> (1 <= k)%nat ->
  laidR (log_steps b (d * INR k)) e epsR vc -> laidR (log_steps b d) e epsR vf ->
  forall i x, nth_error vc i = Some x -> nth_error vf (k * i) = Some x.
Proof.
  intros Hb Hd Hk (Nc & Lc & Fc & Gc & Hc) (Nf & Lf & Ff & Gf & Hf) i x Hx.
  assert (Hi : (i <= Nc)%nat) by (pose proof (nth_error_len _ _ _ Hx); lia).
  assert (M : forall i, log_steps b (d * INR k) i = log_steps b d (k * i)).
  { intro j. unfold log_steps. rewrite mult_INR. f_equal. f_equal. f_equal. ring. }
  rewrite M in Fc. assert (P : log_steps b d (k * i) <= e + epsR).
  { apply Rle_trans with (2 := Fc). apply log_steps_le; auto. apply Nat.mul_le_mono_l. exact Hi. }
  assert (K : (k * i <= Nf)%nat).
  { destruct (Nat.le_gt_cases (k * i) Nf) as [|G]; auto. exfalso. pose proof (log_steps_le b d (S Nf) (k * i) Hb Hd ltac:(lia)). lra. }
  destruct (nth_error_lt vf (k * i)) as (y & Hy); [lia|]. rewrite Hy. f_equal. rewrite (Hf _ y Hy), (Hc i x Hx), M. reflexivity.
Qed.

Lemma coarse_fit_log r d k : (1 <= k)%nat -> fit_log r d -> fit_log r (d * INR k).
Proof.
  intros Hk (A & B & C & D & E). assert (P : 1 <= INR k) by (apply (le_INR 1); auto). assert (He : 0 < epsR) by (unfold epsR; lra).
  assert (Hl : d <= d * INR k) by nra. repeat split; auto; [nra| |].
  - pose proof (exp_le_mono _ _ Hl). nra.
  - apply Rle_lt_trans with (2 := E). set (l := ln _). assert (0 <= l).
    { unfold l. rewrite <- ln_1. apply ln_le; [lra|]. apply Rle_div_r; lra. }
    clearbody l. unfold Rdiv. apply Rmult_le_compat_l; [auto|]. apply Rinv_le_contravar; auto.
Qed.

Lemma lineModel_log r step k : (1 <= k)%nat -> fit_log r step ->
  exists vc vf v s, grid_log r (step * INR k) = Ok vc /\ grid_log r step = Ok vf /\ lineModel_grid_log r step (Z.of_nat k) = Ok (v, s) /\
    ((length vc < 10)%nat -> v = vf /\ s = step) /\ ((10 <= length vc)%nat -> v = vc /\ s = step * INR k) /\
    (forall x, In x v -> In x vf) /\ (forall x, In x v -> rb r <= x <= re r) /\
    nth_error v 0 = Some (rb r) /\ (exists x, nth_error v (length v - 1) = Some x /\ re r + 1 < (x + 1) * exp s) /\
    laidR (log_steps (rb r) s) (re r) epsR v.
Proof.
  intros Hk F. pose proof (coarse_fit_log r step k Hk F) as Fk.
  destruct (grid_log_spec _ _ F) as (vf & Ef & Lf). destruct (grid_log_spec _ _ Fk) as (vc & Ec & Lc).
  assert (E : lineModel_grid_log r step (Z.of_nat k) = Ok (if (length vc <? 10)%nat then (vf, step) else (vc, step * INR k))).
  { unfold lineModel_grid_log, coarse_or_fine. rewrite <- INR_IZR_INZ, Ec. cbn [rbind]. change MIN_GRID_COUNT with 10%nat. destruct (length vc <? 10)%nat; [rewrite Ef|]; reflexivity. }
  destruct F as (A & B & C & _). destruct Fk as (_ & _ & C' & _).
  exists vc, vf. destruct (Nat.ltb_spec (length vc) 10) as [L|L].
  - exists vf, step. split; [exact Ec|]. split; [exact Ef|]. split; [exact E|]. split; [intros; split; reflexivity|]. split; [intros; exfalso; lia|].
    split; [auto|]. split; [intros x Hx; exact (laidR_inside _ _ _ _ x A C B Lf Hx)|].
    split; [exact (laidR_first _ _ _ _ B Lf)|]. split; [exact (laidR_last _ _ _ _ A C B Lf)|exact Lf].
  - exists vc, (step * INR k). split; [exact Ec|]. split; [exact Ef|]. split; [exact E|]. split; [intros; exfalso; lia|]. split; [intros; split; reflexivity|].
    split. { intros x Hx. apply In_nth_error in Hx. destruct Hx as (i & Hi). apply (nth_error_In vf (k * i)). exact (laidR_coarse _ _ _ k vc vf A C Hk Lc Lf i x Hi). }
    split; [intros x Hx; exact (laidR_inside _ _ _ _ x A C' B Lc Hx)|].
    split; [exact (laidR_first _ _ _ _ B Lc)|]. split; [exact (laidR_last _ _ _ _ A C' B Lc)|exact Lc].
Qed.

Lemma Rceil_ge x : x <= IZR (Rceil x).
Proof. unfold Rceil. rewrite opp_IZR. pose proof (Rfloor_le (- x)). lra. Qed.
Lemma Rceil_lt x : IZR (Rceil x) < x + 1.
Proof. unfold Rceil. rewrite opp_IZR. pose proof (Rfloor_lt (- x)). lra. Qed.

(** line measurement: 2n+1 redshifts centred in log(1+z) on the reference *)
Lemma lineMeas_log zref half step : 0 < zref + 1 -> 0 <= half -> epsR < (zref + 1) * exp (- (half + step)) * (exp step - 1) -> 0 < step -> 2 * half / step < 2000000000 ->
  exists n v, lineMeas_grid_log zref half step = Ok v /\ length v = (2 * n + 1)%nat /\ half <= INR n * step /\ INR n * step < half + step /\
    (forall i x, nth_error v i = Some x -> x + 1 = (zref + 1) * exp ((INR i - INR n) * step)) /\ nth_error v n = Some zref.
Proof.
  intros Hz Hh He Hs Hc. assert (P : 0 < epsR) by (unfold epsR; lra).
  set (q := half / step). assert (Eq : q * step = half) by (unfold q; field; lra).
  assert (Hq : 0 <= q) by (unfold q; apply Rle_div_r; lra).
  pose proof (Rceil_ge q) as C1. pose proof (Rceil_lt q) as C2.
  assert (C0 : (0 <= Rceil q)%Z) by (apply le_IZR; lra).
  set (n := Z.to_nat (Rceil q)). assert (En : Rceil q = Z.of_nat n) by (unfold n; lia).
  unfold lineMeas_grid_log, lineMeas_range_log. fold q. cbv zeta. rewrite En in *. rewrite <- INR_IZR_INZ in *.
  assert (B1 : half <= INR n * step) by nra. assert (B2 : INR n * step < half + step) by nra.
  set (h := INR n * step) in *. assert (Hh0 : 0 <= h) by lra.
  set (r := mkRR _ _).
  assert (Rb : rb r + 1 = (zref + 1) * exp (- h)) by (unfold r; cbn [rb]; ring).
  assert (Re : re r + 1 = (zref + 1) * exp h) by (unfold r; cbn [re]; ring).
  pose proof (exp_pos (- h)) as X1. pose proof (exp_pos h) as X2.
  assert (Xe : exp h = exp (- h) * exp (2 * h)) by (rewrite <- exp_plus; f_equal; ring).
  assert (X3 : 1 <= exp (2 * h)) by (rewrite <- exp_0; apply exp_le_mono; lra).
  assert (X4 : 1 < exp step) by (rewrite <- exp_0; apply exp_increasing; lra).
  assert (X5 : exp (- (half + step)) <= exp (- h)) by (apply exp_le_mono; lra).
  assert (Rp : 0 < rb r + 1) by (rewrite Rb; nra).
  assert (X6 : (zref + 1) * exp (- (half + step)) <= rb r + 1) by (rewrite Rb; nra).
  assert (X7 : epsR < (rb r + 1) * (exp step - 1)) by nra.
  assert (Rw : rb r + 1 <= re r + 1) by (rewrite Rb, Re, Xe; nra).
  assert (Rr : re r + 1 = (rb r + 1) * exp (2 * h)) by (rewrite Rb, Re, Xe; ring).
  assert (F : fit_log r step).
  { unfold fit_log. repeat split; [exact Rp|lra|exact Hs|nra|].
    apply Rle_lt_trans with (ln (exp (2 * h) * exp step) / step).
    - unfold Rdiv. apply Rmult_le_compat_r; [left; apply Rinv_0_lt_compat; auto|]. apply ln_le.
      + apply Rmult_lt_0_compat; [lra|apply Rinv_0_lt_compat; lra].
      + apply Rle_div_l; [lra|]. replace (re r + epsR + 1) with (re r + 1 + epsR) by ring. rewrite Rr. nra.
    - rewrite <- exp_plus, ln_exp. replace ((2 * h + step) / step) with (2 * h / step + 1) by (field; lra).
      assert (2 * h / step < 2 * half / step + 2).
      { replace (2 * half / step + 2) with (2 * (half + step) / step) by (field; lra). apply Rmult_lt_compat_r; [apply Rinv_0_lt_compat; auto|lra]. }
      lra. }
  destruct (grid_log_spec r step F) as (v & Ev & N & L & G1 & G2 & H). exists n, v. split; [exact Ev|].
  assert (St : forall i, log_steps (rb r) step i + 1 = (zref + 1) * exp ((INR i - INR n) * step)).
  { intro i. unfold log_steps. rewrite Rb. replace ((INR i - INR n) * step) with (- h + INR i * step) by (unfold h; ring). rewrite exp_plus. ring. }
  assert (E2 : log_steps (rb r) step (2 * n) = re r).
  { pose proof (St (2 * n)%nat) as K. rewrite mult_INR in K. change (INR 2) with 2 in K. replace ((2 * INR n - INR n) * step) with h in K by (unfold h; ring). lra. }
  assert (EN : N = (2 * n)%nat).
  { destruct (Nat.lt_total N (2 * n)) as [K|[K|K]]; auto; exfalso.
    - pose proof (log_steps_le (rb r) step (S N) (2 * n) Rp Hs ltac:(lia)). lra.
    - pose proof (log_steps_le (rb r) step (S (2 * n)) N Rp Hs ltac:(lia)). pose proof (log_steps_S (rb r) step (2 * n)) as K2. rewrite E2 in K2. nra. }
  split; [lia|]. split; [exact B1|]. split; [exact B2|].
  assert (V : forall i x, nth_error v i = Some x -> x + 1 = (zref + 1) * exp ((INR i - INR n) * step)).
  { intros i x Hx. rewrite <- St. f_equal. rewrite (H i x Hx). apply Rmin_left. rewrite <- E2. apply log_steps_le; auto. pose proof (nth_error_len _ _ _ Hx). lia. }
  split; [exact V|]. destruct (nth_error_lt v n) as (x & Hx); [lia|]. rewrite Hx. f_equal. pose proof (V n x Hx) as K.
  replace ((INR n - INR n) * step) with 0 in K by ring. rewrite exp_0 in K. lra.
Qed.
