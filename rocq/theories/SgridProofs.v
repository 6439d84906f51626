(** C93: the grids. *)
From Coq Require Import String.
From Verif Require Import Base RangeModel RangeSpec RangeProofs RangeGridProofs SgridModel SgridSpec.
Open Scope Q_scope.

Lemma nQ_S i : nQ (S i) == nQ i + 1.
Proof. unfold nQ. rewrite Nat2Z.inj_succ. unfold Z.succ. rewrite inject_Z_plus. reflexivity. Qed.
Lemma nQ_le i j : (i <= j)%nat -> nQ i <= nQ j.
Proof. intro H. unfold nQ. rewrite <- Zle_Qle. lia. Qed.
Lemma nQ_0 i : 0 <= nQ i. Proof. apply (nQ_le 0). lia. Qed.
Lemma Qmin_l' a b : a <= b -> Qmin a b == a. Proof. apply Q.min_l. Qed.
Lemma Qmin_r' a b : b <= a -> Qmin a b == b. Proof. apply Q.min_r. Qed.

Lemma grid_lin_spec r step : fit_lin r step ->
  exists v, grid_lin r step = Ok v /\ laid (lin_steps (rbeg r) step) (rend r) default_epsilon v.
Proof.
  intros (Hwf & Hed & Hc). unfold grid_lin, SpreadOverEpsilon. set (eps := default_epsilon) in *.
  assert (He : 0 <= eps) by (unfold eps, default_epsilon; lra). clearbody eps.
  set (r' := range_add r (mkRange 0 eps)).
  assert (W : well_formed r') by (unfold well_formed, r', range_add; cbn [rbeg rend]; lra).
  assert (C : GetLength r' / step < int32_max).
  { unfold GetLength, r', range_add; cbn [rbeg rend].
    setoid_replace (rend r + eps - (rbeg r + 0)) with (rend r - rbeg r + eps) by lra. exact Hc. }
  assert (Hd : 0 < step) by lra.
  destruct (SpreadOver_ok r' step W Hd C) as (w & Ew & Hl & Ha).
  pose proof (nsteps_nonneg r' step W Hd) as Hn. pose proof (nsteps_fit r' step Hd) as Hf.
  pose proof (nsteps_max r' step Hd) as Hm.
  remember (Z.to_nat (nsteps r' step)) as N eqn:EN.
  assert (HN : nsteps r' step = Z.of_nat N) by lia. rewrite HN in *.
  unfold GetLength in Hf, Hm. rewrite Ew. cbn [rbind].
  assert (B : rbeg r' == rbeg r) by (unfold r', range_add; cbn [rbeg]; lra).
  assert (Ee : rend r' == rend r + eps) by (unfold r', range_add; cbn [rend]; lra).
  assert (Hne : w <> []) by (intro K; rewrite K in Hl; discriminate).
  destruct (clamp_ends_spec r w Hne) as (v & Ev & Hlv & _).
  destruct (clamp_ends_nth r w v Ev Hne) as [_ Hv].
  exists v. split; [exact Ev|]. exists N. split; [lia|]. fold (nQ N) in Hf, Hm.
  assert (F1 : lin_steps (rbeg r) step N <= rend r + eps) by (unfold lin_steps; lra).
  split; [exact F1|]. split; [unfold lin_steps; rewrite nQ_S; lra|].
  intros i x Hx. pose proof (nth_error_len _ _ _ Hx) as Hi. rewrite Hlv in Hi.
  destruct (nth_error_lt w i Hi) as [z Hz]. pose proof (Hv i z Hz) as Hx2.
  rewrite Hx in Hx2. inversion Hx2; subst x; clear Hx2.
  pose proof (Ha i z Hz) as Hza. rewrite B in Hza. fold (nQ i) in Hza. rewrite Hl in *.
  unfold clamp_at. replace (S N - 1)%nat with N by lia. pose proof (nQ_0 i) as Pi.
  assert (Hy : (if Nat.eqb i 0 then Qmaxb z (rbeg r) else z) == lin_steps (rbeg r) step i).
  { unfold lin_steps. destruct (Nat.eqb_spec i 0) as [->|]; [|exact Hza]. unfold Qmaxb. qcase; [|exact Hza]. change (nQ 0) with 0 in *. lra. }
  destruct (Nat.eqb_spec i N) as [E|E].
  - subst i. set (y := if Nat.eqb N 0 then Qmaxb z (rbeg r) else z) in *. clearbody y.
    unfold Qminb. qcase; [rewrite Qmin_r'; lra|rewrite Qmin_l'; lra].
  - rewrite Hy. rewrite Qmin_l'; [reflexivity|].
    assert (L : nQ (S i) <= nQ N) by (apply nQ_le; lia). rewrite nQ_S in L. unfold lin_steps in *. nra.
Qed.

(** reading a laid grid *)
Lemma laid_first b step e v : 0 < step -> b <= e -> laid (lin_steps b step) e default_epsilon v -> exists x, nth_error v 0 = Some x /\ x == b.
Proof.
  intros Hs He (N & L & _ & _ & H). destruct (nth_error_lt v 0) as (x & Hx); [lia|]. exists x. split; auto.
  rewrite (H 0%nat x Hx). rewrite Qmin_l'; unfold lin_steps; change (nQ 0) with 0; lra.
Qed.
Lemma laid_inside b step e v x : 0 < step -> b <= e -> laid (lin_steps b step) e default_epsilon v -> In x v -> b <= x <= e.
Proof.
  intros Hs He (N & L & _ & _ & H) Hx. apply In_nth_error in Hx. destruct Hx as (i & Hi). rewrite (H i x Hi).
  pose proof (nQ_0 i). split; [apply Q.min_glb; unfold lin_steps; nra|apply Q.le_min_r].
Qed.
Lemma laid_last b step e v : default_epsilon < step -> b <= e -> laid (lin_steps b step) e default_epsilon v ->
  exists x, nth_error v (length v - 1) = Some x /\ e - step < x.
Proof.
  intros Hs He (N & L & F & G & H). destruct (nth_error_lt v N) as (x & Hx); [lia|]. exists x.
  split; [rewrite L; replace (S N - 1)%nat with N by lia; exact Hx|]. rewrite (H N x Hx).
  assert (0 < default_epsilon) by reflexivity. unfold lin_steps in *. rewrite nQ_S in G.
  apply Q.min_glb_lt; lra.
Qed.
(** a coarser grid of the same range takes its points in the finer one *)
Lemma laid_coarse b step e (k : nat) vc vf : 0 < step -> (1 <= k)%nat ->
  laid (lin_steps b (step * nQ k)) e default_epsilon vc -> laid (lin_steps b step) e default_epsilon vf ->
  forall i x, nth_error vc i = Some x -> exists y, nth_error vf (k * i) = Some y /\ y == x.
Proof.
  intros Hs Hk (Nc & Lc & Fc & Gc & Hc) (Nf & Lf & Ff & Gf & Hf) i x Hx.
  assert (Hi : (i <= Nc)%nat) by (pose proof (nth_error_len _ _ _ Hx); lia).
  assert (M : lin_steps b (step * nQ k) i == lin_steps b step (k * i)).
  { unfold lin_steps, nQ. rewrite Nat2Z.inj_mul, inject_Z_mult. lra. }
  assert (P : lin_steps b step (k * i) <= e + default_epsilon).
  { rewrite <- M. pose proof (nQ_le i Nc Hi). pose proof (nQ_0 k). unfold lin_steps in *. assert (0 <= step * nQ k) by nra. nra. }
  assert (K : (k * i <= Nf)%nat).
  { destruct (Nat.le_gt_cases (k * i) Nf) as [|G]; auto. exfalso. assert (nQ (S Nf) <= nQ (k * i)) by (apply nQ_le; lia). unfold lin_steps in *. nra. }
  destruct (nth_error_lt vf (k * i)) as (y & Hy); [lia|]. exists y. split; auto.
  rewrite (Hf _ y Hy), (Hc i x Hx), M. reflexivity.
Qed.

Lemma coarse_fit r step k : (1 <= k)%nat -> fit_lin r step -> fit_lin r (step * nQ k).
Proof.
  intros Hk (A & B & C). assert (P : 1 <= nQ k) by (apply (nQ_le 1); auto). assert (0 < default_epsilon) by reflexivity.
  repeat split; auto; [nra|]. apply Qle_lt_trans with ((rend r - rbeg r + default_epsilon) / step); auto.
  set (l := rend r - rbeg r + default_epsilon) in *. assert (0 <= l) by (unfold l; lra). clearbody l.
  apply Qle_shift_div_l; [lra|]. setoid_replace (l / (step * nQ k) * step) with (l / nQ k) by (field; split; lra).
  apply Qle_shift_div_r; [lra|]. nra.
Qed.

Lemma lineModel_lin r step k : (1 <= k)%nat -> fit_lin r step ->
  exists vc vf v s, grid_lin r (step * nQ k) = Ok vc /\ grid_lin r step = Ok vf /\ lineModel_grid_lin r step (Z.of_nat k) = Ok (v, s) /\
    ((length vc < 10)%nat -> v = vf /\ s = step) /\ ((10 <= length vc)%nat -> v = vc /\ s = step * nQ k) /\
    (forall x, In x v -> exists y, In y vf /\ y == x) /\ (forall x, In x v -> rbeg r <= x <= rend r) /\
    (exists x, nth_error v 0 = Some x /\ x == rbeg r) /\ (exists x, nth_error v (length v - 1) = Some x /\ rend r - s < x) /\
    laid (lin_steps (rbeg r) s) (rend r) default_epsilon v.
Proof.
  intros Hk F. pose proof (coarse_fit r step k Hk F) as Fk.
  destruct (grid_lin_spec _ _ F) as (vf & Ef & Lf). destruct (grid_lin_spec _ _ Fk) as (vc & Ec & Lc).
  assert (0 < default_epsilon) by reflexivity.
  assert (E : lineModel_grid_lin r step (Z.of_nat k) = Ok (if (length vc <? 10)%nat then (vf, step) else (vc, step * nQ k))).
  { unfold lineModel_grid_lin, coarse_or_fine. fold (nQ k). rewrite Ec. cbn [rbind]. change MIN_GRID_COUNT with 10%nat. destruct (length vc <? 10)%nat; [rewrite Ef|]; reflexivity. }
  destruct F as (A & B & C). destruct Fk as (A' & B' & C').
  exists vc, vf. destruct (Nat.ltb_spec (length vc) 10) as [L|L].
  - exists vf, step. split; [exact Ec|]. split; [exact Ef|]. split; [exact E|]. split; [intros; split; reflexivity|]. split; [intros; exfalso; lia|].
    split; [intros x Hx; exists x; split; [auto|reflexivity]|]. assert (P : 0 < step) by lra. split; [intros x Hx; exact (laid_inside (rbeg r) step (rend r) _ x P A Lf Hx)|].
    split; [exact (laid_first (rbeg r) step (rend r) _ P A Lf)|]. split; [exact (laid_last (rbeg r) step (rend r) _ B A Lf)|exact Lf].
  - exists vc, (step * nQ k). split; [exact Ec|]. split; [exact Ef|]. split; [exact E|]. split; [intros; exfalso; lia|]. split; [intros; split; reflexivity|].
    split.
    { intros x Hx. apply In_nth_error in Hx. destruct Hx as (i & Hi).
      destruct (laid_coarse (rbeg r) step (rend r) k vc vf ltac:(lra) Hk Lc Lf i x Hi) as (y & Hy & Qy). exists y. split; [eapply nth_error_In; eauto|auto]. }
    assert (P : 0 < (step * nQ k)) by lra. split; [intros x Hx; exact (laid_inside (rbeg r) (step * nQ k) (rend r) _ x P A Lc Hx)|].
    split; [exact (laid_first (rbeg r) (step * nQ k) (rend r) _ P A Lc)|]. split; [exact (laid_last (rbeg r) (step * nQ k) (rend r) _ B' A Lc)|exact Lc].
Qed.

(** line measurement *)
Lemma lineMeas_lin zref half step : default_epsilon < step -> 0 <= half -> (2 * half + 3 * step) / step < 2147483647 ->
  exists n v, lineMeas_grid_lin zref half step = Ok v /\ length v = (2 * n + 1)%nat /\ half <= nQ n * step /\ nQ n * step < half + step /\
    (forall i x, nth_error v i = Some x -> x == zref + (nQ i - nQ n) * step) /\ (exists x, nth_error v n = Some x /\ x == zref).
Proof.
  intros He Hh Hc. assert (P : 0 < default_epsilon) by reflexivity. assert (Hs : 0 < step) by lra.
  set (q := half / step). assert (Eq : q * step == half) by (unfold q; field; lra).
  assert (Hq : 0 <= q) by (unfold q; apply Qle_shift_div_l; lra).
  pose proof (Qle_ceiling q) as C1. pose proof (Qceiling_lt q) as C2.
  assert (C0 : (0 <= Qceiling q)%Z).
  { rewrite Zle_Qle. change (inject_Z 0) with 0. lra. }
  set (n := Z.to_nat (Qceiling q)). assert (En : Qceiling q = Z.of_nat n) by (unfold n; lia).
  unfold lineMeas_grid_lin, lineMeas_range_lin. fold q. rewrite En in *. fold (nQ n) in *.
  replace (inject_Z (Z.of_nat n - 1)) with (inject_Z (Z.of_nat n + -1)) in C2 by (f_equal; lia). rewrite inject_Z_plus in C2. fold (nQ n) in C2. change (inject_Z (-1)) with (-1) in C2.
  assert (B1 : half <= nQ n * step) by nra. assert (B2 : nQ n * step < half + step) by nra.
  set (r := mkRange (zref - nQ n * step) (zref + nQ n * step)).
  assert (F : fit_lin r step).
  { unfold fit_lin, r. cbn [rbeg rend]. pose proof (nQ_0 n). repeat split; [nra|auto|].
    apply Qle_lt_trans with ((2 * half + 3 * step) / step); auto. apply Qmult_le_compat_r; [|apply Qlt_le_weak, Qinv_lt_0_compat; auto]. lra. }
  destruct (grid_lin_spec r step F) as (v & Ev & N & L & G1 & G2 & H). exists n, v. split; [exact Ev|].
  unfold r in *. cbn [rbeg rend] in *. unfold lin_steps in *. rewrite nQ_S in G2.
  assert (D : nQ (2 * n) == 2 * nQ n). { unfold nQ. rewrite Nat2Z.inj_mul, inject_Z_mult. reflexivity. }
  assert (EN : N = (2 * n)%nat).
  { destruct (Nat.lt_total N (2 * n)) as [K|[K|K]]; auto; exfalso.
    - assert (nQ (S N) <= nQ (2 * n)) by (apply nQ_le; lia). rewrite nQ_S in *. nra.
    - assert (nQ (S (2 * n)) <= nQ N) by (apply nQ_le; lia). rewrite nQ_S in *. nra. }
  split; [lia|]. split; [auto|]. split; [auto|].
  assert (V : forall i x, nth_error v i = Some x -> x == zref + (nQ i - nQ n) * step).
  { intros i x Hx. rewrite (H i x Hx). pose proof (nth_error_len _ _ _ Hx).
    assert (nQ i <= nQ (2 * n)) by (apply nQ_le; lia). rewrite Qmin_l'; nra. }
  split; [exact V|]. destruct (nth_error_lt v n) as (x & Hx); [lia|]. exists x. split; auto. rewrite (V n x Hx). ring.
Qed.
