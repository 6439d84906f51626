From Coq Require Import String.
From Verif Require Import Base RangeModel RangeSpec RangeProofs RangeGridProofs FpcModel FpcSpec FpcProofs.
Open Scope Q_scope.

Notation eps := default_epsilon.
Lemma eps_pos : 0 < eps. Proof. reflexivity. Qed.
Lemma injN n : 0 <= inject_Z (Z.of_nat n).
Proof. change 0 with (inject_Z 0). rewrite <- Zle_Qle. lia. Qed.
Lemma inj_lt i n : (i < n)%nat -> inject_Z (Z.of_nat i) + 1 <= inject_Z (Z.of_nat n).
Proof. intro H. change 1 with (inject_Z 1). rewrite <- inject_Z_plus, <- Zle_Qle. lia. Qed.

(** the forward half of the window: the steps from the centre, the last one cut at the end *)
Lemma forward_count c e d : c <= e -> eps < d -> (e - c + eps) / d < int32_max ->
  exists v n, SpreadOverEpsilon (mkRange c e) d false eps = Ok v /\ length v = S n /\
    d * inject_Z (Z.of_nat n) <= e - c + eps /\ e - c + eps < d * inject_Z (Z.of_nat n) + d /\
    forall i x, nth_error v i = Some x -> x == Qminb (c + d * inject_Z (Z.of_nat i)) e.
Proof.
  intros Hce Hd Hc. pose proof eps_pos as He. unfold SpreadOverEpsilon.
  set (r' := range_add (mkRange c e) (mkRange 0 eps)).
  assert (W : well_formed r') by (unfold well_formed, r', range_add; cbn [rbeg rend]; lra).
  assert (C : GetLength r' / d < int32_max).
  { unfold GetLength, r', range_add; cbn [rbeg rend]. setoid_replace (e + eps - (c + 0)) with (e - c + eps) by lra. exact Hc. }
  assert (Hd0 : 0 < d) by lra.
  destruct (SpreadOver_ok r' d W Hd0 C) as (w & Ew & Hl & Ha).
  pose proof (nsteps_nonneg r' d W Hd0) as Hn. pose proof (nsteps_fit r' d Hd0) as Hf. pose proof (nsteps_max r' d Hd0) as Hm.
  set (N := Z.to_nat (nsteps r' d)) in *. assert (HN : nsteps r' d = Z.of_nat N) by (unfold N; lia). rewrite HN in *. clearbody N.
  unfold GetLength in Hf, Hm. rewrite Ew. cbn [rbind].
  assert (B : rbeg r' == c) by (unfold r', range_add; cbn [rbeg rend]; lra). assert (Ee : rend r' == e + eps) by (unfold r', range_add; cbn [rbeg rend]; lra).
  assert (Hne : w <> []) by (intro K; rewrite K in Hl; discriminate).
  destruct (clamp_ends_spec (mkRange c e) w Hne) as (v & Ev & Hlv & _). destruct (clamp_ends_nth (mkRange c e) w v Ev Hne) as [_ Hv].
  exists v, N. split; [exact Ev|]. split; [congruence|]. split; [lra|]. split; [lra|].
  intros i x Hx. pose proof (nth_error_len _ _ _ Hx) as Hi. rewrite Hlv in Hi. destruct (nth_error_lt w i Hi) as [y Hy]. pose proof (Hv i y Hy) as Hx2.
  rewrite Hx in Hx2. inversion Hx2; subst x; clear Hx2. pose proof (Ha i y Hy) as Hya. rewrite B in Hya. rewrite Hl in *.
  unfold clamp_at. replace (S N - 1)%nat with N by lia. cbn [rbeg rend].
  assert (Hz : (if Nat.eqb i 0 then Qmaxb y c else y) == c + d * inject_Z (Z.of_nat i)).
  { destruct (Nat.eqb_spec i 0) as [E|]; [subst i|exact Hya]. change (inject_Z (Z.of_nat 0)) with 0 in *. unfold Qmaxb. qcase; lra. }
  destruct (Nat.eqb_spec i N) as [E|E].
  - unfold Qminb at 1. unfold Qminb. repeat qcase; lra.
  - rewrite Hz. pose proof (inj_lt i N ltac:(lia)) as L. assert (c + d * inject_Z (Z.of_nat i) <= e) by nra. unfold Qminb. qcase; lra.
Qed.
Lemma backward_count b c d : b <= c -> eps < d -> (c - b + eps) / d < int32_max ->
  exists v n, SpreadOverEpsilon (mkRange b c) d true eps = Ok v /\ length v = S n /\
    d * inject_Z (Z.of_nat n) <= c - b + eps /\ c - b + eps < d * inject_Z (Z.of_nat n) + d /\
    forall i x, nth_error v i = Some x -> x == Qmaxb (c - d * inject_Z (Z.of_nat (n - i))) b.
Proof.
  intros Hce Hd Hc. pose proof eps_pos as He. unfold SpreadOverEpsilon.
  set (r' := range_add (mkRange b c) (mkRange (- eps) 0)).
  assert (W : well_formed r') by (unfold well_formed, r', range_add; cbn [rbeg rend]; lra).
  assert (C : GetLength r' / d < int32_max).
  { unfold GetLength, r', range_add; cbn [rbeg rend]. setoid_replace (c + 0 - (b + - eps)) with (c - b + eps) by lra. exact Hc. }
  assert (Hd0 : 0 < d) by lra.
  destruct (SpreadOver_backward_ok r' d W Hd0 C) as (w & Ew & Hl & Ha).
  pose proof (nsteps_nonneg r' d W Hd0) as Hn. pose proof (nsteps_fit r' d Hd0) as Hf. pose proof (nsteps_max r' d Hd0) as Hm.
  set (N := Z.to_nat (nsteps r' d)) in *. assert (HN : nsteps r' d = Z.of_nat N) by (unfold N; lia). rewrite HN in *. clearbody N.
  unfold GetLength in Hf, Hm. rewrite Ew. cbn [rbind].
  assert (B : rbeg r' == b - eps) by (unfold r', range_add; cbn [rbeg rend]; lra). assert (Ee : rend r' == c) by (unfold r', range_add; cbn [rbeg rend]; lra).
  assert (Hne : w <> []) by (intro K; rewrite K in Hl; discriminate).
  destruct (clamp_ends_spec (mkRange b c) w Hne) as (v & Ev & Hlv & _). destruct (clamp_ends_nth (mkRange b c) w v Ev Hne) as [_ Hv].
  exists v, N. split; [exact Ev|]. split; [congruence|]. split; [lra|]. split; [lra|].
  intros i x Hx. pose proof (nth_error_len _ _ _ Hx) as Hi. rewrite Hlv in Hi. destruct (nth_error_lt w i Hi) as [y Hy]. pose proof (Hv i y Hy) as Hx2.
  rewrite Hx in Hx2. inversion Hx2; subst x; clear Hx2. pose proof (Ha i y Hy) as Hya. rewrite Ee in Hya. rewrite Hl in *.
  unfold clamp_at. replace (S N - 1)%nat with N by lia. cbn [rbeg rend].
  assert (Hy' : y == c - d * inject_Z (Z.of_nat (N - i))).
  { rewrite Hya. replace (Z.of_nat N) with (Z.of_nat i + Z.of_nat (N - i))%Z by lia. rewrite inject_Z_plus. lra. }
  clear Hya. pose proof (injN (N - i)) as P. assert (0 <= d * inject_Z (Z.of_nat (N - i))) as P' by nra.
  assert (Hz : (if Nat.eqb i 0 then Qmaxb y b else y) == Qmaxb (c - d * inject_Z (Z.of_nat (N - i))) b).
  { destruct (Nat.eqb_spec i 0) as [E|E].
    - unfold Qmaxb. repeat qcase; lra.
    - rewrite Hy'. pose proof (inj_lt (N - i) N ltac:(lia)) as L. assert (b <= c - d * inject_Z (Z.of_nat (N - i))) by nra. unfold Qmaxb. qcase; lra. }
  destruct (Nat.eqb_spec i N) as [E|E]; [|exact Hz].
  unfold Qminb. destruct (Qltb_spec c (if Nat.eqb i 0 then Qmaxb y b else y)) as [L|L]; [|exact Hz].
  rewrite Hz in L. unfold Qmaxb in *. destruct (Qltb_spec (c - d * inject_Z (Z.of_nat (N - i))) b); lra.
Qed.
(** the value of step k (counted from the first sample, the centre being step nl) cut to the range *)
Definition step_value (r : range) (c d : Q) (nl i : nat) : Q :=
  Qmaxb (Qminb (c + d * (inject_Z (Z.of_nat i) - inject_Z (Z.of_nat nl))) (rend r)) (rbeg r).
Definition steps_in (len d : Q) (n : nat) : Prop := d * inject_Z (Z.of_nat n) <= len + eps /\ len + eps < d * inject_Z (Z.of_nat n) + d.
Lemma centered_count r c d : inside r c -> eps < d -> (rend r - rbeg r + eps) / d < int32_max ->
  exists v nl nr, spanCenteredWindow_lin r c d = Ok v /\ length v = S (nl + nr) /\ steps_in (c - rbeg r) d nl /\ steps_in (rend r - c) d nr /\
    forall i x, nth_error v i = Some x -> x == step_value r c d nl i.
Proof.
  intros [H1 H2] Hd Hc. pose proof eps_pos as He.
  assert (Hq : forall a, a <= rend r - rbeg r -> (a + eps) / d < int32_max).
  { intros a Ha. assert (E1 : (a + eps) / d * d == a + eps) by (field; lra).
    assert (E2 : (rend r - rbeg r + eps) / d * d == rend r - rbeg r + eps) by (field; lra). nra. }
  destruct (backward_count (rbeg r) c d H1 Hd (Hq (c - rbeg r) ltac:(lra))) as (v1 & n1 & E1 & L1 & A1 & B1 & V1).
  destruct (forward_count c (rend r) d H2 Hd (Hq (rend r - c) ltac:(lra))) as (v2 & n2 & E2 & L2 & A2 & B2 & V2).
  unfold spanCenteredWindow_lin. rewrite E1. cbn [rbind]. rewrite E2. cbn [rbind]. destruct v2 as [|x0 t]; [discriminate|].
  exists (v1 ++ t), n1, n2. split; [reflexivity|]. split; [rewrite app_length; cbn [length] in L2; lia|]. split; [split; assumption|]. split; [split; assumption|].
  intros i x Hx. unfold step_value. destruct (le_lt_dec (length v1) i) as [K|K].
  - rewrite nth_error_app2 in Hx by lia. specialize (V2 (S (i - length v1)) x Hx). rewrite V2.
    assert (U : c + d * (inject_Z (Z.of_nat i) - inject_Z (Z.of_nat n1)) == c + d * inject_Z (Z.of_nat (S (i - length v1)))).
    { rewrite L1. replace (Z.of_nat i) with (Z.of_nat (S (i - S n1)) + Z.of_nat n1)%Z by lia. rewrite inject_Z_plus. ring. }
    pose proof (injN (S (i - length v1))) as P. assert (0 <= d * inject_Z (Z.of_nat (S (i - length v1)))) as P' by nra.
    generalize dependent (c + d * (inject_Z (Z.of_nat i) - inject_Z (Z.of_nat n1))). intros u U. unfold Qmaxb, Qminb. repeat qcase; lra.
  - rewrite nth_error_app1 in Hx by lia. specialize (V1 i x Hx). rewrite V1.
    assert (U : c + d * (inject_Z (Z.of_nat i) - inject_Z (Z.of_nat n1)) == c - d * inject_Z (Z.of_nat (n1 - i))).
    { replace (Z.of_nat n1) with (Z.of_nat i + Z.of_nat (n1 - i))%Z by lia. rewrite inject_Z_plus. ring. }
    pose proof (injN (n1 - i)) as P. assert (0 <= d * inject_Z (Z.of_nat (n1 - i))) as P' by nra.
    generalize dependent (c + d * (inject_Z (Z.of_nat i) - inject_Z (Z.of_nat n1))). intros u U. unfold Qmaxb, Qminb. repeat qcase; lra.
Qed.
Lemma steps_unique len d n m : eps < d -> steps_in len d n -> steps_in len d m -> n = m.
Proof.
  intros Hd (A & B) (C & D). pose proof eps_pos. destruct (Nat.lt_trichotomy n m) as [L|[L|L]]; [|exact L|]; exfalso; pose proof (inj_lt _ _ L); nra.
Qed.
(** rebuilding the window from its own ends gives the same window *)
Lemma nth0 {A} (l : list A) n : length l = S n -> exists x, nth_error l 0 = Some x /\ forall d, hd d l = x.
Proof. destruct l as [|x t]; [discriminate|]. intros _. exists x. auto. Qed.
Lemma nthlast {A} (l : list A) n : length l = S n -> exists x, nth_error l n = Some x /\ forall d, last l d = x.
Proof.
  revert n. induction l as [|a t IH]; intros n H; [discriminate|]. destruct t as [|b t].
  - cbn [length] in H. assert (n = 0)%nat as -> by lia. exists a. auto.
  - destruct n as [|n]; [discriminate|]. destruct (IH n) as (x & Hx & Hl); [cbn [length] in *; lia|]. exists x. split; [exact Hx|]. intro d. exact (Hl d).
Qed.
Lemma nth_last_len {A} (l : list A) n x y : nth_error l n = Some x -> length l = S n -> nth_error l (length l - 1) = Some y -> x = y.
Proof. intros H L H'. rewrite L in H'. replace (S n - 1)%nat with n in H' by lia. congruence. Qed.
Lemma rebuilt r c d v : inside r c -> eps < d -> (rend r - rbeg r + eps) / d < int32_max -> spanCenteredWindow_lin r c d = Ok v ->
  exists v', spanCenteredWindow_lin (range_of v) c d = Ok v' /\ Forall2 Qeq v v'.
Proof.
  intros Hi Hd Hc E. destruct (centered_count r c d Hi Hd Hc) as (w & nl & nr & Ew & Lw & (A1 & B1) & (A2 & B2) & V). assert (w = v) by congruence. subst w.
  destruct (nth0 v _ Lw) as (x0 & H0 & Hh). destruct (nthlast v _ Lw) as (xn & Hn & Hl).
  pose proof (V _ _ H0) as V0. pose proof (V _ _ Hn) as Vn. destruct Hi as (I1 & I2). pose proof eps_pos as He.
  unfold range_of. rewrite (Hh 0), (Hl 0). unfold step_value in V0, Vn.
  change (inject_Z (Z.of_nat 0)) with 0 in V0. replace (Z.of_nat (nl + nr)) with (Z.of_nat nl + Z.of_nat nr)%Z in Vn by lia. rewrite inject_Z_plus in Vn.
  set (L := inject_Z (Z.of_nat nl)) in *. set (R := inject_Z (Z.of_nat nr)) in *.
  assert (PL : 0 <= L) by apply injN. assert (PR : 0 <= R) by apply injN. assert (PdL : 0 <= d * L) by nra. assert (PdR : 0 <= d * R) by nra.
  assert (U0 : c + d * (0 - L) == c - d * L) by ring. assert (Un : c + d * (L + R - L) == c + d * R) by ring.
  assert (C0 : x0 == Qmaxb (c - d * L) (rbeg r)). { rewrite V0. clear V0 Vn. generalize dependent (c + d * (0 - L)). intros u U0. unfold Qmaxb, Qminb. repeat qcase; lra. }
  assert (Cn : xn == Qminb (c + d * R) (rend r)). { rewrite Vn. clear V0 Vn. generalize dependent (c + d * (L + R - L)). intros u Un. unfold Qmaxb, Qminb. repeat qcase; lra. }
  assert (J0 : rbeg r <= x0 /\ x0 <= c) by (rewrite C0; unfold Qmaxb; qcase; lra). assert (Jn : c <= xn /\ xn <= rend r) by (rewrite Cn; unfold Qminb; qcase; lra).
  assert (Ii : inside (mkRange x0 xn) c) by (unfold inside; cbn [rbeg rend]; lra).
  assert (Cc : (xn - x0 + eps) / d < int32_max).
  { assert (E1 : (xn - x0 + eps) / d * d == xn - x0 + eps) by (field; lra). assert (E2 : (rend r - rbeg r + eps) / d * d == rend r - rbeg r + eps) by (field; lra). nra. }
  destruct (centered_count (mkRange x0 xn) c d Ii Hd Cc) as (w & ml & mr & Ew' & Lw' & Sl & Sr & V'). cbn [rbeg rend] in Sl, Sr.
  assert (ml = nl) as ->. { apply (steps_unique (c - x0) d); [exact Hd|exact Sl|]. split; fold L; rewrite C0; unfold Qmaxb; qcase; lra. }
  assert (mr = nr) as ->. { apply (steps_unique (xn - c) d); [exact Hd|exact Sr|]. split; fold R; rewrite Cn; unfold Qminb; qcase; lra. }
  exists w. split; [exact Ew'|].
  assert (Hv : forall i x, nth_error v i = Some x -> exists y, nth_error w i = Some y /\ x == y).
  { intros i x Hx. destruct (nth_error_lt w i) as (y & Hy); [pose proof (nth_error_len _ _ _ Hx); lia|]. exists y. split; [exact Hy|].
    pose proof (nth_error_len _ _ _ Hx) as Li. rewrite (V i x Hx), (V' i y Hy). unfold step_value. cbn [rbeg rend]. fold L.
    assert (Q1 : inject_Z (Z.of_nat i) <= L + R). { unfold L, R. rewrite <- inject_Z_plus, <- Zle_Qle. lia. }
    pose proof (injN i) as Q0. set (k := inject_Z (Z.of_nat i)) in *. clearbody k.
    assert (R1 : c + d * (k - L) <= c + d * R) by nra. assert (R0 : c - d * L <= c + d * (k - L)) by nra.
    generalize dependent (c + d * (k - L)). intros u R1 R0.
    unfold Qmaxb, Qminb in *. repeat qcase; lra. }
  clear - Hv Lw Lw'. assert (length v = length w) as Hlen by lia. clear Lw Lw'. revert w Hv Hlen. induction v as [|a v IH]; intros w Hv Hlen; destruct w as [|b w]; try discriminate; constructor.
  - destruct (Hv O a eq_refl) as (y & Hy & Ey). cbn [nth_error] in Hy. inversion Hy; subst y. exact Ey.
  - apply IH; [|cbn [length] in Hlen; lia]. intros i x Hx. exact (Hv (S i) x Hx).
Qed.
(** ** SpanRedshiftWindow *)
Definition window_range (g : list Q) (half z : Q) : range := mkRange (Qmaxb (z - half) (hd 0 g)) (Qminb (z + half) (last g 0)).
Lemma window_is g half step z : hd 0 g <= z -> z <= last g 0 -> 0 <= half ->
  SpanRedshiftWindow g half step z = spanCenteredWindow_lin (window_range g half z) z step /\ inside (window_range g half z) z /\
  rend (window_range g half z) - rbeg (window_range g half z) <= 2 * half.
Proof.
  intros H1 H2 Hh. unfold SpanRedshiftWindow, IntersectWith, Intersect, HasIntersection, range_of, window_range, inside. cbn [rbeg rend].
  assert (Qmaxb (z - half) (hd 0 g) <= z <= Qminb (z + half) (last g 0)) as (A & B) by (unfold Qmaxb, Qminb; repeat qcase; lra).
  destruct (Qle_bool_spec (Qmaxb (z - half) (hd 0 g)) (Qminb (z + half) (last g 0))) as [L|L]; [|lra].
  cbn [snd]. split; [reflexivity|]. split; [split; assumption|]. unfold Qmaxb, Qminb. repeat qcase; lra.
Qed.
Lemma window_ok g half step z : hd 0 g <= z -> z <= last g 0 -> 0 <= half -> eps < step -> (2 * half + eps) / step < int32_max ->
  exists v, SpanRedshiftWindow g half step z = Ok v /\ strictly_increasing v /\
    (forall x, In x v -> Qabs (x - z) <= half /\ hd 0 g <= x <= last g 0) /\ near_uniform v step eps /\
    (exists i x, nth_error v i = Some x /\ x == z) /\
    (exists a, nth_error v 0 = Some a /\ (a < z - half + step \/ a < hd 0 g + step)) /\
    (exists b, nth_error v (length v - 1) = Some b /\ (z + half - step < b \/ last g 0 - step < b)) /\
    exists v', spanCenteredWindow_lin (range_of v) z step = Ok v' /\ Forall2 Qeq v v'.
Proof.
  intros H1 H2 Hh Hs Hc. destruct (window_is g half step z H1 H2 Hh) as (E & Hi & Hl).
  assert (Hc' : (rend (window_range g half z) - rbeg (window_range g half z) + eps) / step < int32_max).
  { pose proof eps_pos. set (W := rend _ - rbeg _) in *. assert (E1 : (W + eps) / step * step == W + eps) by (field; lra). assert (E2 : (2 * half + eps) / step * step == 2 * half + eps) by (field; lra). nra. }
  rewrite E. destruct (spanCenteredWindow_lin_spec _ z step Hi Hs Hc') as (v & Ev & Si & In_ & Nu & Ce & (a & Ha & La) & (b & Hb & Lb)).
  exists v. split; [exact Ev|]. split; [exact Si|]. split.
  { intros x Hx. destruct (In_ x Hx) as (A & B). unfold window_range in A, B. cbn [rbeg rend] in A, B. split.
    - apply Qabs_Qle_condition. unfold Qmaxb, Qminb in *. repeat qcase; lra.
    - unfold Qmaxb, Qminb in *. repeat qcase; lra. }
  split; [exact Nu|]. split; [exact Ce|]. split.
  { exists a. split; [exact Ha|]. unfold window_range in La. cbn [rbeg] in La. unfold Qmaxb in La. qcase; [right|left]; lra. }
  split.
  { exists b. split; [exact Hb|]. unfold window_range in Lb. cbn [rend] in Lb. unfold Qminb in Lb. qcase; [right|left]; lra. }
  exact (rebuilt _ z step v Hi Hs Hc' Ev).
Qed.
Lemma windows_ok g half step : forall cs, real cs -> (forall c z, In c cs -> at_z c z -> exists v, SpanRedshiftWindow g half step z = Ok v) ->
  exists ws, windows g half step cs = Ok ws /\ List.length ws = List.length cs /\
    forall i c z, nth_error cs i = Some c -> at_z c z -> exists v, nth_error ws i = Some v /\ SpanRedshiftWindow g half step z = Ok v.
Proof.
  induction cs as [|c cs IH]; intros R H.
  - exists []. split; [reflexivity|]. split; [reflexivity|]. intros i c z Hi. destruct i; discriminate.
  - destruct (R c (or_introl eq_refl)) as (z & Hz). destruct (H c z (or_introl eq_refl) Hz) as (v & Ev).
    destruct IH as (ws & Ew & Lw & Hw); [intros x Hx; apply R; right; exact Hx|intros x y Hx; apply H; right; exact Hx|].
    cbn [windows]. rewrite (redshift_at c z Hz). cbn [rbind]. rewrite Ev. cbn [rbind]. rewrite Ew. cbn [rbind]. eexists. split; [reflexivity|]. split; [cbn [List.length]; lia|].
    intros i c' z' Hi Hz'. destruct i as [|i]; cbn [nth_error] in *.
    + inversion Hi; subst c'. rewrite (at_z_fun c z' z Hz' Hz). exists v. auto.
    + exact (Hw i c' z' Hi Hz').
Qed.
Lemma extended_ok g half step p : real (p_cands p) -> 0 <= half -> eps < step -> (2 * half + eps) / step < int32_max ->
  (forall c z, In c (p_cands p) -> at_z c z -> hd 0 g <= z <= last g 0) -> p_ext p = [] ->
  exists p', buildExtendedRedshifts g half step p = Ok p' /\ List.length (p_ext p') = List.length (p_cands p) /\
    p' = mkPass (p_cands p) (p_tpl p) (p_ext p') (p_elv p) (p_alv p) (p_gelv p) (p_galv p) /\
    forall i c z, nth_error (p_cands p) i = Some c -> at_z c z -> exists v, nth_error (p_ext p') i = Some v /\ SpanRedshiftWindow g half step z = Ok v.
Proof.
  intros R Hh Hs Hc Hg He. destruct (windows_ok g half step (p_cands p) R) as (ws & Ew & Lw & Hw).
  { intros c z Hi Hz. destruct (Hg c z Hi Hz) as (A & B). destruct (window_ok g half step z A B Hh Hs Hc) as (v & Ev & _). exists v. exact Ev. }
  unfold buildExtendedRedshifts. rewrite Ew. cbn [rbind]. rewrite He. eexists. split; [reflexivity|]. cbn [p_ext app]. split; [exact Lw|]. split; [reflexivity|]. exact Hw.
Qed.
