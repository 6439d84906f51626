From Coq Require Import String.
From Verif Require Import Base AirVacModel AirVacSpec.
Open Scope Q_scope.

Lemma qmin_spec l : forall m, qmin m l <= m /\ (forall x, In x l -> qmin m l <= x) /\ (qmin m l = m \/ In (qmin m l) l).
Proof.
  induction l as [|x l IH]; intro m; cbn [qmin]; [split; [lra|]; split; [intros x []|left; reflexivity]|].
  destruct (Qltb_spec x m) as [L|L]; destruct (IH (if Qltb x m then x else m)) as [A [B C]]; destruct (Qltb_spec x m) as [L'|L'] in A, B, C; try contradiction.
  - destruct (IH x) as [A' [B' C']]. split; [lra|]. split; [intros y [->|Hy]; [exact A'|apply B'; exact Hy]|]. right. destruct C' as [C'|C']; [left; congruence|right; exact C'].
  - destruct (IH m) as [A' [B' C']]. split; [exact A'|]. split; [intros y [->|Hy]; [lra|apply B'; exact Hy]|]. destruct C' as [C'|C']; [left; exact C'|right; right; exact C'].
Qed.
Lemma qmax_spec l : forall m, m <= qmax m l /\ (forall x, In x l -> x <= qmax m l) /\ (qmax m l = m \/ In (qmax m l) l).
Proof.
  induction l as [|x l IH]; intro m; cbn [qmax]; [split; [lra|]; split; [intros x []|left; reflexivity]|].
  destruct (Qltb_spec m x) as [L|L].
  - destruct (IH x) as [A' [B' C']]. split; [lra|]. split; [intros y [->|Hy]; [exact A'|apply B'; exact Hy]|]. right. destruct C' as [C'|C']; [left; congruence|right; exact C'].
  - destruct (IH m) as [A' [B' C']]. split; [exact A'|]. split; [intros y [->|Hy]; [lra|apply B'; exact Hy]|]. destruct C' as [C'|C']; [left; exact C'|right; right; exact C'].
Qed.
Lemma check_ok c l : l <> [] -> (forall w, In w l -> accepted c w) -> CheckWaveRange c l = Ok tt.
Proof.
  intros N H. destruct l as [|x l]; [contradiction|]. unfold CheckWaveRange. destruct (qmin_spec l x) as [_ [_ A]]. destruct (qmax_spec l x) as [_ [_ B]].
  assert (A1 : k_min c <= qmin x l) by (apply H; destruct A as [->|A]; [left; reflexivity|right; exact A]). destruct (Qltb_spec (qmin x l) (k_min c)); [lra|].
  assert (B1 : In (qmax x l) (x :: l)) by (destruct B as [->|B]; [left; reflexivity|right; exact B]). destruct (H _ B1) as [_ B2]. destruct (k_max c) as [m|]; [|reflexivity].
  destruct (Qltb_spec m (qmax x l)); [lra|reflexivity].
Qed.
Lemma check_bad c l : (l = [] \/ exists w, In w l /\ ~ accepted c w) -> CheckWaveRange c l = Throw INTERNAL_ERROR.
Proof.
  intros [->|[w [Hw Na]]]; [reflexivity|]. destruct l as [|x l]; [contradiction|]. unfold CheckWaveRange. destruct (qmin_spec l x) as [A1 [A2 _]]. destruct (qmax_spec l x) as [B1 [B2 _]].
  destruct (Qltb_spec (qmin x l) (k_min c)) as [L|L]; [reflexivity|].
  assert (Hm : qmin x l <= w) by (destruct Hw as [->|Hw]; [exact A1|apply A2; exact Hw]). assert (HM : w <= qmax x l) by (destruct Hw as [->|Hw]; [exact B1|apply B2; exact Hw]).
  unfold accepted in Na. destruct (k_max c) as [m|]; [|exfalso; apply Na; split; [lra|exact Logic.I]].
  destruct (Qltb_spec m (qmax x l)); [reflexivity|]. exfalso. apply Na. split; lra.
Qed.
(** ** the refractive index *)
Definition sq (w : Q) : Q := 100000000 / (w * w).
Lemma sq_pos w : 0 < w -> 0 < sq w.
Proof. intro H. unfold sq. apply Qlt_shift_div_l; [nra|lra]. Qed.
Lemma sq_eq w : 0 < w -> sq w * (w * w) == 100000000.
Proof. intro H. unfold sq. field. nra. Qed.
Lemma sq_le w m : 0 < m -> m <= w -> sq w <= sq m.
Proof.
  intros Hm H. pose proof (sq_eq w ltac:(lra)). pose proof (sq_eq m Hm). pose proof (sq_pos m Hm). destruct (Qlt_le_dec (sq m) (sq w)) as [L|L]; [exfalso|exact L].
  assert (m * m <= w * w) by nra. assert (P : 0 < m * m) by nra. assert (sq m * (m * m) < sq w * (m * m)) by (apply Qmult_lt_compat_r; assumption).
  assert (sq w * (m * m) <= sq w * (w * w)) by (apply Qmult_le_l; [lra|assumption]). lra.
Qed.
Lemma sq_lt w m : 0 < m -> m < w -> sq w < sq m.
Proof.
  intros Hm H. pose proof (sq_eq w ltac:(lra)). pose proof (sq_eq m Hm). pose proof (sq_pos w ltac:(lra)). destruct (Qlt_le_dec (sq w) (sq m)) as [L|L]; [exact L|exfalso].
  assert (m * m < w * w) by nra. assert (sq w * (m * m) < sq w * (w * w)) by (apply Qmult_lt_l; assumption). assert (P : 0 < m * m) by nra.
  assert (sq m * (m * m) <= sq w * (m * m)) by (apply Qmult_le_compat_r; lra). lra.
Qed.
(** one dispersion term *)
Lemma term_mono b c s s' : 0 < b -> s' <= s -> s < c -> b / (c - s') <= b / (c - s).
Proof. intros Hb H Hc. apply Qle_shift_div_l; [lra|]. setoid_replace (b / (c - s') * (c - s)) with (b * ((c - s) / (c - s'))) by (field; lra).
  assert ((c - s) / (c - s') <= 1) by (apply Qle_shift_div_r; lra). nra. Qed.
Lemma term_pos b c s : 0 < b -> s < c -> 0 < b / (c - s).
Proof. intros Hb Hc. apply Qlt_shift_div_l; lra. Qed.
Lemma term_diff b c s s' : 0 < b -> s' <= s -> s < c -> b / (c - s) - b / (c - s') <= b * (s - s') / ((c - s) * (c - s)).
Proof.
  intros Hb H Hc. setoid_replace (b / (c - s) - b / (c - s')) with ((b * (s - s')) / ((c - s) * (c - s'))) by (field; lra).
  apply Qle_shift_div_l; [nra|]. setoid_replace ((b * (s - s')) / ((c - s) * (c - s')) * ((c - s) * (c - s))) with ((b * (s - s')) * ((c - s) / (c - s'))) by (field; lra).
  assert ((c - s) / (c - s') <= 1) by (apply Qle_shift_div_r; lra). assert (0 <= b * (s - s')) by nra. nra.
Qed.
Lemma slope_mono b c s S' : 0 < b -> 0 < s -> s <= S' -> S' < c -> b * s / ((c - s) * (c - s)) <= b * S' / ((c - S') * (c - S')).
Proof.
  intros Hb Hs H Hc. apply Qle_shift_div_l; [nra|].
  setoid_replace (b * s / ((c - s) * (c - s)) * ((c - S') * (c - S'))) with (b * s * (((c - S') / (c - s)) * ((c - S') / (c - s)))) by (field; lra).
  assert (A : (c - S') / (c - s) <= 1) by (apply Qle_shift_div_r; lra). assert (B : 0 <= (c - S') / (c - s)) by (apply Qle_shift_div_l; lra).
  set (q := (c - S') / (c - s)) in *. assert (q * q <= 1) by nra. assert (0 < b * s) by nra. assert (b * s <= b * S') by nra. nra.
Qed.
(** what is used of the constants of a converter; [sm] bounds the squared wave number of the accepted wavelengths *)
Record good (c : conv) (sm : Q) : Prop := mkGood {
  g_min : 2000 <= k_min c; g_sm : sq (k_min c) <= sm; g_a : 0 <= k_a c; g_b1 : 0 < k_b1 c; g_b2 : 0 < k_b2 c; g_c1 : sm < k_c1 c; g_c2 : sm < k_c2 c;
  g_lo : 27 # 100000 < k_a c + k_b1 c / k_c1 c + k_b2 c / k_c2 c;
  g_hi : k_a c + k_b1 c / (k_c1 c - sm) + k_b2 c / (k_c2 c - sm) < 33 # 100000;
  g_slope : 2 * (k_b1 c * sm / ((k_c1 c - sm) * (k_c1 c - sm)) + k_b2 c * sm / ((k_c2 c - sm) * (k_c2 c - sm))) <= 152 # 1000000 }.
Lemma known_good c : known c -> exists sm, good c sm.
Proof.
  intros [<-|[<-|[<-|[<-|[<-|[]]]]]]; [exists 25|exists 25|exists (100 # 9)|exists (100 # 9)|exists (100 # 9)]; constructor; vm_compute; try reflexivity; discriminate.
Qed.
Definition ex (c : conv) (w : Q) : Q := k_a c + k_b1 c / (k_c1 c - sq w) + k_b2 c / (k_c2 c - sq w).
Lemma refractive_ex c w : refractive c w == 1 + ex c w.
Proof. unfold refractive, ex, sq. cbv zeta. ring. Qed.
Section Gd.
Context (c : conv) (sm : Q) (G : good c sm).
Lemma gd_s w : k_min c <= w -> 0 < sq w /\ sq w <= sm.
Proof. intro H. destruct G. split; [apply sq_pos; lra|]. eapply Qle_trans; [apply sq_le; [|exact H]; lra|assumption]. Qed.
Lemma ex_lo w : k_min c <= w -> 27 # 100000 < ex c w.
Proof.
  intro H. destruct (gd_s w H) as [A B]. destruct G. unfold ex. pose proof (term_mono (k_b1 c) (k_c1 c) (sq w) 0 g_b3 ltac:(lra) ltac:(lra)) as T1. pose proof (term_mono (k_b2 c) (k_c2 c) (sq w) 0 g_b4 ltac:(lra) ltac:(lra)) as T2.
  setoid_replace (k_c1 c - 0) with (k_c1 c) in T1 by ring. setoid_replace (k_c2 c - 0) with (k_c2 c) in T2 by ring. lra.
Qed.
Lemma ex_hi w : k_min c <= w -> ex c w < 33 # 100000.
Proof.
  intro H. destruct (gd_s w H) as [A B]. destruct G. unfold ex. pose proof (term_mono (k_b1 c) (k_c1 c) sm (sq w) g_b3 ltac:(lra) ltac:(lra)). pose proof (term_mono (k_b2 c) (k_c2 c) sm (sq w) g_b4 ltac:(lra) ltac:(lra)). lra.
Qed.
Lemma ex_mono w w' : k_min c <= w -> w <= w' -> ex c w' <= ex c w.
Proof.
  intros H L. destruct (gd_s w H) as [A B]. destruct G. pose proof (sq_le w' w ltac:(lra) L) as M. unfold ex.
  pose proof (term_mono (k_b1 c) (k_c1 c) (sq w) (sq w') g_b3 ltac:(lra) ltac:(lra)). pose proof (term_mono (k_b2 c) (k_c2 c) (sq w) (sq w') g_b4 ltac:(lra) ltac:(lra)). lra.
Qed.
Lemma air_of_lt w w' : k_min c <= w -> w < w' -> w / refractive c w < w' / refractive c w'.
Proof.
  intros H L. rewrite !refractive_ex. pose proof (ex_lo w H). pose proof (ex_lo w' ltac:(lra)). pose proof (ex_mono w w' H ltac:(lra)). destruct G.
  apply Qlt_shift_div_l; [lra|]. setoid_replace (w / (1 + ex c w) * (1 + ex c w')) with ((w * (1 + ex c w')) / (1 + ex c w)) by (field; lra). apply Qlt_shift_div_r; [lra|]. nra.
Qed.
Lemma air_of_bounds w : k_min c <= w -> w * (1 - (33 # 100000)) < w / refractive c w /\ w / refractive c w < w * (1 - (26 # 100000)).
Proof.
  intro H. pose proof (ex_lo w H). pose proof (ex_hi w H). destruct G. rewrite refractive_ex. split; [apply Qlt_shift_div_l; [lra|]|apply Qlt_shift_div_r; [lra|]]; nra.
Qed.
(** one step of the fixed point iteration *)
Definition step1 (x : Q) : Q := x - (x / refractive c x - x).
Lemma step1_eq x : k_min c <= x -> step1 x == x * (1 + ex c x / (1 + ex c x)).
Proof. intro H. pose proof (ex_lo x H). unfold step1. rewrite refractive_ex. field. lra. Qed.
Lemma step1_ge x : k_min c <= x -> x <= step1 x.
Proof.
  intro H. rewrite step1_eq by exact H. pose proof (ex_lo x H). destruct G. assert (0 <= ex c x / (1 + ex c x)) by (apply Qle_shift_div_l; lra). nra.
Qed.
Lemma sq_step x d : 0 < x -> 0 <= d -> sq x - sq (x * (1 + d)) <= 2 * sq x * d.
Proof.
  intros Hx Hd. assert (E : sq (x * (1 + d)) == sq x / ((1 + d) * (1 + d))) by (unfold sq; field; repeat split; nra). rewrite E. pose proof (sq_pos x Hx) as P. set (s := sq x) in *.
  assert (1 - 2 * d <= 1 / ((1 + d) * (1 + d))). { apply Qle_shift_div_l; [nra|]. nra. }
  setoid_replace (s / ((1 + d) * (1 + d))) with (s * (1 / ((1 + d) * (1 + d)))) by (field; nra). nra.
Qed.
Lemma slope x : k_min c <= x -> ex c x - ex c (step1 x) <= (152 # 1000000) * ex c x.
Proof.
  intro H. destruct (gd_s x H) as [A B]. pose proof (ex_lo x H) as E0. pose proof (step1_ge x H) as GE. destruct G.
  assert (Dd : sq x - sq (step1 x) <= 2 * sq x * ex c x).
  { assert (D0 : 0 <= ex c x / (1 + ex c x)) by (apply Qle_shift_div_l; lra). assert (D1 : ex c x / (1 + ex c x) <= ex c x) by (apply Qle_shift_div_r; nra).
    pose proof (sq_step x _ ltac:(lra) D0) as Q. assert (Es : sq (step1 x) == sq (x * (1 + ex c x / (1 + ex c x)))) by (unfold sq; rewrite (step1_eq x H); reflexivity).
    rewrite Es. assert (2 * sq x * (ex c x / (1 + ex c x)) <= 2 * sq x * ex c x) by nra. lra. }
  pose proof (sq_le (step1 x) x ltac:(lra) GE) as M.
  pose proof (term_diff _ (k_c1 c) _ _ g_b3 M ltac:(lra)) as T1. pose proof (term_diff _ (k_c2 c) _ _ g_b4 M ltac:(lra)) as T2.
  pose proof (slope_mono _ (k_c1 c) _ sm g_b3 A B g_c3) as S1. pose proof (slope_mono _ (k_c2 c) _ sm g_b4 A B g_c4) as S2.
  assert (U : forall b cc, 0 < b -> sm < cc -> b * (sq x - sq (step1 x)) / ((cc - sq x) * (cc - sq x)) <= 2 * ex c x * (b * sq x / ((cc - sq x) * (cc - sq x)))).
  { intros b cc Hb Hcc. assert (P : 0 < (cc - sq x) * (cc - sq x)) by nra. apply Qle_shift_div_r; [exact P|].
    setoid_replace (2 * ex c x * (b * sq x / ((cc - sq x) * (cc - sq x))) * ((cc - sq x) * (cc - sq x))) with (b * (2 * sq x * ex c x)) by (field; lra). nra. }
  pose proof (U _ _ g_b3 g_c3) as U1. pose proof (U _ _ g_b4 g_c4) as U2.
  set (p1 := k_b1 c * sq x / ((k_c1 c - sq x) * (k_c1 c - sq x))) in *. set (p2 := k_b2 c * sq x / ((k_c2 c - sq x) * (k_c2 c - sq x))) in *.
  assert (p1 + p2 <= 76 # 1000000) by lra. assert (W : 2 * ex c x * (p1 + p2) <= 2 * ex c x * (76 # 1000000)) by (apply Qmult_le_l; lra). unfold ex at 1 2. lra.
Qed.
(** the vacuum wavelength found is too short, by more than 5e-5 Angstrom, and by less than 1.1e-7 of the wavelength *)
Lemma step1_error x : k_min c <= x -> 5 # 100000 < x - step1 x / refractive c (step1 x) /\ x - step1 x / refractive c (step1 x) < (11 # 100000000) * x.
Proof.
  intro H. pose proof (step1_ge x H) as GE. pose proof (ex_lo x H) as E0. pose proof (ex_hi x H) as E1. pose proof (slope x H) as SL. pose proof (ex_mono x (step1 x) H GE) as MO.
  pose proof (ex_lo (step1 x) ltac:(lra)) as F0. pose proof (ex_hi (step1 x) ltac:(lra)) as F1.
  assert (ID : x - step1 x / refractive c (step1 x) == x * (ex c x * ex c (step1 x) - (ex c x - ex c (step1 x))) / ((1 + ex c x) * (1 + ex c (step1 x)))).
  { rewrite refractive_ex. set (e' := ex c (step1 x)) in *. rewrite (step1_eq x H). field. lra. }
  rewrite ID. set (e := ex c x) in *. set (e' := ex c (step1 x)) in *. destruct G.
  assert (N0 : (11 # 100000) * e < e * e' - (e - e')) by nra. assert (N1 : e * e' - (e - e') <= (1089 # 10000000000)) by nra.
  assert (D0 : 1 <= (1 + e) * (1 + e')) by nra. assert (D1 : (1 + e) * (1 + e') <= 1001 # 1000) by nra.
  split; [apply Qlt_shift_div_l; [lra|]|apply Qlt_shift_div_r; [lra|]].
  - apply Qlt_trans with (2000 * ((11 # 100000) * e)); [nra|]. set (n := e * e' - (e - e')) in *. assert (0 < n) by nra. nra.
  - set (n := e * e' - (e - e')) in *. nra.
Qed.
(** ** the iteration stops at once *)
Lemma minus2_map (f : Q -> Q) l : minus2 (map f l) l = map (fun x => f x - x) l.
Proof. induction l as [|x l IH]; [reflexivity|]. cbn [map minus2]. rewrite IH. reflexivity. Qed.
Lemma minus2_map2 (f : Q -> Q) l : minus2 l (map f l) = map (fun x => x - f x) l.
Proof. induction l as [|x l IH]; [reflexivity|]. cbn [map minus2]. rewrite IH. reflexivity. Qed.
Lemma max_abs_in l : forall m, max_abs m l = m \/ In (max_abs m l) l.
Proof.
  induction l as [|x l IH]; intro m; cbn [max_abs]; [left; reflexivity|]. destruct (Qltb (Qabs m) (Qabs x)); destruct (IH x) as [A|A]; destruct (IH m) as [B|B]; try (right; right; assumption); try (right; left; symmetry; assumption); left; assumption.
Qed.
Lemma iter_once l n : l <> [] -> (forall w, In w l -> accepted c w) -> air_iter c n l l = Ok (map step1 l, false).
Proof.
  intros N H. destruct n; cbn [air_iter]; unfold VacToAir; rewrite check_ok by assumption; cbn [rbind]; rewrite minus2_map, minus2_map2; (destruct l as [|x l]; [contradiction|]); cbn [map];
  (set (m := max_abs (x / refractive c x - x) (map (fun x0 => x0 / refractive c x0 - x0) l));
   assert (M : m <= 1 # 1000000000) by (
     assert (Hin : exists w, In w (x :: l) /\ m = w / refractive c w - w) by
       (destruct (max_abs_in (map (fun x0 => x0 / refractive c x0 - x0) l) (x / refractive c x - x)) as [E|E]; [exists x; split; [left; reflexivity|exact E]|apply in_map_iff in E; destruct E as [w [E1 E2]]; exists w; split; [right; exact E2|symmetry; exact E1]]);
     destruct Hin as [w [Hw ->]]; destruct (H w Hw) as [Ha _]; destruct (air_of_bounds w Ha) as [_ B]; destruct G; nra);
   rewrite (proj2 (Qle_bool_iff _ _) M); reflexivity).
Qed.
End Gd.
(** ** the direct inversion *)
Definition hx (s : Q) : Q := (8336624212083 # 100000000000000000) + (2408926869968 # 100000000000000) / ((1301065924522 # 10000000000) - s) + (1599740894897 # 10000000000000000) / ((3892568793293 # 100000000000) - s).
Lemma hx_bounds s : 0 < s -> s <= 100 # 9 -> 272 # 1000000 < hx s /\ hx s < 292 # 1000000.
Proof.
  intros A B. unfold hx.
  pose proof (term_mono (2408926869968 # 100000000000000) (1301065924522 # 10000000000) s 0 ltac:(lra) ltac:(lra) ltac:(lra)) as T1.
  pose proof (term_mono (1599740894897 # 10000000000000000) (3892568793293 # 100000000000) s 0 ltac:(lra) ltac:(lra) ltac:(lra)) as T2.
  pose proof (term_mono (2408926869968 # 100000000000000) (1301065924522 # 10000000000) (100 # 9) s ltac:(lra) ltac:(lra) ltac:(lra)) as T3.
  pose proof (term_mono (1599740894897 # 10000000000000000) (3892568793293 # 100000000000) (100 # 9) s ltac:(lra) ltac:(lra) ltac:(lra)) as T4.
  assert (18514 # 100000000 < (2408926869968 # 100000000000000) / ((1301065924522 # 10000000000) - 0)) by reflexivity.
  assert (410 # 100000000 < (1599740894897 # 10000000000000000) / ((3892568793293 # 100000000000) - 0)) by reflexivity.
  assert ((2408926869968 # 100000000000000) / ((1301065924522 # 10000000000) - (100 # 9)) < 20260 # 100000000) by reflexivity.
  assert ((1599740894897 # 10000000000000000) / ((3892568793293 # 100000000000) - (100 # 9)) < 580 # 100000000) by reflexivity.
  lra.
Qed.
Lemma kx_bounds h : 272 # 1000000 < h -> h < 292 # 1000000 -> 9994 # 10000 < 1 / ((1 + h) * (1 + h)) /\ 1 / ((1 + h) * (1 + h)) < 99946 # 100000.
Proof. intros A B. split; [apply Qlt_shift_div_l; [nra|]|apply Qlt_shift_div_r; [nra|]]; nra. Qed.
Lemma morton_terms s k : 0 < s -> s <= 100 # 9 -> 9994 # 10000 < k -> k < 99946 # 100000 ->
  let d := hx s - ((834254 # 10000000000) + (2406147 # 100000000) / (130 - k * s) + (15998 # 100000000) / ((389 # 10) - k * s)) in - (1 # 100000000) < d /\ d < 1 # 100000000.
Proof.
  intros A B K1 K2 d. assert (L1 : (9994 # 10000) * s <= k * s) by nra. assert (L2 : k * s <= (99946 # 100000) * s) by nra. assert (L3 : k * s * s <= s * s) by nra. assert (L4 : s * s <= (100 # 9) * s) by nra. assert (L5 : 0 <= k * s * s) by nra.
  assert (TA : 575 # 10000000000 < (2408926869968 # 100000000000000) / ((1301065924522 # 10000000000) - s) - (2406147 # 100000000) / (130 - k * s) /\
               (2408926869968 # 100000000000000) / ((1301065924522 # 10000000000) - s) - (2406147 # 100000000) / (130 - k * s) < 650 # 10000000000).
  { setoid_replace ((2408926869968 # 100000000000000) / ((1301065924522 # 10000000000) - s) - (2406147 # 100000000) / (130 - k * s)) with
      (((2408926869968 # 100000000000000) * (130 - k * s) - (2406147 # 100000000) * ((1301065924522 # 10000000000) - s)) / (((1301065924522 # 10000000000) - s) * (130 - k * s))) by (field; lra).
    assert (P : 0 < ((1301065924522 # 10000000000) - s) * (130 - k * s)) by nra.
    assert (EX : ((1301065924522 # 10000000000) - s) * (130 - k * s) == (1301065924522 # 10000000000) * 130 - 130 * s - (1301065924522 # 10000000000) * (k * s) + k * s * s) by ring.
    split; [apply Qlt_shift_div_l; [exact P|]|apply Qlt_shift_div_r; [exact P|]]; rewrite EX; lra. }
  assert (TB : - (70 # 10000000000) < (1599740894897 # 10000000000000000) / ((3892568793293 # 100000000000) - s) - (15998 # 100000000) / ((389 # 10) - k * s) /\
               (1599740894897 # 10000000000000000) / ((3892568793293 # 100000000000) - s) - (15998 # 100000000) / ((389 # 10) - k * s) < - (15 # 10000000000)).
  { setoid_replace ((1599740894897 # 10000000000000000) / ((3892568793293 # 100000000000) - s) - (15998 # 100000000) / ((389 # 10) - k * s)) with
      (((1599740894897 # 10000000000000000) * ((389 # 10) - k * s) - (15998 # 100000000) * ((3892568793293 # 100000000000) - s)) / (((3892568793293 # 100000000000) - s) * ((389 # 10) - k * s))) by (field; lra).
    assert (P : 0 < ((3892568793293 # 100000000000) - s) * ((389 # 10) - k * s)) by nra.
    assert (EX : ((3892568793293 # 100000000000) - s) * ((389 # 10) - k * s) == (3892568793293 # 100000000000) * (389 # 10) - (389 # 10) * s - (3892568793293 # 100000000000) * (k * s) + k * s * s) by ring.
    split; [apply Qlt_shift_div_l; [exact P|]|apply Qlt_shift_div_r; [exact P|]]; rewrite EX; lra. }
  unfold d, hx. lra.
Qed.
Lemma morton_error x : 3000 <= x -> Qabs (x * refractive_air x / refractive morton2000 (x * refractive_air x) - x) < (1 # 100000000) * x.
Proof.
  intro H. assert (S0 : 0 < sq x) by (apply sq_pos; lra). assert (S1 : sq x <= 100 # 9) by (change (100 # 9) with (sq 3000 * (1 # 1) + 0) || idtac; pose proof (sq_le x 3000 ltac:(lra) H) as Q; assert (sq 3000 == 100 # 9) by reflexivity; lra).
  destruct (hx_bounds _ S0 S1) as [H0 H1]. destruct (kx_bounds _ H0 H1) as [K0 K1].
  assert (ER : refractive_air x == 1 + hx (sq x)) by (unfold refractive_air, hx, sq; cbv zeta; ring).
  set (h := hx (sq x)) in *. set (k := 1 / ((1 + h) * (1 + h))) in *.
  assert (EY : sq (x * refractive_air x) == k * sq x) by (unfold sq, k; rewrite ER; field; nra).
  destruct (morton_terms _ _ S0 S1 K0 K1) as [D0 D1]. fold h in D0, D1.
  set (f := (834254 # 10000000000) + (2406147 # 100000000) / (130 - k * sq x) + (15998 # 100000000) / ((389 # 10) - k * sq x)) in *.
  assert (EF : refractive morton2000 (x * refractive_air x) == 1 + f).
  { rewrite refractive_ex. unfold ex, f. cbn [morton2000 k_a k_b1 k_b2 k_c1 k_c2]. rewrite EY. reflexivity. }
  rewrite EF, ER. assert (F0 : 0 < f) by lra.
  setoid_replace (x * (1 + h) / (1 + f) - x) with (x * (h - f) / (1 + f)) by (field; lra).
  apply Qabs_case; intros _; [|setoid_replace (- (x * (h - f) / (1 + f))) with (x * (f - h) / (1 + f)) by (field; lra)]; apply Qlt_shift_div_r; try lra; nra.
Qed.
(** ** on lists *)
Lemma Forall2_map {A B C} (f : A -> B) (P : A -> C -> Prop) (g : A -> C) l : (forall x, In x l -> P x (g x)) -> Forall2 P l (map g l).
Proof. induction l as [|x l IH]; intro H; constructor; [apply H; left; reflexivity|apply IH; intros y Hy; apply H; right; exact Hy]. Qed.
Lemma vac_to_air c l : known c -> l <> [] -> (forall w, In w l -> accepted c w) -> exists out, VacToAir c l = Ok out /\ Forall2 (air_pair c) l out /\
  (forall i j w w' a a', nth_error l i = Some w -> nth_error l j = Some w' -> nth_error out i = Some a -> nth_error out j = Some a' -> w < w' -> a < a').
Proof.
  intros K N H. destruct (known_good c K) as [sm G]. exists (map (fun w => w / refractive c w) l). unfold VacToAir. rewrite check_ok by assumption. split; [reflexivity|]. split.
  - apply (Forall2_map (fun x => x)). intros w Hw. destruct (H w Hw) as [Ha _]. split; [|apply (air_of_bounds c sm G); exact Ha]. pose proof (ex_lo c sm G w Ha) as E. field. rewrite refractive_ex. lra.
  - intros i j w w' a a' I1 I2 O1 O2 L. rewrite nth_error_map, I1 in O1. rewrite nth_error_map, I2 in O2. cbn in O1, O2. injection O1 as <-. injection O2 as <-. apply (air_of_lt c sm G); [|exact L]. apply H. eapply nth_error_In. exact I1.
Qed.
Lemma known_direct c : known c -> k_direct c = true -> c = morton2000.
Proof. intros [<-|[<-|[<-|[<-|[<-|[]]]]]] E; [discriminate..|reflexivity]. Qed.
Lemma known_split c : known c -> (iterative c /\ k_direct c = false) \/ (c = morton2000 /\ k_direct c = true).
Proof. intros [<-|[<-|[<-|[<-|[<-|[]]]]]]; [left|left|left|left|right]; (split; [|reflexivity]); try reflexivity; unfold iterative; cbn [In]; tauto. Qed.
Lemma step1_gt c sm x : good c sm -> k_min c <= x -> x < step1 c x.
Proof. intros G H. destruct (air_of_bounds c sm G x H) as [_ B]. unfold step1. destruct G. nra. Qed.
Lemma air_to_vac c l : known c -> l <> [] -> (forall w, In w l -> accepted c w) -> exists out, AirToVac c l = Ok (out, false) /\ Forall2 (vac_pair c) l out.
Proof.
  intros K N H. destruct (known_good c K) as [sm G]. unfold AirToVac. rewrite check_ok by assumption. cbn [rbind]. destruct (known_split c K) as [[I ->]|[-> ->]].
  - exists (map (step1 c) l). split; [apply (iter_once c sm G); assumption|]. apply (Forall2_map (fun x => x)). intros x Hx. destruct (H x Hx) as [Ha _]. split; [apply (step1_gt c sm); assumption|].
    destruct (step1_error c sm G x Ha) as [E1 E2]. apply Qabs_case; intros; lra.
  - eexists. split; [reflexivity|]. apply (Forall2_map (fun x => x)). intros x Hx. destruct (H x Hx) as [Ha _]. change (k_min morton2000) with 3000 in Ha. split.
    + assert (S0 : 0 < sq x) by (apply sq_pos; lra). assert (S1 : sq x <= 100 # 9) by (pose proof (sq_le x 3000 ltac:(lra) Ha) as Q; assert (sq 3000 == 100 # 9) by reflexivity; lra).
      destruct (hx_bounds _ S0 S1) as [H0 H1]. assert (ER : refractive_air x == 1 + hx (sq x)) by (unfold refractive_air, hx, sq; cbv zeta; ring). rewrite ER. nra.
    + pose proof (morton_error x Ha). lra.
Qed.
Lemma no_precision c l : iterative c -> l <> [] -> (forall w, In w l -> accepted c w) -> exists out, AirToVac c l = Ok (out, false) /\ Forall2 (fun a v => 5 # 100000 < a - v / refractive c v) l out.
Proof.
  intros I N H. assert (K : known c) by (destruct I as [<-|[<-|[<-|[<-|[]]]]]; unfold known; cbn [In]; tauto). destruct (known_good c K) as [sm G].
  destruct (known_split c K) as [[_ D]|[E _]]; [|subst c; destruct I as [I|[I|[I|[I|[]]]]]; discriminate I].
  exists (map (step1 c) l). unfold AirToVac. rewrite D, check_ok by assumption. split; [apply (iter_once c sm G); assumption|]. apply (Forall2_map (fun x => x)). intros x Hx. destruct (H x Hx) as [Ha _]. apply (step1_error c sm G x Ha).
Qed.
Lemma refused c l : (l = [] \/ exists w, In w l /\ ~ accepted c w) -> VacToAir c l = Throw INTERNAL_ERROR /\ AirToVac c l = Throw INTERNAL_ERROR.
Proof. intro H. unfold VacToAir, AirToVac. rewrite check_bad by exact H. destruct (k_direct c); split; reflexivity. Qed.
(** back and forth *)
Lemma air_expand c sm w w' : good c sm -> k_min c <= w -> w <= w' -> (w' - w) / (1 + ex c w) <= w' / refractive c w' - w / refractive c w.
Proof.
  intros G H L. rewrite !refractive_ex. pose proof (ex_lo c sm G w H). pose proof (ex_lo c sm G w' ltac:(lra)). pose proof (ex_mono c sm G w w' H L). destruct G.
  assert (w' / (1 + ex c w) <= w' / (1 + ex c w')).
  { apply Qle_shift_div_l; [lra|]. setoid_replace (w' / (1 + ex c w) * (1 + ex c w')) with ((w' * (1 + ex c w')) / (1 + ex c w)) by (field; lra). apply Qle_shift_div_r; [lra|]. nra. }
  setoid_replace ((w' - w) / (1 + ex c w)) with (w' / (1 + ex c w) - w / (1 + ex c w)) by (field; lra). lra.
Qed.
Lemma mul_back t p r q : 0 < p -> t / p <= r -> r < q -> t < q * p.
Proof. intros P A B. assert (t == t / p * p) by (field; lra). nra. Qed.
Lemma pair_back c sm v a y : good c sm -> k_min c <= v -> k_min c <= a -> air_pair c v a -> vac_pair c a y -> Qabs (y - v) < (12 # 100000000) * v.
Proof.
  intros G Hv Ha [E [A1 A2]] [Y1 Y2]. assert (Ea : a == v / refractive c v) by (rewrite <- E at 1; field; rewrite refractive_ex; pose proof (ex_lo c sm G v Hv); lra).
  assert (Hy : k_min c <= y) by lra. pose proof (ex_lo c sm G v Hv). pose proof (ex_lo c sm G y Hy). pose proof (ex_hi c sm G v Hv). pose proof (ex_hi c sm G y Hy).
  pose proof (Qabs_Qle_condition (y / refractive c y - a) ((11 # 100000000) * a)) as [Q _]. specialize (Q ltac:(lra)). 
  assert (Hq : Qabs (y / refractive c y - a) < (11 # 100000000) * a) by exact Y2.
  assert (Q1 : y / refractive c y - a < (11 # 100000000) * a) by (eapply Qle_lt_trans; [apply Qle_Qabs|exact Hq]).
  assert (Q2 : a - y / refractive c y < (11 # 100000000) * a) by (eapply Qle_lt_trans; [apply Qle_Qabs|]; rewrite Qabs_Qminus; exact Hq).
  assert (RV : a * (1 + ex c v) == v) by (rewrite <- refractive_ex; exact E).
  destruct (Qlt_le_dec y v) as [L|L].
  - pose proof (air_expand c sm y v G Hy ltac:(lra)) as X. rewrite <- Ea in X. 
    assert (P1 : 0 < 1 + ex c y) by lra. pose proof (mul_back _ _ _ _ P1 X Q2) as X2.
    rewrite Qabs_neg by lra. assert (Hp : 0 < v) by (destruct G; lra). assert (a * (1 + ex c y) < v * (1001 # 1000)) by nra. lra.
  - pose proof (air_expand c sm v y G Hv L) as X. rewrite <- Ea in X.
    assert (P1 : 0 < 1 + ex c v) by lra. pose proof (mul_back _ _ _ _ P1 X Q1) as X2.
    rewrite Qabs_pos by lra. rewrite <- Qmult_assoc, RV in X2. destruct G; lra.
Qed.
Lemma Forall2_nth {A B} (P : A -> B -> Prop) l m : Forall2 P l m -> forall i x y, nth_error l i = Some x -> nth_error m i = Some y -> P x y.
Proof. induction 1; intros [|i] a b Ha Hb; cbn in Ha, Hb; try discriminate; [injection Ha as <-; injection Hb as <-; assumption|eauto]. Qed.
Lemma Forall2_comp {A B C} (P : A -> B -> Prop) (Q : B -> C -> Prop) (R : A -> C -> Prop) (D : A -> Prop) (E : B -> Prop) l m n :
  (forall x y z, D x -> E y -> P x y -> Q y z -> R x z) -> Forall2 P l m -> Forall2 Q m n -> (forall x, In x l -> D x) -> (forall y, In y m -> E y) -> Forall2 R l n.
Proof.
  intros H F. revert n. induction F as [|x y l m Hxy F IH]; intros n F2 HD HE; inversion F2; subst; constructor.
  - eapply H; [apply HD; left; reflexivity|apply HE; left; reflexivity|exact Hxy|assumption].
  - apply IH; [assumption|intros; apply HD; right; assumption|intros; apply HE; right; assumption].
Qed.
Lemma round_trip c l airs : known c -> l <> [] -> (forall w, In w l -> accepted c w) -> VacToAir c l = Ok airs -> (forall a, In a airs -> accepted c a) ->
  exists out, AirToVac c airs = Ok (out, false) /\ Forall2 (fun v y => Qabs (y - v) < (12 # 100000000) * v) l out.
Proof.
  intros K N H E Ha. destruct (vac_to_air c l K N H) as [airs' [E' [F _]]]. assert (airs' = airs) by congruence. subst airs'.
  assert (Na : airs <> []) by (intros ->; destruct l; [contradiction|inversion F]). destruct (air_to_vac c airs K Na Ha) as [out [O1 O2]]. exists out. split; [exact O1|]. destruct (known_good c K) as [sm G].
  eapply (Forall2_comp (air_pair c) (vac_pair c) _ (accepted c) (accepted c)); [|exact F|exact O2|exact H|exact Ha].
  intros v a y [Hv _] [Hy _] P Q. eapply pair_back; eassumption.
Qed.
Lemma round_trip_refused c : known c -> exists a, VacToAir c [k_min c] = Ok [a] /\ AirToVac c [a] = Throw INTERNAL_ERROR.
Proof.
  intro K. destruct (known_good c K) as [sm G]. exists (k_min c / refractive c (k_min c)). split.
  - unfold VacToAir. rewrite check_ok; [reflexivity|discriminate|]. intros w [<-|[]]. split; [lra|]. destruct K as [<-|[<-|[<-|[<-|[<-|[]]]]]]; vm_compute; try exact Logic.I; discriminate.
  - apply refused. right. eexists. split; [left; reflexivity|]. intros [A _]. destruct (air_of_bounds c sm G (k_min c) ltac:(lra)) as [_ B]. destruct G; lra.
Qed.
Lemma get_known name c : Get name = Ok c -> known c.
Proof. unfold Get. repeat match goal with |- context [if ?b then _ else _] => destruct b end; intro E; inversion E; unfold known; cbn [In]; tauto. Qed.
Lemma get_spec name : (In name ["edlen1953"; "edlen1966"; "PeckReeder1972"; "ciddor1996"; "morton2000"]%string -> exists c, Get name = Ok c /\ known c) /\
  (~ In name ["edlen1953"; "edlen1966"; "PeckReeder1972"; "ciddor1996"; "morton2000"]%string -> Get name = Throw UNKNOWN_AIR_VACUUM_CONVERSION).
Proof.
  split.
  - intros [<-|[<-|[<-|[<-|[<-|[]]]]]]; eexists; (split; [reflexivity|unfold known; cbn [In]; tauto]).
  - intro H. unfold Get. repeat match goal with |- context [String.eqb name ?s] => destruct (String.eqb_spec name s); [subst; exfalso; apply H; cbn [In]; tauto|] end. reflexivity.
Qed.
Lemma get_index name c w : Get name = Ok c -> 0 < w -> refractive c w == published_index name w.
Proof.
  intros E Hw. unfold Get in E. unfold published_index. cbv zeta. assert (S2 : 100000000 / (w * w) == (10000 / w) * (10000 / w)) by (field; lra).
  repeat match goal with |- context [String.eqb name ?s] => destruct (String.eqb name s); [injection E as <-; unfold refractive; cbv zeta; cbn [edlen1953 edlen1966 PeckReeder1972 ciddor1996 k_a k_b1 k_b2 k_c1 k_c2]; rewrite S2; ring|] end.
  destruct (String.eqb name "morton2000"); [|discriminate]. injection E as <-. unfold refractive. cbv zeta. cbn [morton2000 k_a k_b1 k_b2 k_c1 k_c2]. rewrite S2. reflexivity.
Qed.
