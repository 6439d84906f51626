From Verif Require Import Base RangeModel CalzModel F64 AxisModel IntegModel IntegSpec IntegProofs.
Open Scope Q_scope.

Definition of_mask (m : bool) : N := if m then 1%N else 0%N.
Definition ff (n : N) : f64 := Fin (inject_Z (Z.of_N n)).
Lemma sq_pos (e : Q) : ~ e == 0 -> 0 < e * e.
Proof.
  intro H. destruct (Qlt_le_dec e 0) as [X|X].
  - setoid_replace (e*e) with ((-e)*(-e)) by ring. apply Qmult_lt_0_compat; lra.
  - assert (0 < e) by (apply Qle_lteq in X; destruct X as [X|X]; [auto|exfalso; apply H; symmetry; auto]). apply Qmult_lt_0_compat; auto.
Qed.
Lemma sq_nonneg (e : Q) : 0 <= e * e.
Proof. destruct (Qlt_le_dec e 0); [setoid_replace (e*e) with ((-e)*(-e)) by ring|]; apply Qmult_le_0_compat; lra. Qed.
Lemma wsum_app f a b : wsum f (a ++ b) == wsum f a + wsum f b.
Proof. unfold wsum. induction a as [|x a IH]; cbn [app fold_right]; [ring|]. rewrite IH. ring. Qed.
Lemma wsum_cons f x l : wsum f (x :: l) = f x + wsum f l. Proof. reflexivity. Qed.
Lemma wsum_ext f g l : (forall p, In p l -> f p == g p) -> wsum f l == wsum g l.
Proof. induction l as [|x l IH]; intro H; [reflexivity|]. rewrite !wsum_cons, (H x) by (left; auto). rewrite IH; [reflexivity|]. intros; apply H; right; auto. Qed.
Lemma wsum_plus f g l : wsum (fun p => f p + g p) l == wsum f l + wsum g l.
Proof. induction l as [|x l IH]; [cbn; ring|]. rewrite !wsum_cons, IH. ring. Qed.
Lemma wsum_scale c f l : wsum (fun p => c * f p) l == c * wsum f l.
Proof. induction l as [|x l IH]; [cbn; ring|]. rewrite !wsum_cons, IH. ring. Qed.
Lemma wsum_nonneg f l : (forall p, In p l -> 0 <= f p) -> 0 <= wsum f l.
Proof. induction l as [|x l IH]; intro H; [cbn; lra|]. rewrite wsum_cons. pose proof (H x (or_introl eq_refl)). assert (0 <= wsum f l) by (apply IH; intros; apply H; right; auto). lra. Qed.

Lemma mean_loop_fin mask ys es : length ys = length mask -> length es = length mask -> Forall (fun e => ~ e == 0) es -> forall a b c d,
  exists a' b' c' d', mean_loop (map ff (map of_mask mask)) (map Fin ys) (map Fin es) (mkSums (Fin a) (Fin b) (Fin c) (Fin d)) = mkSums (Fin a') (Fin b') (Fin c') (Fin d') /\
    let l := selected mask ys es in
    a' == a + wsum (fun p => fst p * snd p) l /\ b' == b + wsum (fun p => fst p * fst p * snd p) l /\ c' == c + total l /\ d' == d + wsum (fun p => snd p * snd p) l.
Proof.
  revert ys es. induction mask as [|m mask IH]; intros ys es Ly Le He a b c d; destruct ys as [|y ys]; destruct es as [|e es]; try discriminate.
  - exists a, b, c, d. cbn. repeat split; ring.
  - inversion He; subst. change (map ff (map of_mask (m :: mask))) with (Fin (inject_Z (Z.of_N (of_mask m))) :: map ff (map of_mask mask)). cbn [map mean_loop]. cbn [xmul xdiv]. destruct (Qeq_bool (e * e) 0) eqn:Q0.
    { apply Qeq_bool_iff in Q0. pose proof (sq_pos e H1). lra. }
    cbn [xmul xadd s1 s2 sw sw2].
    match goal with |- context [mean_loop _ _ _ (mkSums (Fin ?a1) (Fin ?b1) (Fin ?c1) (Fin ?d1))] => destruct (IH ys es ltac:(cbn in *; lia) ltac:(cbn in *; lia) H2 a1 b1 c1 d1) as (a' & b' & c' & d' & E & A & B & C & D) end.
    exists a', b', c', d'. split; [exact E|]. cbv zeta in *. cbn [selected]. unfold total in *. rewrite A, B, C, D, !wsum_app.
    destruct m; cbn [of_mask]; cbn [wsum fold_right fst snd]; unfold inject_Z; cbn [Z.of_N]; repeat split; ring.
Qed.
Lemma selected_pos mask ys es : Forall (fun e => ~ e == 0) es -> Forall (fun p => 0 < snd p) (selected mask ys es).
Proof.
  revert ys es. induction mask as [|m mask IH]; intros ys es H; [constructor|]. destruct ys; [constructor|]. destruct es as [|e es]; [constructor|]. inversion H; subst. cbn [selected]. apply Forall_app. split; [|auto].
  destruct m; repeat constructor. cbn [snd]. apply Qlt_shift_div_l; [apply sq_pos; auto|]. lra.
Qed.
Lemma total_pos l : Forall (fun p => 0 < snd p) l -> l <> [] -> 0 < total l.
Proof.
  intros H N. destruct l as [|x l]; [congruence|]. inversion H; subst. unfold total. rewrite wsum_cons. assert (0 <= wsum snd l); [|lra].
  apply wsum_nonneg. rewrite Forall_forall in H3. intros p Hp. pose proof (H3 p Hp). lra.
Qed.
(** the sum of the squares of positive weights is the square of the sum only for one weight *)
Lemma squares_le l : Forall (fun p => 0 < snd p) l -> wsum (fun p => snd p * snd p) l <= total l * total l.
Proof.
  induction 1 as [|x l Hx H IH]; [cbn; lra|]. unfold total in *. rewrite !wsum_cons.
  assert (0 <= wsum snd l) by (apply wsum_nonneg; rewrite Forall_forall in H; intros p Hp; pose proof (H p Hp); lra).
  assert (0 <= snd x * wsum snd l) by (apply Qmult_le_0_compat; lra). lra.
Qed.
Lemma squares_lt x y l : Forall (fun p => 0 < snd p) (x :: y :: l) -> wsum (fun p => snd p * snd p) (x :: y :: l) < total (x :: y :: l) * total (x :: y :: l).
Proof.
  intro H. inversion H; subst. pose proof (squares_le (y :: l) H3) as S2. unfold total in *. rewrite (wsum_cons _ x), (wsum_cons snd x).
  pose proof (total_pos (y :: l) H3 ltac:(discriminate)) as P. unfold total in P. assert (0 < snd x * wsum snd (y :: l)) by (apply Qmult_lt_0_compat; auto). lra.
Qed.
Lemma mean_unique l m : 0 < total l -> (is_mean l m <-> m == wsum (fun p => fst p * snd p) l / total l).
Proof.
  intro P. unfold is_mean. assert (wsum (fun p => snd p * (fst p - m)) l == wsum (fun p => fst p * snd p) l - m * total l) as E.
  { unfold total. setoid_replace (wsum (fun p => fst p * snd p) l - m * wsum snd l) with (wsum (fun p => fst p * snd p) l + (- m) * wsum snd l) by ring.
    rewrite <- wsum_scale, <- wsum_plus. apply wsum_ext. intros. ring. }
  rewrite E. split; intro H.
  - apply Qmult_inj_r with (total l); [lra|]. field_simplify; [|lra]. lra.
  - rewrite H. field. lra.
Qed.
Lemma deviations_expand l m : is_mean l m -> deviations l m == wsum (fun p => fst p * fst p * snd p) l - m * m * total l.
Proof.
  intro M. unfold deviations.
  assert (wsum (fun p => snd p * ((fst p - m) * (fst p - m))) l == wsum (fun p => fst p * fst p * snd p) l + ((- 2 * m) * wsum (fun p => snd p * (fst p - m)) l + (- (m * m)) * wsum snd l)) as E.
  { rewrite <- !wsum_scale, <- !wsum_plus. apply wsum_ext. intros. ring. }
  rewrite E. unfold is_mean in M. rewrite M. unfold total. ring.
Qed.

(** ** the weighted mean and its standard deviation *)
Lemma Mean mask ys es : length ys = length mask -> length es = length mask -> Forall (fun e => ~ e == 0) es ->
  let l := selected mask ys es in
  match l with
  | [] => ComputeMeanAndSDev (map of_mask mask) (map Fin ys) (map Fin es) = Ok (false, NaN, NaN)
  | [p] => exists m, ComputeMeanAndSDev (map of_mask mask) (map Fin ys) (map Fin es) = Ok (true, Fin m, NaN) /\ m == fst p
  | _ => exists m v, ComputeMeanAndSDev (map of_mask mask) (map Fin ys) (map Fin es) = Ok (true, Fin m, Fin v) /\ is_mean l m /\ 0 <= v /\
           0 < total l - wsum (fun p => snd p * snd p) l / total l /\ v == deviations l m / (total l - wsum (fun p => snd p * snd p) l / total l)
  end.
Proof.
  intros Ly Le He l. unfold ComputeMeanAndSDev. rewrite !map_length, <- Ly, Nat.eqb_refl. cbn [negb].
  change (fun n => Fin (inject_Z (Z.of_N n))) with ff.
  destruct (mean_loop_fin mask ys es Ly Le He 0 0 0 0) as (a & b & c & d & E & A & B & C & D). rewrite E. cbv zeta in *. fold l in A, B, C, D. cbn [s1 s2 sw sw2 flt].
  pose proof (selected_pos mask ys es He) as P. fold l in P. clearbody l.
  destruct l as [|p [|q l']].
  - destruct (Qltb_spec 0 c) as [X|X]; [|reflexivity]. rewrite C in X. unfold total in X. cbn in X. lra.
  - inversion P; subst. unfold total in C. cbn [wsum fold_right] in A, B, C, D. assert (0 < c) by lra. destruct (Qltb_spec 0 c) as [X|X]; [|lra].
    cbn [xdiv]. destruct (Qeq_bool c 0) eqn:Q0; [apply Qeq_bool_iff in Q0; lra|]. cbn [xmul xneg xadd xdiv].
    assert (c == snd p) as C' by (rewrite C; ring). assert (a / c == fst p) as M by (rewrite C', A; field; lra).
    assert (c + - (d / c) == 0) as Z1 by (rewrite C', D; field; lra).
    destruct (Qeq_bool (c + - (d / c)) 0) eqn:Q1; [|exfalso; apply Qeq_bool_iff in Z1; congruence].
    exists (a / c). split; [|exact M]. unfold xsign. assert (b + - (a / c * (a / c) * c) == 0) as Z2 by (rewrite M, C', B; ring).
    apply Qeq_alt in Z2. rewrite Z2. reflexivity.
  - set (l := p :: q :: l') in *. pose proof (total_pos l P ltac:(discriminate)) as T. pose proof (squares_lt p q l' P) as S2. fold l in S2.
    assert (c == total l) as C' by (rewrite C; ring). assert (d == wsum (fun p => snd p * snd p) l) as D' by (rewrite D; ring). assert (0 < c) by lra. destruct (Qltb_spec 0 c) as [X|X]; [|lra].
    cbn [xdiv]. destruct (Qeq_bool c 0) eqn:Q0; [apply Qeq_bool_iff in Q0; lra|]. cbn [xmul xneg xadd xdiv].
    assert (is_mean l (a / c)) as M. { apply mean_unique; [auto|]. rewrite C', A. field. lra. }
    assert (0 < total l - wsum (fun p => snd p * snd p) l / total l) as Den.
    { assert (wsum (fun p => snd p * snd p) l / total l < total l); [|lra]. apply Qlt_shift_div_r; auto. }
    assert (c + - (d / c) == total l - wsum (fun p => snd p * snd p) l / total l) as Den'. { rewrite C', D'. ring. }
    destruct (Qeq_bool (c + - (d / c)) 0) eqn:Q1; [exfalso; apply Qeq_bool_iff in Q1; lra|].
    exists (a / c). eexists. split; [reflexivity|]. split; [exact M|].
    assert (0 <= deviations l (a / c)) as Dv. { apply wsum_nonneg. intros r Hr. rewrite Forall_forall in P. pose proof (P r Hr). apply Qmult_le_0_compat; [lra|apply sq_nonneg]. }
    assert ((b + - (a / c * (a / c) * c)) / (c + - (d / c)) == deviations l (a / c) / (total l - wsum (fun p => snd p * snd p) l / total l)) as V.
    { rewrite Den', (deviations_expand l (a/c) M), B, <- C'. setoid_replace (0 + wsum (fun p => fst p * fst p * snd p) l + - (a / c * (a / c) * c)) with (wsum (fun p => fst p * fst p * snd p) l - a / c * (a / c) * c) by ring. reflexivity. }
    split; [|split; [exact Den|exact V]]. rewrite V. apply Qle_shift_div_l; [auto|]. rewrite Qmult_0_l. auto.
Qed.
Lemma Mean_between l m lo hi : Forall (fun p => 0 < snd p) l -> l <> [] -> is_mean l m -> (forall p, In p l -> lo <= fst p <= hi) -> lo <= m <= hi.
Proof.
  intros P N M B. pose proof (total_pos l P N) as T. rewrite Forall_forall in P. unfold is_mean in M.
  assert (forall c, wsum (fun p => snd p * (fst p - m)) l == wsum (fun p => snd p * (fst p - c)) l + (c - m) * total l) as E.
  { intro c. unfold total. rewrite <- wsum_scale, <- wsum_plus. apply wsum_ext. intros. ring. }
  split.
  - pose proof (E lo) as El. rewrite M in El. assert (0 <= wsum (fun p => snd p * (fst p - lo)) l) by (apply wsum_nonneg; intros p Hp; pose proof (P p Hp); pose proof (B p Hp); apply Qmult_le_0_compat; lra).
    destruct (Qlt_le_dec m lo); [|auto]. assert (0 < (lo - m) * total l) by (apply Qmult_lt_0_compat; lra). lra.
  - pose proof (E hi) as El. rewrite M in El. assert (0 <= wsum (fun p => snd p * (hi - fst p)) l) by (apply wsum_nonneg; intros p Hp; pose proof (P p Hp); pose proof (B p Hp); apply Qmult_le_0_compat; lra).
    assert (wsum (fun p => snd p * (hi - fst p)) l == (-1) * wsum (fun p => snd p * (fst p - hi)) l) by (rewrite <- wsum_scale; apply wsum_ext; intros; ring).
    destruct (Qlt_le_dec hi m); [|auto]. assert (0 < (m - hi) * total l) by (apply Qmult_lt_0_compat; lra). lra.
Qed.
(** equal weights: the usual unbiased estimate *)
Lemma Equal_weights l w m : 0 < w -> Forall (fun p => snd p == w) l -> (2 <= length l)%nat ->
  deviations l m / (total l - wsum (fun p => snd p * snd p) l / total l) == wsum (fun p => (fst p - m) * (fst p - m)) l / (inject_Z (Z.of_nat (length l)) - 1).
Proof.
  intros W F L. rewrite Forall_forall in F.
  assert (forall k, (forall p, In p k -> snd p == w) -> total k == inject_Z (Z.of_nat (length k)) * w) as T.
  { induction k as [|x k IH]; intro Hk; [cbn; ring|]. unfold total in *. rewrite wsum_cons, IH by (intros; apply Hk; right; auto). rewrite (Hk x) by (left; auto). cbn [length]. rewrite Nat2Z.inj_succ. unfold Z.succ. rewrite inject_Z_plus. unfold inject_Z at 3. ring. }
  assert (wsum (fun p => snd p * snd p) l == w * total l) as S2. { unfold total. rewrite <- wsum_scale. apply wsum_ext. intros p Hp. rewrite (F p Hp). reflexivity. }
  assert (deviations l m == w * wsum (fun p => (fst p - m) * (fst p - m)) l) as D. { unfold deviations. rewrite <- wsum_scale. apply wsum_ext. intros p Hp. rewrite (F p Hp). reflexivity. }
  rewrite S2, D, (T l F). set (n := inject_Z (Z.of_nat (length l))). assert (2 <= n) by (unfold n; change 2 with (inject_Z 2); rewrite <- Zle_Qle; lia).
  assert (0 < n * w) by (apply Qmult_lt_0_compat; lra). setoid_replace (n * w - w * (n * w) / (n * w)) with (w * (n - 1)) by (field; split; lra). field. split; lra.
Qed.
Lemma selected_weight mask ys es e : Forall (fun x => x == e) es -> Forall (fun p => snd p == 1 / (e * e)) (selected mask ys es).
Proof.
  revert ys es. induction mask as [|m mask IH]; intros ys es H; [constructor|]. destruct ys; [constructor|]. destruct es as [|x es]; [constructor|]. inversion H; subst. cbn [selected]. apply Forall_app. split; [|auto].
  destruct m; repeat constructor. cbn [snd]. rewrite H2. reflexivity.
Qed.

(** ** special values *)
Lemma xadd_nan a : xadd NaN a = NaN. Proof. destruct a; reflexivity. Qed.
Lemma mean_loop_nan mask ys es a : sw a = NaN -> sw (mean_loop mask ys es a) = NaN.
Proof. revert ys es a. induction mask as [|m mask IH]; intros [|y ys] [|e es] a H; cbn [mean_loop]; auto. apply IH. cbn [sw]. rewrite H. apply xadd_nan. Qed.
Lemma mean_loop_poison i : forall mask ys es a e, length ys = length mask -> length es = length mask -> nth_error mask i = Some 0%N -> nth_error es i = Some (Fin e) -> e == 0 -> sw (mean_loop (map ff mask) ys es a) = NaN.
Proof.
  induction i as [|i IH]; intros [|m mask] [|y ys] [|e0 es] a e Ly Le Hm He E0; try discriminate.
  - cbn in Hm, He. injection Hm as ->. injection He as ->. cbn [map mean_loop ff]. apply mean_loop_nan. cbn [sw xmul xdiv]. destruct (Qeq_bool (e * e) 0) eqn:Q; [|exfalso; assert (e * e == 0) as X by (rewrite E0; ring); apply Qeq_bool_iff in X; congruence].
    cbn. destruct (sw a); reflexivity.
  - cbn [map mean_loop]. cbn in Hm, He. eapply IH; cbn in *; eauto.
Qed.
Lemma Poisoned mask ys es i e : length ys = length mask -> length es = length mask -> nth_error mask i = Some 0%N -> nth_error es i = Some (Fin e) -> e == 0 -> ComputeMeanAndSDev mask ys es = Ok (false, NaN, NaN).
Proof.
  intros Ly Le Hm He E0. unfold ComputeMeanAndSDev. rewrite <- Ly, Nat.eqb_refl. cbn [negb]. change (fun n => Fin (inject_Z (Z.of_N n))) with ff.
  rewrite (mean_loop_poison i mask ys es _ e Ly Le Hm He E0). reflexivity.
Qed.
Lemma Mean_refuses mask ys es : length mask <> length ys -> ComputeMeanAndSDev mask ys es = Throw INTERNAL_ERROR.
Proof. intro H. unfold ComputeMeanAndSDev. destruct (Nat.eqb_spec (length mask) (length ys)); [contradiction|reflexivity]. Qed.
Lemma Mean_range axis ys es r l : GetLambdaRange axis = Ok l -> rbeg l <= rbeg r -> rend r <= rend l -> length ys = length axis ->
  GetMeanAndStdFluxInRange axis ys es r = (do x <- ComputeMeanAndSDev (map (fun x => of_mask (in_lambda r x)) axis) ys es; Ok (Some (snd (fst x), snd x))).
Proof. intros E A B L. unfold GetMeanAndStdFluxInRange. rewrite E. cbn [rbind]. destruct (Qltb_spec (rbeg r) (rbeg l)); [lra|]. destruct (Qltb_spec (rend l) (rend r)); [lra|]. reflexivity. Qed.
Lemma Mean_range_outside axis ys es r l : GetLambdaRange axis = Ok l -> (rbeg r < rbeg l \/ rend l < rend r) -> GetMeanAndStdFluxInRange axis ys es r = Ok None.
Proof. intros E H. unfold GetMeanAndStdFluxInRange. rewrite E. cbn [rbind]. destruct (Qltb_spec (rbeg r) (rbeg l)); [reflexivity|]. destruct (Qltb_spec (rend l) (rend r)); [reflexivity|]. lra. Qed.

(** ** the difference of two fluxes *)
Lemma rms_loop_sum a : forall b w acc, length b = length a -> ~ w == 0 -> rms_loop a b w acc == acc + sigma (fun i => (at_ a i - at_ b i) * (at_ a i - at_ b i)) 0 (length a) / w.
Proof.
  induction a as [|x a IH]; intros [|y b] w acc L W; try discriminate; cbn [rms_loop length sigma]; [field; auto|].
  rewrite IH by (auto; cbn in L; lia). rewrite sigma_shift. unfold at_. cbn [nth]. field. auto.
Qed.
Lemma Rms a b : length b = length a -> (0 < length a)%nat -> exists r, ComputeRMSDiff2 a b = Ok r /\ r == sigma (fun i => (at_ a i - at_ b i) * (at_ a i - at_ b i)) 0 (length a) / inject_Z (Z.of_nat (length a)) /\
  0 <= r /\ (r == 0 <-> forall i, (i < length a)%nat -> at_ a i == at_ b i).
Proof.
  intros L N. unfold ComputeRMSDiff2. rewrite L, Nat.eqb_refl. cbn [negb]. set (w := inject_Z (Z.of_nat (length a))). assert (0 < w) by (unfold w; change 0 with (inject_Z 0); rewrite <- Zlt_Qlt; lia).
  eexists. split; [reflexivity|]. assert (rms_loop a b w 0 == sigma (fun i => (at_ a i - at_ b i) * (at_ a i - at_ b i)) 0 (length a) / w) as E by (rewrite rms_loop_sum by (auto; lra); field; lra).
  split; [exact E|]. assert (0 <= sigma (fun i => (at_ a i - at_ b i) * (at_ a i - at_ b i)) 0 (length a)) as P by (apply sigma_nonneg; intros; apply sq_nonneg).
  split; [rewrite E; apply Qle_shift_div_l; auto; rewrite Qmult_0_l; auto|]. rewrite E. split.
  - intro Z. assert (sigma (fun i => (at_ a i - at_ b i) * (at_ a i - at_ b i)) 0 (length a) == 0) as Z'. { apply Qmult_inj_r with (/ w). intro X. apply Qinv_lt_0_compat in H. lra. unfold Qdiv in Z. rewrite Z. ring. }
    clear - Z'. set (f := fun i => (at_ a i - at_ b i) * (at_ a i - at_ b i)) in *. assert (forall n k i, sigma f k n == 0 -> (k <= i < k + n)%nat -> f i == 0) as X.
    { induction n as [|n IH]; intros k i Hs Hi; [lia|]. cbn [sigma] in Hs. assert (0 <= f k) by apply sq_nonneg. assert (0 <= sigma f (S k) n) by (apply sigma_nonneg; intros; apply sq_nonneg).
      destruct (Nat.eq_dec i k) as [->|]; [lra|]. apply (IH (S k)); [lra|lia]. }
    intros i Hi. specialize (X _ _ i Z' ltac:(lia)). unfold f in X. destruct (Qeq_dec (at_ a i - at_ b i) 0) as [D|D]; [lra|]. apply sq_pos in D. lra.
  - intro Hs. rewrite (sigma_ext _ (fun _ => 0)); [rewrite sigma_zero; field; lra|]. intros i Hi. rewrite (Hs i) by lia. ring.
Qed.
