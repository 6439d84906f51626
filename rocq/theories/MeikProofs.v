From Verif Require Import Base RangeModel RangeSpec RangeProofs RangeGridProofs AxisModel CalzModel CalzProofs LsfModel LsfSpec LsfProofs MeikModel MeikSpec.
Open Scope Q_scope.

Lemma mapr_ok {A B} (f : A -> res B) l : forall r, mapr f l = Ok r -> length r = length l /\
  (forall i x, nth_error l i = Some x -> exists y, nth_error r i = Some y /\ f x = Ok y).
Proof.
  induction l as [|a l IH]; intros r H; cbn [mapr] in H.
  - inversion H; subst. split; [reflexivity|]. intros i x Hx. destruct i; discriminate.
  - destruct (f a) as [y| |] eqn:E; [|discriminate|discriminate]. cbn [rbind] in H. destruct (mapr f l) as [r'| |]; [|discriminate|discriminate].
    cbn [rbind] in H. inversion H; subst. destruct (IH r' eq_refl) as [L G]. split; [cbn; lia|].
    intros i x Hx. destruct i as [|i]; cbn in Hx |- *; [inversion Hx; subst; eauto|apply G; exact Hx].
Qed.
Lemma mapr_total {A B} (f : A -> res B) l : (forall x, In x l -> exists y, f x = Ok y) -> exists r, mapr f l = Ok r.
Proof.
  induction l as [|a l IH]; intro H; [exists []; reflexivity|]. destruct (H a (or_introl eq_refl)) as [y E]. destruct IH as [r R]; [intros x Hx; apply H; right; exact Hx|].
  exists (y :: r). cbn [mapr]. rewrite E. cbn [rbind]. rewrite R. reflexivity.
Qed.
Lemma nth_error_seq s n i x : nth_error (seq s n) i = Some x -> x = (s + i)%nat /\ (i < n)%nat.
Proof.
  revert s i. induction n as [|n IH]; intros s i H; [destruct i; discriminate|]. destruct i as [|i]; cbn in H.
  - inversion H; subst. split; lia.
  - apply IH in H. lia.
Qed.
Lemma nth_error_seq_in s n i : (i < n)%nat -> nth_error (seq s n) i = Some (s + i)%nat.
Proof.
  revert s i. induction n as [|n IH]; intros s i H; [lia|]. destruct i as [|i]; cbn; [f_equal; lia|]. rewrite IH by lia. f_equal; lia.
Qed.

(** ** redshift index *)
Lemma RedshiftIndex m z : strictly_increasing (mk_zbins m) -> (2 <= length (mk_zbins m))%nat -> exists i, getRedshiftIndex m z = Ok i /\ bin_of (mk_zbins m) z i.
Proof.
  intros SI L. set (zb := mk_zbins m) in *. pose proof (strictly_increasing_increasing _ SI) as I.
  assert (N : zb <> []) by (destruct zb; [cbn in L; lia|discriminate]).
  pose proof (getClosestLowerIndex_spec zb z I N) as G. unfold getRedshiftIndex. fold zb.
  destruct (getClosestLowerIndex zb z) as [[k|]| |] eqn:E; try contradiction; cbn [rbind].
  - destruct G as (x & Hx & Lx & Gx). pose proof (nth_error_len _ _ _ Hx) as Hk.
    destruct (Z.eqb_spec (Z.of_nat k) (Z.of_nat (length zb) - 1)) as [C|C].
    + eexists. split; [reflexivity|]. right. destruct k as [|k]; [lia|]. exists k. destruct (nth_error_lt zb k) as [a Ha]; [lia|].
      exists a, x. assert (a < x) by (apply (SI k (S k) a x); auto). repeat split; auto; try lia. lra.
    + eexists. split; [reflexivity|]. right. exists k. destruct (nth_error_lt zb (S k)) as [b Hb]; [lia|]. exists x, b. repeat split; auto. left.
      destruct (Gx (S k) b ltac:(lia) Hb) as [G1|G1]; [exact G1|]. assert (x < b) by (apply (SI k (S k) x b); auto). lra.
  - destruct (Z.eqb_spec (-1) (Z.of_nat (length zb) - 1)) as [C|C]; [lia|]. exists (-1)%Z. split; [reflexivity|]. left. auto.
Qed.
Lemma RedshiftIndex_single m a z : mk_zbins m = [a] -> getRedshiftIndex m z = Ok (-1)%Z.
Proof.
  intro E. unfold getRedshiftIndex. rewrite E. unfold getClosestLowerIndex, front, vget. cbn [nth_error rbind]. destruct (Qltb_spec z a) as [L|L]; [reflexivity|].
  cbn [lower_bound length]. destruct (Qltb_spec a z) as [M|M]; cbn [Nat.eqb rbind]; [reflexivity|]. cbn [nth_error rbind]. destruct (Qeq_bool_spec a z) as [X|X]; cbn [negb rbind]; [reflexivity|].
  exfalso. apply X. lra.
Qed.

(** ** wave index: the nearest node of the grid *)
Lemma fine_step_eq x : x / fine_step == x * 20.
Proof. unfold fine_step, raw_step. field. Qed.
Lemma round_away_close x : Qabs (x - inject_Z (Qround_away x)) <= 1#2.
Proof.
  unfold Qround_away. apply Qabs_Qle_condition. destruct (Qltb_spec x 0).
  - assert (A := Qle_ceiling (x - (1#2))). assert (B := Qceiling_lt (x - (1#2))). unfold Z.sub in B. rewrite inject_Z_plus in B. change (inject_Z (-(1))) with (-1) in B. lra.
  - assert (A := Qfloor_le (x + (1#2))). assert (B := Qlt_floor (x + (1#2))). rewrite inject_Z_plus in B. change (inject_Z 1) with 1 in B. lra.
Qed.
Lemma Qabs_scale a x : 0 <= a -> Qabs (a * x) == a * Qabs x.
Proof. intro H. rewrite Qabs_Qmult, (Qabs_pos a H). reflexivity. Qed.
Lemma nearest_int x z : Qabs (x - inject_Z z) <= 1#2 -> forall j, Qabs (x - inject_Z z) <= Qabs (x - inject_Z j).
Proof.
  intros R j. destruct (Z.eq_dec j z) as [->|N]; [lra|]. apply Qabs_Qle_condition in R. assert (J : (j <= z - 1 \/ z + 1 <= j)%Z) by lia.
  apply (Qle_trans _ (1#2)); [apply Qabs_Qle_condition; exact R|]. destruct J as [J|J]; rewrite Zle_Qle in J.
  - unfold Z.sub in J. rewrite inject_Z_plus in J. change (inject_Z (-(1))) with (-1) in J. apply (Qle_trans _ (x - inject_Z j)); [lra|apply Qle_Qabs].
  - rewrite inject_Z_plus in J. change (inject_Z 1) with 1 in J. rewrite <- Qabs_opp. apply (Qle_trans _ (- (x - inject_Z j))); [lra|apply Qle_Qabs].
Qed.
Lemma WaveIndex m w : (1 <= mk_fine m)%Z -> (0 <= getWaveIndex m w < mk_fine m)%Z /\
  forall j, (0 <= j < mk_fine m)%Z -> Qabs (w - node m (getWaveIndex m w)) <= Qabs (w - node m j).
Proof.
  intro F. unfold getWaveIndex. set (r := Qround_away ((w - mk_min m) / fine_step)). split; [lia|]. intros j Hj.
  set (x := (w - mk_min m) / fine_step) in *. pose proof (round_away_close x) as R. fold r in R.
  assert (G : forall i, w - node m i == (5#100) * (x - inject_Z i)). { intro i. unfold node, x. rewrite fine_step_eq. ring. }
  rewrite !G, !Qabs_scale by lra. assert (M : Qabs (x - inject_Z (Z.min (mk_fine m - 1) (Z.max 0 r))) <= Qabs (x - inject_Z j)).
  { destruct (Z.le_gt_cases 0 r) as [A|A]; [destruct (Z.le_gt_cases r (mk_fine m - 1)) as [B|B]|].
    - replace (Z.min (mk_fine m - 1) (Z.max 0 r)) with r by lia. apply nearest_int. exact R.
    - replace (Z.min (mk_fine m - 1) (Z.max 0 r)) with (mk_fine m - 1)%Z by lia. apply Qabs_Qle_condition in R.
      assert (X : inject_Z (mk_fine m - 1) + 1 <= inject_Z r) by (change 1 with (inject_Z 1); rewrite <- inject_Z_plus, <- Zle_Qle; lia).
      assert (Y : inject_Z j <= inject_Z (mk_fine m - 1)) by (rewrite <- Zle_Qle; lia). rewrite !Qabs_pos by lra. lra.
    - replace (Z.min (mk_fine m - 1) (Z.max 0 r)) with 0%Z by lia. apply Qabs_Qle_condition in R.
      assert (X : inject_Z r <= -1) by (change (-1) with (inject_Z (-1)); rewrite <- Zle_Qle; lia).
      assert (Y : 0 <= inject_Z j) by (change 0 with (inject_Z 0); rewrite <- Zle_Qle; lia). change (inject_Z 0) with 0. rewrite !Qabs_neg by lra. lra. }
  lra.
Qed.

(** ** the correction at a redshift and a wavelength *)
Lemma Corr_above m z idx lam : 1216 < lam -> getCorrection m z idx lam = Ok 1 /\ getCorrectionAndDeriv m z idx lam = Ok (1, Some 0).
Proof. intro H. unfold getCorrection, getCorrectionAndDeriv. rewrite (proj2 (Qltb_true lya lam)) by exact H. split; reflexivity. Qed.
Lemma Corr_undef m z lam : lam <= 1216 -> getCorrection m z (-1) lam = Throw INTERNAL_ERROR /\ getCorrectionAndDeriv m z (-1) lam = Throw INTERNAL_ERROR.
Proof. intro H. unfold getCorrection, getCorrectionAndDeriv. rewrite (proj2 (Qltb_false lya lam)) by exact H. split; reflexivity. Qed.
Lemma Corr_below m z idx lam : idx <> (-1)%Z -> getRedshiftIndex m z = Ok (-1)%Z -> getCorrection m z idx lam = Ok 1 /\ getCorrectionAndDeriv m z idx lam = Ok (1, Some 0).
Proof.
  intros H E. unfold getCorrection, getCorrectionAndDeriv. destruct (Qltb lya lam); [split; reflexivity|].
  destruct (Z.eqb_spec idx (-1)); [contradiction|]. rewrite E. split; reflexivity.
Qed.

(** ** ranges of indices *)
Lemma ceil_le x z : (Qceiling x <= z)%Z <-> x <= inject_Z z.
Proof.
  split; intro H.
  - apply (Qle_trans _ (inject_Z (Qceiling x))); [apply Qle_ceiling|rewrite <- Zle_Qle; exact H].
  - assert (A := Qceiling_lt x). rewrite Zle_Qle. destruct (Z.le_gt_cases (Qceiling x) z) as [L|L]; [rewrite <- Zle_Qle; exact L|].
    exfalso. assert (X : (z <= Qceiling x - 1)%Z) by lia. rewrite Zle_Qle in X. lra.
Qed.
Lemma floor_ge x z : (z <= Qfloor x)%Z <-> inject_Z z <= x.
Proof.
  split; intro H.
  - apply (Qle_trans _ (inject_Z (Qfloor x))); [rewrite <- Zle_Qle; exact H|apply Qfloor_le].
  - assert (A := Qlt_floor x). destruct (Z.le_gt_cases z (Qfloor x)) as [L|L]; [exact L|].
    exfalso. assert (X : (Qfloor x + 1 <= z)%Z) by lia. rewrite Zle_Qle in X. lra.
Qed.
Lemma wave_range m r (raw : bool) i : let size := if raw then mk_rawsize m else mk_fine m in (0 <= i < size)%Z ->
  let (a, b) := getWaveRangeIndices m r raw in
  (rbeg r <= node m (size - 1) -> node m 0 <= rend r -> ((a <= i <= b)%Z <-> rbeg r <= node m i <= rend r)).
Proof.
  cbv zeta. intro Hi. unfold getWaveRangeIndices. assert (E : (if raw then raw_step else fine_step) == 5#100) by (destruct raw; [reflexivity|unfold fine_step, raw_step; reflexivity]).
  set (st := if raw then raw_step else fine_step) in *. set (size := if raw then mk_rawsize m else mk_fine m) in *. intros H1 H2.
  assert (B : forall x z, (x - mk_min m) / st <= inject_Z z <-> x <= node m z).
  { intros x z. unfold node. assert (X : (x - mk_min m) / st == (x - mk_min m) * 20) by (rewrite E; field). rewrite X. split; intro; lra. }
  assert (C : forall x z, inject_Z z <= (x - mk_min m) / st <-> node m z <= x).
  { intros x z. unfold node. assert (X : (x - mk_min m) / st == (x - mk_min m) * 20) by (rewrite E; field). rewrite X. split; intro; lra. }
  assert (P : (Qceiling ((rbeg r - mk_min m) / st) <= size - 1)%Z) by (apply ceil_le, B; exact H1).
  assert (Q : (0 <= Qfloor ((rend r - mk_min m) / st))%Z) by (apply floor_ge, C; exact H2).
  rewrite <- (B (rbeg r) i), <- (C (rend r) i), <- ceil_le, <- floor_ge. lia.
Qed.
Lemma wave_range_clamped m r (raw : bool) : let size := if raw then mk_rawsize m else mk_fine m in (1 <= size)%Z ->
  let (a, b) := getWaveRangeIndices m r raw in (0 <= a < size)%Z /\ (0 <= b < size)%Z.
Proof. cbv zeta. intro H. unfold getWaveRangeIndices. split; lia. Qed.

(** ** weighted mean *)
Lemma dot_bounds lo hi k : forall arr i acc v, Forall (fun x => 0 <= x) k -> Forall (between lo hi) arr -> dot k arr i acc = Ok v ->
  acc + qsum k * lo <= v <= acc + qsum k * hi.
Proof.
  induction k as [|x k IH]; intros arr i acc v K A H; cbn [dot] in H.
  - inversion H; subst. unfold qsum. cbn. lra.
  - destruct (vget arr i) as [a| |] eqn:E; [|discriminate|discriminate]. cbn [rbind] in H. inversion K as [|? ? Hx Hk]; subst. apply vget_Ok, nth_error_In in E.
    pose proof (proj1 (Forall_forall _ _) A a E) as [A1 A2]. specialize (IH arr (S i) _ v Hk A H). rewrite !qsum_cons.
    assert (x * lo <= x * a) by (rewrite !(Qmult_comm x); apply Qmult_le_compat_r; assumption). assert (x * a <= x * hi) by (rewrite !(Qmult_comm x); apply Qmult_le_compat_r; assumption). lra.
Qed.
Lemma dot_total k : forall arr i acc, (i + length k <= length arr)%nat -> exists v, dot k arr i acc = Ok v.
Proof.
  induction k as [|x k IH]; intros arr i acc H; cbn [dot]; [eauto|]. cbn [length] in H. destruct (vget_in arr i) as [a E]; [lia|]. rewrite E. cbn [rbind]. apply IH. lia.
Qed.

Section P.
  Context (width : Q -> res Q) (nsigma : Q) (kernel : list Q -> Q -> res (list Q)).
  Notation convolve_at := (convolve_at width nsigma kernel).
  Notation OneCurve := (ConvolveByLSFOneCurve width nsigma kernel).
  Notation convolveByLSF := (convolveByLSF width nsigma kernel).

  Lemma at_bounds (Hk : kernel_ok kernel) m arr lambdas fine zc i v lo hi : Forall (between lo hi) arr -> convolve_at m arr lambdas fine zc i = Ok v -> lo <= v <= hi.
  Proof.
    intros A. unfold MeikModel.convolve_at. destruct (vget fine i) as [l0| |]; [|discriminate|discriminate]. cbn [rbind].
    destruct (width (l0 * (1 + zc))) as [w| |]; [|discriminate|discriminate]. cbn [rbind]. cbv zeta. destruct (getWaveRangeIndices m _ true) as [b e].
    destruct (_ || _)%bool; [discriminate|]. destruct (Z.ltb_spec (e - b) 0) as [L|L]; [discriminate|].
    destruct (mapr _ _) as [ls| |] eqn:M; [|discriminate|discriminate]. cbn [rbind]. destruct (kernel _ _) as [k| |] eqn:K; [|discriminate|discriminate]. cbn [rbind].
    intro D. apply mapr_ok in M. destruct M as [M _]. rewrite seq_length in M.
    assert (Nl : map (fun v => v * (1 + zc)) ls <> []) by (destruct ls; [cbn in M; lia|cbn; discriminate]). destruct (Hk _ _ _ Nl K) as (_ & Kn & Ks).
    pose proof (dot_bounds lo hi k arr _ 0 v Kn A D) as [D1 D2]. rewrite Ks in D1, D2. lra.
  Qed.
  Lemma OneCurve_any (Hk : kernel_ok kernel) m arr lambdas fine zb ze out lo hi :
    Forall (between lo hi) arr -> OneCurve m arr lambdas fine zb ze = Ok out -> length out = length fine /\ Forall (fun v => v = 0 \/ between lo hi v) out.
  Proof.
    intro A. unfold ConvolveByLSFOneCurve. destruct arr as [|a0 arr']; [discriminate|]. set (arr := a0 :: arr') in *. cbv zeta. destruct (IntersectWith _ _) as [ov cv].
    destruct ov; cbn [negb].
    - destruct (getWaveRangeIndices m cv false) as [i0 i1]. intro M. apply mapr_ok in M. destruct M as [L G]. rewrite seq_length in L. split; [exact L|].
      apply Forall_forall. intros v Hv. apply In_nth_error in Hv. destruct Hv as [i Hv]. pose proof (nth_error_len _ _ _ Hv) as Hi. rewrite L in Hi.
      destruct (G i i (nth_error_seq_in 0 (length fine) i Hi)) as (y & Hy & Ey). rewrite Hv in Hy. inversion Hy; subst y.
      destruct (_ && _)%bool; [right; exact (at_bounds Hk _ _ _ _ _ _ _ lo hi A Ey)|left; congruence].
    - intro M. inversion M; subst out. split; [apply repeat_length|]. apply Forall_forall. intros v Hv. apply repeat_spec in Hv. left. exact Hv.
  Qed.
  Lemma OneCurve_bounds (Hk : kernel_ok kernel) m arr lambdas fine zb ze out lo hi : mk_fine m = Z.of_nat (length fine) ->
    (forall i x, nth_error fine i = Some x -> x == node m (Z.of_nat i)) ->
    Forall (between lo hi) arr -> OneCurve m arr lambdas fine zb ze = Ok out ->
    length out = length fine /\
    forall i v, nth_error out i = Some v ->
      let b := rbeg (mk_range m) / (1 + ze) in let e := rend (mk_range m) / (1 + zb) in
      (b <= node m (Z.of_nat i) <= e -> between lo hi v) /\ (~ (b <= node m (Z.of_nat i) <= e) -> v = 0).
  Proof.
    intros F Gr A. unfold ConvolveByLSFOneCurve. destruct arr as [|a0 arr']; [discriminate|]. set (arr := a0 :: arr') in *. cbv zeta.
    destruct fine as [|f0 ft] eqn:Ef.
    { destruct (IntersectWith _ _) as [ov cv]. destruct ov; cbn [negb]; [destruct (getWaveRangeIndices m cv false); cbn [length seq mapr]|];
        intro H; inversion H; subst; (split; [reflexivity|intros i v Hv; destruct i; discriminate]). }
    set (z := last ft f0). assert (Hz : nth_error fine (length ft) = Some z) by (rewrite Ef; apply last_cons_nth).
    assert (Ha : nth_error fine 0 = Some f0) by (rewrite Ef; reflexivity). rewrite <- Ef in *.
    assert (Lf : length fine = S (length ft)) by (rewrite Ef; reflexivity).
    pose proof (Gr _ _ Ha) as Ga. pose proof (Gr _ _ Hz) as Gz.
    unfold IntersectWith, Intersect, HasIntersection. cbn [rbeg rend].
    set (b := rbeg (mk_range m) / (1 + ze)) in *. set (e := rend (mk_range m) / (1 + zb)) in *.
    assert (Nd : forall i, (i < length fine)%nat -> node m 0 <= node m (Z.of_nat i) <= node m (Z.of_nat (length ft))).
    { intros i Hi. unfold node. assert (0 <= inject_Z (Z.of_nat i)) by (change 0 with (inject_Z 0); rewrite <- Zle_Qle; lia).
      assert (inject_Z (Z.of_nat i) <= inject_Z (Z.of_nat (length ft))) by (rewrite <- Zle_Qle; lia). change (inject_Z 0) with 0. lra. }
    change (Z.of_nat 0) with 0%Z in Ga.
    assert (Eq : forall i, (i < length fine)%nat -> ((Qmaxb b f0 <= node m (Z.of_nat i) <= Qminb e z) <-> (b <= node m (Z.of_nat i) <= e))).
    { intros i Hi. specialize (Nd i Hi). rewrite Qmaxb_le_iff, Qminb_ge_iff. split; intro; lra. }
    destruct (Qle_bool_spec (Qmaxb b f0) (Qminb e z)) as [O|O]; cbn [negb].
    - destruct (getWaveRangeIndices m (mkRange (Qmaxb b f0) (Qminb e z)) false) as [i0 i1] eqn:W. intro M. apply mapr_ok in M. destruct M as [L G]. rewrite seq_length in L. split; [exact L|].
      intros i v Hv. pose proof (nth_error_len _ _ _ Hv) as Hi. rewrite L in Hi.
      destruct (G i i (nth_error_seq_in 0 (length fine) i Hi)) as (y & Hy & Ey). rewrite Hv in Hy. inversion Hy; subst y.
      pose proof (wave_range m (mkRange (Qmaxb b f0) (Qminb e z)) false (Z.of_nat i)) as Wr. cbv zeta in Wr. cbn [rbeg rend] in Wr. rewrite W in Wr.
      assert (Ws : (i0 <= Z.of_nat i <= i1)%Z <-> Qmaxb b f0 <= node m (Z.of_nat i) <= Qminb e z).
      { apply Wr; [lia| |].
        - replace (mk_fine m - 1)%Z with (Z.of_nat (length ft)) by lia. apply (Qle_trans _ _ _ O). rewrite <- Gz. apply Qminb_le_iff. right. lra.
        - apply (Qle_trans _ (Qmaxb b f0)); [|exact O]. apply Qmaxb_ge_iff. right. lra. }
      rewrite (Eq i Hi) in Ws. destruct (Z.leb_spec i0 (Z.of_nat i)) as [P|P]; destruct (Z.leb_spec (Z.of_nat i) i1) as [R|R]; cbn [andb] in Ey;
        (split; intro X; [|first [congruence | exfalso; apply X; apply Ws; lia]]); first [exact (at_bounds Hk _ _ _ _ _ _ _ lo hi A Ey)|apply Ws in X; exfalso; lia].
    - intro M. inversion M; subst out. split; [apply repeat_length|]. intros i v Hv. pose proof (nth_error_len _ _ _ Hv) as Hi. rewrite repeat_length in Hi.
      apply nth_error_In in Hv. apply repeat_spec in Hv. subst v. split; intro X; [exfalso|reflexivity]. apply (Eq i Hi) in X. lra.
  Qed.

  (** ** the fine grid of regular curves is the grid of the curves *)
  Lemma fine_grid mn bk n : (1 <= n)%nat -> inject_Z (Z.of_nat n) <= 2000000000 -> bk == mn + (5#100) * inject_Z (Z.of_nat (n - 1)) ->
    exists v, SpreadOverEpsilon (mkRange mn bk) fine_step false default_epsilon = Ok v /\ length v = n /\
      forall i x, nth_error v i = Some x -> x == mn + (5#100) * inject_Z (Z.of_nat i).
  Proof.
    intros N B E. set (r := mkRange mn bk). assert (Fs : fine_step == 5#100) by reflexivity.
    assert (P0 : 0 <= inject_Z (Z.of_nat (n - 1))) by (change 0 with (inject_Z 0); rewrite <- Zle_Qle; lia).
    unfold SpreadOverEpsilon. set (r' := range_add r (mkRange 0 default_epsilon)).
    assert (Lr : GetLength r' == (5#100) * inject_Z (Z.of_nat (n - 1)) + (1#100000000)).
    { unfold r', range_add, GetLength, r, default_epsilon. cbn [rbeg rend]. rewrite E. ring. }
    assert (W : well_formed r') by (unfold well_formed, r', range_add, r, default_epsilon; cbn [rbeg rend]; lra).
    assert (D : 0 < fine_step) by reflexivity.
    assert (Q : GetLength r' / fine_step == inject_Z (Z.of_nat (n - 1)) + (1#5000000)). { rewrite Lr, Fs. field. }
    assert (Nn : inject_Z (Z.of_nat (n - 1)) <= inject_Z (Z.of_nat n)) by (rewrite <- Zle_Qle; lia).
    assert (C : GetLength r' / fine_step < int32_max) by (rewrite Q; unfold int32_max; lra).
    destruct (SpreadOver_ok r' fine_step W D C) as (w & Ew & Hl & Ha).
    assert (Hn : nsteps r' fine_step = Z.of_nat (n - 1)). { unfold nsteps. rewrite Q. apply Qfloor_unique; [|rewrite inject_Z_plus; change (inject_Z 1) with 1]; lra. }
    rewrite Hn, Nat2Z.id in Hl. rewrite Ew. cbn [rbind]. assert (Hne : w <> []) by (intro X; rewrite X in Hl; discriminate).
    destruct (clamp_ends_spec r w Hne) as (v & Ev & Hlv & Hx). exists v. split; [exact Ev|]. split; [lia|].
    intros i x Hi. destruct (Hx i x Hi) as (y & Hy & ->). specialize (Ha i y Hy). rewrite Fs in Ha.
    assert (Bq : rbeg r' == mn) by (unfold r', range_add, r; cbn [rbeg]; ring). rewrite Bq in Ha. pose proof (nth_error_len _ _ _ Hy) as Li.
    assert (I0 : 0 <= inject_Z (Z.of_nat i)) by (change 0 with (inject_Z 0); rewrite <- Zle_Qle; lia).
    assert (I1 : inject_Z (Z.of_nat i) <= inject_Z (Z.of_nat (n - 1))) by (rewrite <- Zle_Qle; lia).
    unfold clamp_at, r. cbn [rbeg rend]. unfold Qminb, Qmaxb. destruct (Nat.eqb i 0), (Nat.eqb_spec i (length w - 1)) as [X|X]; repeat qcase; try lra.
  Qed.

  Lemma convolve_inv m r m' : convolveByLSF m r = Ok m' -> exists fine, mk_fine m' = Z.of_nat (length fine) /\
    (exists c0 bk, nth_error (mk_raw m) 0 = Some c0 /\ nth_error (mc_lbda c0) (length (mc_lbda c0) - 1) = Some bk /\ SpreadOverEpsilon (mkRange (mk_min m) bk) fine_step false default_epsilon = Ok fine) /\
    mk_zbins m' = mk_zbins m /\ mk_raw m' = mk_raw m /\ mk_min m' = mk_min m /\ mk_rawsize m' = mk_rawsize m /\ mk_range m' = r /\ mk_convolved m' = true /\
    length (mk_cor m') = length (mk_raw m) /\
    forall i cu old, nth_error (mk_raw m) i = Some cu -> nth_error (resized (mk_cor m) (length (mk_raw m))) i = Some old ->
      exists zb ze cor l, nth_error (mk_zbins m) i = Some zb /\ nth_error (mk_zbins m) (S i) = Some ze /\ nth_error (mk_cor m') i = Some cor /\ mc_lbda cor = fine /\
        mc_corr cor = (mc_corr old ++ l)%list /\ length l = length (mc_corr cu) /\
        forall j arr, nth_error (mc_corr cu) j = Some arr -> exists out, nth_error l j = Some out /\ OneCurve m' arr (mc_lbda cu) fine zb ze = Ok out.
  Proof.
    unfold MeikModel.convolveByLSF. destruct (vget (mk_raw m) 0) as [c0| |] eqn:R0; [|discriminate|discriminate]. cbn [rbind].
    destruct (back (mc_lbda c0)) as [bk| |] eqn:Bk; [|discriminate|discriminate]. cbn [rbind].
    destruct (SpreadOverEpsilon _ _ _ _) as [fine| |] eqn:Sp; [|discriminate|discriminate]. cbn [rbind]. cbv zeta.
    destruct (mapr _ _) as [cs| |] eqn:M; [|discriminate|discriminate]. cbn [rbind]. intro H. inversion H; subst m'. clear H. cbn [mk_fine mk_zbins mk_raw mk_min mk_rawsize mk_range mk_convolved mk_cor].
    exists fine. split; [reflexivity|]. split.
    { exists c0, bk. apply vget_Ok in R0. split; [exact R0|]. split; [|exact Sp]. unfold back in Bk. destruct (mc_lbda c0); [discriminate|]. apply vget_Ok in Bk. exact Bk. }
    repeat (split; [reflexivity|]).
    assert (Lr : length (resized (mk_cor m) (length (mk_raw m))) = length (mk_raw m)) by (unfold resized; rewrite app_length, firstn_length, repeat_length; lia).
    apply mapr_ok in M. destruct M as [L G]. rewrite combine_length, seq_length, Lr, Nat.min_id in L. split; [exact L|].
    intros i cu old Hc Ho. assert (Hi := nth_error_len _ _ _ Hc).
    assert (Hp : nth_error (combine (seq 0 (length (mk_raw m))) (resized (mk_cor m) (length (mk_raw m)))) i = Some (i, old)).
    { assert (Q : forall (A B : Type) (l1 : list A) (l2 : list B) k x y, nth_error l1 k = Some x -> nth_error l2 k = Some y -> nth_error (combine l1 l2) k = Some (x, y)).
      { clear. intros A B l1. induction l1 as [|a l1 IH]; intros l2 k x y H1 H2; [destruct k; discriminate|]. destruct l2 as [|b l2]; [destruct k; discriminate|].
        destruct k; cbn in *; [congruence|]. apply IH; assumption. }
      apply Q; [|exact Ho]. rewrite nth_error_seq_in by exact Hi. f_equal. }
    destruct (G i _ Hp) as (cor & Hcor & Ec). cbn [fst snd] in Ec. unfold convolve_bin in Ec. cbn [mk_zbins mk_raw] in Ec.
    destruct (vget (mk_zbins m) i) as [zb| |] eqn:Z1; [|discriminate|discriminate]. cbn [rbind] in Ec. destruct (vget (mk_zbins m) (S i)) as [ze| |] eqn:Z2; [|discriminate|discriminate]. cbn [rbind] in Ec.
    unfold vget in Ec at 1. rewrite Hc in Ec. cbn [rbind] in Ec. destruct (mapr _ (mc_corr cu)) as [l| |] eqn:Ml; [|discriminate|discriminate]. cbn [rbind] in Ec. inversion Ec; subst cor.
    apply mapr_ok in Ml. destruct Ml as [Ll Gl]. exists zb, ze. eexists. exists l. apply vget_Ok in Z1, Z2. repeat (split; [eassumption || reflexivity|]).
    intros j arr Ha. destruct (Gl j arr Ha) as (out & Hout & Eo). exists out. split; [exact Hout|exact Eo].
  Qed.

  (** ** it succeeds on well-formed tables *)
  Lemma at_total (Hl : lsf_total width kernel) (Hk : kernel_ok kernel) (Hn : 0 <= nsigma) m arr lambdas fine zc i n : (1 <= n)%nat -> mk_rawsize m = Z.of_nat n -> length arr = n -> length lambdas = n -> (i < n)%nat ->
    (exists x, nth_error fine i = Some x /\ x == node m (Z.of_nat i)) -> 0 < 1 + zc -> exists v, convolve_at m arr lambdas fine zc i = Ok v.
  Proof.
    intros N R La Ll Hi (x & Hx & Ex) Z. destruct Hl as [Hw Hk2]. unfold MeikModel.convolve_at. unfold vget at 1. rewrite Hx. cbn [rbind]. destruct (Hw (x * (1 + zc))) as (w & Ew & Pw). rewrite Ew. cbn [rbind]. cbv zeta.
    set (half := w * (nsigma / 2 / (1 + zc))). assert (H0 : 0 <= half).
    { unfold half. apply Qmult_le_0_compat; [exact Pw|]. apply Qle_shift_div_l; [exact Z|]. rewrite Qmult_0_l. apply Qle_shift_div_l; [reflexivity|]. rewrite Qmult_0_l. exact Hn. }
    pose proof (wave_range m (mkRange (x - half) (x + half)) true (Z.of_nat i)) as Wr. pose proof (wave_range_clamped m (mkRange (x - half) (x + half)) true) as Wc. cbv zeta in Wr, Wc. cbn [rbeg rend] in Wr.
    destruct (getWaveRangeIndices m (mkRange (x - half) (x + half)) true) as [b e]. rewrite R in *. destruct Wc as [C1 C2]; [lia|].
    assert (Nb : node m 0 <= node m (Z.of_nat i) <= node m (Z.of_nat n - 1)).
    { unfold node. assert (0 <= inject_Z (Z.of_nat i)) by (change 0 with (inject_Z 0); rewrite <- Zle_Qle; lia). assert (inject_Z (Z.of_nat i) <= inject_Z (Z.of_nat n - 1)) by (rewrite <- Zle_Qle; lia). change (inject_Z 0) with 0. lra. }
    assert (bi : (b <= Z.of_nat i <= e)%Z) by (apply Wr; [lia|lra|lra|lra]).
    destruct (Z.ltb_spec b 0) as [X|_]; [lia|]. destruct (Z.leb_spec (Z.of_nat n) e) as [X|_]; [lia|]. cbn [orb]. destruct (Z.ltb_spec (e - b) 0) as [X|_]; [lia|].
    destruct (mapr_total (fun k => vget lambdas k) (seq (Z.to_nat b) (Z.to_nat (e - b + 1)))) as [ls Els].
    { intros k Hk'. apply in_seq in Hk'. apply vget_in. lia. }
    rewrite Els. cbn [rbind]. pose proof (mapr_ok _ _ _ Els) as [Lls _]. rewrite seq_length in Lls.
    assert (Nl : map (fun v => v * (1 + zc)) ls <> []) by (destruct ls; [cbn in Lls; lia|cbn; discriminate]).
    destruct (Hk2 _ (x * (1 + zc)) Nl) as [k Ek]. rewrite Ek. cbn [rbind]. destruct (Hk _ _ _ Nl Ek) as (Lk & _). rewrite map_length in Lk. apply dot_total. lia.
  Qed.
  Lemma OneCurve_total (Hl : lsf_total width kernel) (Hk : kernel_ok kernel) (Hn : 0 <= nsigma) m arr lambdas fine zb ze n : (1 <= n)%nat -> mk_rawsize m = Z.of_nat n -> length arr = n -> length lambdas = n -> length fine = n ->
    (forall i x, nth_error fine i = Some x -> x == node m (Z.of_nat i)) -> -1 < zb -> -1 < ze -> exists v, OneCurve m arr lambdas fine zb ze = Ok v.
  Proof.
    intros N R La Ll Lf Gr Zb Ze. unfold ConvolveByLSFOneCurve. destruct arr as [|a0 arr'] eqn:Ea; [cbn in La; lia|]. rewrite <- Ea in *. cbv zeta. destruct (IntersectWith _ _) as [ov cv]. destruct ov; cbn [negb]; [|eauto].
    destruct (getWaveRangeIndices m cv false) as [i0 i1]. apply mapr_total. intros i Hi. apply in_seq in Hi. destruct (_ && _)%bool; [|eauto].
    apply (at_total Hl Hk Hn m arr lambdas fine _ i n); auto; try lia.
    - destruct (nth_error_lt fine i) as [x Hx]; [lia|]. exists x. split; [exact Hx|]. apply Gr. exact Hx.
    - assert (X : 1 + (zb + ze) / 2 == ((1 + zb) + (1 + ze)) / 2) by field. rewrite X. apply Qlt_shift_div_l; lra.
  Qed.
  Lemma convolve_total (Hl : lsf_total width kernel) (Hk : kernel_ok kernel) (Hn : 0 <= nsigma) curves zbins n c m r :
    tables_ok curves zbins n c -> mk_raw m = curves -> mk_zbins m = zbins -> mk_rawsize m = Z.of_nat n -> (exists c0, nth_error curves 0 = Some c0 /\ nth_error (mc_lbda c0) 0 = Some (mk_min m)) ->
    exists m', convolveByLSF m r = Ok m' /\ mk_fine m' = Z.of_nat n /\ length (mk_cor m') = length curves.
  Proof.
    intros (N & B & Lz & Nc & Zb & T) Rc Rz Rs (c0 & Hc0 & Hmin). unfold MeikModel.convolveByLSF. rewrite Rc, Rz. unfold vget at 1. rewrite Hc0. cbn [rbind].
    destruct (T 0%nat c0 Hc0) as (L0 & _ & _ & G0). destruct (back_ok (mc_lbda c0)) as (bk & Ebk & Hbk); [intro X; rewrite X in L0; cbn in L0; lia|]. rewrite Ebk. cbn [rbind].
    rewrite L0 in Hbk. pose proof (G0 _ _ _ Hbk Hmin) as Gbk. destruct (fine_grid (mk_min m) bk n N B Gbk) as (fine & Ef & Lf & Gf). rewrite Ef. cbn [rbind]. cbv zeta.
    assert (Lr : length (resized (mk_cor m) (length curves)) = length curves) by (unfold resized; rewrite app_length, firstn_length, repeat_length; lia).
    match goal with |- context[mapr ?f ?l] => destruct (mapr_total f l) as [cs Ecs] end.
    { intros [i old] Hp. apply in_combine_l in Hp. apply in_seq in Hp. cbn [fst snd]. unfold convolve_bin. cbn [mk_zbins mk_raw].
      destruct (nth_error_lt zbins i) as [zb Hzb]; [lia|]. destruct (nth_error_lt zbins (S i)) as [ze Hze]; [lia|]. unfold vget. rewrite Hzb, Hze. cbn [rbind].
      destruct (nth_error_lt curves i) as [cu Hcu]; [lia|]. rewrite Hcu. cbn [rbind]. destruct (T i cu Hcu) as (Lb & Lcu & Fcu & _).
      rewrite Forall_forall in Zb, Fcu.
      match goal with |- context[mapr ?f ?l] => destruct (mapr_total f l) as [ls Els] end.
      { intros arr Harr. apply (OneCurve_total Hl Hk Hn _ arr (mc_lbda cu) fine zb ze n); auto.
        - apply Zb. eapply nth_error_In; eauto.
        - apply Zb. eapply nth_error_In; eauto. }
      rewrite Els. cbn [rbind]. eauto. }
    rewrite Ecs. cbn [rbind]. eexists. split; [reflexivity|]. cbn [mk_fine mk_cor]. split; [f_equal; exact Lf|]. apply mapr_ok in Ecs. destruct Ecs as [E _]. rewrite E, combine_length, seq_length, Lr. lia.
  Qed.

  (** ** the value after the first convolution *)
  Lemma Value (Hk : kernel_ok kernel) curves zbins n c m m' r z i idx lam lo hi :
    tables_ok curves zbins n c -> NewMeiksin curves zbins = Ok m -> convolveByLSF m r = Ok m' -> getRedshiftIndex m' z = Ok (Z.of_nat i) -> (S i < length zbins)%nat -> (0 <= idx < Z.of_nat c)%Z -> lam <= 1216 ->
    (forall cu a, In cu curves -> In a (mc_corr cu) -> Forall (between lo hi) a) ->
    exists v zb ze k, getCorrection m' z idx lam = Ok v /\ nth_error zbins i = Some zb /\ nth_error zbins (S i) = Some ze /\
      (0 <= k < Z.of_nat n)%Z /\ (forall j, (0 <= j < Z.of_nat n)%Z -> Qabs (lam - node m k) <= Qabs (lam - node m j)) /\
      (rbeg r / (1 + ze) <= node m k <= rend r / (1 + zb) -> between lo hi v) /\ (~ (rbeg r / (1 + ze) <= node m k <= rend r / (1 + zb)) -> v = 0).
  Proof.
    intros T New Cv Zi Hi Hidx Hlam Bd. pose proof T as (N & B & Lz & Nc & Zb & Tt).
    unfold NewMeiksin in New. destruct curves as [|c0 ct] eqn:Ecu; [discriminate|]. rewrite <- Ecu in *. destruct (mc_lbda c0) as [|l0 lt] eqn:Elb; [discriminate|]. rewrite <- Elb in New. inversion New; subst m. clear New.
    destruct (convolve_inv _ _ _ Cv) as (fine & Ff & (c0' & bk & Hc0 & Hbk & Sp) & Rz & Rc & Rm & Rs & Rr & _ & Lc & G). cbn [mk_zbins mk_raw mk_min mk_rawsize mk_cor] in *.
    rewrite Ecu in Hc0. cbn in Hc0. inversion Hc0; subst c0'. assert (H00 : nth_error curves 0 = Some c0) by (rewrite Ecu; reflexivity). destruct (Tt 0%nat c0 H00) as (L0 & _ & _ & G0).
    rewrite L0 in Hbk. assert (Hl0 : nth_error (mc_lbda c0) 0 = Some l0) by (rewrite Elb; reflexivity). destruct (fine_grid l0 bk n N B (G0 _ _ _ Hbk Hl0)) as (fine' & Ef & Lf & Gf).
    rewrite Ef in Sp. inversion Sp; subst fine'. clear Sp.
    destruct (nth_error_lt curves i) as [cu Hcu]; [lia|]. assert (Ho : nth_error (resized [] (length curves)) i = Some (mkMC [] [])).
    { unfold resized. rewrite firstn_nil. cbn [app length]. rewrite Nat.sub_0_r. assert (Li : (i < length curves)%nat) by lia. clear -Li. revert i Li. induction (length curves) as [|k IH]; intros i Li; [lia|]. destruct i; cbn; [reflexivity|]. apply IH. lia. }
    destruct (G i cu _ Hcu Ho) as (zb & ze & cor & l & Hzb & Hze & Hcor & Lcor & Ccor & Ll & Gl). cbn [mc_corr app] in Ccor.
    destruct (Tt i cu Hcu) as (Lb & Lcu & Fcu & _).
    destruct (nth_error_lt (mc_corr cu) (Z.to_nat idx)) as [arr Harr]; [lia|]. destruct (Gl _ _ Harr) as (out & Hout & Eo).
    assert (Barr : Forall (between lo hi) arr) by (apply (Bd cu arr); [eapply nth_error_In; eauto|eapply nth_error_In; eauto]).
    assert (Nm : forall j, node m' j = l0 + (5#100) * inject_Z j) by (intro j; unfold node; rewrite Rm; reflexivity).
    destruct (OneCurve_bounds Hk m' arr (mc_lbda cu) fine zb ze out lo hi Ff) as [Lo Go]; auto.
    { intros j x Hx. rewrite Nm. apply Gf. exact Hx. }
    assert (Fn : mk_fine m' = Z.of_nat n) by lia.
    destruct (WaveIndex m' lam) as [W1 W2]; [lia|]. set (k := getWaveIndex m' lam) in *.
    destruct (nth_error_lt out (Z.to_nat k)) as [v Hv]; [lia|]. exists v, zb, ze, k.
    split.
    { unfold getCorrection. rewrite (proj2 (Qltb_false lya lam)) by exact Hlam. destruct (Z.eqb_spec idx (-1)) as [X|_]; [lia|]. rewrite Zi. cbn [rbind].
      destruct (Z.eqb_spec (Z.of_nat i) (-1)) as [X|_]; [lia|]. unfold getCorrectionIdx, zget, zat. destruct (Z.ltb_spec (Z.of_nat i) 0) as [X|_]; [lia|]. rewrite Nat2Z.id. unfold vget at 1. rewrite Hcor. cbn [rbind].
      destruct (Z.ltb_spec idx 0) as [X|_]; [lia|]. unfold vget. rewrite Ccor, Hout. cbn [rbind]. fold k. destruct (Z.ltb_spec k 0) as [X|_]; [lia|]. rewrite Hv. reflexivity. }
    split; [exact Hzb|]. split; [exact Hze|]. rewrite Fn in *. split; [exact W1|].
    assert (Nk : forall j, node (mkMeik zbins curves [] l0 (Z.of_nat (length (mc_lbda c0))) (-1) (mkRange 0 0) false) j = node m' j) by (intro j; rewrite Nm; reflexivity).
    split; [intros j Hj; rewrite !Nk; exact (W2 j Hj)|]. specialize (Go _ _ Hv). cbv zeta in Go. rewrite Rr in Go. rewrite Z2Nat.id in Go by lia. rewrite Nk. exact Go.
  Qed.
End P.

(** ** a second convolution changes nothing *)
Lemma Reconvolve w1 s1 k1 w2 s2 k2 m r1 m1 r2 m2 : convolveByLSF w1 s1 k1 m r1 = Ok m1 -> convolveByLSF w2 s2 k2 m1 r2 = Ok m2 ->
  (forall i c, nth_error (mk_cor m1) i = Some c -> exists c', nth_error (mk_cor m2) i = Some c' /\ forall j a, nth_error (mc_corr c) j = Some a -> nth_error (mc_corr c') j = Some a) /\
  (forall zi idx l v, getCorrectionIdx m1 zi idx l = Ok v -> getCorrectionIdx m2 zi idx l = Ok v) /\
  (forall z idx lam v, getCorrection m1 z idx lam = Ok v -> getCorrection m2 z idx lam = Ok v).
Proof.
  intros C1 C2. destruct (convolve_inv _ _ _ _ _ _ C1) as (f1 & F1 & (c1 & b1 & Hc1 & Hb1 & S1) & Z1 & R1 & M1 & Q1 & _ & _ & L1 & _).
  destruct (convolve_inv _ _ _ _ _ _ C2) as (f2 & F2 & (c2 & b2 & Hc2 & Hb2 & S2) & Z2 & R2 & M2 & Q2 & _ & _ & L2 & G2).
  rewrite R1, M1 in *. assert (c1 = c2) by congruence. subst c2. assert (b1 = b2) by congruence. subst b2. assert (f1 = f2) by congruence. subst f2.
  assert (Res : resized (mk_cor m1) (length (mk_raw m)) = mk_cor m1).
  { unfold resized. rewrite <- L1, firstn_all, Nat.sub_diag. cbn. apply app_nil_r. }
  rewrite Res in G2.
  assert (A : forall i c, nth_error (mk_cor m1) i = Some c -> exists c', nth_error (mk_cor m2) i = Some c' /\ forall j a, nth_error (mc_corr c) j = Some a -> nth_error (mc_corr c') j = Some a).
  { intros i c Hc. pose proof (nth_error_len _ _ _ Hc) as Hi. destruct (nth_error_lt (mk_raw m) i) as [cu Hcu]; [lia|].
    destruct (G2 i cu c Hcu Hc) as (zb & ze & cor & l & _ & _ & Hcor & _ & Cc & _). exists cor. split; [exact Hcor|]. intros j a Ha. rewrite Cc. rewrite nth_error_app1; [exact Ha|eapply nth_error_len; eauto]. }
  assert (Bi : forall zi idx l v, getCorrectionIdx m1 zi idx l = Ok v -> getCorrectionIdx m2 zi idx l = Ok v).
  { intros zi idx l v. unfold getCorrectionIdx, zget, zat. destruct (zi <? 0)%Z; [intro X; discriminate|]. unfold vget at 1. destruct (nth_error (mk_cor m1) (Z.to_nat zi)) as [c|] eqn:Ec; [|intro X; discriminate]. cbn [rbind].
    destruct (A _ _ Ec) as (c' & Hc' & Gc). unfold vget at 2. rewrite Hc'. cbn [rbind]. destruct (idx <? 0)%Z; [intro X; discriminate|]. unfold vget. destruct (nth_error (mc_corr c) (Z.to_nat idx)) as [a|] eqn:Ea; [|intro X; discriminate].
    rewrite (Gc _ _ Ea). cbn [rbind]. auto. }
  split; [exact A|]. split; [exact Bi|].
  intros z idx lam v. unfold getCorrection. destruct (Qltb lya lam); [auto|]. destruct (Z.eqb idx (-1)); [auto|].
  assert (Zr : getRedshiftIndex m2 z = getRedshiftIndex m1 z) by (unfold getRedshiftIndex; rewrite Z2, Z1; reflexivity). rewrite Zr.
  destruct (getRedshiftIndex m1 z) as [zi| |]; cbn [rbind]; auto. destruct (Z.eqb zi (-1)); [auto|].
  assert (Wi : getWaveIndex m2 lam = getWaveIndex m1 lam) by (unfold getWaveIndex; rewrite F1, F2, M2, M1; reflexivity). rewrite Wi. apply Bi.
Qed.

(** ** transmissions stay transmissions *)
Lemma Transmission curves zbins m : (forall cu a, In cu curves -> In a (mc_corr cu) -> Forall (between 0 1) a) -> configured curves zbins m ->
  (mk_raw m = curves) /\ (forall cor a, In cor (mk_cor m) -> In a (mc_corr cor) -> Forall (between 0 1) a) /\
  forall z idx lam v, getCorrection m z idx lam = Ok v -> 0 <= v <= 1.
Proof.
  intros B C.
  assert (I : mk_raw m = curves /\ (forall cor a, In cor (mk_cor m) -> In a (mc_corr cor) -> Forall (between 0 1) a)).
  { induction C as [m H|m m' w s k r C IH Hk H].
    - unfold NewMeiksin in H. destruct curves as [|c0 ct]; [discriminate|]. destruct (mc_lbda c0); [discriminate|]. inversion H; subst. cbn [mk_raw mk_cor]. split; [reflexivity|]. intros cor a [].
    - destruct IH as [R I]. destruct (convolve_inv _ _ _ _ _ _ H) as (f & F & _ & _ & R' & _ & _ & _ & _ & L & G). split; [congruence|].
      intros cor a Hcor Ha. apply In_nth_error in Hcor. destruct Hcor as [i Hcor]. pose proof (nth_error_len _ _ _ Hcor) as Hi. rewrite L in Hi.
      destruct (nth_error_lt (mk_raw m) i Hi) as [cu Hcu]. assert (Lr : length (resized (mk_cor m) (length (mk_raw m))) = length (mk_raw m)) by (unfold resized; rewrite app_length, firstn_length, repeat_length; lia).
      destruct (nth_error_lt (resized (mk_cor m) (length (mk_raw m))) i) as [old Hold]; [lia|].
      destruct (G i cu old Hcu Hold) as (zb & ze & cor' & l & _ & _ & Hcor' & _ & Cc & Ll & Gl). rewrite Hcor in Hcor'. inversion Hcor'; subst cor'. rewrite Cc in Ha. apply in_app_or in Ha. destruct Ha as [Ha|Ha].
      + apply nth_error_In in Hold. unfold resized in Hold. apply in_app_or in Hold. destruct Hold as [Hold|Hold].
        * apply (I old a); [|exact Ha]. rewrite <- (firstn_skipn (length (mk_raw m)) (mk_cor m)). apply in_or_app. left. exact Hold.
        * apply repeat_spec in Hold. subst old. destruct Ha.
      + apply In_nth_error in Ha. destruct Ha as [j Ha]. pose proof (nth_error_len _ _ _ Ha) as Hj. rewrite Ll in Hj. destruct (nth_error_lt (mc_corr cu) j Hj) as [arr Harr].
        destruct (Gl j arr Harr) as (out & Hout & Eo). rewrite Ha in Hout. inversion Hout; subst out.
        assert (Ba : Forall (between 0 1) arr) by (apply (B cu arr); [rewrite <- R; eapply nth_error_In; eauto|eapply nth_error_In; eauto]).
        destruct (OneCurve_any w s k Hk _ _ _ _ _ _ _ 0 1 Ba Eo) as [_ Fo]. apply Forall_forall. intros x Hx. rewrite Forall_forall in Fo. destruct (Fo x Hx) as [->|E]; [split; lra|exact E]. }
  destruct I as [R I]. split; [exact R|]. split; [exact I|]. intros z idx lam v. unfold getCorrection. destruct (Qltb lya lam); [intro H; inversion H; lra|]. destruct (Z.eqb idx (-1)); [discriminate|].
  destruct (getRedshiftIndex m z) as [zi| |]; [|discriminate|discriminate]. cbn [rbind]. destruct (Z.eqb zi (-1)); [intro H; inversion H; lra|].
  unfold getCorrectionIdx, zget, zat. destruct (zi <? 0)%Z; [discriminate|]. destruct (vget (mk_cor m) (Z.to_nat zi)) as [c| |] eqn:Ec; [|discriminate|discriminate]. cbn [rbind].
  destruct (idx <? 0)%Z; [discriminate|]. destruct (vget (mc_corr c) (Z.to_nat idx)) as [a| |] eqn:Ea; [|discriminate|discriminate]. cbn [rbind]. destruct (_ <? 0)%Z; [discriminate|].
  destruct (nth_error a (Z.to_nat (getWaveIndex m lam))) as [x|] eqn:Ex; [|discriminate]. intro H. inversion H; subst. apply vget_Ok, nth_error_In in Ec, Ea. apply nth_error_In in Ex.
  specialize (I c a Ec Ea). rewrite Forall_forall in I. exact (I v Ex).
Qed.

(** ** corollaries *)
Lemma Below_first m z idx lam : idx <> (-1)%Z -> mk_zbins m <> [] -> increasing (mk_zbins m) -> (forall x, In x (mk_zbins m) -> z < x) ->
  getCorrection m z idx lam = Ok 1 /\ getCorrectionAndDeriv m z idx lam = Ok (1, Some 0).
Proof.
  intros H N I B. apply Corr_below; [exact H|]. unfold getRedshiftIndex. pose proof (getClosestLowerIndex_spec _ z I N) as G.
  destruct (getClosestLowerIndex (mk_zbins m) z) as [[k|]| |]; try contradiction; cbn [rbind].
  - destruct G as (x & Hx & Lx & _). apply nth_error_In in Hx. specialize (B x Hx). lra.
  - destruct (Z.eqb_spec (-1) (Z.of_nat (length (mk_zbins m)) - 1)) as [C|C]; [|reflexivity]. assert (X : length (mk_zbins m) = 0%nat) by lia. apply length_zero_iff_nil in X. congruence.
Qed.
Lemma Convolution width nsigma kernel : lsf_total width kernel -> kernel_ok kernel -> 0 <= nsigma -> forall curves zbins n c m r,
  tables_ok curves zbins n c -> NewMeiksin curves zbins = Ok m -> exists m', convolveByLSF width nsigma kernel m r = Ok m' /\ mk_fine m' = Z.of_nat n /\ length (mk_cor m') = length curves.
Proof.
  intros L K N curves zbins n c m r T New. unfold NewMeiksin in New. destruct curves as [|c0 ct] eqn:Ecu; [discriminate|]. rewrite <- Ecu in *. destruct (mc_lbda c0) as [|l0 lt] eqn:Elb; [discriminate|]. rewrite <- Elb in New.
  inversion New; subst m. assert (H0 : nth_error curves 0 = Some c0) by (rewrite Ecu; reflexivity). pose proof T as (_ & _ & _ & _ & _ & Tt). destruct (Tt 0%nat c0 H0) as (L0 & _).
  apply (convolve_total width nsigma kernel L K N curves zbins n c); auto; cbn [mk_raw mk_zbins mk_rawsize mk_min]; [congruence|]. exists c0. rewrite Elb. split; [exact H0|reflexivity].
Qed.
Lemma Library_lsf sqrtf prof : root_ok sqrtf -> (forall x y s, 0 < s -> 0 < prof x y s) -> forall l, NewLsf l = Ok l -> sorted_lsf l ->
  lsf_total (fun lam => GetWidth sqrtf l lam true) (getNormalizedProfileVector sqrtf prof l) /\ kernel_ok (getNormalizedProfileVector sqrtf prof l).
Proof.
  intros R P l N S. split; [split|].
  - intro lam. destruct (Width_clip_pos sqrtf R l lam N S) as (w & E & Pw). exists w. split; [exact E|lra].
  - intros ls l0 H. destruct (Kernel sqrtf prof R P l ls l0 N S H) as (w & k & _ & E & _). eauto.
  - intros ls l0 k H E. destruct (Kernel sqrtf prof R P l ls l0 N S H) as (w & k' & _ & E' & Lk & Fk & Sk & _). rewrite E in E'. inversion E'; subst k'. split; [exact Lk|]. split; [|exact Sk].
    eapply Forall_impl; [|exact Fk]. cbn. intros a Ha. lra.
Qed.
Lemma Constant_curve width nsigma kernel : kernel_ok kernel -> forall curves zbins n c m m' r z i idx lam x,
  tables_ok curves zbins n c -> NewMeiksin curves zbins = Ok m -> convolveByLSF width nsigma kernel m r = Ok m' -> getRedshiftIndex m' z = Ok (Z.of_nat i) -> (S i < length zbins)%nat ->
  (0 <= idx < Z.of_nat c)%Z -> lam <= 1216 -> (forall cu a, In cu curves -> In a (mc_corr cu) -> Forall (fun v => v == x) a) ->
  (forall k zb ze, (0 <= k < Z.of_nat n)%Z -> In zb zbins -> In ze zbins -> rbeg r / (1 + ze) <= node m k <= rend r / (1 + zb)) ->
  exists v, getCorrection m' z idx lam = Ok v /\ v == x.
Proof.
  intros K curves zbins n c m m' r z i idx lam x T New Cv Zi Hi Hidx Hl Bd Rg.
  destruct (Value width nsigma kernel K curves zbins n c m m' r z i idx lam x x T New Cv Zi Hi Hidx Hl) as (v & zb & ze & k & E & Hzb & Hze & Hk & _ & In1 & _).
  { intros cu a Hc Ha. eapply Forall_impl; [|exact (Bd cu a Hc Ha)]. cbn. intros y Hy. unfold between. lra. }
  exists v. split; [exact E|]. destruct (In1 (Rg k zb ze Hk (nth_error_In _ _ Hzb) (nth_error_In _ _ Hze))). lra.
Qed.
Lemma Boundaries width nsigma kernel l ls arrs z r : (exists fine, SpreadOverEpsilon (mkRange l (last ls l)) fine_step false default_epsilon = Ok fine) ->
  exists m, NewMeiksin [mkMC (l :: ls) arrs] [z] = Ok m /\ convolveByLSF width nsigma kernel m r = UB.
Proof.
  intros [fine F]. eexists. split; [reflexivity|]. unfold MeikModel.convolveByLSF. cbn [mk_raw mk_min mk_zbins mk_cor mc_lbda]. unfold vget at 1. cbn [nth_error rbind mc_lbda].
  destruct (back_ok (l :: ls)) as (bk & Ebk & Hbk); [discriminate|]. rewrite Ebk. cbn [rbind]. assert (X : bk = last ls l).
  { cbn [length] in Hbk. rewrite Nat.sub_succ, Nat.sub_0_r in Hbk. rewrite last_cons_nth in Hbk. congruence. }
  rewrite X, F. cbn [rbind]. reflexivity.
Qed.
Lemma Derivative m zi idx l c arr : (0 <= zi)%Z -> (0 <= idx)%Z -> (0 <= l < mk_fine m)%Z -> nth_error (mk_cor m) (Z.to_nat zi) = Some c -> nth_error (mc_corr c) (Z.to_nat idx) = Some arr ->
  Z.of_nat (length arr) = mk_fine m -> Z.of_nat (length (mc_lbda c)) = mk_fine m -> strictly_increasing (mc_lbda c) ->
  exists a b x0 x1 y0 y1, a = Z.max 0 (l - 1) /\ b = Z.min (mk_fine m - 1) (l + 1) /\
    nth_error (mc_lbda c) (Z.to_nat a) = Some x0 /\ nth_error (mc_lbda c) (Z.to_nat b) = Some x1 /\ nth_error arr (Z.to_nat a) = Some y0 /\ nth_error arr (Z.to_nat b) = Some y1 /\
    ((2 <= mk_fine m)%Z -> exists d, getDerivIdx m zi idx l = Ok (Some d) /\ d * (x1 - x0) == y1 - y0 /\ x0 < x1) /\
    (mk_fine m = 1%Z -> getDerivIdx m zi idx l = Ok None).
Proof.
  intros Z0 I0 Hl Hc Ha La Lb SI. set (a := Z.max 0 (l - 1)). set (b := Z.min (mk_fine m - 1) (l + 1)).
  destruct (nth_error_lt (mc_lbda c) (Z.to_nat a)) as [x0 X0]; [lia|]. destruct (nth_error_lt (mc_lbda c) (Z.to_nat b)) as [x1 X1]; [lia|].
  destruct (nth_error_lt arr (Z.to_nat a)) as [y0 Y0]; [lia|]. destruct (nth_error_lt arr (Z.to_nat b)) as [y1 Y1]; [lia|].
  exists a, b, x0, x1, y0, y1. repeat (split; [reflexivity || assumption|]).
  assert (E : getDerivIdx m zi idx l = Ok (if Qeq_bool (x1 - x0) 0 then None else Some ((y1 - y0) / (x1 - x0)))).
  { unfold getDerivIdx. cbv zeta. fold a b. unfold zget, zat. destruct (Z.ltb_spec zi 0) as [X|_]; [lia|]. unfold vget at 1. rewrite Hc. cbn [rbind]. destruct (Z.ltb_spec idx 0) as [X|_]; [lia|]. unfold vget. rewrite Ha. cbn [rbind].
    destruct (Z.ltb_spec a 0) as [X|_]; [lia|]. destruct (Z.ltb_spec b 0) as [X|_]; [lia|]. rewrite Y1, Y0, X1, X0. reflexivity. }
  rewrite E. split.
  - intro F. assert (L : x0 < x1) by (apply (SI (Z.to_nat a) (Z.to_nat b)); auto; lia). destruct (Qeq_bool_spec (x1 - x0) 0) as [Q|Q]; [lra|]. eexists. split; [reflexivity|]. split; [field; lra|exact L].
  - intro F. assert (a = b) by lia. assert (X : x1 = x0) by congruence. subst x1. destruct (Qeq_bool_spec (x0 - x0) 0) as [Q|Q]; [reflexivity|]. exfalso. apply Q. ring.
Qed.
Definition ex_curves : list mcurves := [mkMC [1000; 100005#100; 100010#100] [[0; 1; 0]]].
Lemma ex_tables : tables_ok ex_curves [0; 1] 3 1.
Proof.
  unfold tables_ok, ex_curves. split; [lia|]. split; [vm_compute; discriminate|]. split; [reflexivity|]. split; [discriminate|]. split; [repeat constructor; lra|].
  intros [|i] cu H; [|destruct i; discriminate]. inversion H; subst. cbn [mc_lbda mc_corr]. split; [reflexivity|]. split; [reflexivity|]. split; [repeat constructor|].
  intros k l l0 Hl H0. cbn in H0. inversion H0; subst. destruct k as [|[|[|k]]]; cbn in Hl; try (destruct k; discriminate); inversion Hl; subst; vm_compute; reflexivity.
Qed.
Lemma Last_lsf : exists curves zbins m m1 m2 m2' v v', NewMeiksin curves zbins = Ok m /\ tables_ok curves zbins 3 1 /\
  (let cv l m r := convolveByLSF (fun x => GetWidth (fun y => y) l x true) 4 (getNormalizedProfileVector (fun y => y) (fun x y s => 1 / (1 + (x - y) / s * ((x - y) / s))) l) m r in
   cv (ConstantWidth (1#100)) m (mkRange 0 10000) = Ok m1 /\ cv (ConstantWidth 1) m1 (mkRange 0 10000) = Ok m2 /\ cv (ConstantWidth 1) m (mkRange 0 10000) = Ok m2') /\
  getCorrection m2 (1#2) 0 (100005#100) = Ok v /\ getCorrection m2' (1#2) 0 (100005#100) = Ok v' /\ v == 1 /\ v' < 1#2.
Proof.
  exists ex_curves, [0; 1].
  pose (cv := fun l m r => convolveByLSF (fun x => GetWidth (fun y => y) l x true) 4 (getNormalizedProfileVector (fun y => y) (fun x y s => 1 / (1 + (x - y) / s * ((x - y) / s))) l) m r).
  let m := eval vm_compute in (NewMeiksin ex_curves [0; 1]) in match m with Ok ?m => exists m;
  let m1 := eval vm_compute in (cv (ConstantWidth (1#100)) m (mkRange 0 10000)) in match m1 with Ok ?m1 => exists m1;
  let m2 := eval vm_compute in (cv (ConstantWidth 1) m1 (mkRange 0 10000)) in match m2 with Ok ?m2 => exists m2;
  let m2' := eval vm_compute in (cv (ConstantWidth 1) m (mkRange 0 10000)) in match m2' with Ok ?m2' => exists m2';
  let v := eval vm_compute in (getCorrection m2 (1#2) 0 (100005#100)) in match v with Ok ?v => exists v end;
  let v := eval vm_compute in (getCorrection m2' (1#2) 0 (100005#100)) in match v with Ok ?v => exists v end end end end end.
  split; [vm_compute; reflexivity|]. split; [exact ex_tables|]. split; [split; [|split]; vm_compute; reflexivity|]. repeat split; vm_compute; reflexivity.
Qed.
Lemma Qsq_nonneg' x : 0 <= x * x.
Proof. destruct (Qlt_le_dec x 0) as [H|H]; [|apply Qmult_le_0_compat; assumption]. setoid_replace (x * x) with ((-x) * (-x)) by ring. apply Qmult_le_0_compat; lra. Qed.
(** ** the nodes in a range and the extinction at each of them *)
Lemma WaveCorr m r z idx ws cs : (1 <= mk_fine m)%Z -> getWaveAndCorrectionVector m r z idx = Ok (ws, cs) ->
  exists i zi, (0 <= i)%Z /\ (i + Z.of_nat (length ws) <= mk_fine m)%Z /\ ws <> [] /\ length cs = length ws /\ getRedshiftIndex m z = Ok zi /\
  (forall k w, nth_error ws k = Some w -> w == node m (i + Z.of_nat k) /\ exists c, nth_error cs k = Some c /\
     (zi = (-1)%Z -> c = 1) /\ (zi <> (-1)%Z -> getCorrectionIdx m zi idx (i + Z.of_nat k) = Ok c)) /\
  (rbeg r <= node m (mk_fine m - 1) -> node m 0 <= rend r -> forall j, (0 <= j < mk_fine m)%Z -> ((i <= j < i + Z.of_nat (length ws))%Z <-> rbeg r <= node m j <= rend r)).
Proof.
  intros F H. unfold getWaveAndCorrectionVector in H. pose proof (wave_range_clamped m r false F) as Cl. pose proof (fun j => wave_range m r false j) as Wr. cbv zeta in *.
  destruct (getWaveRangeIndices m r false) as [i j]. destruct Cl as [Ci Cj]. cbv beta iota in Wr.
  destruct (getWaveVector m i j false) as [|w0 wt] eqn:Ew; [discriminate|]. rewrite <- Ew in H. unfold getWaveVector in Ew.
  destruct (Z.ltb_spec (j - i) 0) as [L|L]; [discriminate|].
  assert (Lw : length (w0 :: wt) = Z.to_nat (j - i + 1)) by (rewrite <- Ew, map_length, seq_length; reflexivity).
  destruct (getRedshiftIndex m z) as [zi| |] eqn:Ez; try discriminate. cbn [rbind] in H.
  assert (Nw : forall k w, nth_error (w0 :: wt) k = Some w -> w == node m (i + Z.of_nat k)).
  { intros k w Hk. rewrite <- Ew in Hk. rewrite nth_error_map in Hk. destruct (nth_error (seq 0 (Z.to_nat (j - i + 1))) k) as [q|] eqn:Eq; [|discriminate]. cbn [option_map] in Hk. inversion Hk; subst w.
    pose proof (nth_error_len _ _ _ Eq) as Lq. rewrite seq_length in Lq. assert (q = k). { rewrite (nth_error_nth' _ 0%nat) in Eq by (rewrite seq_length; exact Lq). rewrite seq_nth in Eq by exact Lq. inversion Eq. reflexivity. }
    subst q. unfold node, fine_step, raw_step. change (i + Z.of_nat k)%Z with (i + Z.of_nat k)%Z. field. }
  assert (Ew' : getWaveVector m i j false = w0 :: wt). { unfold getWaveVector. destruct (Z.ltb_spec (j - i) 0); [lia|exact Ew]. }
  rewrite Ew' in H. exists i, zi.
  assert (Rng : (forall k, rbeg r <= node m (mk_fine m - 1) -> node m 0 <= rend r -> (0 <= k < mk_fine m)%Z -> ((i <= k < i + Z.of_nat (length (w0 :: wt)))%Z <-> rbeg r <= node m k <= rend r))).
  { intros k A B K. rewrite <- (Wr k K A B). rewrite Lw. lia. }
  destruct (Z.eqb_spec zi (-1)) as [E1|E1].
  - inversion H; subst ws cs. split; [lia|]. split; [rewrite Lw; lia|]. split; [discriminate|]. split; [cbn [length]; rewrite map_length; reflexivity|]. split; [reflexivity|]. split; [|intros A B k K; apply Rng; assumption].
    intros k w Hk. split; [exact (Nw k w Hk)|]. exists 1. split; [|split; [reflexivity|congruence]]. exact (map_nth_error (fun _ => 1) k (w0 :: wt) Hk).
  - destruct (mapr _ _) as [c| |] eqn:Mr in H; try discriminate. cbn [rbind] in H. inversion H; subst ws cs. destruct (mapr_ok _ _ _ Mr) as [Lc Gc]. rewrite seq_length in Lc.
    split; [lia|]. split; [rewrite Lw; lia|]. split; [discriminate|]. split; [rewrite Lc, Lw; reflexivity|]. split; [reflexivity|]. split; [|intros A B k K; apply Rng; assumption].
    intros k w Hk. split; [exact (Nw k w Hk)|]. pose proof (nth_error_len _ _ _ Hk) as Lk. rewrite Lw in Lk.
    assert (Es : nth_error (seq 0 (Z.to_nat (j - i + 1))) k = Some k). { rewrite (nth_error_nth' _ 0%nat) by (rewrite seq_length; exact Lk). rewrite seq_nth by exact Lk. reflexivity. }
    destruct (Gc k k Es) as (y & Hy & Ey). exists y. split; [exact Hy|]. split; [congruence|]. intros _. exact Ey.
Qed.
