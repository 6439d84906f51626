From Verif Require Import Base RangeGridProofs AxisModel CalzModel CalzSpec.
Open Scope Q_scope.

Lemma any_irregular_false step t : forall prev, any_irregular step prev t = false <->
  forall i x y, nth_error (prev :: t) i = Some x -> nth_error (prev :: t) (S i) = Some y -> irregular step (y - x) = false.
Proof.
  induction t as [|a t IH]; intro prev; cbn [any_irregular].
  - split; [|reflexivity]. intros _ i x y _ H. destruct i; discriminate.
  - rewrite orb_false_iff, IH. split.
    + intros [H1 H2] i x y Hx Hy. destruct i as [|i].
      * cbn in Hx, Hy. inversion Hx; inversion Hy; subst. exact H1.
      * apply (H2 i x y Hx Hy).
    + intro H. split; [apply (H 0%nat); reflexivity|]. intros i x y Hx Hy. apply (H (S i) x y Hx Hy).
Qed.
Lemma irregular_false step d : irregular step d = false <-> Qabs (d - step) <= reg_tol * Qabs step.
Proof.
  unfold irregular. destruct (Qeq_bool_spec step 0) as [E|E].
  - rewrite negb_false_iff. destruct (Qeq_bool_spec d 0) as [D|D]; split; intro H; try congruence.
    + assert (X : d - step == 0) by lra. rewrite X, E. change (Qabs 0) with 0. lra.
    + exfalso. apply D. rewrite E in H. change (Qabs 0) with 0 in H.
      assert (0 <= Qabs (d - 0)) by apply Qabs_nonneg. assert (X : Qabs (d - 0) <= 0) by lra.
      apply Qabs_Qle_condition in X. lra.
  - rewrite Qltb_false. unfold Qdiv. rewrite Qabs_Qmult, Qabs_Qinv.
    assert (P : 0 < Qabs step). { destruct (Qlt_le_dec 0 (Qabs step)) as [L|L]; [exact L|]. exfalso. apply E. apply Qabs_Qle_condition in L. lra. }
    split; intro H.
    + apply (Qmult_le_compat_r _ _ (Qabs step)) in H; [|lra]. rewrite <- Qmult_assoc, (Qmult_comm (/ _)), Qmult_inv_r, Qmult_1_r in H; [exact H|lra].
    + apply Qle_shift_div_r; assumption.
Qed.

Lemma NewCorr_ok lbda corr : (2 <= length lbda)%nat ->
  (nearly_regular lbda -> NewCalzettiCorrection lbda corr = Ok (mkCorr lbda corr (first_step lbda))) /\
  (~ nearly_regular lbda -> NewCalzettiCorrection lbda corr = Throw BAD_CALZETTICORR).
Proof.
  intro L. destruct lbda as [|a [|b t]]; [cbn in L; lia|cbn in L; lia|]. unfold NewCalzettiCorrection.
  assert (E : any_irregular (b - a) b t = false <-> nearly_regular (a :: b :: t)).
  { rewrite any_irregular_false. unfold nearly_regular. cbn [first_step]. split.
    - intros H i x y Hx Hy. change (1#100000000) with reg_tol. destruct i as [|i].
      + cbn in Hx, Hy. inversion Hx; inversion Hy; subst. assert (X : y - x - (y - x) == 0) by lra. rewrite X.
        change (Qabs 0) with 0. assert (0 <= Qabs (y - x)) by apply Qabs_nonneg. unfold reg_tol. lra.
      + apply irregular_false. apply (H i x y Hx Hy).
    - intros H i x y Hx Hy. apply irregular_false. apply (H (S i) x y Hx Hy). }
  destruct (any_irregular (b - a) b t); cbn [first_step]; split; intro H; try reflexivity.
  - apply E in H. discriminate.
  - exfalso. apply H. apply E. reflexivity.
Qed.

Lemma last_cons_nth {A} (t : list A) : forall a, nth_error (a :: t) (length t) = Some (last t a).
Proof.
  induction t as [|b t IH]; intro a; [reflexivity|]. cbn [length]. change (nth_error (b :: t) (length t) = Some (last (b :: t) a)).
  destruct t as [|c t]; [reflexivity|]. rewrite IH. f_equal.
  change (last (c :: t) b = last (c :: t) a). clear. revert c. induction t as [|d t IH]; intro c; [reflexivity|]. exact (IH d).
Qed.

(** cumulated deviation of a nearly regular axis *)
Lemma nearly_regular_pos lbda a b t : lbda = a :: b :: t -> 0 < b - a -> nearly_regular lbda ->
  forall i x, nth_error lbda i = Some x ->
   inject_Z (Z.of_nat i) * (b - a) * (1 - reg_tol) <= x - a <= inject_Z (Z.of_nat i) * (b - a) * (1 + reg_tol).
Proof.
  intros E P H. induction i as [|i IH]; intros x Hx.
  - subst lbda. cbn in Hx. inversion Hx; subst. change (inject_Z (Z.of_nat 0)) with 0. lra.
  - assert (Hi : exists y, nth_error lbda i = Some y).
    { destruct (nth_error lbda i) as [y|] eqn:N; [eauto|]. apply nth_error_None in N. assert (S i < length lbda)%nat by (apply nth_error_Some; congruence). lia. }
    destruct Hi as [y Hy]. specialize (IH y Hy). specialize (H i y x Hy Hx). rewrite E in H. cbn [first_step] in H. 
    change (1#100000000) with reg_tol in H. rewrite (Qabs_pos (b - a)) in H by lra.
    apply Qabs_Qle_condition in H. rewrite Nat2Z.inj_succ. unfold Z.succ. rewrite inject_Z_plus. change (inject_Z 1) with 1.
    set (q := inject_Z (Z.of_nat i)) in *. set (s := b - a) in *. set (r := reg_tol) in *.
    assert (X : (q + 1) * s * (1 - r) == q * s * (1 - r) + (s - r * s)) by ring.
    assert (Y : (q + 1) * s * (1 + r) == q * s * (1 + r) + (s + r * s)) by ring. lra.
Qed.

Lemma flat_map_nth {A} (row : nat -> list A) (m : nat) (Hm : forall k, length (row k) = m) : forall n s k i, (k < n)%nat -> (i < m)%nat ->
  nth_error (flat_map row (seq s n)) (k * m + i) = nth_error (row (s + k)%nat) i.
Proof.
  induction n as [|n IH]; intros s k i Hk Hi; [lia|]. cbn [seq flat_map]. destruct k as [|k].
  - cbn [Nat.mul Nat.add]. rewrite nth_error_app1 by (rewrite Hm; exact Hi). rewrite Nat.add_0_r. reflexivity.
  - rewrite nth_error_app2 by (rewrite Hm; lia). rewrite Hm. replace (S k * m + i - m)%nat with (k * m + i)%nat by lia.
    rewrite IH by lia. f_equal. f_equal. lia.
Qed.
Lemma flat_map_len {A} (row : nat -> list A) (m : nat) (Hm : forall k, length (row k) = m) : forall n s, length (flat_map row (seq s n)) = (n * m)%nat.
Proof. induction n as [|n IH]; intro s; [reflexivity|]. cbn [seq flat_map]. rewrite app_length, Hm, IH. lia. Qed.

Lemma round_away_nonneg x : 0 <= x -> exists z, Qround_away x = z /\ (0 <= z)%Z /\ inject_Z z - (1#2) <= x < inject_Z z + (1#2).
Proof.
  intro H. unfold Qround_away. destruct (Qltb_spec x 0) as [L|L]; [lra|]. exists (Qfloor (x + (1#2))). split; [reflexivity|].
  assert (A := Qfloor_le (x + (1#2))). assert (B := Qlt_floor (x + (1#2))). rewrite inject_Z_plus in B. change (inject_Z 1) with 1 in B.
  split; [|lra]. apply Z.lt_succ_r. change (0 < Qfloor (x + (1#2)) + 1)%Z. rewrite Zlt_Qlt, inject_Z_plus. change (inject_Z 0) with 0. change (inject_Z 1) with 1. lra.
Qed.

Section P.
  Context (pow10 : Q -> Q).
  Notation coefficient := (fun d e => pow10 (-(4#10) * d * e)).

  Lemma Make_inv lbda corr start step n c : MakeCalzetti pow10 lbda corr start step n = Ok c ->
    exists a b t, lbda = a :: b :: t /\ nearly_regular lbda /\
      c = mkCalz corr n step start (dust_table pow10 start step corr (Z.to_nat n)) a (last (b :: t) a) (b - a) /\ ((0 <= n)%Z \/ corr = []).
  Proof.
    unfold MakeCalzetti. intro H. destruct lbda as [|a [|b t]]; [discriminate|discriminate|].
    destruct (any_irregular (b - a) b t) eqn:E.
    - cbn [NewCalzettiCorrection] in H. rewrite E in H. discriminate.
    - assert (N : nearly_regular (a :: b :: t)).
      { assert (D : NewCalzettiCorrection (a :: b :: t) corr = Ok (mkCorr (a :: b :: t) corr (b - a))) by (cbn [NewCalzettiCorrection]; rewrite E; reflexivity).
        destruct (NewCorr_ok (a :: b :: t) corr) as [_ X]; [cbn; lia|].
        intros i x y Hx Hy. cbn [first_step]. change (1#100000000) with reg_tol. destruct i as [|i].
        - cbn in Hx, Hy. inversion Hx; inversion Hy; subst. assert (Y : y - x - (y - x) == 0) by lra. rewrite Y. change (Qabs 0) with 0.
          assert (0 <= Qabs (y - x)) by apply Qabs_nonneg. unfold reg_tol. lra.
        - apply irregular_false. apply (proj1 (any_irregular_false (b - a) t b) E i x y Hx Hy). }
      cbn [NewCalzettiCorrection] in H. rewrite E in H. cbn [rbind] in H. unfold NewCalzetti in H. cbn [cc_lbda cc_corr cc_step] in H.
      destruct ((n <? 0)%Z && negb (length corr =? 0)%nat)%bool eqn:G; [discriminate|]. inversion H; subst c. exists a, b, t. repeat split; auto.
      destruct (Z.ltb_spec n 0) as [L|L]; [right|left; exact L]. cbn [andb] in G. apply negb_false_iff in G. apply Nat.eqb_eq in G. destruct corr; [reflexivity|discriminate].
  Qed.

  Lemma Dust_inside lbda corr start step n c k lam l0 l1 :
    MakeCalzetti pow10 lbda corr start step n = Ok c -> length corr = length lbda -> 0 < first_step lbda ->
    inject_Z (Z.of_nat (length lbda)) * (1#100000000) <= 1#2 -> (0 <= k < n)%Z ->
    nth_error lbda 0 = Some l0 -> nth_error lbda (length lbda - 1) = Some l1 -> l0 <= lam < l1 ->
    exists i li d, nth_error lbda i = Some li /\ nth_error corr i = Some d /\
      Qabs (lam - li) <= first_step lbda * ((1#2) + inject_Z (Z.of_nat i) * (1#100000000)) /\
      GetDustCoeff c k lam = Ok (pow10 (-(4#10) * d * (start + step * inject_Z k))).
  Proof.
    intros M Lc P S Hk H0 H1 Hl. destruct (Make_inv _ _ _ _ _ _ M) as (a & b & t & E & R & Ec & _).
    assert (P' : 0 < b - a) by (rewrite E in P; exact P).
    assert (B := nearly_regular_pos lbda a b t E P' R).
    assert (E0 : l0 = a) by (rewrite E in H0; cbn in H0; congruence).
    assert (El : l1 = last (b :: t) a).
    { rewrite E in H1. replace (length (a :: b :: t) - 1)%nat with (length (b :: t)) in H1 by (cbn; lia). rewrite last_cons_nth in H1. congruence. }
    unfold GetDustCoeff. rewrite Ec. cbn [cz_n cz_min cz_max cz_coef cz_data cz_step].
    destruct (Z.leb_spec n k) as [X|X]; [lia|]. rewrite (proj2 (Qle_bool_true a lam)), (proj2 (Qltb_true lam (last (b :: t) a))) by (rewrite ?E0, ?El in Hl; lra).
    cbn [andb]. set (s := b - a) in *. assert (Q0 : 0 <= (lam - a) / s) by (apply Qle_shift_div_l; [exact P'|rewrite E0 in Hl; lra]).
    destruct (round_away_nonneg _ Q0) as (z & -> & Z0 & Z1).
    assert (D : (lam - a) / s * s == lam - a) by (unfold Qdiv; rewrite <- Qmult_assoc, (Qmult_comm (/ s)), Qmult_inv_r, Qmult_1_r; [reflexivity|lra]).
    set (x := (lam - a) / s) in *.
    assert (Bl := B _ _ H1). rewrite El in Bl, Hl. rewrite E0 in Hl.
    set (N := length lbda) in *. assert (LN : (2 <= N)%nat) by (unfold N; rewrite E; cbn; lia).
    assert (Zn : (z < Z.of_nat N)%Z).
    { rewrite Zlt_Qlt. assert (Y : inject_Z (Z.of_nat (N - 1)) == inject_Z (Z.of_nat N) - 1).
      { replace (Z.of_nat (N - 1)) with (Z.of_nat N + (-1))%Z by lia. rewrite inject_Z_plus. reflexivity. }
      set (w := inject_Z (Z.of_nat N)) in *. set (v := inject_Z (Z.of_nat (N - 1))) in *.
      assert (V : 0 <= v) by (unfold v; change 0 with (inject_Z 0); rewrite <- Zle_Qle; lia).
      assert (U : x < v * (1 + reg_tol)). { apply (Qmult_lt_r _ _ s P'). rewrite D. assert (v * (1 + reg_tol) * s == v * s * (1 + reg_tol)) by ring. lra. }
      unfold reg_tol in U. lra. }
    set (i := Z.to_nat z). assert (Iz : Z.of_nat i = z) by (unfold i; lia).
    assert (Hi : (i < N)%nat) by (unfold i; lia).
    destruct (nth_error lbda i) as [li|] eqn:Li; [|apply nth_error_None in Li; unfold N in Hi; lia].
    destruct (nth_error corr i) as [d|] eqn:Di; [|apply nth_error_None in Di; unfold N in Hi; lia].
    exists i, li, d. repeat split; auto.
    - specialize (B i li Li). rewrite Iz in *. rewrite E. cbn [first_step]. fold s. change (1#100000000) with reg_tol.
      set (q := inject_Z z) in *. apply Qabs_Qle_condition.
      assert (x1 : x * s <= (q + (1#2)) * s) by (apply Qmult_le_compat_r; lra).
      assert (x2 : (q - (1#2)) * s <= x * s) by (apply Qmult_le_compat_r; lra).
      assert (e1 : q * s * (1 - reg_tol) == q * s - q * reg_tol * s) by ring.
      assert (e2 : q * s * (1 + reg_tol) == q * s + q * reg_tol * s) by ring.
      assert (e3 : s * ((1 # 2) + q * reg_tol) == s * (1#2) + q * reg_tol * s) by ring.
      assert (e4 : (q + (1#2)) * s == q * s + s * (1#2)) by ring.
      assert (e5 : (q - (1#2)) * s == q * s - s * (1#2)) by ring. lra.
    - replace (k * Z.of_nat (length corr) + z)%Z with (Z.of_nat (Z.to_nat k * length corr + i)) by (unfold i; lia).
      unfold zget. destruct (Z.ltb_spec (Z.of_nat (Z.to_nat k * length corr + i)) 0) as [Y|_]; [lia|]. rewrite Nat2Z.id.
      apply vget_Ok. unfold dust_table. rewrite (flat_map_nth (dust_row pow10 start step corr) (length corr)).
      + unfold dust_row. rewrite Nat.add_0_l. rewrite (map_nth_error _ i corr Di). unfold ebmv_value. rewrite Z2Nat.id by lia. reflexivity.
      + intro j. unfold dust_row. apply map_length.
      + lia.
      + unfold N in Hi; lia.
  Qed.
  Lemma Dust_outside lbda corr start step n c k lam l0 l1 :
    MakeCalzetti pow10 lbda corr start step n = Ok c -> (k < n)%Z ->
    nth_error lbda 0 = Some l0 -> nth_error lbda (length lbda - 1) = Some l1 -> lam < l0 \/ l1 <= lam -> GetDustCoeff c k lam = Ok 1.
  Proof.
    intros M Hk H0 H1 Hl. destruct (Make_inv _ _ _ _ _ _ M) as (a & b & t & E & _ & Ec & _).
    assert (E0 : l0 = a) by (rewrite E in H0; cbn in H0; congruence).
    assert (El : l1 = last (b :: t) a).
    { rewrite E in H1. replace (length (a :: b :: t) - 1)%nat with (length (b :: t)) in H1 by (cbn; lia). rewrite last_cons_nth in H1. congruence. }
    unfold GetDustCoeff. rewrite Ec. cbn [cz_n cz_min cz_max]. destruct (Z.leb_spec n k) as [X|X]; [lia|].
    rewrite <- El, <- E0. destruct (Qle_bool_spec l0 lam) as [A|A]; [|reflexivity]. destruct (Qltb_spec lam l1) as [B|B]; [|reflexivity].
    exfalso. destruct Hl; lra.
  Qed.
  Lemma Dust_range (Hp : power_of_ten pow10) lbda corr start step n c k lam v :
    MakeCalzetti pow10 lbda corr start step n = Ok c -> Forall (fun d => 0 <= d) corr -> 0 <= start -> 0 <= step -> (0 <= k)%Z ->
    GetDustCoeff c k lam = Ok v -> 0 < v <= 1.
  Proof.
    destruct Hp as (Pe & P0 & Pp & Pm). intros M Hc Hs Ht Hk. destruct (Make_inv _ _ _ _ _ _ M) as (a & b & t & E & _ & Ec & _).
    unfold GetDustCoeff. rewrite Ec. cbn [cz_n cz_min cz_max cz_coef cz_data cz_step].
    destruct (n <=? k)%Z; [discriminate|]. destruct (_ && _)%bool.
    - unfold zget. destruct (_ <? 0)%Z; [discriminate|]. intro H. apply vget_Ok in H. apply nth_error_In in H.
      unfold dust_table in H. apply in_flat_map in H. destruct H as (j & _ & Hj). unfold dust_row in Hj. apply in_map_iff in Hj. destruct Hj as (d & <- & Hd).
      split; [apply Pp|]. rewrite <- P0. apply Pm. rewrite Forall_forall in Hc. specialize (Hc d Hd). unfold ebmv_value.
      assert (0 <= inject_Z (Z.of_nat j)) by (change 0 with (inject_Z 0); rewrite <- Zle_Qle; lia).
      assert (0 <= step * inject_Z (Z.of_nat j)) by (apply Qmult_le_0_compat; assumption).
      assert (0 <= d * (start + step * inject_Z (Z.of_nat j))) by (apply Qmult_le_0_compat; lra).
      assert (X : -(4#10) * d * (start + step * inject_Z (Z.of_nat j)) == -(4#10) * (d * (start + step * inject_Z (Z.of_nat j)))) by ring. lra.
    - intro H. inversion H; subst. lra.
  Qed.
  Lemma Dust_index c k lam : (cz_n c <= k)%Z -> GetDustCoeff c k lam = Throw INTERNAL_ERROR.
  Proof. intro H. unfold GetDustCoeff. destruct (Z.leb_spec (cz_n c) k); [reflexivity|lia]. Qed.

  Lemma Ebmv_roundtrip c k : ~ cz_bstep c == 0 -> GetEbmvIndex c (GetEbmvValue c k) = Ok k.
  Proof.
    intro H. unfold GetEbmvIndex, GetEbmvValue, ebmv_value. destruct (Qeq_bool_spec (cz_bstep c) 0) as [X|X]; [contradiction|]. f_equal.
    assert (E : (cz_bstart c + cz_bstep c * inject_Z k - cz_bstart c) / cz_bstep c == inject_Z k) by (field; exact H).
    unfold Qround_away. destruct (Qltb_spec ((cz_bstart c + cz_bstep c * inject_Z k - cz_bstart c) / cz_bstep c) 0) as [L|L].
    - assert (Y : (cz_bstart c + cz_bstep c * inject_Z k - cz_bstart c) / cz_bstep c - (1#2) == inject_Z k - (1#2)) by lra. rewrite Y.
      unfold Qceiling. assert (Z1 : - (inject_Z k - (1#2)) == inject_Z (-k) + (1#2)) by (rewrite inject_Z_opp; lra). rewrite Z1.
      rewrite (Qfloor_unique _ (-k)%Z); [lia| |rewrite inject_Z_plus; change (inject_Z 1) with 1]; lra.
    - assert (Y : (cz_bstart c + cz_bstep c * inject_Z k - cz_bstart c) / cz_bstep c + (1#2) == inject_Z k + (1#2)) by lra. rewrite Y.
      apply Qfloor_unique; [|rewrite inject_Z_plus; change (inject_Z 1) with 1]; lra.
  Qed.
  (** nearest E(B-V) for any value *)
  Lemma Ebmv_nearest c v : 0 < cz_bstep c -> exists k, GetEbmvIndex c v = Ok k /\ forall j, Qabs (v - GetEbmvValue c k) <= Qabs (v - GetEbmvValue c j).
  Proof.
    intro H. unfold GetEbmvIndex. destruct (Qeq_bool_spec (cz_bstep c) 0) as [X|X]; [lra|]. set (s := cz_bstep c) in *.
    set (x := (v - cz_bstart c) / s). exists (Qround_away x). split; [reflexivity|].
    assert (R : Qabs (x - inject_Z (Qround_away x)) <= 1#2).
    { unfold Qround_away. apply Qabs_Qle_condition. destruct (Qltb_spec x 0).
      - assert (A := Qle_ceiling (x - (1#2))). assert (B := Qceiling_lt (x - (1#2))). unfold Z.sub in B. rewrite inject_Z_plus in B. change (inject_Z (-(1))) with (-1) in B. lra.
      - assert (A := Qfloor_le (x + (1#2))). assert (B := Qlt_floor (x + (1#2))). rewrite inject_Z_plus in B. change (inject_Z 1) with 1 in B. lra. }
    assert (G : forall j, v - GetEbmvValue c j == s * (x - inject_Z j)). { intro j. unfold GetEbmvValue, ebmv_value, x, s. fold s. field. lra. }
    intro j. rewrite (G (Qround_away x)), (G j), !Qabs_Qmult, (Qabs_pos s) by lra. rewrite !(Qmult_comm s). apply Qmult_le_compat_r; [|lra].
    destruct (Z.eq_dec j (Qround_away x)) as [->|N]; [lra|]. set (z := Qround_away x) in *.
    apply Qabs_Qle_condition in R. assert (J : (j <= z - 1 \/ z + 1 <= j)%Z) by lia. apply (Qle_trans _ (1#2)); [apply Qabs_Qle_condition; exact R|].
    destruct J as [J|J]; rewrite Zle_Qle in J.
    - unfold Z.sub in J. rewrite inject_Z_plus in J. change (inject_Z (-(1))) with (-1) in J. apply (Qle_trans _ (x - inject_Z j)); [lra|apply Qle_Qabs].
    - rewrite inject_Z_plus in J. change (inject_Z 1) with 1 in J. rewrite <- Qabs_opp. apply (Qle_trans _ (- (x - inject_Z j))); [lra|apply Qle_Qabs].
  Qed.
  (** the table may be shorter than the wavelengths: the coefficient of another E(B-V), or a read past the end *)
  Lemma Dust_short : exists lbda corr c, MakeCalzetti pow10 lbda corr 0 1 2 = Ok c /\ length corr <> length lbda /\
    GetDustCoeff c 0 (19#10) = Ok (pow10 (-(4#10) * 7 * (0 + 1 * 1))) /\ GetDustCoeff c 1 (19#10) = UB.
  Proof.
    exists [0; 1; 2], [7; 8]. eexists. split; [reflexivity|]. split; [cbn; lia|]. split; reflexivity.
  Qed.
  Lemma Dust_decreasing lbda corr start step n c k lam : MakeCalzetti pow10 lbda corr start step n = Ok c -> first_step lbda < 0 -> (0 <= k < n)%Z ->
    GetDustCoeff c k lam = Ok 1.
  Proof.
    intros M P Hk. destruct (Make_inv _ _ _ _ _ _ M) as (a & b & t & E & R & Ec & _).
    unfold GetDustCoeff. rewrite Ec. cbn [cz_n cz_min cz_max]. destruct (Z.leb_spec n k) as [X|X]; [lia|].
    assert (L : last (b :: t) a < a).
    { assert (G : forall i x, nth_error lbda (S i) = Some x -> x < a).
      { induction i as [|i IH]; intros x Hx.
        - rewrite E in Hx, P. cbn in Hx, P. inversion Hx; subst. lra.
        - destruct (nth_error lbda (S i)) as [y|] eqn:Y.
          + specialize (IH y eq_refl). specialize (R _ _ _ Y Hx). apply Qabs_Qle_condition in R. rewrite (Qabs_neg (first_step lbda)) in R by lra. lra.
          + apply nth_error_None in Y. assert (S (S i) < length lbda)%nat by (apply nth_error_Some; congruence). lia. }
      apply (G (length t)). rewrite E. change (nth_error (a :: b :: t) (length (b :: t)) = Some (last (b :: t) a)). apply last_cons_nth. }
    destruct (Qle_bool_spec a lam) as [A|A]; [|reflexivity]. destruct (Qltb_spec lam (last (b :: t) a)) as [B|B]; [lra|reflexivity].
  Qed.
  Lemma Calz_one_sample a corr : NewCalzettiCorrection [a] corr = UB /\ NewCalzettiCorrection [] corr = UB.
  Proof. split; reflexivity. Qed.
  Lemma Dust_negative lbda corr start step n c k lam l0 l1 :
    MakeCalzetti pow10 lbda corr start step n = Ok c -> length corr = length lbda -> 0 < first_step lbda ->
    inject_Z (Z.of_nat (length lbda)) * (1#100000000) <= 1#2 -> (k < 0 <= n)%Z ->
    nth_error lbda 0 = Some l0 -> nth_error lbda (length lbda - 1) = Some l1 -> l0 <= lam < l1 -> GetDustCoeff c k lam = UB.
  Proof.
    intros M Lc P S Hk H0 H1 Hl. destruct (Make_inv _ _ _ _ _ _ M) as (a & b & t & E & R & Ec & _).
    assert (P' : 0 < b - a) by (rewrite E in P; exact P).
    assert (B := nearly_regular_pos lbda a b t E P' R).
    assert (E0 : l0 = a) by (rewrite E in H0; cbn in H0; congruence).
    assert (El : l1 = last (b :: t) a).
    { rewrite E in H1. replace (length (a :: b :: t) - 1)%nat with (length (b :: t)) in H1 by (cbn; lia). rewrite last_cons_nth in H1. congruence. }
    unfold GetDustCoeff. rewrite Ec. cbn [cz_n cz_min cz_max cz_coef cz_data cz_step].
    destruct (Z.leb_spec n k) as [X|X]; [lia|]. rewrite (proj2 (Qle_bool_true a lam)), (proj2 (Qltb_true lam (last (b :: t) a))) by (rewrite ?E0, ?El in Hl; lra).
    cbn [andb]. set (s := b - a) in *. assert (Q0 : 0 <= (lam - a) / s) by (apply Qle_shift_div_l; [exact P'|rewrite E0 in Hl; lra]).
    destruct (round_away_nonneg _ Q0) as (z & -> & Z0 & Z1).
    assert (D : (lam - a) / s * s == lam - a) by (unfold Qdiv; rewrite <- Qmult_assoc, (Qmult_comm (/ s)), Qmult_inv_r, Qmult_1_r; [reflexivity|lra]).
    set (x := (lam - a) / s) in *.
    assert (Bl := B _ _ H1). rewrite El in Bl, Hl. rewrite E0 in Hl.
    set (N := length lbda) in *. assert (LN : (2 <= N)%nat) by (unfold N; rewrite E; cbn; lia).
    assert (Zn : (z < Z.of_nat N)%Z).
    { rewrite Zlt_Qlt. assert (Y : inject_Z (Z.of_nat (N - 1)) == inject_Z (Z.of_nat N) - 1).
      { replace (Z.of_nat (N - 1)) with (Z.of_nat N + (-1))%Z by lia. rewrite inject_Z_plus. reflexivity. }
      set (w := inject_Z (Z.of_nat N)) in *. set (v := inject_Z (Z.of_nat (N - 1))) in *.
      assert (V : 0 <= v) by (unfold v; change 0 with (inject_Z 0); rewrite <- Zle_Qle; lia).
      assert (U : x < v * (1 + reg_tol)). { apply (Qmult_lt_r _ _ s P'). rewrite D. assert (v * (1 + reg_tol) * s == v * s * (1 + reg_tol)) by ring. lra. }
      unfold reg_tol in U. lra. }
    unfold zget. replace (length corr) with N by (unfold N; lia). destruct (Z.ltb_spec (k * Z.of_nat N + z) 0) as [Y|Y]; [reflexivity|]. nia.
  Qed.
End P.
