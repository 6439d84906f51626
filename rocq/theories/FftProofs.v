From Verif Require Import Base RBase FftModel FftSpec.
Open Scope R_scope.

(** * sums *)
Lemma rsum_ext n f g : (forall k, (k < n)%nat -> f k = g k) -> rsum n f = rsum n g.
Proof. induction n; intros H; simpl; [reflexivity|]. rewrite IHn, H by auto. reflexivity. Qed.
Lemma rsum_plus n f g : rsum n (fun k => f k + g k) = rsum n f + rsum n g.
Proof. induction n; simpl; lra. Qed.
Lemma rsum_scal n c f : rsum n (fun k => c * f k) = c * rsum n f.
Proof. induction n; simpl; lra. Qed.
Lemma rsum_scal_r n c f : rsum n (fun k => f k * c) = rsum n f * c.
Proof. induction n; simpl; lra. Qed.
Lemma rsum_opp n f : rsum n (fun k => - f k) = - rsum n f.
Proof. induction n; simpl; lra. Qed.
Lemma rsum_zero n f : (forall k, (k < n)%nat -> f k = 0) -> rsum n f = 0.
Proof. induction n; intros H; simpl; [reflexivity|]. rewrite IHn, H by auto. lra. Qed.
Lemma rsum_swap n m (f : nat -> nat -> R) : rsum n (fun i => rsum m (f i)) = rsum m (fun j => rsum n (fun i => f i j)).
Proof.
  induction n; simpl; [symmetry; apply rsum_zero; auto|].
  rewrite IHn, <- rsum_plus. reflexivity.
Qed.
Lemma rsum_split a b f : rsum (a + b) f = rsum a f + rsum b (fun k => f (a + k)%nat).
Proof.
  induction b; [rewrite Nat.add_0_r; simpl; lra|].
  rewrite Nat.add_succ_r. simpl. rewrite IHb. lra.
Qed.
Lemma rsum_rev n f : rsum n f = rsum n (fun k => f (n - 1 - k)%nat).
Proof.
  induction n; [reflexivity|].
  change (rsum (S n) f) with (rsum n f + f n).
  change (S n) with (1 + n)%nat. rewrite (rsum_split 1 n), IHn. cbn [rsum].
  rewrite (rsum_ext n (fun k => f (1 + n - 1 - (1 + k))%nat) (fun k => f (n - 1 - k)%nat)).
  - replace (1 + n - 1 - 0)%nat with n by lia. lra.
  - intros k K. f_equal. lia.
Qed.
Lemma rsum_one n f i : (i < n)%nat -> (forall k, (k < n)%nat -> k <> i -> f k = 0) -> rsum n f = f i.
Proof.
  induction n; intros L H; [lia|]. simpl.
  destruct (Nat.eq_dec i n) as [E|E].
  - subst i. rewrite rsum_zero; [lra|]. intros; apply H; lia.
  - rewrite IHn, (H n); [lra|lia|auto|lia|]. intros; apply H; lia.
Qed.

(** * the discrete orthogonality of the cosines *)
Lemma cos_per (x : R) (m : Z) : cos (x + 2 * PI * IZR m) = cos x.
Proof.
  destruct (Z_le_gt_dec 0 m) as [L|L].
  - replace (x + 2 * PI * IZR m) with (x + 2 * INR (Z.to_nat m) * PI); [apply cos_period|].
    rewrite INR_IZR_INZ, Z2Nat.id by lia. lra.
  - rewrite <- (cos_period (x + 2 * PI * IZR m) (Z.to_nat (- m))). f_equal.
    rewrite INR_IZR_INZ, Z2Nat.id, opp_IZR by lia. lra.
Qed.

Definition ang (n k : nat) (m : Z) : R := 2 * PI * INR k * IZR m / INR n.
Definition Dsum (n : nat) (m : Z) : R := rsum n (fun k => cos (ang n k m)).

Lemma cos_ang_mod n k m : (0 < n)%nat -> cos (ang n k m) = cos (ang n k (m mod Z.of_nat n)).
Proof.
  intros N. assert (N0 : INR n <> 0) by (apply not_0_INR; lia).
  pose proof (Z.div_mod m (Z.of_nat n) ltac:(lia)) as E.
  rewrite <- (cos_per (ang n k (m mod Z.of_nat n)) (Z.of_nat k * (m / Z.of_nat n))).
  f_equal. unfold ang. rewrite E at 1. rewrite plus_IZR, !mult_IZR, <- !INR_IZR_INZ. field. exact N0.
Qed.

Lemma dirichlet (x : R) n : 2 * sin (x / 2) * rsum n (fun k => cos (INR k * x)) = sin (INR n * x - x / 2) + sin (x / 2).
Proof.
  induction n.
  - simpl. replace (0 * x - x / 2) with (- (x / 2)) by lra. rewrite sin_neg. lra.
  - change (rsum (S n) (fun k => cos (INR k * x))) with (rsum n (fun k => cos (INR k * x)) + cos (INR n * x)).
    rewrite Rmult_plus_distr_l, IHn, S_INR.
    replace ((INR n + 1) * x - x / 2) with (INR n * x + x / 2) by lra.
    rewrite sin_plus, sin_minus. ring.
Qed.

Lemma Dsum_0 n : Dsum n 0 = INR n.
Proof.
  unfold Dsum. rewrite (rsum_ext n _ (fun _ => 1)).
  - induction n; [reflexivity|]. simpl rsum. rewrite IHn, S_INR. reflexivity.
  - intros k K. unfold ang. simpl. replace (2 * PI * INR k * 0 / INR n) with 0 by (unfold Rdiv; ring). apply cos_0.
Qed.

Lemma Dsum_pos n m : (0 < m < Z.of_nat n)%Z -> Dsum n m = 0.
Proof.
  intros [M1 M2]. assert (N : (0 < n)%nat) by lia.
  assert (N0 : 0 < INR n) by (apply lt_0_INR; lia).
  assert (M1' : 0 < IZR m) by (apply (IZR_lt 0); lia).
  assert (M2' : IZR m < INR n) by (rewrite INR_IZR_INZ; apply IZR_lt; lia).
  set (x := 2 * PI * IZR m / INR n).
  assert (E : Dsum n m = rsum n (fun k => cos (INR k * x))).
  { apply rsum_ext. intros k _. f_equal. unfold ang, x. field. lra. }
  pose proof (dirichlet x n) as D. rewrite <- E in D.
  assert (X2 : x / 2 = PI * (IZR m / INR n)) by (unfold x; field; lra).
  assert (F : 0 < IZR m / INR n < 1).
  { split; [apply Rdiv_lt_0_compat; lra|]. apply (Rmult_lt_reg_r (INR n)); [lra|].
    unfold Rdiv. rewrite Rmult_assoc, Rinv_l; lra. }
  pose proof PI_RGT_0 as P0.
  assert (S0 : 0 < sin (x / 2)). { apply sin_gt_0; rewrite X2; nra. }
  assert (Z0 : sin (INR n * x - x / 2) = - sin (x / 2)).
  { replace (INR n * x) with (0 + 2 * INR (Z.to_nat m) * PI).
    2:{ rewrite INR_IZR_INZ, Z2Nat.id by lia. unfold x. field. lra. }
    replace (0 + 2 * INR (Z.to_nat m) * PI - x / 2) with (- (x / 2) + 2 * INR (Z.to_nat m) * PI) by lra.
    rewrite sin_period, sin_neg. reflexivity. }
  rewrite Z0 in D. assert (D' : 2 * sin (x / 2) * Dsum n m = 0) by lra.
  apply Rmult_integral in D'. destruct D' as [D'|D']; lra.
Qed.

Lemma Dsum_eq n m : (0 < n)%nat -> Dsum n m = if (m mod Z.of_nat n =? 0)%Z then INR n else 0.
Proof.
  intros N. assert (E : Dsum n m = Dsum n (m mod Z.of_nat n)).
  { apply rsum_ext. intros. apply cos_ang_mod. exact N. }
  rewrite E. pose proof (Z.mod_pos_bound m (Z.of_nat n) ltac:(lia)).
  destruct (Z.eqb_spec (m mod Z.of_nat n) 0) as [-> |H']; [apply Dsum_0|apply Dsum_pos; lia].
Qed.

(** * the convolution theorem *)
Definition term (n : nat) (a b : list R) (k : nat) (t : nat) : R :=
  rsum n (fun i => rsum n (fun l => nth i a 0 * nth l b 0 * cos (ang n k (Z.of_nat t - Z.of_nat i - Z.of_nat l)))).

Lemma angle_ang n k t : angle n k t = ang n k (Z.of_nat t).
Proof. unfold angle, ang. rewrite (INR_IZR_INZ t). reflexivity. Qed.

Lemma cos3 n k t i l :
  cos (ang n k (t - i - l)) =
  (cos (ang n k l) * cos (ang n k i) - sin (ang n k l) * sin (ang n k i)) * cos (ang n k t)
  + (sin (ang n k l) * cos (ang n k i) + cos (ang n k l) * sin (ang n k i)) * sin (ang n k t).
Proof.
  replace (ang n k (t - i - l)) with (ang n k t - (ang n k l + ang n k i)).
  2:{ unfold ang. rewrite !minus_IZR. unfold Rdiv. ring. }
  rewrite cos_minus, cos_plus, sin_plus. ring.
Qed.

Lemma term_prod n a b k t :
  let c := cmul (dft n b k) (dft n a k) in
  fst c * cos (angle n k t) - snd c * sin (angle n k t) = term n a b k t.
Proof.
  cbv zeta. unfold term, cmul, dft. cbn [fst snd]. rewrite !angle_ang.
  set (ct := cos (ang n k (Z.of_nat t))). set (sn := sin (ang n k (Z.of_nat t))).
  set (A := rsum n (fun t0 => nth t0 a 0 * cos (angle n k t0))).
  set (A' := rsum n (fun t0 => nth t0 a 0 * sin (angle n k t0))).
  set (B := rsum n (fun t0 => nth t0 b 0 * cos (angle n k t0))).
  set (B' := rsum n (fun t0 => nth t0 b 0 * sin (angle n k t0))).
  rewrite (rsum_ext n _ (fun i => (nth i a 0 * cos (angle n k i)) * (B * ct + B' * sn)
                                  + (nth i a 0 * sin (angle n k i)) * (B * sn - B' * ct))).
  - rewrite rsum_plus, !rsum_scal_r. fold A A'. ring.
  - intros i _.
    rewrite (rsum_ext n _ (fun l => (nth l b 0 * cos (angle n k l)) * (nth i a 0 * (cos (angle n k i) * ct + sin (angle n k i) * sn))
                                  + (nth l b 0 * sin (angle n k l)) * (nth i a 0 * (cos (angle n k i) * sn - sin (angle n k i) * ct)))).
    + rewrite rsum_plus, !rsum_scal_r. fold B B'. ring.
    + intros l _. rewrite cos3, !angle_ang. fold ct sn. ring.
Qed.

Lemma term_sym n a b k t : (0 < n)%nat -> (k <= n)%nat -> term n a b (n - k) t = term n a b k t.
Proof.
  intros N K. apply rsum_ext; intros i _. apply rsum_ext; intros l _. f_equal.
  set (m := (Z.of_nat t - Z.of_nat i - Z.of_nat l)%Z).
  rewrite <- (cos_neg (ang n k m)). rewrite <- (cos_per (- ang n k m) m). f_equal.
  unfold ang. rewrite minus_INR by exact K. field. apply not_0_INR. lia.
Qed.

Lemma rsum_len n m f : n = m -> rsum n f = rsum m f.
Proof. intros ->. reflexivity. Qed.

Lemma even_odd n : (Nat.even n = true /\ exists q, n = 2 * q)%nat \/ (Nat.even n = false /\ exists q, n = 2 * q + 1)%nat.
Proof.
  destruct (Nat.even n) eqn:E; [left|right]; split; auto.
  - apply Nat.even_spec in E. destruct E as [q E]. exists q. exact E.
  - assert (O : Nat.odd n = true) by (unfold Nat.odd; rewrite E; reflexivity).
    apply Nat.odd_spec in O. destruct O as [q O]. exists q. exact O.
Qed.

(** folding the symmetric terms *)
Lemma fold_terms n a b t : (0 < n)%nat ->
  term n a b 0 t + rsum ((n - 1) / 2) (fun j => 2 * term n a b (S j) t)
    + (if Nat.even n then term n a b (n / 2) t else 0) = rsum n (fun k => term n a b k t).
Proof.
  intros N. rewrite rsum_scal. destruct (even_odd n) as [[E [q Q]]|[E [q Q]]]; rewrite E.
  - assert (H1 : ((n - 1) / 2 = q - 1)%nat).
    { symmetry. apply (Nat.div_unique (n - 1) 2 (q - 1) 1); lia. }
    assert (H2 : (n / 2 = q)%nat) by (symmetry; apply (Nat.div_unique n 2 q 0); lia).
    rewrite H1, H2. rewrite (rsum_len n (1 + (q - 1) + (1 + (q - 1))) (fun k => term n a b k t)) by lia.
    rewrite rsum_split, (rsum_split 1 (q - 1)), (rsum_split 1 (q - 1)).
    rewrite (rsum_rev (q - 1) (fun k => term n a b (1 + (q - 1) + (1 + k))%nat t)).
    rewrite (rsum_ext (q - 1) (fun k => term n a b (1 + (q - 1) + (1 + (q - 1 - 1 - k)))%nat t) (fun k => term n a b (1 + k)%nat t)).
    2:{ intros k K. rewrite <- (term_sym n a b (1 + k)) by lia. f_equal. lia. }
    change (fun j => term n a b (S j) t) with (fun k => term n a b (1 + k)%nat t).
    generalize (rsum (q - 1) (fun k => term n a b (1 + k)%nat t)). intros r.
    cbn [rsum]. replace (1 + (q - 1) + 0)%nat with q by lia.
    generalize (term n a b 0 t) (term n a b q t). intros. lra.
  - assert (H1 : ((n - 1) / 2 = q)%nat) by (symmetry; apply (Nat.div_unique (n - 1) 2 q 0); lia).
    rewrite H1. rewrite (rsum_len n (1 + q + q) (fun k => term n a b k t)) by lia.
    rewrite rsum_split, (rsum_split 1 q).
    rewrite (rsum_rev q (fun k => term n a b (1 + q + k)%nat t)).
    rewrite (rsum_ext q (fun k => term n a b (1 + q + (q - 1 - k))%nat t) (fun k => term n a b (1 + k)%nat t)).
    2:{ intros k K. rewrite <- (term_sym n a b (1 + k)) by lia. f_equal. lia. }
    change (fun j => term n a b (S j) t) with (fun k => term n a b (1 + k)%nat t).
    generalize (rsum q (fun k => term n a b (1 + k)%nat t)). intros r. cbn [rsum].
    generalize (term n a b 0 t). intros. lra.
Qed.

Definition wrap (n t i : nat) : nat := ((t + n - i) mod n)%nat.

Lemma sum_terms n a b t : (t < n)%nat ->
  rsum n (fun k => term n a b k t) = INR n * rsum n (fun i => nth i a 0 * nth (wrap n t i) b 0).
Proof.
  intros T. unfold term. rewrite rsum_swap, <- rsum_scal. apply rsum_ext. intros i I0.
  rewrite rsum_swap.
  rewrite (rsum_ext n _ (fun l => nth i a 0 * nth l b 0 * Dsum n (Z.of_nat t - Z.of_nat i - Z.of_nat l))).
  2:{ intros l _. unfold Dsum. rewrite rsum_scal. reflexivity. }
  assert (W : (wrap n t i < n)%nat) by (apply Nat.mod_upper_bound; lia).
  assert (Wc : (wrap n t i = if i <=? t then t - i else t + n - i)%nat).
  { unfold wrap. destruct (Nat.leb_spec i t).
    - replace (t + n - i)%nat with ((t - i) + 1 * n)%nat by lia. rewrite Nat.mod_add by lia. apply Nat.mod_small. lia.
    - apply Nat.mod_small. lia. }
  rewrite (rsum_one n _ (wrap n t i) W).
  - rewrite Dsum_eq by lia.
    replace ((Z.of_nat t - Z.of_nat i - Z.of_nat (wrap n t i)) mod Z.of_nat n =? 0)%Z with true; [ring|].
    symmetry. apply Z.eqb_eq. rewrite Wc. destruct (Nat.leb_spec i t).
    + replace (Z.of_nat t - Z.of_nat i - Z.of_nat (t - i))%Z with 0%Z by lia. apply Z.mod_0_l. lia.
    + replace (Z.of_nat t - Z.of_nat i - Z.of_nat (t + n - i))%Z with ((-1) * Z.of_nat n)%Z by lia. apply Z.mod_mul. lia.
  - intros l L NE. rewrite Dsum_eq by lia.
    destruct (Z.eqb_spec ((Z.of_nat t - Z.of_nat i - Z.of_nat l) mod Z.of_nat n) 0) as [Z0|]; [|ring].
    exfalso. apply NE. apply Z.mod_divide in Z0; [|lia]. destruct Z0 as [q Q]. rewrite Wc.
    assert (q = 0 \/ q = -1)%Z as [-> | ->] by nia; destruct (Nat.leb_spec i t); lia.
Qed.
