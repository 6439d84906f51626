From Verif Require Import Base RangeModel CalzModel F64 AxisModel IntegModel IntegSpec.
Open Scope Q_scope.

Lemma sigma_ext f g b n : (forall i, (b <= i < b + n)%nat -> f i == g i) -> sigma f b n == sigma g b n.
Proof. revert b; induction n as [|n IH]; intros b H; cbn [sigma]; [reflexivity|]. rewrite (H b) by lia. rewrite (IH (S b)); [reflexivity|]. intros i Hi. apply H. lia. Qed.
Lemma sigma_plus f g b n : sigma (fun i => f i + g i) b n == sigma f b n + sigma g b n.
Proof. revert b; induction n as [|n IH]; intros b; cbn [sigma]; [ring|]. rewrite IH. ring. Qed.
Lemma sigma_scale c f b n : sigma (fun i => c * f i) b n == c * sigma f b n.
Proof. revert b; induction n as [|n IH]; intros b; cbn [sigma]; [ring|]. rewrite IH. ring. Qed.
Lemma sigma_app f b n m : sigma f b (n + m) == sigma f b n + sigma f (b + n) m.
Proof. revert b; induction n as [|n IH]; intros b; cbn [sigma Nat.add]; [rewrite Nat.add_0_r; ring|]. rewrite IH. replace (b + S n)%nat with (S b + n)%nat by lia. ring. Qed.
Lemma sigma_last f b n : sigma f b (S n) == sigma f b n + f (b + n)%nat.
Proof. replace (S n) with (n + 1)%nat by lia. rewrite sigma_app. cbn [sigma]. ring. Qed.
Lemma sigma_shift f b n : sigma f (S b) n == sigma (fun i => f (S i)) b n.
Proof. revert b; induction n as [|n IH]; intros b; cbn [sigma]; [reflexivity|]. rewrite IH. reflexivity. Qed.
Lemma sigma_le f g b n : (forall i, (b <= i < b + n)%nat -> f i <= g i) -> sigma f b n <= sigma g b n.
Proof. revert b; induction n as [|n IH]; intros b H; cbn [sigma]; [lra|]. pose proof (H b ltac:(lia)). specialize (IH (S b)). assert (sigma f (S b) n <= sigma g (S b) n) by (apply IH; intros; apply H; lia). lra. Qed.
Lemma sigma_zero b n : sigma (fun _ => 0) b n == 0.
Proof. revert b; induction n as [|n IH]; intros b; cbn [sigma]; [reflexivity|]. rewrite IH. ring. Qed.
Lemma sigma_nonneg f b n : (forall i, (b <= i < b + n)%nat -> 0 <= f i) -> 0 <= sigma f b n.
Proof. intro H. rewrite <- (sigma_zero b n). apply sigma_le. exact H. Qed.
Lemma sigma_telescope g b n : sigma (fun i => g (S i) - g i) b n == g (b + n)%nat - g b.
Proof. revert b; induction n as [|n IH]; intros b; cbn [sigma]; [rewrite Nat.add_0_r; ring|]. rewrite IH. replace (b + S n)%nat with (S b + n)%nat by lia. ring. Qed.

Lemma zget_at l i : (0 <= i < Z.of_nat (length l))%Z -> zget l i = Ok (at_ l (Z.to_nat i)).
Proof. intro H. unfold zget. destruct (Z.ltb_spec i 0); [lia|]. apply vget_Ok. unfold at_. apply nth_error_nth'. lia. Qed.
Lemma zget_out {A} (l : list A) i : (i < 0 \/ Z.of_nat (length l) <= i)%Z -> zget l i = UB.
Proof. intro H. unfold zget. destruct (Z.ltb_spec i 0); [reflexivity|]. unfold vget. replace (nth_error l (Z.to_nat i)) with (@None A); [reflexivity|]. symmetry. apply nth_error_None. lia. Qed.

Definition err_sum (xs es : list Q) (b n : nat) : Q :=
  sigma (fun i => let w := (at_ xs (S i) - at_ xs i) / 2 in w * w * (at_ es i * at_ es i + at_ es (S i) * at_ es (S i))) b n.
Lemma trapz_loop_ok xs ys es n : length ys = length xs -> length es = length xs -> forall b acc, (b + n < length xs)%nat ->
  exists F E, trapz_loop xs ys es (Z.of_nat b) n acc = Ok (F, E) /\ F == fst acc + piecewise_linear_integral xs ys b (b + n) /\ E == snd acc + err_sum xs es b n.
Proof.
  intros Ly Le. induction n as [|n IH]; intros b acc H.
  - exists (fst acc), (snd acc). split; [destruct acc; reflexivity|]. unfold piecewise_linear_integral, err_sum. rewrite Nat.add_0_r, Nat.sub_diag. cbn. split; ring.
  - cbn [trapz_loop]. rewrite !zget_at by lia. cbn [rbind]. rewrite Nat2Z.id. replace (Z.to_nat (Z.of_nat b + 1)) with (S b) by lia. replace (Z.of_nat b + 1)%Z with (Z.of_nat (S b)) by lia.
    match goal with |- context [trapz_loop _ _ _ _ _ ?a] => destruct (IH (S b) a) as (F & E & EQ & HF & HE); [lia|] end.
    exists F, E. split; [exact EQ|]. rewrite HF, HE. unfold piecewise_linear_integral, err_sum. replace (b + S n - b)%nat with (S n) by lia. replace (S b + n - S b)%nat with n by lia. cbn [sigma fst snd]. split; field.
Qed.
Lemma trapz_loop_ub xs ys es n : length ys = length xs -> length es = length xs -> forall t acc, (0 < n)%nat -> (t < 0 \/ Z.of_nat (length xs) <= t + Z.of_nat n)%Z -> trapz_loop xs ys es t n acc = UB.
Proof.
  intros Ly Le. induction n as [|n IH]; intros t acc Hn H; [lia|]. cbn [trapz_loop].
  destruct (Z.ltb_spec t 0) as [Hneg|Hpos].
  { rewrite (zget_out xs t) by lia. destruct (zget xs (t+1)) eqn:E; [reflexivity| |reflexivity].
    exfalso. unfold zget, vget in E. destruct (t+1 <? 0)%Z; [discriminate|]. destruct (nth_error xs _); discriminate. }
  destruct (Z.ltb_spec (t + 1) (Z.of_nat (length xs))) as [Hin|Hout].
  2:{ rewrite (zget_out xs (t+1)) by lia. reflexivity. }
  rewrite !zget_at by lia. cbn [rbind]. destruct n as [|n]; [lia|]. apply IH; lia.
Qed.

(** ** the integral *)
Definition sane (xs : list Q) (b e : nat) : Prop := (b <= e < length xs)%nat.
Lemma Integral xs ys es b e : length ys = length xs -> length es = length xs -> (2 <= length xs)%nat -> (b <= e < length xs)%nat ->
  exists F E, integrate xs ys es [(Z.of_nat b, Z.of_nat e)] = Ok (F, E) /\ F == piecewise_linear_integral xs ys b e /\ E == err_sum xs es b (e - b).
Proof.
  intros Ly Le Lx H. unfold integrate. destruct (Nat.ltb_spec (length xs) 2); [lia|]. rewrite Ly, Nat.eqb_refl. cbn [negb trapz_ranges].
  replace (Z.to_nat (Z.of_nat e - Z.of_nat b)) with (e - b)%nat by lia.
  destruct (trapz_loop_ok xs ys es (e - b) Ly Le b (0,0)) as (F & E & EQ & HF & HE); [lia|]. rewrite EQ. cbn [rbind]. exists F, E. split; [reflexivity|].
  replace (b + (e - b))%nat with e in HF by lia. cbn [fst snd] in *. split; [rewrite HF|rewrite HE]; ring.
Qed.
Lemma trapz_ranges_ok xs ys es rs : length ys = length xs -> length es = length xs -> Forall (fun r => (fst r <= snd r < length xs)%nat) rs -> forall acc,
  exists F E, trapz_ranges xs ys es (map (fun r => (Z.of_nat (fst r), Z.of_nat (snd r))) rs) acc = Ok (F, E) /\
    F == fst acc + fold_right (fun r s => piecewise_linear_integral xs ys (fst r) (snd r) + s) 0 rs /\ E == snd acc + fold_right (fun r s => err_sum xs es (fst r) (snd r - fst r) + s) 0 rs.
Proof.
  intros Ly Le H. induction H as [|[b e] rs Hr H IH]; intro acc.
  - exists (fst acc), (snd acc). split; [destruct acc; reflexivity|]. cbn. split; ring.
  - cbn [map trapz_ranges fst snd] in *. replace (Z.to_nat (Z.of_nat e - Z.of_nat b)) with (e - b)%nat by lia.
    destruct (trapz_loop_ok xs ys es (e - b) Ly Le b acc) as (F & E & EQ & HF & HE); [lia|]. rewrite EQ. cbn [rbind].
    destruct (IH (F,E)) as (F2 & E2 & EQ2 & HF2 & HE2). exists F2, E2. split; [exact EQ2|]. cbn [fst snd fold_right] in *. replace (b + (e - b))%nat with e in HF by lia. rewrite HF2, HE2, HF, HE. split; ring.
Qed.
Lemma Integrals xs ys es rs : length ys = length xs -> length es = length xs -> (2 <= length xs)%nat -> Forall (fun r => (fst r <= snd r < length xs)%nat) rs ->
  exists F E, integrate xs ys es (map (fun r => (Z.of_nat (fst r), Z.of_nat (snd r))) rs) = Ok (F, E) /\
    F == fold_right (fun r s => piecewise_linear_integral xs ys (fst r) (snd r) + s) 0 rs.
Proof.
  intros Ly Le Lx H. unfold integrate. destruct (Nat.ltb_spec (length xs) 2); [lia|]. rewrite Ly, Nat.eqb_refl. cbn [negb].
  destruct (trapz_ranges_ok xs ys es rs Ly Le H (0,0)) as (F & E & EQ & HF & _). exists F, E. split; [exact EQ|]. cbn [fst] in HF. rewrite HF. ring.
Qed.
Lemma Integral_refuses xs ys es rs : (length xs < 2)%nat \/ length xs <> length ys -> integrate xs ys es rs = Throw INTERNAL_ERROR.
Proof.
  intros H. unfold integrate. destruct (Nat.ltb_spec (length xs) 2); [reflexivity|]. destruct H as [H|H]; [lia|]. destruct (Nat.eqb_spec (length xs) (length ys)); [contradiction|]. reflexivity.
Qed.
Lemma Integral_outside xs ys es b e : length ys = length xs -> length es = length xs -> (2 <= length xs)%nat -> (b < e)%Z -> (b < 0 \/ Z.of_nat (length xs) <= e)%Z -> integrate xs ys es [(b, e)] = UB.
Proof.
  intros Ly Le Lx H1 H2. unfold integrate. destruct (Nat.ltb_spec (length xs) 2); [lia|]. rewrite Ly, Nat.eqb_refl. cbn [negb trapz_ranges]. rewrite trapz_loop_ub; [reflexivity|auto|auto|lia|lia].
Qed.

(** the specification: the integral is the weighted sum of the samples *)
Lemma Weights xs ys b e : (b <= e)%nat -> piecewise_linear_integral xs ys b e == sigma (fun i => weight_of xs b e i * at_ ys i) b (S e - b).
Proof.
  intro H. replace (S e - b)%nat with (S (e - b)) by lia. unfold piecewise_linear_integral.
  set (h := fun i => at_ xs (S i) - at_ xs i).
  rewrite (sigma_ext (fun i => weight_of xs b e i * at_ ys i) (fun i => (if Nat.ltb i e then h i * at_ ys i / 2 else 0) + (if Nat.ltb b i then h (i - 1)%nat * at_ ys i / 2 else 0))).
  2:{ intros i Hi. unfold weight_of, h. destruct (Nat.ltb_spec i e), (Nat.ltb_spec b i); try field; try lia.
      - replace (S (i - 1)) with i by lia. field. - replace (S (i - 1)) with i by lia. field. }
  rewrite sigma_plus. rewrite sigma_last.
  replace (Nat.ltb (b + (e - b)) e) with false by (symmetry; apply Nat.ltb_ge; lia).
  cbn [sigma]. rewrite Nat.ltb_irrefl.
  rewrite (sigma_shift (fun i => if Nat.ltb b i then _ else _)).
  rewrite (sigma_ext (fun i => if Nat.ltb i e then h i * at_ ys i / 2 else 0) (fun i => h i * at_ ys i / 2)) by (intros i Hi; destruct (Nat.ltb_spec i e); [reflexivity|lia]).
  rewrite (sigma_ext (fun i => if Nat.ltb b (S i) then h (S i - 1)%nat * at_ ys (S i) / 2 else 0) (fun i => h i * at_ ys (S i) / 2)).
  2:{ intros i Hi. destruct (Nat.ltb_spec b (S i)); [|lia]. replace (S i - 1)%nat with i by lia. reflexivity. }
  assert (sigma (fun i => h i * (at_ ys i + at_ ys (S i)) / 2) b (e - b) == sigma (fun i => h i * at_ ys i / 2) b (e-b) + sigma (fun i => h i * at_ ys (S i) / 2) b (e-b)) as X.
  { rewrite <- sigma_plus. apply sigma_ext. intros. field. }
  unfold h in X at 1. rewrite X. ring.
Qed.
(** the error returned lacks the correlation of neighbour intervals *)
Definition cross (xs es : list Q) (b n : nat) : Q := sigma (fun i => (at_ xs (S i) - at_ xs i) * (at_ xs (S (S i)) - at_ xs (S i)) / 2 * (at_ es (S i) * at_ es (S i))) b n.
Lemma Variance xs es b e : (b < e)%nat -> variance_of_integral xs es b e == err_sum xs es b (e - b) + cross xs es b (e - 1 - b).
Proof.
  intro H. unfold variance_of_integral. replace (S e - b)%nat with (S (e - b)) by lia.
  set (h := fun i => at_ xs (S i) - at_ xs i). set (q := fun i => at_ es i * at_ es i).
  rewrite (sigma_ext _ (fun i => ((if Nat.ltb i e then h i * h i * q i / 4 else 0) + (if Nat.ltb b i then h (i-1)%nat * h (i-1)%nat * q i / 4 else 0)) + (if Nat.ltb i e then if Nat.ltb b i then h (i-1)%nat * h i / 2 * q i else 0 else 0))).
  2:{ intros i Hi. unfold weight_of, h, q. destruct (Nat.ltb_spec i e), (Nat.ltb_spec b i); try field; try lia.
      - replace (S (i - 1)) with i by lia. field. - replace (S (i - 1)) with i by lia. field. }
  rewrite !sigma_plus. rewrite (sigma_last (fun i => if Nat.ltb i e then h i * h i * q i / 4 else 0)).
  replace (Nat.ltb (b + (e - b)) e) with false by (symmetry; apply Nat.ltb_ge; lia).
  rewrite (sigma_ext (fun i => if Nat.ltb i e then h i * h i * q i / 4 else 0) (fun i => h i * h i * q i / 4)) by (intros i Hi; destruct (Nat.ltb_spec i e); [reflexivity|lia]).
  assert (sigma (fun i => if Nat.ltb b i then h (i-1)%nat * h (i-1)%nat * q i / 4 else 0) b (S (e - b)) == sigma (fun i => h i * h i * q (S i) / 4) b (e - b)) as A2.
  { cbn [sigma]. rewrite Nat.ltb_irrefl. rewrite sigma_shift. rewrite (sigma_ext (fun i => if Nat.ltb b (S i) then _ else _) (fun i => h i * h i * q (S i) / 4)); [ring|].
    intros i Hi. destruct (Nat.ltb_spec b (S i)); [|lia]. replace (S i - 1)%nat with i by lia. reflexivity. }
  rewrite A2. clear A2.
  assert (sigma (fun i => if Nat.ltb i e then if Nat.ltb b i then h (i-1)%nat * h i / 2 * q i else 0 else 0) b (S (e - b)) == cross xs es b (e - 1 - b)) as A3.
  { cbn [sigma]. rewrite Nat.ltb_irrefl. rewrite sigma_shift. replace (e - b)%nat with (S (e - 1 - b)) by lia. rewrite sigma_last.
    replace (Nat.ltb (S (b + (e - 1 - b))) e) with false by (symmetry; apply Nat.ltb_ge; lia).
    unfold cross. rewrite (sigma_ext (fun i => if Nat.ltb (S i) e then _ else _) (fun i => (at_ xs (S i) - at_ xs i) * (at_ xs (S (S i)) - at_ xs (S i)) / 2 * (at_ es (S i) * at_ es (S i)))).
    - destruct (Nat.ltb b e); ring.
    - intros i Hi. destruct (Nat.ltb_spec (S i) e); [|lia]. destruct (Nat.ltb_spec b (S i)); [|lia]. unfold h, q. replace (S i - 1)%nat with i by lia. reflexivity. }
  rewrite A3. clear A3.
  assert (err_sum xs es b (e - b) == sigma (fun i => h i * h i * q i / 4) b (e-b) + sigma (fun i => h i * h i * q (S i) / 4) b (e-b)) as A1.
  { unfold err_sum. rewrite <- sigma_plus. apply sigma_ext. intros. cbv zeta. unfold h, q. field. }
  rewrite A1. ring.
Qed.
Definition grid_increasing (xs : list Q) : Prop := forall i, (S i < length xs)%nat -> at_ xs i <= at_ xs (S i).
Lemma Variance_le xs es b e : grid_increasing xs -> (b <= e < length xs)%nat -> err_sum xs es b (e - b) <= variance_of_integral xs es b e.
Proof.
  intros G H. destruct (Nat.eq_dec b e) as [<-|N].
  - rewrite Nat.sub_diag. unfold err_sum, variance_of_integral. replace (S b - b)%nat with 1%nat by lia. cbn [sigma]. unfold weight_of. rewrite Nat.ltb_irrefl. cbn. setoid_replace ((0+0)/2*((0+0)/2)*(at_ es b * at_ es b)+0) with 0 by field. lra.
  - rewrite Variance by lia. assert (0 <= cross xs es b (e - 1 - b)); [|lra]. unfold cross. apply sigma_nonneg. intros i Hi.
    pose proof (G i ltac:(lia)). pose proof (G (S i) ltac:(lia)).
    assert (forall a b c : Q, 0 <= a -> 0 <= b -> 0 <= a * b / 2 * (c * c)) as P.
    { intros u v w Hu Hv. assert (0 <= w * w) by (destruct (Qlt_le_dec w 0); [setoid_replace (w*w) with ((-w)*(-w)) by ring|]; apply Qmult_le_0_compat; lra).
      apply Qmult_le_0_compat; [|auto]. apply Qle_shift_div_l; [lra|]. rewrite Qmult_0_l. apply Qmult_le_0_compat; auto. }
    apply P; lra.
Qed.

(** ** properties of the integral *)
Lemma Integral_linear xs ys zs a b e : forall vs, (b <= e < length xs)%nat -> (forall i, (b <= i <= e)%nat -> at_ vs i == a * at_ ys i + at_ zs i) -> piecewise_linear_integral xs vs b e == a * piecewise_linear_integral xs ys b e + piecewise_linear_integral xs zs b e.
Proof.
  intros vs H V. unfold piecewise_linear_integral. rewrite <- sigma_scale, <- sigma_plus. apply sigma_ext. intros i Hi. rewrite (V i), (V (S i)) by lia. field.
Qed.
Lemma Integral_additive xs ys b m e : (b <= m <= e)%nat -> piecewise_linear_integral xs ys b e == piecewise_linear_integral xs ys b m + piecewise_linear_integral xs ys m e.
Proof. intro H. unfold piecewise_linear_integral. replace (e - b)%nat with ((m - b) + (e - m))%nat by lia. rewrite sigma_app. replace (b + (m - b))%nat with m by lia. reflexivity. Qed.
Lemma Integral_affine xs ys p q b e : (b <= e)%nat -> (forall i, (b <= i <= e)%nat -> at_ ys i == p * at_ xs i + q) ->
  piecewise_linear_integral xs ys b e == p * (at_ xs e * at_ xs e - at_ xs b * at_ xs b) / 2 + q * (at_ xs e - at_ xs b).
Proof.
  intros H Y. unfold piecewise_linear_integral. rewrite (sigma_ext _ (fun i => (fun j => p * (at_ xs j * at_ xs j) / 2 + q * at_ xs j) (S i) - (fun j => p * (at_ xs j * at_ xs j) / 2 + q * at_ xs j) i)).
  - rewrite (sigma_telescope (fun j => p * (at_ xs j * at_ xs j) / 2 + q * at_ xs j)). replace (b + (e - b))%nat with e by lia. field.
  - intros i Hi. rewrite (Y i), (Y (S i)) by lia. field.
Qed.
Lemma Integral_bounds xs ys lo hi b e : grid_increasing xs -> (b <= e < length xs)%nat -> (forall i, (b <= i <= e)%nat -> lo <= at_ ys i <= hi) ->
  lo * (at_ xs e - at_ xs b) <= piecewise_linear_integral xs ys b e <= hi * (at_ xs e - at_ xs b).
Proof.
  intros G H Y.
  assert (forall c, c * (at_ xs e - at_ xs b) == sigma (fun i => c * (at_ xs (S i) - at_ xs i)) b (e - b)) as T.
  { intro c. rewrite sigma_scale, (sigma_telescope (at_ xs)). replace (b + (e - b))%nat with e by lia. reflexivity. }
  pose proof (T lo) as Tl. pose proof (T hi) as Th. rewrite Tl, Th. unfold piecewise_linear_integral.
  assert (forall i, (b <= i < b + (e - b))%nat -> 0 <= at_ xs (S i) - at_ xs i) as D by (intros i Hi; pose proof (G i ltac:(lia)); lra).
  split; apply sigma_le; intros i Hi; pose proof (D i Hi) as D'; destruct (Y i ltac:(lia)); destruct (Y (S i) ltac:(lia)).
  - apply Qle_shift_div_l; [lra|]. assert (0 <= (at_ xs (S i) - at_ xs i) * ((at_ ys i - lo) + (at_ ys (S i) - lo))) by (apply Qmult_le_0_compat; lra). lra.
  - apply Qle_shift_div_r; [lra|]. assert (0 <= (at_ xs (S i) - at_ xs i) * ((hi - at_ ys i) + (hi - at_ ys (S i)))) by (apply Qmult_le_0_compat; lra). lra.
Qed.
