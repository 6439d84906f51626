(** Proofs for C18, C19, C20. *)
From Coq Require Import NArith.
From Verif Require Import Base RangeModel RangeProofs MaskModel AxisModel AxisSpec.
Open Scope Q_scope.

(** ** C18 *)
Lemma vset_get {A} (l : list A) i x l' : vset l i x = Ok l' ->
  (i < length l)%nat /\ length l' = length l /\
  forall j, nth_error l' j = if Nat.eqb j i then Some x else nth_error l j.
Proof.
  intro H. assert (Hi : (i < length l)%nat).
  { destruct (le_lt_dec (length l) i) as [K|K]; [|exact K]. exfalso.
    revert i l' K H. induction l as [|a t IH]; intros i l' K H; simpl in *; [discriminate|].
    destruct i; [lia|]. destruct (vset t i x) eqn:E; try discriminate.
    apply (IH i a0); [lia|exact E]. }
  destruct (vset_ok l i x Hi) as (l2 & He & Hl & Hn & Ho).
  rewrite He in H. inversion H; subst l2. repeat split; auto.
  intro j. destruct (Nat.eqb_spec j i) as [->|Hj]; auto.
Qed.

Lemma submask_loop_spec fuel : forall mask i ib ratio,
  (0 <= ib)%Z -> (1 <= ratio)%Z -> (i < Z.of_nat (length mask))%Z -> (0 < fuel)%nat -> (i + 1 < Z.of_nat fuel \/ i < ib)%Z ->
  exists m, submask_loop fuel mask i ib ratio = Ok m /\ length m = length mask /\
    forall j, (j < length mask)%nat ->
      ((on_subgrid ratio ib i j -> nth_error m j = Some 1) /\
       (~ on_subgrid ratio ib i j -> nth_error m j = nth_error mask j)).
Proof.
  induction fuel as [|f IH]; intros mask i ib ratio Hib Hr Hi Hf0 Hf.
  - lia.
  - cbn [submask_loop]. destruct (Z.ltb_spec i ib) as [H|H].
    + exists mask. repeat split; auto. intros (k & Hk & He & Hb). nia.
    + destruct (Z.ltb_spec i 0) as [H0|H0]; [lia|].
      destruct (vset_ok mask (Z.to_nat i) 1) as (m & Hm & Hl & Hn & Ho); [lia|].
      rewrite Hm. cbn [rbind].
      destruct (IH m (i - ratio)%Z ib ratio) as (m' & He & Hl' & Hs); auto; try lia.
      exists m'. split; [exact He|]. split; [congruence|].
      intros j Hj. destruct (Hs j) as [Ha Hb]; [lia|]. split.
      * intros (k & Hk & Hkj & Hbj).
        destruct (Z.eq_dec k 0) as [->|Hk0].
        { destruct (Z.leb_spec ib (i - ratio)) as [G|G].
          - destruct (Z.eq_dec (Z.of_nat j) i) as [Ej|]; [|lia].
            rewrite Hb.
            + replace j with (Z.to_nat i) by lia. exact Hn.
            + intros (k2 & Hk2 & Hkj2 & _). nia.
          - rewrite Hb. replace j with (Z.to_nat i) by lia. exact Hn.
            intros (k2 & Hk2 & Hkj2 & Hb2). nia. }
        { apply Ha. exists (k - 1)%Z. split; [lia|]. split; [nia|lia]. }
      * intro Hno. rewrite Hb.
        -- apply Ho. intro E. apply Hno. exists 0%Z. lia.
        -- intros (k & Hk & Hkj & Hbj). apply Hno. exists (k + 1)%Z. split; [lia|]. split; [nia|lia].
Qed.

Lemma nth_error_repeat' {A} (x : A) n i : (i < n)%nat -> nth_error (repeat x n) i = Some x.
Proof. revert i; induction n as [|n IH]; intros i H; [lia|]. destruct i; simpl; auto. apply IH; lia. Qed.

Lemma end_check n ie : (Z.of_nat n < 2 ^ 31)%Z -> (1 <= n)%nat -> (- 2 ^ 31 <= ie < 2 ^ 31)%Z ->
  (((Z.of_nat n - 1) mod 2 ^ 64) <? (ie mod 2 ^ 64))%Z =
  (if (ie <? 0)%Z then true else (Z.of_nat n - 1 <? ie)%Z).
Proof.
  intros Hn H1 Hie. rewrite (Z.mod_small (Z.of_nat n - 1)); [|lia].
  destruct (Z.ltb_spec ie 0) as [H|H].
  - assert (E : (ie mod 2 ^ 64 = ie + 2 ^ 64)%Z).
    { symmetry. apply (Z.mod_unique ie (2^64) (-1)%Z); lia. }
    rewrite E. apply Z.ltb_lt. lia.
  - rewrite (Z.mod_small ie); [|lia]. reflexivity.
Qed.

Lemma submask_ok n ratio ib ie : (Z.of_nat n < 2 ^ 31)%Z ->
  (2 <= ratio)%Z -> (0 <= ib)%Z -> (0 <= ie < Z.of_nat n)%Z ->
  exists m, GetSubSamplingMask true n ratio ib ie = Ok m /\ length m = n /\
    forall i, (i < n)%nat -> (on_subgrid ratio ib ie i -> nth_error m i = Some 1) /\
                             (~ on_subgrid ratio ib ie i -> nth_error m i = Some 0).
Proof.
  intros Hn Hr Hib Hie. unfold GetSubSamplingMask. cbn [negb].
  destruct (Z.ltb_spec ib 0); [lia|].
  rewrite end_check; [|lia|lia|lia].
  destruct (Z.ltb_spec ie 0); [lia|]. destruct (Z.ltb_spec (Z.of_nat n - 1) ie); [lia|].
  destruct (Z.eqb_spec ratio 1); [lia|].
  destruct (submask_loop_spec (S (S n)) (repeat 0 n) ie ib ratio) as (m & He & Hl & Hs); try lia.
  { rewrite repeat_length; lia. }
  exists m. rewrite repeat_length in *. split; [exact He|]. split; [exact Hl|]. intros i Hi0.
  destruct (Hs i Hi0) as [Ha Hb]. split; [exact Ha|].
  intro Hno. rewrite (Hb Hno). apply nth_error_repeat'; auto.
Qed.

Lemma submask_one n ib ie : (Z.of_nat n < 2 ^ 31)%Z -> (0 <= ib)%Z -> (0 <= ie < Z.of_nat n)%Z ->
  GetSubSamplingMask true n 1 ib ie = Ok (repeat 1 n).
Proof.
  intros Hn Hib Hie. unfold GetSubSamplingMask. cbn [negb].
  destruct (Z.ltb_spec ib 0); [lia|].
  rewrite end_check; [|lia|lia|lia].
  destruct (Z.ltb_spec ie 0); [lia|]. destruct (Z.ltb_spec (Z.of_nat n - 1) ie); [lia|]. reflexivity.
Qed.

Lemma submask_errors islog n ratio ib ie : (Z.of_nat n < 2 ^ 31)%Z -> (1 <= n)%nat ->
  (- 2 ^ 31 <= ie < 2 ^ 31)%Z ->
  islog = false \/ (ib < 0)%Z \/ (ie < 0)%Z \/ (Z.of_nat n <= ie)%Z ->
  GetSubSamplingMask islog n ratio ib ie = Throw INTERNAL_ERROR.
Proof.
  intros Hn H1 Hie H. unfold GetSubSamplingMask.
  destruct islog; cbn [negb]; [|reflexivity].
  destruct (Z.ltb_spec ib 0); [reflexivity|].
  rewrite end_check; auto.
  destruct (Z.ltb_spec ie 0); [reflexivity|].
  destruct (Z.ltb_spec (Z.of_nat n - 1) ie); [reflexivity|].
  destruct H as [H|[H|[H|H]]]; try discriminate; lia.
Qed.

Lemma submask_loop_bad fuel : forall mask i ib ratio,
  (ratio <= 0)%Z -> (0 <= ib <= i)%Z -> submask_loop fuel mask i ib ratio = UB.
Proof.
  induction fuel as [|f IH]; intros mask i ib ratio Hr Hi; [reflexivity|].
  cbn [submask_loop]. destruct (Z.ltb_spec i ib); [lia|]. destruct (Z.ltb_spec i 0); [lia|].
  destruct (vset mask (Z.to_nat i) 1) as [m|e|] eqn:E; cbn [rbind].
  - apply IH; lia.
  - exfalso. revert E. generalize (Z.to_nat i). clear. intro k. revert mask. induction k; intros [|a t]; simpl; intro E; try discriminate.
    destruct (vset t k 1) eqn:E'; try discriminate. inversion E; subst. eapply IHk; eauto.
  - reflexivity.
Qed.

Lemma submask_nonpositive n ratio ib ie : (Z.of_nat n < 2 ^ 31)%Z ->
  (ratio <= 0)%Z -> (0 <= ib <= ie)%Z -> (ie < Z.of_nat n)%Z ->
  GetSubSamplingMask true n ratio ib ie = UB.
Proof.
  intros Hn Hr Hib Hie. unfold GetSubSamplingMask. cbn [negb].
  destruct (Z.ltb_spec ib 0); [lia|].
  rewrite end_check; [|lia|lia|lia].
  destruct (Z.ltb_spec ie 0); [lia|]. destruct (Z.ltb_spec (Z.of_nat n - 1) ie); [lia|].
  destruct (Z.eqb_spec ratio 1); [lia|]. apply submask_loop_bad; lia.
Qed.

(** ** C19 *)
Fixpoint positions (mask : list Q) (k : nat) : list nat :=
  match mask with
  | [] => []
  | m :: t => if Qeq_bool m 1 then k :: positions t (S k) else positions t (S k)
  end.
Lemma positions_in mask : forall k i, In i (positions mask k) <-> (k <= i)%nat /\ masked_in mask (i - k).
Proof.
  induction mask as [|m t IH]; intros k i; simpl.
  - split; [tauto|]. intros [_ (x & Hx & _)]. destruct (i - k)%nat; discriminate.
  - destruct (Qeq_bool_spec m 1) as [H|H]; simpl; rewrite IH.
    + split.
      * intros [E|[H1 (x & Hx & Hx1)]].
        { subst i. split; [lia|]. rewrite Nat.sub_diag. exists m. auto. }
        { split; [lia|]. exists x. split; auto. replace (i - k)%nat with (S (i - S k)) by lia. exact Hx. }
      * intros [H1 (x & Hx & Hx1)]. destruct (Nat.eq_dec k i) as [E|E]; [left; auto|right].
        split; [lia|]. exists x. split; auto.
        replace (i - k)%nat with (S (i - S k)) in Hx by lia. exact Hx.
    + split.
      * intros [H1 (x & Hx & Hx1)]. split; [lia|]. exists x. split; auto.
        replace (i - k)%nat with (S (i - S k)) by lia. exact Hx.
      * intros [H1 (x & Hx & Hx1)]. destruct (Nat.eq_dec k i) as [E|E].
        { subst i. rewrite Nat.sub_diag in Hx. simpl in Hx. inversion Hx; subst. contradiction. }
        split; [lia|]. exists x. split; auto.
        replace (i - k)%nat with (S (i - S k)) in Hx by lia. exact Hx.
Qed.
Lemma positions_incr mask : forall k a b i j, (a < b)%nat ->
  nth_error (positions mask k) a = Some i -> nth_error (positions mask k) b = Some j -> (i < j)%nat.
Proof.
  induction mask as [|m t IH]; intros k a b i j Hab Hi Hj; simpl in *.
  - destruct a; discriminate.
  - destruct (Qeq_bool m 1).
    + destruct b as [|b]; [lia|]. simpl in Hj. destruct a as [|a]; simpl in Hi.
      * inversion Hi; subst. apply nth_error_In in Hj. apply positions_in in Hj. lia.
      * apply (IH (S k) a b); auto; lia.
    + eapply IH; eauto.
Qed.
Lemma keep_masked_positions {A} mask : forall k (v : list A), length mask = length v ->
  length (keep_masked mask v) = length (positions mask k) /\
  forall a i, nth_error (positions mask k) a = Some i -> nth_error (keep_masked mask v) a = nth_error v (i - k).
Proof.
  induction mask as [|m t IH]; intros k v Hl; destruct v as [|x v]; simpl in *; try discriminate.
  - split; auto. intros a i H; destruct a; discriminate.
  - destruct (IH (S k) v) as [IH1 IH2]; [lia|].
    assert (St : forall a i, nth_error (positions t (S k)) a = Some i ->
                 nth_error (keep_masked t v) a = nth_error (x :: v) (i - k)).
    { intros a i Ha. rewrite (IH2 a i Ha). apply nth_error_In in Ha. apply positions_in in Ha.
      replace (i - k)%nat with (S (i - S k)) by lia. reflexivity. }
    destruct (Qeq_bool m 1); simpl.
    + split; [lia|]. intros [|a] i Ha; simpl in *.
      * inversion Ha; subst. rewrite Nat.sub_diag. reflexivity.
      * apply St; auto.
    + split; [lia|exact St].
Qed.

Lemma maskVector_spec {A} (mask : list Q) (v : list A) :
  (length mask <> length v -> maskVector mask v = Throw INTERNAL_ERROR) /\
  (length mask = length v -> exists out, maskVector mask v = Ok out /\ kept_in_order mask v out).
Proof.
  unfold maskVector. destruct (Nat.eqb_spec (length mask) (length v)) as [H|H]; split; intro K; try contradiction; try congruence.
  exists (keep_masked mask v). split; auto.
  exists (positions mask 0). destruct (keep_masked_positions mask 0 v H) as [H1 H2].
  split; [apply positions_incr|]. split.
  - intro i. rewrite positions_in. rewrite Nat.sub_0_r. intuition lia.
  - split; auto. intros a i Ha. rewrite (H2 a i Ha). rewrite Nat.sub_0_r. reflexivity.
Qed.

Lemma kept_in_order_unique {A} mask (v o1 o2 : list A) : length mask = length v ->
  kept_in_order mask v o1 -> kept_in_order mask v o2 -> o1 = o2.
Proof.
  intros Hl (p1 & I1 & M1 & L1 & N1) (p2 & I2 & M2 & L2 & N2).
  assert (E : p1 = p2).
  { clear - I1 M1 I2 M2. revert p2 M1 M2 I1 I2.
    assert (G : forall (P : nat -> Prop) p1 p2,
      (forall i, In i p1 <-> P i) -> (forall i, In i p2 <-> P i) ->
      (forall a b i j, (a < b)%nat -> nth_error p1 a = Some i -> nth_error p1 b = Some j -> (i < j)%nat) ->
      (forall a b i j, (a < b)%nat -> nth_error p2 a = Some i -> nth_error p2 b = Some j -> (i < j)%nat) -> p1 = p2).
    { intros P q1. revert P. induction q1 as [|x q1 IH]; intros P q2 H1 H2 J1 J2.
      - destruct q2 as [|y q2]; auto. exfalso. assert (In y []) by (apply H1, H2; left; auto). inversion H.
      - destruct q2 as [|y q2]; [exfalso; assert (In x []) by (apply H2, H1; left; auto); inversion H|].
        assert (Hd1 : forall z, In z q1 -> (x < z)%nat).
        { intros z Hz. apply In_nth_error in Hz. destruct Hz as [k Hk]. apply (J1 0%nat (S k)); simpl; auto; lia. }
        assert (Hd2 : forall z, In z q2 -> (y < z)%nat).
        { intros z Hz. apply In_nth_error in Hz. destruct Hz as [k Hk]. apply (J2 0%nat (S k)); simpl; auto; lia. }
        assert (x = y).
        { assert (Hx : In x (y :: q2)) by (apply H2, H1; left; auto).
          assert (Hy : In y (x :: q1)) by (apply H1, H2; left; auto).
          destruct Hx as [|Hx]; auto. destruct Hy as [|Hy]; auto.
          specialize (Hd1 _ Hy). specialize (Hd2 _ Hx). lia. }
        subst y. f_equal. apply (IH (fun i => P i /\ i <> x)).
        + intro i. rewrite <- (H1 i). simpl. split.
          * intro Hi. split; [right; auto|]. specialize (Hd1 _ Hi). lia.
          * intros [[->|Hi] Hne]; auto. contradiction.
        + intro i. rewrite <- (H2 i). simpl. split.
          * intro Hi. split; [right; auto|]. specialize (Hd2 _ Hi). lia.
          * intros [[->|Hi] Hne]; auto. contradiction.
        + intros a b i j Hab Ha Hb. apply (J1 (S a) (S b)); simpl; auto; lia.
        + intros a b i j Hab Ha Hb. apply (J2 (S a) (S b)); simpl; auto; lia. }
    intros p2 M1 M2 I1 I2. eapply G; eauto. }
  subst p2.
  assert (F : forall a, nth_error o1 a = nth_error o2 a).
  { intro a. destruct (nth_error p1 a) as [i|] eqn:Ea.
    - rewrite (N1 a i Ea), (N2 a i Ea). reflexivity.
    - apply nth_error_None in Ea. transitivity (@None A); [|symmetry]; apply nth_error_None; lia. }
  clear - F. revert o2 F. induction o1 as [|x o1 IH]; intros [|y o2] F; auto.
  - specialize (F 0%nat); discriminate.
  - specialize (F 0%nat); discriminate.
  - pose proof (F 0%nat) as F0. simpl in F0. inversion F0; subst. f_equal. apply IH. intro a. apply (F (S a)).
Qed.

Lemma kept_sorted mask v out : length mask = length v -> kept_in_order mask v out ->
  (strictly_increasing v -> strictly_increasing out) /\ (increasing v -> increasing out).
Proof.
  intros Hl (p & I & M & L & N).
  assert (G : forall (R : Q -> Q -> Prop),
    (forall i j x y, (i < j)%nat -> nth_error v i = Some x -> nth_error v j = Some y -> R x y) ->
    forall i j x y, (i < j)%nat -> nth_error out i = Some x -> nth_error out j = Some y -> R x y).
  { intros R HR i j x y Hij Hx Hy.
    assert (Hj : (j < length out)%nat) by (eapply nth_error_len; eauto).
    destruct (nth_error_lt p i) as [a Ha]; [lia|]. destruct (nth_error_lt p j) as [b Hb]; [lia|].
    rewrite (N _ _ Ha) in Hx. rewrite (N _ _ Hb) in Hy.
    eapply (HR a b); eauto. }
  split; intro H; [exact (G Qlt H)|exact (G Qle H)].
Qed.

(** ** C20 *)
Lemma back_last (s : list Q) : (0 < length s)%nat -> exists b, back s = Ok b /\ nth_error s (length s - 1) = Some b.
Proof.
  intro H. destruct s as [|a t]; [simpl in H; lia|].
  destruct (nth_error_lt (a :: t) (length (a :: t) - 1)) as [x Hx]; [simpl; lia|].
  exists x. split; auto. unfold back. apply vget_Ok; auto.
Qed.

Lemma GetIndexAtWaveLength_ok s w : strictly_increasing s -> (0 < length s)%nat ->
  exists i, GetIndexAtWaveLength s w = Ok i /\ (i < length s)%nat /\
    (forall j x, (j < i)%nat -> nth_error s j = Some x -> x < w) /\
    (forall j x, (i < length s - 1)%nat -> (i <= j)%nat -> nth_error s j = Some x -> w <= x) /\
    (forall x, nth_error s i = Some x -> w <= x \/ (i = length s - 1)%nat).
Proof.
  intros Hs Hn. pose proof (strictly_increasing_increasing _ Hs) as Hi.
  unfold GetIndexAtWaveLength, front.
  destruct (nth_error_lt s 0 Hn) as [f Hf].
  assert (Ef : vget s 0 = Ok f) by (apply vget_Ok; auto). rewrite Ef. cbn [rbind].
  destruct (back_last s Hn) as (b & Eb & Hb).
  destruct (Qle_bool_spec w f) as [H|H].
  { exists 0%nat. repeat split; auto.
    - intros; lia.
    - intros j x _ Hj Hx. destruct j as [|j]; [rewrite Hf in Hx; inversion Hx; subst; auto|].
      assert (f < x) by (apply (Hs 0%nat (S j)); auto; lia). lra.
    - intros x Hx. left. congruence. }
  rewrite Eb. cbn [rbind].
  destruct (Qle_bool_spec b w) as [K|K].
  { exists (length s - 1)%nat. repeat split; auto; try lia.
    - intros j x Hj Hx. assert (x < b) by (apply (Hs j (length s - 1)%nat); auto; lia). lra. }
  exists (lower_bound s w).
  assert (HL : (lower_bound s w <= length s - 1)%nat).
  { destruct (le_lt_dec (lower_bound s w) (length s - 1)) as [?|G]; auto.
    pose proof (lower_bound_before _ _ _ _ G Hb). lra. }
  repeat split; try lia.
  - intros j x Hj Hx. eapply lower_bound_before; eauto.
  - intros j x _ Hj Hx. eapply lower_bound_from; eauto.
  - intros x Hx. left. eapply lower_bound_at; eauto.
Qed.

Lemma sum_steps_tele s : forall n i acc x y, nth_error s i = Some x -> nth_error s (i + n) = Some y ->
  exists r, sum_steps s i n acc = Ok r /\ r == acc + (y - x).
Proof.
  induction n as [|n IH]; intros i acc x y Hx Hy.
  - rewrite Nat.add_0_r in Hy. rewrite Hx in Hy. inversion Hy; subst. exists acc. split; [reflexivity|lra].
  - destruct (nth_error_lt s (S i)) as [z Hz]; [apply nth_error_len in Hy; lia|].
    cbn [sum_steps]. unfold vget. rewrite Hz, Hx. cbn [rbind].
    destruct (IH (S i) (acc + (z - x)) z y) as (r & Hr & Er); auto.
    { replace (S i + n)%nat with (i + S n)%nat by lia. exact Hy. }
    exists r. split; auto. rewrite Er. lra.
Qed.

Lemma GetMeanResolution_ok s f b : nth_error s 0 = Some f -> nth_error s (length s - 1) = Some b ->
  (2 <= length s)%nat ->
  exists r, GetMeanResolution s = Ok r /\ r == (b - f) / inject_Z (Z.of_nat (length s) - 1).
Proof.
  intros Hf Hb Hn. unfold GetMeanResolution, GetMeanResolution_range.
  destruct (Z.ltb_spec (Z.of_nat (length s) - 1 - 0) 1); [lia|].
  destruct (Z.ltb_spec 0 0); [lia|].
  destruct (sum_steps_tele s (Z.to_nat (Z.of_nat (length s) - 1 - 0)) (Z.to_nat 0) 0 f b) as (r & Hr & Er); auto.
  { replace (Z.to_nat 0 + Z.to_nat (Z.of_nat (length s) - 1 - 0))%nat with (length s - 1)%nat by lia. exact Hb. }
  rewrite Hr. cbn [rbind]. eexists; split; [reflexivity|].
  rewrite Er. rewrite Z.sub_0_r. setoid_replace (0 + (b - f)) with (b - f) by ring. reflexivity.
Qed.
Lemma GetMeanResolution_short s : (length s < 2)%nat -> GetMeanResolution s = Ok 0.
Proof.
  intro H. unfold GetMeanResolution, GetMeanResolution_range.
  destruct (Z.ltb_spec (Z.of_nat (length s) - 1 - 0) 1); [reflexivity|lia].
Qed.

Lemma GetMask_ok s r : length (GetMask s r) = length s /\
  forall i x, nth_error s i = Some x ->
    (inside r x -> nth_error (GetMask s r) i = Some 1%N) /\ (~ inside r x -> nth_error (GetMask s r) i = Some 0%N).
Proof.
  split; [apply map_length|]. intros i x Hx. unfold GetMask. rewrite nth_error_map, Hx. cbn [option_map].
  unfold in_lambda, inside. destruct (Qle_bool_spec (rbeg r) x); destruct (Qle_bool_spec x (rend r)); simpl; split; intro H; auto; tauto.
Qed.

Lemma overlap_counts_ok r om : forall s i c, (i + length s <= length om)%nat ->
  overlap_counts s r om i c =
  Ok ((fst c + count_if (fun j => in_lambda r (nth (j - i) s 0%Q) && negb (nth j om 0 =? 0)%N)%bool (seq i (length s)))%Z,
      (snd c + count_if (in_lambda r) s)%Z).
Proof.
  induction s as [|x t IH]; intros i c Hl.
  - cbn. unfold count_if. simpl. destruct c; simpl. rewrite !Z.add_0_r. reflexivity.
  - cbn [overlap_counts]. simpl in Hl.
    assert (Hm : nth_error om i = Some (nth i om 0%N)) by (apply nth_error_nth'; lia).
    assert (T : count_if (fun j => in_lambda r (nth (j - i) (x :: t) 0%Q) && negb (nth j om 0 =? 0)%N)%bool (seq (S i) (length t))
              = count_if (fun j => in_lambda r (nth (j - S i) t 0%Q) && negb (nth j om 0 =? 0)%N)%bool (seq (S i) (length t))).
    { unfold count_if. f_equal. f_equal. apply filter_ext_in. intros j Hj. apply in_seq in Hj.
      replace (j - i)%nat with (S (j - S i)) by lia. reflexivity. }
    assert (U : forall f : nat -> bool, count_if f (seq i (length (x :: t))) = ((if f i then 1 else 0) + count_if f (seq (S i) (length t)))%Z).
    { intro f. unfold count_if. cbn [length seq filter]. destruct (f i); cbn [length]; lia. }
    rewrite U, T. rewrite Nat.sub_diag. cbn [nth].
    assert (V : count_if (in_lambda r) (x :: t) = ((if in_lambda r x then 1 else 0) + count_if (in_lambda r) t)%Z).
    { unfold count_if. cbn [filter]. destruct (in_lambda r x); cbn [length]; lia. }
    rewrite V. destruct (in_lambda r x) eqn:E.
    + unfold vget. rewrite Hm. cbn [rbind]. rewrite IH; [|lia]. cbn [fst snd andb].
      destruct (nth i om 0 =? 0)%N; cbn [negb]; f_equal; f_equal; lia.
    + rewrite IH; [|lia]. cbn [andb]. f_equal.
Qed.

Lemma overlap_axis_ok s r om : length s = length om ->
  let selected := count_if (in_lambda r) s in
  let both := count_if (fun j => in_lambda r (nth j s 0%Q) && negb (nth j om 0 =? 0)%N)%bool (seq 0 (length s)) in
  IntersectMaskAndComputeOverlapFraction_axis s r om =
    Ok (if (selected =? 0)%Z then 0 else inject_Z both / inject_Z selected).
Proof.
  intros Hl. cbv zeta. unfold IntersectMaskAndComputeOverlapFraction_axis. rewrite overlap_counts_ok; [|lia].
  cbn [rbind fst snd]. rewrite !Z.add_0_l.
  assert (E : count_if (fun j => in_lambda r (nth (j - 0) s 0%Q) && negb (nth j om 0 =? 0)%N)%bool (seq 0 (length s))
            = count_if (fun j => in_lambda r (nth j s 0%Q) && negb (nth j om 0 =? 0)%N)%bool (seq 0 (length s))).
  { unfold count_if. f_equal. f_equal. apply filter_ext. intro j. rewrite Nat.sub_0_r. reflexivity. }
  rewrite E. destruct (count_if (in_lambda r) s =? 0)%Z; reflexivity.
Qed.

Lemma ClampLambdaRange_ok s r f b : (2 <= length s)%nat ->
  nth_error s 0 = Some f -> nth_error s (length s - 1) = Some b -> f < b -> rbeg r < rend r ->
  (rbeg r < b /\ f < rend r ->
     exists c, ClampLambdaRange s r = Ok c /\ rbeg c < rend c /\
       forall x, inside c x <-> inside r x /\ f <= x /\ x <= b) /\
  (~ (rbeg r < b /\ f < rend r) -> ClampLambdaRange s r = Throw INVALID_WAVELENGTH_RANGE).
Proof.
  intros Hn Hf Hb Hfb Hr. unfold ClampLambdaRange, GetLambdaRange.
  destruct (Nat.ltb_spec (length s) 2); [lia|].
  unfold front, vget. rewrite Hf. cbn [rbind].
  destruct (back_last s) as (b' & Eb & Hb'); [lia|]. rewrite Hb in Hb'. inversion Hb'; subst b'.
  rewrite Eb. cbn [rbind]. unfold GetIsEmpty. cbn [rbeg rend].
  destruct (Qeq_bool_spec (rbeg r) (rend r)); [lra|]. destruct (Qeq_bool_spec f b); [lra|].
  destruct (Qltb_spec (rbeg r) f); destruct (Qltb_spec b (rend r)); qcase; split; intro K;
    try (exfalso; apply K; split; lra); try (exfalso; lra); auto;
    try (eexists; split; [reflexivity|]; cbn [rbeg rend]; split; [lra|]; intro x; unfold inside; cbn [rbeg rend]; intuition lra).
Qed.
Lemma ClampLambdaRange_errors s r :
  (rbeg r == rend r -> ClampLambdaRange s r = Throw INVALID_WAVELENGTH_RANGE) /\
  (~ rbeg r == rend r -> (length s < 2)%nat -> ClampLambdaRange s r = Throw INVALID_SPECTRUM_WAVELENGTH).
Proof.
  unfold ClampLambdaRange, GetLambdaRange, GetIsEmpty. split.
  - intro H. destruct (Nat.ltb_spec (length s) 2) as [L|L]; cbn [rbind].
    + destruct (Qeq_bool_spec (rbeg r) (rend r)); [reflexivity|contradiction].
    + unfold front. destruct (nth_error_lt s 0) as [f Hf]; [lia|]. unfold vget. rewrite Hf. cbn [rbind].
      destruct (back_last s) as (b & Eb & _); [lia|]. rewrite Eb. cbn [rbind].
      destruct (Qeq_bool_spec (rbeg r) (rend r)); [reflexivity|contradiction].
  - intros H L. destruct (Nat.ltb_spec (length s) 2); [|lia]. cbn [rbind].
    destruct (Qeq_bool_spec (rbeg r) (rend r)); [contradiction|]. reflexivity.
Qed.

Definition same_samples (a b : list Q) : Prop := Forall2 Qeq a b.
Lemma Shift_ok s off d : 0 < off ->
  exists s', ShiftByWaveLength s off d = Ok s' /\ length s' = length s /\
    (forall i x, nth_error s i = Some x -> exists y, nth_error s' i = Some y /\
        y == match d with nShiftForward => x * off | nShiftBackward => x / off end) /\
    exists s'', ShiftByWaveLength s' off (match d with nShiftForward => nShiftBackward | _ => nShiftForward end) = Ok s'' /\
      Forall2 Qeq s'' s.
Proof.
  intros H. unfold ShiftByWaveLength. destruct (Qltb_spec off 0); [lra|]. destruct (Qeq_bool_spec off 0); [lra|].
  destruct d.
  - eexists; split; [reflexivity|]. split; [apply map_length|]. split.
    + intros i x Hx. rewrite nth_error_map, Hx. simpl. eexists; split; reflexivity.
    + eexists; split; [reflexivity|]. rewrite map_map. clear n0 n. induction s; simpl; constructor; auto.
      field. lra.
  - eexists; split; [reflexivity|]. split; [apply map_length|]. split.
    + intros i x Hx. rewrite nth_error_map, Hx. simpl. eexists; split; reflexivity.
    + eexists; split; [reflexivity|]. rewrite map_map. clear n0 n. induction s; simpl; constructor; auto.
      field. lra.
Qed.

Lemma Shift_edge s off d : (off < 0 -> ShiftByWaveLength s off d = Throw INTERNAL_ERROR) /\
  (off == 0 -> ShiftByWaveLength s off d = Ok s).
Proof.
  unfold ShiftByWaveLength. split; intro H; destruct (Qltb_spec off 0); try lra; auto.
  destruct (Qeq_bool_spec off 0); [reflexivity|contradiction].
Qed.

Lemma GetResolution_ok s w : strictly_increasing s -> (2 <= length s)%nat ->
  exists i x y, nth_error s i = Some x /\ nth_error s (S i) = Some y /\ GetResolution s w = Ok (y - x) /\ 0 < y - x /\
    (0 <= w -> (i = 0%nat \/ x < w) /\ (w <= y \/ S i = (length s - 1)%nat)).
Proof.
  intros Hs Hn. unfold GetResolution. destruct (Nat.ltb_spec (length s) 2); [lia|].
  destruct (Qle_bool_spec 0 w) as [Hw|Hw].
  - destruct (GetIndexAtWaveLength_ok s w Hs) as (k & Ek & Hk & Hbefore & Hafter & Hat); [lia|].
    rewrite Ek. cbn [rbind]. destruct (Nat.ltb_spec (length s - 1) k); [lia|].
    destruct (Nat.ltb_spec k 1) as [K|K].
    + assert (k = 0%nat) by lia; subst k.
      destruct (nth_error_lt s 0) as [x Hx]; [lia|]. destruct (nth_error_lt s 1) as [y Hy]; [lia|].
      exists 0%nat, x, y. unfold vget. rewrite Hy, Hx. cbn [rbind Nat.sub]. unfold vget. rewrite Hx. cbn.
      assert (x < y) by (apply (Hs 0%nat 1%nat); auto).
      repeat split; auto; try lra. left. apply (Hafter 1%nat); auto; try lia.
    + destruct (nth_error_lt s (k - 1)) as [x Hx]; [lia|]. destruct (nth_error_lt s k) as [y Hy]; [lia|].
      exists (k - 1)%nat, x, y. replace (S (k - 1))%nat with k by lia.
      unfold vget. rewrite Hy, Hx. cbn.
      assert (x < y) by (apply (Hs (k-1)%nat k); auto; lia).
      repeat split; auto; try lra.
      right. apply (Hbefore (k - 1)%nat); auto; lia.
  - destruct (nth_error_lt s 0) as [x Hx]; [lia|]. destruct (nth_error_lt s 1) as [y Hy]; [lia|].
    exists 0%nat, x, y. unfold vget. rewrite Hy, Hx. cbn.
    assert (x < y) by (apply (Hs 0%nat 1%nat); auto).
    repeat split; auto; try lra.
Qed.

Lemma Qround_away_close x : Qabs (x - inject_Z (Qround_away x)) <= 1#2.
Proof.
  unfold Qround_away. destruct (Qltb_spec x 0).
  - pose proof (Qle_ceiling (x - (1#2))). pose proof (Qceiling_lt (x - (1#2))).
    assert (inject_Z (Qceiling (x - (1#2)) - 1) == inject_Z (Qceiling (x - (1#2))) - 1) by (unfold Z.sub; rewrite inject_Z_plus; reflexivity).
    apply Qabs_Qle_condition. split; lra.
  - pose proof (Qfloor_le (x + (1#2))). pose proof (Qlt_floor (x + (1#2))).
    rewrite inject_Z_plus in H0. change (inject_Z 1) with 1 in H0.
    apply Qabs_Qle_condition. split; lra.
Qed.

Lemma GetLogSamplingIntegerRatio_ok step logstep ratio modulo : 0 < step ->
  GetLogSamplingIntegerRatio true step logstep = Ok (ratio, modulo) ->
  logstep == inject_Z ratio * step + modulo /\ Qabs modulo <= step / 2.
Proof.
  intros Hs. unfold GetLogSamplingIntegerRatio. cbn [negb].
  destruct (Qeq_bool_spec step 0); [lra|].
  destruct ((-2147483648 <=? Qround_away (logstep / step))%Z && (Qround_away (logstep / step) <=? 2147483647)%Z)%bool; [|discriminate].
  intro H; inversion H; subst. split; [ring|].
  pose proof (Qround_away_close (logstep / step)) as C.
  set (z := inject_Z (Qround_away (logstep / step))) in *.
  apply Qabs_Qle_condition in C. destruct C as [C1 C2].
  assert (E : logstep - z * step == (logstep / step - z) * step) by (field; lra).
  apply Qabs_Qle_condition. rewrite E.
  setoid_replace (step / 2) with ((1#2) * step) by (field).
  set (t := logstep / step - z) in *. clearbody t.
  split; nra.
Qed.
