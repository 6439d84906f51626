From Coq Require Import NArith String.
From Verif Require Import Base MaskModel MaskSpec.
Open Scope N_scope.

Lemma and_masks_length a : forall b, length a = length b -> length (and_masks a b) = length a.
Proof. induction a as [|x a IH]; destruct b; simpl; intro H; try discriminate; auto. Qed.
Lemma and_masks_nth a : forall b i x y, nth_error a i = Some x -> nth_error b i = Some y ->
  nth_error (and_masks a b) i = Some (N.land x y).
Proof.
  induction a as [|u a IH]; intros b i x y Hx Hy; destruct i, b; simpl in *; try discriminate.
  - congruence.
  - apply IH; auto.
Qed.
Lemma IntersectWith_spec a b :
  (length a = length b -> exists m, MaskIntersectWith a b = (true, m) /\ length m = length a /\
     forall i x y, nth_error a i = Some x -> nth_error b i = Some y -> nth_error m i = Some (N.land x y)) /\
  (length a <> length b -> MaskIntersectWith a b = (false, a)) /\
  MaskAndAssign a b = snd (MaskIntersectWith a b).
Proof.
  unfold MaskIntersectWith, MaskAndAssign. destruct (Nat.eqb_spec (length a) (length b)) as [E|E]; split; try split;
    intros; try contradiction; auto.
  exists (and_masks a b). split; [reflexivity|]. split; [apply and_masks_length; exact E|].
  intros; apply and_masks_nth; auto.
Qed.
Lemma kept_S a m i : kept (a :: m) (S i) = kept m i. Proof. reflexivity. Qed.
Lemma filter_seq_shift f n : forall k, length (filter f (seq (S k) n)) = length (filter (fun i => f (S i)) (seq k n)).
Proof. induction n as [|n IH]; intro k; simpl; [reflexivity|]. destruct (f (S k)); simpl; rewrite IH; reflexivity. Qed.
Lemma sum_mask_binary m : binary m -> sum_mask m = Z.of_nat (number_kept m).
Proof.
  induction 1 as [|x m Hx Hm IH]; [reflexivity|].
  unfold number_kept. cbn [length seq filter]. cbn [sum_mask]. rewrite IH.
  assert (E : length (filter (kept (x :: m)) (seq 1 (length m))) = number_kept m).
  { rewrite filter_seq_shift. reflexivity. }
  unfold kept at 1. cbn [nth_error]. destruct Hx; subst x; cbn [length]; rewrite E; lia.
Qed.
Lemma number_kept_and a : forall b, binary a -> binary b -> length a = length b ->
  number_kept (and_masks b a) = number_kept_by_both a b.
Proof.
  unfold number_kept, number_kept_by_both.
  intros b Ha Hb E. rewrite and_masks_length by auto. rewrite <- E. f_equal. apply filter_ext_in. intros i Hi.
  apply in_seq in Hi. destruct (nth_error_lt a i) as [x Hx]; [lia|]. destruct (nth_error_lt b i) as [y Hy]; [lia|].
  unfold kept. rewrite (and_masks_nth b a i y x Hy Hx), Hx, Hy.
  unfold binary in *. rewrite Forall_forall in Ha, Hb.
  destruct (Ha x (nth_error_In _ _ Hx)); destruct (Hb y (nth_error_In _ _ Hy)); subst; reflexivity.
Qed.
Lemma and_binary a : forall b, binary a -> binary b -> binary (and_masks a b).
Proof.
  unfold binary. induction a as [|x a IH]; intros b Ha Hb; destruct b; simpl; try constructor.
  - inversion Ha; inversion Hb; subst. destruct H1, H5; subst; auto.
  - inversion Ha; inversion Hb; subst. apply IH; auto.
Qed.
Lemma sum_mask_nonneg m : (0 <= sum_mask m)%Z.
Proof. induction m; simpl; lia. Qed.
Lemma land_le x y : N.land y x <= x.
Proof.
  destruct (N.eq_dec (N.land y x) 0) as [E|E]; [rewrite E; apply N.le_0_l|].
  apply N.ldiff_le. apply N.bits_inj_iff. intro n. rewrite N.ldiff_spec, N.land_spec, N.bits_0.
  destruct (N.testbit y n), (N.testbit x n); reflexivity.
Qed.
Lemma sum_and_le a : forall b, (sum_mask (and_masks b a) <= sum_mask a)%Z.
Proof.
  induction a as [|x a IH]; intro b; destruct b as [|y b]; simpl; try lia.
  - pose proof (sum_mask_nonneg a). lia.
  - specialize (IH b). pose proof (land_le x y). lia.
Qed.

Lemma fraction_in_unit p q : (0 <= p)%Z -> (p <= q)%Z -> (0 < q)%Z ->
  (0 <= inject_Z p / inject_Z q /\ inject_Z p / inject_Z q <= 1)%Q.
Proof.
  intros H1 H2 H3. assert (Hq : (0 < inject_Z q)%Q) by (rewrite <- (Zlt_Qlt 0); exact H3). split.
  - apply Qle_shift_div_l; [exact Hq|]. rewrite Qmult_0_l. rewrite <- (Zle_Qle 0). exact H1.
  - apply Qle_shift_div_r; [exact Hq|]. rewrite Qmult_1_l. rewrite <- Zle_Qle. exact H2.
Qed.

Lemma overlap_spec a b :
  (length a <> length b -> IntersectAndComputeOverlapFraction a b = (-1)%Q /\ CompouteOverlapFraction a b = (-1)%Q) /\
  (length a = length b ->
     (0 <= IntersectAndComputeOverlapFraction a b /\ IntersectAndComputeOverlapFraction a b <= 1)%Q /\
     (binary a -> binary b ->
        if Nat.eqb (number_kept a) 0 then IntersectAndComputeOverlapFraction a b = 0%Q
        else IntersectAndComputeOverlapFraction a b =
             (inject_Z (Z.of_nat (number_kept_by_both a b)) / inject_Z (Z.of_nat (number_kept a)))%Q)).
Proof.
  unfold IntersectAndComputeOverlapFraction, CompouteOverlapFraction.
  destruct (Nat.eqb_spec (length b) (length a)) as [E|E]; simpl negb; cbv iota; split; intro H;
    try (symmetry in E; contradiction); auto.
  2:{ exfalso; apply E; auto. }
  split.
  - destruct (Z.eqb_spec (sum_mask a) 0) as [Z0|Z0]; [split; discriminate|].
    pose proof (sum_mask_nonneg a). apply fraction_in_unit; try lia; [apply sum_mask_nonneg|apply sum_and_le].
  - intros Ha Hb. rewrite (sum_mask_binary a Ha), (sum_mask_binary (and_masks b a) (and_binary _ _ Hb Ha)).
    rewrite number_kept_and by auto.
    destruct (Nat.eqb_spec (number_kept a) 0) as [K|K].
    + rewrite K. reflexivity.
    + destruct (Z.eqb_spec (Z.of_nat (number_kept a)) 0); [lia|]. reflexivity.
Qed.

Lemma count_spec m : binary m ->
  GetUnMaskedSampleCount m = Z.of_nat (number_kept m) /\
  GetMaskedSampleCount m = (Z.of_nat (length m) - Z.of_nat (number_kept m))%Z.
Proof. intro H. unfold GetMaskedSampleCount, GetUnMaskedSampleCount. rewrite (sum_mask_binary m H). auto. Qed.

(** CompouteOverlapFraction may exceed 1 *)
Lemma CompouteOverlapFraction_above_one : exists a b, binary a /\ binary b /\ length a = length b /\
  (1 < CompouteOverlapFraction a b)%Q.
Proof. exists [1;0], [1;1]. unfold binary. repeat split; auto. Qed.

(** ** flags *)
Lemma flag_run_app ops o : flag_run (ops ++ [o]) = flag_step (flag_run ops) o.
Proof. unfold flag_run. rewrite fold_left_app. reflexivity. Qed.
Definition is_reset (x : flag_op) : bool := match x with OpReset => true | _ => false end.
Lemma since_reset_none ops : existsb is_reset ops = false -> since_reset ops = ops.
Proof.
  destruct ops as [|o t]; [reflexivity|]. intro H. cbn [since_reset]. fold is_reset.
  change (fun x : flag_op => match x with OpWarning _ _ => false | OpReset => true end) with is_reset. rewrite H. reflexivity.
Qed.
Lemma since_reset_app_warning ops c m : since_reset (ops ++ [OpWarning c m]) = since_reset ops ++ [OpWarning c m].
Proof.
  induction ops as [|o t IH]; [reflexivity|]. cbn [since_reset app].
  change (fun x : flag_op => match x with OpWarning _ _ => false | OpReset => true end) with is_reset.
  change (o :: t ++ [OpWarning c m]) with ((o :: t) ++ [OpWarning c m]).
  rewrite existsb_app. cbn [existsb is_reset]. rewrite !orb_false_r.
  destruct (is_reset o || existsb is_reset t)%bool; [exact IH|reflexivity].
Qed.
Lemma since_reset_app_reset ops : since_reset (ops ++ [OpReset]) = [].
Proof.
  induction ops as [|o t IH]; [reflexivity|]. cbn [since_reset app].
  change (fun x : flag_op => match x with OpWarning _ _ => false | OpReset => true end) with is_reset.
  change (o :: t ++ [OpReset]) with ((o :: t) ++ [OpReset]).
  rewrite existsb_app. cbn [existsb is_reset]. rewrite !orb_true_r. exact IH.
Qed.
Lemma warnings_app a b : warnings (a ++ b) = warnings a ++ warnings b.
Proof. induction a as [|[c m|] a IH]; simpl; rewrite ?IH; reflexivity. Qed.

Lemma flag_history ops :
  getListMessages (flag_run ops) = warnings (since_reset ops) /\
  forall k, N.testbit (getBitMask (flag_run ops)) k = true <-> exists m, In (k, m) (warnings (since_reset ops)).
Proof.
  unfold getListMessages, getBitMask.
  induction ops as [|o ops IH] using rev_ind.
  - split; [reflexivity|]. intro k. change (f_bits (flag_run [])) with 0. rewrite N.bits_0. simpl. split; [discriminate|intros [m []]].
  - rewrite flag_run_app. destruct IH as [I1 I2]. destruct o as [c m|].
    + rewrite since_reset_app_warning, warnings_app. cbn [flag_step f_messages f_bits warnings].
      split; [rewrite I1; reflexivity|]. intro k. rewrite N.lor_spec, orb_true_iff, I2.
      rewrite N.shiftl_1_l, N.pow2_bits_eqb. split.
      * intros [[m' H]|H]; [exists m'; apply in_or_app; auto|].
        apply N.eqb_eq in H. subst. exists m. apply in_or_app. right. simpl. auto.
      * intros [m' H]. apply in_app_or in H. destruct H as [H|[H|[]]]; [left; eauto|].
        inversion H; subst. right. apply N.eqb_refl.
    + rewrite since_reset_app_reset. cbn [flag_step f_messages f_bits warnings]. split; [reflexivity|].
      intro k. rewrite N.bits_0. split; [discriminate|intros [m []]].
Qed.

(** the word fits Int32 and is non-negative for the 18 declared codes *)
Lemma flag_word_fits ops : (forall c m, In (OpWarning c m) ops -> c < 18) -> getBitMask (flag_run ops) < 2 ^ 18.
Proof.
  intro H. destruct (N.eq_dec (getBitMask (flag_run ops)) 0) as [E|E]; [rewrite E; reflexivity|].
  apply N.log2_lt_pow2; [lia|].
  set (k := N.log2 (getBitMask (flag_run ops))).
  assert (T : N.testbit (getBitMask (flag_run ops)) k = true) by (apply N.bit_log2; exact E).
  apply (proj2 (flag_history ops)) in T. destruct T as [m Hm].
  apply (H k m).
  assert (S : forall l, In (k, m) (warnings l) -> In (OpWarning k m) l).
  { induction l as [|[c' m'|] l IH]; simpl; auto. intros [X|X]; [inversion X; auto|auto]. }
  apply S in Hm. clearbody k. clear -Hm. induction ops as [|o t IH]; [exact Hm|]. cbn [since_reset] in Hm.
  destruct (existsb _ _) in Hm; [right; apply IH; exact Hm|exact Hm].
Qed.
