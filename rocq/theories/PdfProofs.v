From Verif Require Import Base RBase RangeModel PdfModel PdfSpec.
Open Scope R_scope.

Lemma rlog_pos x : 0 < x -> rlog x = Ok (ln x).
Proof. intro H. unfold rlog. destruct (Rltb_spec x 0); rcase; auto; lra. Qed.

Lemma map_repeat' {A B} (f : A -> B) a n : map f (repeat a n) = repeat (f a) n.
Proof. induction n as [|n IH]; simpl; [reflexivity|]. rewrite IH. reflexivity. Qed.
Lemma skipn_cons {A} (l : list A) k x : nth_error l k = Some x -> skipn k l = x :: skipn (S k) l.
Proof.
  revert k; induction l as [|a l IH]; intros k H; [destruct k; discriminate|].
  destruct k as [|k]; simpl in *; [injection H as ->; reflexivity|]. apply IH, H.
Qed.
Lemma Rinc_tail a l : Rstrictly_increasing (a :: l) -> Rstrictly_increasing l.
Proof. intros H i j x y Hij Hx Hy. apply (H (S i) (S j)); simpl; auto; lia. Qed.
Lemma Rinc_two a b l : Rstrictly_increasing (a :: b :: l) -> a < b.
Proof. intro H. apply (H 0%nat 1%nat); simpl; auto. Qed.

Lemma trapz_cons x y z a b f : trapz (x :: y :: z) (a :: b :: f) = (a + b) / 2 * (y - x) + trapz (y :: z) (b :: f).
Proof. reflexivity. Qed.
Lemma trapz_one x f : trapz [x] f = 0.
Proof. destruct f; reflexivity. Qed.
Lemma trapz_scale z f c : trapz z (map (fun x => c * x) f) = c * trapz z f.
Proof.
  revert f; induction z as [|x [|y z] IH]; intro f.
  - destruct f; simpl; lra.
  - rewrite !trapz_one. lra.
  - destruct f as [|a [|b f]]; try (simpl; lra). cbn [map]. rewrite !trapz_cons.
    specialize (IH (b :: f)). cbn [map] in IH. rewrite IH. lra.
Qed.
Lemma trapz_nonneg z f : Rstrictly_increasing z -> Forall (fun x => 0 < x) f -> 0 <= trapz z f.
Proof.
  revert f; induction z as [|x [|y z] IH]; intros f Hz Hf.
  - destruct f; simpl; lra.
  - rewrite trapz_one. lra.
  - destruct f as [|a [|b f]]; try (simpl; lra). rewrite trapz_cons.
    inversion Hf as [|? ? Ha Hf']; subst. inversion Hf' as [|? ? Hb _]; subst.
    pose proof (Rinc_two _ _ _ Hz). specialize (IH (b :: f) (Rinc_tail _ _ Hz) Hf'). nra.
Qed.
Lemma trapz_pos z f : grid z -> (length z <= length f)%nat -> Forall (fun x => 0 < x) f -> 0 < trapz z f.
Proof.
  intros [Hl Hz] Hlf Hf. destruct z as [|x [|y z]]; simpl in Hl; try lia.
  destruct f as [|a [|b f]]; simpl in Hlf; try lia. rewrite trapz_cons.
  inversion Hf as [|? ? Ha Hf']; subst. inversion Hf' as [|? ? Hb _]; subst.
  pose proof (Rinc_two _ _ _ Hz). pose proof (trapz_nonneg (y :: z) (b :: f) (Rinc_tail _ _ Hz) Hf'). nra.
Qed.
Lemma Forall_exp l : Forall (fun x => 0 < x) (map exp l).
Proof. apply Forall_forall. intros x H. apply in_map_iff in H. destruct H as [y [<- _]]. apply exp_pos. Qed.

(** ** logSumExpTrick *)
Lemma lse_sum_spec v z L : (length z <= length v)%nat -> forall n k a prev s,
  (k + n = length z)%nat -> (0 < k)%nat -> nth_error v (k - 1) = Some a -> prev = exp (a - L) ->
  lse_sum v z L k n prev s = Ok (s + trapz (skipn (k - 1) z) (map (fun x => exp (x - L)) (skipn (k - 1) v))).
Proof.
  intros Hl. induction n as [|n IH]; intros k a prev s Hk Hk0 Ha ->.
  - simpl. f_equal. destruct (nth_error z (k - 1)) as [b|] eqn:Eb.
    2:{ apply nth_error_None in Eb. lia. }
    rewrite (skipn_cons _ _ _ Eb). replace (S (k - 1)) with (length z) by lia. rewrite skipn_all, trapz_one. lra.
  - simpl. destruct (vget_in v k) as [x Hx]; [lia|]. destruct (vget_in z k) as [b Hb]; [lia|].
    destruct (vget_in z (k - 1)) as [c Hc]; [lia|]. rewrite Hx, Hb, Hc. cbn [rbind].
    rewrite (IH (S k) x); [|lia|lia|simpl; rewrite Nat.sub_0_r; apply vget_Ok; exact Hx|reflexivity].
    f_equal. apply vget_Ok in Hx, Hb, Hc.
    rewrite (skipn_cons _ _ _ Hc), (skipn_cons _ _ _ Ha). replace (S (k - 1)) with k by lia.
    replace (S k - 1)%nat with k by lia.
    rewrite (skipn_cons _ _ _ Hb), (skipn_cons _ _ _ Hx). cbn [map]. rewrite trapz_cons. lra.
Qed.

(** weights of the trapezoid rule; [h] is the half step on the left *)
Fixpoint weights (h : R) (z : list R) : list R :=
  match z with
  | [] => []
  | x :: t => match t with [] => [h] | y :: _ => (h + (y - x) / 2) :: weights ((y - x) / 2) t end
  end.
Fixpoint dot (w f : list R) : R := match w, f with a :: w', b :: f' => a * b + dot w' f' | _, _ => 0 end.
Lemma weights_length z : forall h, length (weights h z) = length z.
Proof. induction z as [|x [|y t] IH]; intro h; try reflexivity. change (S (length (weights ((y - x) / 2) (y :: t))) = S (length (y :: t))). rewrite IH. reflexivity. Qed.
Lemma trapz_dot z : forall h a f, (length z <= length (a :: f))%nat -> (0 < length z)%nat ->
  h * a + trapz z (a :: f) = dot (weights h z) (a :: f).
Proof.
  induction z as [|x [|y t] IH]; intros h a f Hl H0.
  - simpl in H0. lia.
  - rewrite trapz_one. simpl. lra.
  - destruct f as [|b f]; [simpl in Hl; lia|]. rewrite trapz_cons.
    change (dot (weights h (x :: y :: t)) (a :: b :: f)) with ((h + (y - x) / 2) * a + dot (weights ((y - x) / 2) (y :: t)) (b :: f)).
    rewrite <- IH; [lra|simpl in *; lia|simpl; lia].
Qed.
Lemma weights_nth z : forall h k, (k < length z)%nat ->
  nth_error (weights h z) k =
  Some ((match k with O => h | S p => (nth k z 0 - nth p z 0) / 2 end) +
        (if Nat.eqb k (length z - 1) then 0 else (nth (S k) z 0 - nth k z 0) / 2)).
Proof.
  induction z as [|x [|y t] IH]; intros h k Hk.
  - simpl in Hk. lia.
  - simpl in Hk. assert (k = O) by lia. subst. simpl. f_equal. lra.
  - change (weights h (x :: y :: t)) with ((h + (y - x) / 2) :: weights ((y - x) / 2) (y :: t)).
    destruct k as [|k].
    + simpl. reflexivity.
    + cbn [nth_error]. rewrite IH by (simpl in *; lia). f_equal.
      assert (Nat.eqb (S k) (length (x :: y :: t) - 1) = Nat.eqb k (length (y :: t) - 1)) as ->.
      { cbn [length]. destruct (Nat.eqb_spec (S k) (S (S (length t)) - 1)); destruct (Nat.eqb_spec k (S (length t) - 1)); auto; lia. }
      destruct k as [|k]; reflexivity.
Qed.
Lemma vget_nth (z : list R) k : (k < length z)%nat -> vget z k = Ok (nth k z 0).
Proof. intro H. unfold vget. rewrite (nth_error_nth' z 0 H). reflexivity. Qed.
Lemma lse_zstep_spec z k : (2 <= length z)%nat -> (k < length z)%nat ->
  exists w, lse_zstep z k = Ok w /\ nth_error (weights 0 z) k = Some w.
Proof.
  intros H2 Hk. rewrite (weights_nth z 0 k Hk). unfold lse_zstep.
  destruct (Nat.eqb_spec k 0) as [->|N0].
  - rewrite !vget_nth by lia. cbn [rbind]. eexists; split; [reflexivity|]. f_equal.
    destruct (Nat.eqb_spec 0 (length z - 1)); [lia|]. simpl. lra.
  - destruct k as [|k]; [lia|]. replace (S k - 1)%nat with k by lia. replace (S k + 1)%nat with (S (S k)) by lia.
    destruct (Nat.eqb_spec (S k) (length z - 1)) as [E|E].
    + rewrite !vget_nth by lia. cbn [rbind]. eexists; split; [reflexivity|]. f_equal. lra.
    + rewrite !vget_nth by lia. cbn [rbind]. eexists; split; [reflexivity|]. f_equal. lra.
Qed.
Lemma weights_pos z : (2 <= length z)%nat -> Rstrictly_increasing z -> forall k w, nth_error (weights 0 z) k = Some w -> 0 < w.
Proof.
  intros H2 Hz k w Hw.
  assert (Hk : (k < length z)%nat) by (rewrite <- (weights_length z 0); apply nth_error_Some; congruence).
  rewrite (weights_nth z 0 k Hk) in Hw. injection Hw as <-.
  assert (St : forall i, (S i < length z)%nat -> nth i z 0 < nth (S i) z 0).
  { intros i Hi. apply (Hz i (S i)); [lia| |]; apply nth_error_nth'; lia. }
  destruct k as [|k].
  - destruct (Nat.eqb_spec 0 (length z - 1)); [lia|]. pose proof (St 0%nat). lra || (assert (nth 0 z 0 < nth 1 z 0) by (apply St; lia); lra).
  - assert (nth k z 0 < nth (S k) z 0) by (apply St; lia).
    destruct (Nat.eqb_spec (S k) (length z - 1)); [lra|]. assert (nth (S k) z 0 < nth (S (S k)) z 0) by (apply St; lia). lra.
Qed.

(** the factor is the largest of the log-weighted values (or the initial value) *)
Lemma lse_factor_spec v z : (2 <= length z)%nat -> Rstrictly_increasing z -> (length z <= length v)%nat ->
  forall n k L0, (k + n <= length z)%nat ->
  exists L, lse_factor v z k n L0 = Ok L /\ L0 <= L /\
    (forall j x w, (k <= j < k + n)%nat -> nth_error v j = Some x -> nth_error (weights 0 z) j = Some w -> x + ln w <= L) /\
    (L = L0 \/ exists j x w, (k <= j < k + n)%nat /\ nth_error v j = Some x /\ nth_error (weights 0 z) j = Some w /\ L = x + ln w).
Proof.
  intros H2 Hz Hv. induction n as [|n IH]; intros k L0 Hk.
  - exists L0. simpl. repeat split; [lra|intros; lia|left; reflexivity].
  - simpl. destruct (lse_zstep_spec z k H2 ltac:(lia)) as [w [Ew Nw]]. rewrite Ew. cbn [rbind].
    destruct (vget_in v k) as [x Hx]; [lia|]. rewrite Hx. cbn [rbind]. apply vget_Ok in Hx.
    pose proof (weights_pos z H2 Hz k w Nw) as Wp.
    destruct (IH (S k) (if (Rltb 0 w && Rltb L0 (x + ln w))%bool then x + ln w else L0) ltac:(lia)) as [L [E [H0 [H3 H4]]]].
    exists L. split; [exact E|]. destruct (Rltb_spec 0 w) as [_|N]; [|lra]. cbn [andb] in *.
    destruct (Rltb_spec L0 (x + ln w)) as [C|C].
    + split; [lra|]. split.
      * intros j y u Hj Hy Hu. destruct (Nat.eq_dec j k) as [->|Nj].
        { rewrite Hx in Hy. rewrite Nw in Hu. injection Hy as <-. injection Hu as <-. exact H0. }
        apply (H3 j); auto. lia.
      * right. destruct H4 as [->|[j [y [u [A B]]]]].
        { exists k, x, w. repeat split; auto; lia. }
        exists j, y, u. split; [lia|exact B].
    + split; [lra|]. split.
      * intros j y u Hj Hy Hu. destruct (Nat.eq_dec j k) as [->|Nj].
        { rewrite Hx in Hy. rewrite Nw in Hu. injection Hy as <-. injection Hu as <-. lra. }
        apply (H3 j); auto. lia.
      * destruct H4 as [->|[j [y [u [A B]]]]]; [left; reflexivity|right].
        exists j, y, u. split; [lia|exact B].
Qed.

Lemma map_exp_shift v L : map (fun x => exp (x - L)) v = map (fun x => exp (- L) * x) (map exp v).
Proof. rewrite map_map. apply map_ext. intro x. rewrite <- exp_plus. f_equal. lra. Qed.

Theorem lse_spec lowest v z : grid z -> (length z <= length v)%nat ->
  logSumExpTrick lowest v z = Ok (ln (trapz z (map exp v))).
Proof.
  intros [H2 Hz] Hv. unfold logSumExpTrick. destruct (Nat.ltb_spec (length z) 2); [lia|].
  destruct (lse_factor_spec v z H2 Hz Hv (length z) 0 lowest ltac:(lia)) as [L [-> _]]. cbn [rbind].
  destruct (vget_in v 0) as [v0 E0]; [lia|]. rewrite E0. cbn [rbind]. apply vget_Ok in E0.
  rewrite (lse_sum_spec v z L Hv (length z - 1) 1 v0); [|lia|lia|exact E0|reflexivity]. cbn [rbind].
  change (1 - 1)%nat with 0%nat. rewrite !skipn_O, Rplus_0_l, map_exp_shift, trapz_scale.
  assert (P : 0 < trapz z (map exp v)) by (apply trapz_pos; [split; auto|rewrite map_length; exact Hv|apply Forall_exp]).
  pose proof (exp_pos (- L)) as E. assert (P' : 0 < exp (- L) * trapz z (map exp v)) by (apply Rmult_lt_0_compat; auto).
  destruct (Reqb_spec (exp (- L) * trapz z (map exp v)) 0); [lra|]. rewrite rlog_pos by exact P'. cbn [rbind].
  f_equal. rewrite ln_mult by auto. rewrite ln_exp. lra.
Qed.

Lemma lse_short lowest v z : (length z < 2)%nat -> logSumExpTrick lowest v z = Throw INTERNAL_ERROR.
Proof. intro H. unfold logSumExpTrick. destruct (Nat.ltb_spec (length z) 2); [reflexivity|lia]. Qed.

Lemma lse_factor_short v z : (2 <= length z)%nat -> (length v < length z)%nat -> forall n k L0,
  (k <= length v)%nat -> (length v < k + n)%nat -> (k + n <= length z)%nat -> lse_factor v z k n L0 = UB.
Proof.
  intros H2 Hv. induction n as [|n IH]; intros k L0 H1 H3 H4; [lia|].
  simpl. destruct (lse_zstep_spec z k H2 ltac:(lia)) as [w [-> _]]. cbn [rbind].
  destruct (Nat.eq_dec k (length v)) as [->|N].
  - unfold vget. rewrite (proj2 (nth_error_None v (length v))) by lia. reflexivity.
  - destruct (vget_in v k) as [x ->]; [lia|]. cbn [rbind]. apply IH; lia.
Qed.
Lemma lse_values_short lowest v z : (2 <= length z)%nat -> (length v < length z)%nat -> logSumExpTrick lowest v z = UB.
Proof.
  intros H2 Hv. unfold logSumExpTrick. destruct (Nat.ltb_spec (length z) 2); [lia|].
  rewrite lse_factor_short; auto; lia.
Qed.

(** the terms summed after the shift are between 1 and the number of samples *)
Lemma dot_bounds : forall w f n, length w = n -> length f = n -> (forall k a b, nth_error w k = Some a -> nth_error f k = Some b -> 0 < a * b <= 1) ->
  0 <= dot w f <= INR n.
Proof.
  induction w as [|a w IH]; intros f n Hw Hf H.
  - destruct n; [|discriminate]. simpl. lra.
  - destruct n as [|n]; [discriminate|]. destruct f as [|b f]; [discriminate|]. injection Hw as Hw. injection Hf as Hf.
    cbn [dot]. rewrite S_INR. pose proof (H 0%nat a b eq_refl eq_refl).
    assert (0 <= dot w f <= INR n) by (apply IH; auto; intros k x y Hx Hy; apply (H (S k)); auto). lra.
Qed.
Lemma dot_at : forall w f j a b, (forall k a b, nth_error w k = Some a -> nth_error f k = Some b -> 0 < a * b) ->
  nth_error w j = Some a -> nth_error f j = Some b -> a * b <= dot w f.
Proof.
  induction w as [|x w IH]; intros f j a b H Ha Hb; [destruct j; discriminate|].
  destruct f as [|y f]; [destruct j; discriminate|]. cbn [dot].
  assert (N : forall w f, (forall k a b, nth_error w k = Some a -> nth_error f k = Some b -> 0 < a * b) -> 0 <= dot w f).
  { clear. induction w as [|x w IH]; intros [|y f] H; cbn [dot]; try lra.
    pose proof (H 0%nat x y eq_refl eq_refl). assert (0 <= dot w f) by (apply IH; intros k a b Ha Hb; apply (H (S k)); auto). lra. }
  destruct j as [|j]; simpl in Ha, Hb.
  - injection Ha as ->. injection Hb as ->. assert (0 <= dot w f) by (apply N; intros k x y Hx Hy; apply (H (S k)); auto). lra.
  - pose proof (H 0%nat x y eq_refl eq_refl). assert (a * b <= dot w f) by (apply (IH f j); auto; intros k u t Hu Ht; apply (H (S k)); auto). lra.
Qed.

Theorem lse_no_overflow lowest v z : grid z -> length v = length z ->
  exists L s v0, lse_factor v z 0 (length z) lowest = Ok L /\ vget v 0 = Ok v0 /\
    lse_sum v z L 1 (length z - 1) (exp (v0 - L)) 0 = Ok s /\ s <= INR (length z) /\
    (lowest < L -> 1 <= s) /\ (L = lowest \/ lowest < L) /\
    (forall k x w, nth_error v k = Some x -> lse_zstep z k = Ok w -> w * exp (x - L) <= 1).
Proof.
  intros [H2 Hz] Hv.
  destruct (lse_factor_spec v z H2 Hz ltac:(lia) (length z) 0 lowest ltac:(lia)) as [L [E [H0 [H3 H4]]]].
  destruct (vget_in v 0) as [v0 E0]; [lia|].
  set (f := map (fun x => exp (x - L)) v).
  assert (Hs : lse_sum v z L 1 (length z - 1) (exp (v0 - L)) 0 = Ok (dot (weights 0 z) f)).
  { rewrite (lse_sum_spec v z L ltac:(lia) (length z - 1) 1 v0); [|lia|lia|apply vget_Ok; exact E0|reflexivity].
    change (1 - 1)%nat with 0%nat. rewrite !skipn_O. f_equal. fold f.
    destruct v as [|a v]; [simpl in Hv; lia|]. unfold f. cbn [map].
    rewrite <- trapz_dot; [lra|cbn [length]; rewrite map_length; simpl in Hv; lia|lia]. }
  assert (T : forall k x w, nth_error v k = Some x -> nth_error (weights 0 z) k = Some w -> 0 < w * exp (x - L) <= 1).
  { intros k x w Hx Hw. pose proof (weights_pos z H2 Hz k w Hw) as Wp.
    assert (Kl : (k < length z)%nat) by (rewrite <- Hv; apply nth_error_Some; congruence).
    pose proof (H3 k x w ltac:(lia) Hx Hw) as B. split; [apply Rmult_lt_0_compat; [exact Wp|apply exp_pos]|].
    rewrite <- (exp_ln w Wp) at 1. rewrite <- exp_plus. rewrite <- exp_0.
    destruct (Req_dec (ln w + (x - L)) 0) as [->|N]; [lra|]. left. apply exp_increasing. lra. }
  assert (T' : forall k a b, nth_error (weights 0 z) k = Some a -> nth_error f k = Some b -> 0 < a * b <= 1).
  { intros k a b Ha Hb. unfold f in Hb. rewrite nth_error_map in Hb. destruct (nth_error v k) as [x|] eqn:X; [|discriminate].
    injection Hb as <-. apply (T k); auto. }
  exists L, (dot (weights 0 z) f), v0. split; [exact E|]. split; [exact E0|]. split; [exact Hs|].
  split; [apply (dot_bounds (weights 0 z) f (length z)); [apply weights_length|unfold f; rewrite map_length; exact Hv|exact T']|].
  split; [|split].
  - intro Hl. destruct H4 as [->|[j [x [w [Hj [Hx [Hw EL]]]]]]]; [lra|].
    assert (Hf : nth_error f j = Some (exp (x - L))) by (unfold f; rewrite nth_error_map, Hx; reflexivity).
    assert (W1 : w * exp (x - L) = 1).
    { pose proof (weights_pos z H2 Hz j w Hw) as Wp. rewrite <- (exp_ln w Wp) at 1. rewrite <- exp_plus, EL.
      replace (ln w + (x - (x + ln w))) with 0 by lra. apply exp_0. }
    rewrite <- W1. apply (dot_at (weights 0 z) f j); auto. intros k a b Ha Hb. apply (T' k a b Ha Hb).
  - destruct (Rle_lt_or_eq_dec _ _ H0); [right|left]; auto.
  - intros k x w Hx Hw. assert (Kl : (k < length z)%nat) by (rewrite <- Hv; apply nth_error_Some; congruence).
    destruct (lse_zstep_spec z k H2 Kl) as [w' [Ew' Nw']]. rewrite Hw in Ew'. injection Ew' as <-. apply (T k x w Hx Nw').
Qed.

(** ** ComputePdf *)
Lemma with_prior_spec : forall m p lsp, length m = length p ->
  exists xi, with_prior m p lsp = Ok xi /\ length xi = length m /\
    map exp xi = map (fun x => exp (- lsp) * x) (posterior m p) /\
    (forall k a b, nth_error m k = Some a -> nth_error p k = Some b -> nth_error xi k = Some (- a / 2 + b - lsp)).
Proof.
  induction m as [|a m IH]; intros [|b p] lsp H; try discriminate.
  - exists []. repeat split. intros k x y Hx. destruct k; discriminate.
  - injection H as H. destruct (IH p lsp H) as [xi [E [L [M N]]]]. simpl. rewrite E. cbn [rbind].
    eexists; split; [reflexivity|]. split; [simpl; lia|]. split.
    + cbn [map]. rewrite M. f_equal. rewrite <- exp_plus. f_equal. lra.
    + intros k x y Hx Hy. destruct k as [|k]; simpl in *.
      * injection Hx as <-. injection Hy as <-. f_equal. lra.
      * apply N; auto.
Qed.
Lemma with_prior_length : forall m p lsp xi, with_prior m p lsp = Ok xi -> length xi = length m.
Proof.
  induction m as [|a m IH]; intros [|b p] lsp xi H; simpl in H; try discriminate; try (injection H as <-; reflexivity).
  destruct (with_prior m p lsp) as [t| |] eqn:E; simpl in H; try discriminate. injection H as <-. simpl. f_equal. eapply IH; eauto.
Qed.
Lemma with_prior_long : forall m p lsp, (length p < length m)%nat -> with_prior m p lsp = UB.
Proof.
  induction m as [|a m IH]; intros [|b p] lsp H; simpl in *; try lia; auto. rewrite IH by lia. reflexivity.
Qed.
Lemma with_prior_no_throw : forall m p lsp e, with_prior m p lsp <> Throw e.
Proof.
  induction m as [|a m IH]; intros [|b p] lsp e H; simpl in H; try discriminate.
  destruct (with_prior m p lsp) eqn:F; simpl in H; try discriminate. injection H as ->. apply (IH p lsp e F).
Qed.
Lemma posterior_length : forall m p, length m = length p -> length (posterior m p) = length m.
Proof. induction m as [|a m IH]; intros [|b p] H; try discriminate; auto. simpl. f_equal. apply IH. injection H; auto. Qed.
Lemma posterior_pos : forall m p, Forall (fun x => 0 < x) (posterior m p).
Proof. induction m as [|a m IH]; intros [|b p]; simpl; auto. constructor; [apply exp_pos|apply IH]. Qed.
Lemma posterior_nth : forall m p k a b, nth_error m k = Some a -> nth_error p k = Some b ->
  nth_error (posterior m p) k = Some (exp (- a / 2 + b)).
Proof.
  induction m as [|x m IH]; intros [|y p] k a b Ha Hb; try (destruct k; discriminate).
  destruct k as [|k]; simpl in *; [injection Ha as <-; injection Hb as <-; reflexivity|]. apply IH; auto.
Qed.

Theorem ComputePdf_spec lowest m z cst p : grid z -> length m = length z -> length p = length z ->
  exists pdf ev, ComputePdf lowest m z cst p = Ok (pdf, ev) /\ length pdf = length z /\
    trapz z (map exp pdf) = 1 /\
    (forall k a b, nth_error m k = Some a -> nth_error p k = Some b ->
       exists x, nth_error pdf k = Some x /\ exp x = exp (- a / 2 + b) / trapz z (posterior m p)) /\
    exp ev = exp cst * (trapz z (posterior m p) / trapz z (map exp p)).
Proof.
  intros G Hm Hp. pose proof G as [H2 Hz]. unfold ComputePdf.
  destruct (Nat.ltb_spec (length z) 1); [lia|]. destruct (Nat.eqb_spec (length z) 1); [lia|].
  rewrite Hp, Nat.eqb_refl. cbn [negb].
  rewrite (lse_spec lowest p z G) by lia. cbn [rbind].
  assert (Tp : 0 < trapz z (map exp p)) by (apply trapz_pos; [exact G|rewrite map_length; lia|apply Forall_exp]).
  assert (Tq : 0 < trapz z (posterior m p)) by (apply trapz_pos; [exact G|rewrite posterior_length; lia|apply posterior_pos]).
  set (lsp := ln (trapz z (map exp p))) in *.
  destruct (with_prior_spec m p lsp ltac:(lia)) as [xi [E [L [M N]]]]. rewrite E. cbn [rbind].
  rewrite (lse_spec lowest xi z G) by lia. cbn [rbind]. rewrite M, trapz_scale.
  assert (El : exp (- lsp) = / trapz z (map exp p)) by (unfold lsp; rewrite exp_Ropp, exp_ln; auto).
  set (Z := exp (- lsp) * trapz z (posterior m p)). assert (HZ : 0 < Z) by (apply Rmult_lt_0_compat; [apply exp_pos|exact Tq]).
  do 2 eexists. split; [reflexivity|].
  rewrite firstn_all2 by lia.
  assert (Me : map exp (map (fun x => x + cst - (cst + ln Z)) xi) = map (fun x => / Z * x) (map exp xi)).
  { rewrite !map_map. apply map_ext. intro x. replace (x + cst - (cst + ln Z)) with (- ln Z + x) by lra.
    rewrite exp_plus, exp_Ropp, exp_ln by exact HZ. reflexivity. }
  split; [rewrite map_length; lia|]. split; [|split].
  - rewrite Me, M, !trapz_scale. fold Z. field. lra.
  - intros k a b Ha Hb. exists (- a / 2 + b - lsp + cst - (cst + ln Z)). split.
    + rewrite nth_error_map, (N k a b Ha Hb). reflexivity.
    + replace (- a / 2 + b - lsp + cst - (cst + ln Z)) with ((- a / 2 + b) + (- lsp + - ln Z)) by lra.
      rewrite !exp_plus, exp_Ropp, (exp_Ropp (ln Z)), exp_ln by exact HZ.
      unfold Z. pose proof (exp_pos (- lsp)). rewrite exp_Ropp in *. unfold Rdiv. rewrite Rinv_mult.
      pose proof (exp_pos lsp). field. split; lra.
  - rewrite exp_plus, exp_ln by exact HZ. unfold Z. rewrite El. field. lra.
Qed.

(** adding a constant to the chi2, to the prior or changing the constant does not change the density *)
Lemma posterior_shift : forall m p c d, length m = length p ->
  posterior (map (fun x => x + c) m) (map (fun x => x + d) p) = map (fun x => exp (- c / 2 + d) * x) (posterior m p).
Proof.
  induction m as [|a m IH]; intros [|b p] c d H; try discriminate; auto.
  simpl. rewrite IH by (injection H; auto). f_equal. rewrite <- exp_plus. f_equal. lra.
Qed.
Theorem ComputePdf_shift lowest m z cst p c d cst' : grid z -> length m = length z -> length p = length z ->
  exists pdf ev pdf' ev', ComputePdf lowest m z cst p = Ok (pdf, ev) /\
    ComputePdf lowest (map (fun x => x + c) m) z cst' (map (fun x => x + d) p) = Ok (pdf', ev') /\ pdf' = pdf /\
    ev' = ev + (cst' - cst) - c / 2.
Proof.
  intros G Hm Hp.
  destruct (ComputePdf_spec lowest m z cst p G Hm Hp) as [pdf [ev [E [L [_ [P V]]]]]].
  destruct (ComputePdf_spec lowest (map (fun x => x + c) m) z cst' (map (fun x => x + d) p) G) as [pdf' [ev' [E' [L' [_ [P' V']]]]]];
    [rewrite map_length; exact Hm|rewrite map_length; exact Hp|].
  exists pdf, ev, pdf', ev'. split; [exact E|]. split; [exact E'|].
  assert (Tp : 0 < trapz z (map exp p)) by (apply trapz_pos; [exact G|rewrite map_length; lia|apply Forall_exp]).
  assert (Tq : 0 < trapz z (posterior m p)) by (apply trapz_pos; [exact G|rewrite posterior_length; lia|apply posterior_pos]).
  rewrite posterior_shift in * by lia. rewrite trapz_scale in *. split.
  - apply nth_ext with (d := 0) (d' := 0); [lia|]. intros k Hk.
    destruct (nth_error m k) as [a|] eqn:A; [|apply nth_error_None in A; lia].
    destruct (nth_error p k) as [b|] eqn:B; [|apply nth_error_None in B; lia].
    destruct (P k a b A B) as [x [X1 X2]].
    assert (A' : nth_error (map (fun x => x + c) m) k = Some (a + c)) by (rewrite nth_error_map, A; reflexivity).
    assert (B' : nth_error (map (fun x => x + d) p) k = Some (b + d)) by (rewrite nth_error_map, B; reflexivity).
    destruct (P' k (a + c) (b + d) A' B') as [x' [X1' X2']].
    rewrite (nth_error_nth _ _ 0 X1), (nth_error_nth _ _ 0 X1').
    apply exp_inv. rewrite X2, X2'. replace (- (a + c) / 2 + (b + d)) with ((- c / 2 + d) + (- a / 2 + b)) by lra.
    rewrite (exp_plus (- c / 2 + d)). pose proof (exp_pos (- c / 2 + d)). field. split; lra.
  - apply exp_inv. rewrite V'.
    assert (Ms : map exp (map (fun x => x + d) p) = map (fun x => exp d * x) (map exp p)).
    { rewrite !map_map. apply map_ext. intro x. rewrite exp_plus. lra. }
    rewrite Ms, trapz_scale. replace (ev + (cst' - cst) - c / 2) with (ev + ((cst' + - cst) + (- c / 2))) by lra.
    rewrite !exp_plus, V, exp_Ropp. pose proof (exp_pos d). pose proof (exp_pos cst). field. lra.
Qed.

Lemma ComputePdf_single lowest m z0 cst p : ComputePdf lowest m [z0] cst p = Ok ([1], 1).
Proof. reflexivity. Qed.
Lemma ComputePdf_empty lowest m cst p : ComputePdf lowest m [] cst p = Throw INTERNAL_ERROR.
Proof. reflexivity. Qed.
Lemma ComputePdf_prior_size lowest m z cst p : (2 <= length z)%nat -> length p <> length z ->
  ComputePdf lowest m z cst p = Throw INTERNAL_ERROR.
Proof.
  intros H N. unfold ComputePdf. destruct (Nat.ltb_spec (length z) 1); [lia|]. destruct (Nat.eqb_spec (length z) 1); [lia|].
  destruct (Nat.eqb_spec (length p) (length z)); [contradiction|reflexivity].
Qed.
Lemma ComputePdf_merit_size lowest m z cst p : grid z -> length p = length z -> length m <> length z ->
  ComputePdf lowest m z cst p = UB.
Proof.
  intros G Hp N. pose proof G as [H2 _]. unfold ComputePdf. destruct (Nat.ltb_spec (length z) 1); [lia|]. destruct (Nat.eqb_spec (length z) 1); [lia|].
  rewrite Hp, Nat.eqb_refl. cbn [negb]. rewrite (lse_spec lowest p z G) by lia. cbn [rbind].
  destruct (Nat.lt_ge_cases (length z) (length m)) as [L|L].
  - rewrite with_prior_long by lia. reflexivity.
  - destruct (with_prior m p (ln (trapz z (map exp p)))) as [xi| |] eqn:E; try reflexivity.
    + cbn [rbind]. rewrite lse_values_short; [reflexivity|exact H2|]. rewrite (with_prior_length _ _ _ _ E). lia.
    + exfalso. exact (with_prior_no_throw _ _ _ _ E).
Qed.

(** ** evidences *)
Lemma max_from_ge : forall l m, m <= max_from m l /\ (forall x, In x l -> x <= max_from m l).
Proof.
  induction l as [|a l IH]; intro m; simpl; [split; [lra|intros x []]|].
  destruct (IH (if Rltb m a then a else m)) as [H1 H2]. destruct (Rltb_spec m a) as [C|C].
  - split; [lra|]. intros x [<-|Hx]; [exact H1|apply H2, Hx].
  - split; [exact H1|]. intros x [<-|Hx]; [lra|apply H2, Hx].
Qed.
Lemma fold_exp : forall l m s, fold_left (fun s x => s + exp (x - m)) l s = s + exp (- m) * total (map exp l).
Proof.
  induction l as [|a l IH]; intros m s; simpl; [lra|]. rewrite IH.
  replace (a - m) with (- m + a) by lra. rewrite exp_plus. lra.
Qed.
Lemma total_exp_pos l : l <> [] -> 0 < total (map exp l).
Proof.
  intro H. destruct l as [|a l]; [congruence|]. clear H. simpl. pose proof (exp_pos a).
  assert (0 <= total (map exp l)); [|lra]. induction l as [|b l IH]; simpl; [lra|]. pose proof (exp_pos b). lra.
Qed.
Lemma ComputeEvidenceAll_spec evs : evs <> [] -> ComputeEvidenceAll evs = Ok (ln (total (map exp evs))).
Proof.
  intro H. pose proof (total_exp_pos evs H) as P. destruct evs as [|e t]; [congruence|]. unfold ComputeEvidenceAll.
  set (m := max_from e t). rewrite fold_exp, Rplus_0_l. pose proof (exp_pos (- m)).
  rewrite rlog_pos by (apply Rmult_lt_0_compat; auto). cbn [rbind]. f_equal. rewrite ln_mult, ln_exp by auto. lra.
Qed.

(** ** all models *)
Lemma logs_spec : forall l, Forall (fun x => 0 < x) l -> logs l = Ok (map ln l).
Proof.
  induction l as [|a l IH]; intro H; [reflexivity|]. inversion H as [|? ? Ha Hl]; subst. simpl.
  rewrite rlog_pos by exact Ha. rewrite (IH Hl). reflexivity.
Qed.
Lemma map_exp_ln l : Forall (fun x => 0 < x) l -> map exp (map ln l) = l.
Proof. intro H. rewrite map_map. rewrite <- (map_id l) at 2. apply map_ext_in. intros x Hx. rewrite Forall_forall in H. apply exp_ln, H, Hx. Qed.
Lemma fold_exp0 : forall l s, fold_left (fun s x => s + exp x) l s = s + total (map exp l).
Proof. induction l as [|a l IH]; intro s; simpl; [lra|]. rewrite IH. lra. Qed.

Lemma logPriorModel_spec c : cq_chi2 c <> [] ->
  (cq_mpriors c = [] \/ (length (cq_mpriors c) = length (cq_chi2 c) /\ Forall (fun x => 0 < x) (cq_mpriors c) /\     9 / 10 <= total (cq_mpriors c) <= 11 / 10)) ->
  logPriorModel c = Ok (map ln (used_priors c)) /\ Forall (fun x => 0 < x) (used_priors c) /\  length (used_priors c) = length (cq_chi2 c).
Proof.
  intros Hne H. unfold logPriorModel, used_priors.
  assert (N : 0 < INR (length (cq_chi2 c))) by (apply lt_0_INR; destruct (cq_chi2 c); [congruence|simpl; lia]).
  destruct (cq_mpriors c) as [|a l] eqn:E.
  - rewrite rlog_pos by (apply Rdiv_lt_0_compat; lra). cbn [rbind]. split; [|split].
    + rewrite map_repeat'. reflexivity.
    + apply Forall_forall. intros x Hx. apply repeat_spec in Hx. subst. apply Rdiv_lt_0_compat; lra.
    + apply repeat_length.
  - destruct H as [H|[H1 [H2 H3]]]; [discriminate|]. rewrite H1, Nat.eqb_refl. cbn [negb].
    rewrite (logs_spec _ H2). cbn [rbind]. rewrite fold_exp0, Rplus_0_l, map_exp_ln by exact H2.
    destruct (Rltb_spec (11 / 10) (total (a :: l))); [lra|]. destruct (Rltb_spec (total (a :: l)) (9 / 10)); [lra|].
    cbn [orb]. auto.
Qed.

Lemma all_pdfs_spec lowest z cst : grid z -> forall ms ps, length ms = length ps ->
  Forall (fun m => length m = length z) ms -> Forall (fun p => length p = length z) ps ->
  exists rs, all_pdfs lowest z cst ms ps = Ok rs /\ pdf_rows lowest z cst ms ps rs /\ length rs = length ms /\    Forall (fun r => length (fst r) = length z /\ trapz z (map exp (fst r)) = 1) rs.
Proof.
  intros G. induction ms as [|m ms IH]; intros [|p ps] H Hm Hp; try discriminate.
  - exists []. repeat split; constructor.
  - injection H as H. inversion Hm; subst. inversion Hp; subst.
    destruct (IH ps H) as [rs [E [R [L F]]]]; auto.
    destruct (ComputePdf_spec lowest m z cst p G) as [pdf [ev [E1 [L1 [T1 _]]]]]; auto.
    simpl. rewrite E1, E. cbn [rbind]. exists ((pdf, ev) :: rs). split; [reflexivity|].
    split; [constructor; auto|]. split; [simpl; lia|]. constructor; auto.
Qed.

Lemma total_app a b : total (a ++ b) = total a + total b.
Proof. induction a as [|x a IH]; simpl; [lra|]. rewrite IH. lra. Qed.

(** logadd is the logarithm of the sum *)
Lemma logadd_spec a v : exists x, logadd a v = Ok x /\ exp x = exp v + exp a.
Proof.
  unfold logadd. set (m := Rmaxb a v).
  assert (P : 0 < exp (v - m) + exp (a - m)) by (pose proof (exp_pos (v - m)); pose proof (exp_pos (a - m)); lra).
  rewrite rlog_pos by exact P. cbn [rbind]. eexists; split; [reflexivity|].
  rewrite exp_plus, exp_ln by exact P. rewrite Rmult_plus_distr_l, <- !exp_plus. f_equal; f_equal; lra.
Qed.
Lemma add_model_spec w : forall post pdf, length pdf = length post ->
  exists post', add_model w pdf post = Ok post' /\ length post' = length post /\    (forall k v p, nth_error post k = Some v -> nth_error pdf k = Some p ->
       exists x, nth_error post' k = Some x /\ exp x = exp v + exp w * exp p) /\    (forall z, trapz z (map exp post') = trapz z (map exp post) + exp w * trapz z (map exp pdf)).
Proof.
  induction post as [|v vs IH]; intros [|p ps] H; try discriminate.
  - exists []. repeat split; [intros [|k] ? ? Hx; discriminate|]. intro z. destruct z as [|a [|b z]]; simpl; lra.
  - injection H as H. destruct (IH ps H) as [t [E [L [N T]]]]. simpl.
    destruct (logadd_spec (p + w) v) as [x [Ex Hx]]. rewrite Ex, E. cbn [rbind].
    exists (x :: t). split; [reflexivity|]. split; [simpl; lia|]. split.
    + intros [|k] a b Ha Hb; simpl in *.
      * injection Ha as <-. injection Hb as <-. exists x. split; [reflexivity|]. rewrite Hx, exp_plus. lra.
      * apply N; auto.
    + intro z. destruct z as [|a [|b z]]; [simpl; lra|rewrite !trapz_one; lra|].
      destruct vs as [|v' vs]; destruct ps as [|p' ps]; try discriminate; destruct t as [|t0 t]; try discriminate.
      * simpl. lra.
      * cbn [map] in *. rewrite !trapz_cons. rewrite (T (b :: z)), Hx, exp_plus.
        destruct (N 0%nat v' p' eq_refl eq_refl) as [y [Y1 Y2]]. simpl in Y1. injection Y1 as ->. rewrite Y2. lra.
Qed.
Lemma add_models_spec marg z : forall pdfs evs post, length evs = length pdfs -> Forall (fun p => length p = length post) pdfs ->
  Forall (fun p => trapz z (map exp p) = 1) pdfs ->
  exists post', add_models marg pdfs evs post = Ok post' /\ length post' = length post /\ (forall k v, nth_error post k = Some v -> exists x, nth_error post' k = Some x /\ exp x = exp v + mix (map (fun e => exp (e - marg)) evs) (column k pdfs)) /\    trapz z (map exp post') = trapz z (map exp post) + total (map (fun e => exp (e - marg)) evs).
Proof.
  induction pdfs as [|p ps IH]; intros [|e es] post H HF HT; try discriminate.
  - exists post. repeat split; [intros k v Hv; exists v; split; [exact Hv|simpl; lra]|simpl; lra].
  - injection H as H. inversion HF as [|? ? HF1 HF2]; subst. inversion HT as [|? ? HT1 HT2]; subst. simpl.
    destruct (add_model_spec (e - marg) post p) as [post1 [E1 [L1 [N1 T1]]]]; [assumption|]. rewrite E1. cbn [rbind].
    destruct (IH es post1 H) as [post2 [E2 [L2 [N2 T2]]]]; [rewrite L1; assumption|assumption|].
    exists post2. split; [exact E2|]. split; [lia|]. split.
    + intros k v Hv. assert (Kp : (k < length p)%nat).
      { assert (k < length post)%nat by (apply nth_error_Some; congruence). lia. }
      destruct (N1 k v (nth k p 0) Hv (nth_error_nth' p 0 Kp)) as [x [X1 X2]].
      destruct (N2 k x X1) as [y [Y1 Y2]]. exists y. split; [exact Y1|]. rewrite Y2, X2. lra.
    + rewrite T2, T1, HT1. lra.
Qed.

Lemma mix_total : forall pi evs, Forall (fun x => 0 < x) pi -> length pi = length evs ->
  total (map exp (map (fun q => fst q + snd q) (combine evs (map ln pi)))) = mix pi (map exp evs).
Proof.
  induction pi as [|a pi IH]; intros [|e evs] H L; try discriminate; [reflexivity|].
  inversion H; subst. simpl. rewrite IH by (auto; injection L; auto). rewrite exp_plus, exp_ln by assumption. lra.
Qed.
Lemma weights_eq marg D : exp marg = D -> 0 < D -> forall pi evs, Forall (fun x => 0 < x) pi -> length pi = length evs ->
  map (fun e => exp (e - marg)) (map (fun q => fst q + snd q) (combine evs (map ln pi))) =
  map (fun q => fst q * exp (snd q) / D) (combine pi evs).
Proof.
  intros HD HP. induction pi as [|a pi IH]; intros [|e evs] H L; try discriminate; [reflexivity|].
  inversion H; subst. simpl. rewrite IH by (auto; injection L; auto). f_equal.
  replace (e + ln a - marg) with (e + ln a + - marg) by lra. rewrite !exp_plus, exp_Ropp, exp_ln by assumption. field. pose proof (exp_pos marg); lra.
Qed.
Lemma total_weights D : 0 < D -> forall pi evs, length pi = length evs ->
  total (map (fun q => fst q * exp (snd q) / D) (combine pi evs)) = mix pi (map exp evs) / D.
Proof.
  intro HD. induction pi as [|a pi IH]; intros [|e evs] L; try discriminate; [simpl; field; lra|].
  simpl. rewrite IH by (injection L; auto). field. lra.
Qed.
Lemma trapz_const z c : forall x, Rstrictly_increasing (x :: z) -> trapz (x :: z) (repeat c (length (x :: z))) = c * (last z x - x).
Proof.
  induction z as [|y z IH]; intros x H; [simpl; lra|].
  change (repeat c (length (x :: y :: z))) with (c :: c :: repeat c (length z)). rewrite trapz_cons.
  change (c :: repeat c (length z)) with (repeat c (length (y :: z))). rewrite IH by (eapply Rinc_tail; eauto).
  assert (last (y :: z) x = last z y) as ->; [|lra]. destruct z as [|w z]; [reflexivity|].
  cbn [last]. clear. revert w. induction z as [|u z IH]; intro w; [reflexivity|]. cbn [last]. apply IH.
Qed.

Lemma pdf_rows_length lowest z cst ms ps rs : pdf_rows lowest z cst ms ps rs -> length rs = length ms.
Proof. induction 1; simpl; lia. Qed.
Lemma mix_pos pi evs : pi <> [] -> Forall (fun x => 0 < x) pi -> length pi = length evs -> 0 < mix pi (map exp evs).
Proof.
  intros Hne H L. rewrite <- (mix_total pi evs H L). apply total_exp_pos. intro E. apply map_eq_nil in E.
  destruct pi; [congruence|]. destruct evs; discriminate.
Qed.

Lemma ComputeAllPdfs_spec lowest c : rows_ok c -> priors_ok c ->
  exists rs, pdf_rows lowest (cq_z c) (cq_cst c) (cq_chi2 c) (cq_zpriors c) rs /\    ComputeAllPdfs lowest c = Ok (map fst rs, map (fun q => fst q + snd q) (combine (map snd rs) (map ln (used_priors c))),
       ln (mix (used_priors c) (map exp (map snd rs)))) /\ 0 < mix (used_priors c) (map exp (map snd rs)) /\    Forall (fun r => length (fst r) = length (cq_z c) /\ trapz (cq_z c) (map exp (fst r)) = 1) rs.
Proof.
  intros [G [Hne [Hl [Hm Hp]]]] Hpr. pose proof G as [H2 _].
  destruct (logPriorModel_spec c Hne Hpr) as [EP [FP LP]].
  destruct (all_pdfs_spec lowest (cq_z c) (cq_cst c) G _ _ Hl Hm Hp) as [rs [E [RR [L F]]]].
  assert (Hn1 : (1 <= length (cq_chi2 c))%nat) by (destruct (cq_chi2 c); [congruence|simpl; lia]).
  assert (Lm : length (used_priors c) = length (map snd rs)) by (rewrite map_length; lia).
  assert (PM : 0 < mix (used_priors c) (map exp (map snd rs))).
  { apply mix_pos; auto. intro X. rewrite X in LP. simpl in LP. lia. }
  exists rs. split; [exact RR|]. split; [|split; [exact PM|exact F]].
  unfold ComputeAllPdfs, validateChisquareArray. rewrite Hl, Nat.eqb_refl. cbn [negb].
  destruct (Nat.ltb_spec (length (cq_zpriors c)) 1); [lia|]. destruct (Nat.ltb_spec (length (cq_z c)) 1); [lia|].
  cbn [orb rbind]. rewrite EP. cbn [rbind]. rewrite E. cbn [rbind].
  rewrite ComputeEvidenceAll_spec.
  - cbn [rbind]. rewrite (mix_total _ _ FP Lm). reflexivity.
  - intro X. apply map_eq_nil in X. destruct (used_priors c) as [|a pi]; [simpl in LP; lia|].
    destruct (map snd rs); [simpl in Lm; lia|]. discriminate.
Qed.

Theorem Marginalize_spec lowest c : rows_ok c -> priors_ok c ->
  exists rs post marg, pdf_rows lowest (cq_z c) (cq_cst c) (cq_chi2 c) (cq_zpriors c) rs /\ Marginalize lowest c = Ok (post, marg) /\ length post = length (cq_z c) /\ exp marg = mix (used_priors c) (map exp (map snd rs)) /\ total (model_weights (used_priors c) (map snd rs)) = 1 /\    (forall k x, nth_error post k = Some x ->
       exp x = exp lowest + mix (model_weights (used_priors c) (map snd rs)) (column k (map fst rs))) /\    trapz (cq_z c) (map exp post) = 1 + exp lowest * (last (cq_z c) 0 - hd 0 (cq_z c)).
Proof.
  intros HR HP. destruct (ComputeAllPdfs_spec lowest c HR HP) as [rs [RR [E [PM F]]]].
  destruct HR as [G [Hne [Hl [Hm Hp]]]]. pose proof G as [H2 Hz].
  destruct (logPriorModel_spec c Hne HP) as [_ [FP LP]].
  pose proof (pdf_rows_length _ _ _ _ _ _ RR) as Lr.
  assert (Lm : length (used_priors c) = length (map snd rs)) by (rewrite map_length; lia).
  set (D := mix (used_priors c) (map exp (map snd rs))) in *.
  assert (HD : exp (ln D) = D) by (apply exp_ln; exact PM).
  destruct (add_models_spec (ln D) (cq_z c) (map fst rs) (map (fun q => fst q + snd q) (combine (map snd rs) (map ln (used_priors c))))
              (repeat lowest (length (cq_z c)))) as [post [E2 [L2 [N2 T2]]]].
  { rewrite !map_length, combine_length, !map_length. lia. }
  { apply Forall_forall. intros p Hin. apply in_map_iff in Hin. destruct Hin as [r [<- Hr]]. rewrite Forall_forall in F.
    rewrite repeat_length. apply (F r Hr). }
  { apply Forall_forall. intros p Hin. apply in_map_iff in Hin. destruct Hin as [r [<- Hr]]. rewrite Forall_forall in F. apply (F r Hr). }
  assert (W : map (fun e => exp (e - ln D)) (map (fun q => fst q + snd q) (combine (map snd rs) (map ln (used_priors c)))) =
              model_weights (used_priors c) (map snd rs)).
  { unfold model_weights. fold D. apply weights_eq; auto. }
  assert (TW : total (model_weights (used_priors c) (map snd rs)) = 1).
  { unfold model_weights. fold D. rewrite total_weights by auto. fold D. field. lra. }
  exists rs, post, (ln D). split; [exact RR|].
  split; [unfold Marginalize; rewrite E; cbn [rbind]; rewrite E2; reflexivity|].
  split; [rewrite L2, repeat_length; reflexivity|]. split; [exact HD|]. split; [exact TW|]. split.
  - intros k x Hx. assert (Kl : (k < length (cq_z c))%nat).
    { assert (k < length post)%nat by (apply nth_error_Some; congruence). rewrite L2, repeat_length in H. exact H. }
    destruct (N2 k lowest) as [y [Y1 Y2]].
    { rewrite (nth_error_nth' _ lowest) by (rewrite repeat_length; exact Kl). f_equal. apply nth_repeat. }
    rewrite Hx in Y1. injection Y1 as <-. rewrite Y2, W. reflexivity.
  - rewrite T2, W, TW. rewrite map_repeat'. destruct (cq_z c) as [|z0 z]; [simpl in H2; lia|].
    rewrite trapz_const by exact Hz. cbn [hd]. destruct z as [|z1 z]; [simpl in H2; lia|].
    assert (last (z1 :: z) z0 = last (z0 :: z1 :: z) 0) as ->; [|lra].
    cbn [last]. clear. revert z1. induction z as [|u z IH]; intro w; [reflexivity|]. cbn [last]. apply IH.
Qed.
