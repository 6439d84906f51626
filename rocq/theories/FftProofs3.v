From Verif Require Import Base RBase FftModel FftSpec FftProofs FftProofs2.
Open Scope R_scope.

Lemma dotLoop_ok X : forall Y, (length X <= length Y)%nat -> dotLoop X Y = Ok (dot X Y).
Proof.
  induction X as [|x X IH]; intros [|y Y] L; simpl in *; try reflexivity; [lia|].
  rewrite IH by lia. reflexivity.
Qed.
Lemma dot_repeat c n : forall Y, (n <= length Y)%nat -> dot (repeat c n) Y = c * rsum n (fun j => nth j Y 0).
Proof.
  induction n as [|n IH]; intros [|y Y] L; simpl in L; try lia; try (simpl; ring).
  change (S n) with (1 + n)%nat. rewrite (rsum_split 1 n). simpl. rewrite IH by lia. ring.
Qed.
Lemma nth_skipn (Y : list R) k j : nth j (skipn k Y) 0 = nth (k + j) Y 0.
Proof.
  revert Y; induction k; intros Y; [reflexivity|]. destruct Y; [destruct j; reflexivity|]. simpl. apply IHk.
Qed.
Lemma corr_repeat c n Y k : (n + k <= length Y)%nat -> correlation_at (repeat c n) Y k = c * rsum n (fun j => nth (k + j) Y 0).
Proof.
  intros L. unfold correlation_at. rewrite dot_repeat by (rewrite skipn_length; lia). f_equal.
  apply rsum_ext. intros. apply nth_skipn.
Qed.
Lemma vget_nth (l : list R) i : (i < length l)%nat -> vget l i = Ok (nth i l 0).
Proof. intros L. unfold vget. rewrite (nth_error_nth' l 0 L). reflexivity. Qed.

Definition mtm_value c n Y k := correlation_at (repeat c n) Y k + c * (nth (n - 1) Y 0 - nth (n - 1 + k) Y 0).
Lemma mtm_step c n Y k : (1 <= n)%nat -> (n + S k <= length Y)%nat ->
  mtm_value c n Y (S k) = mtm_value c n Y k - c * nth k Y 0 + c * nth (n - 1 + k) Y 0.
Proof.
  intros N L. unfold mtm_value. rewrite !corr_repeat by lia.
  assert (E : rsum n (fun j => nth (S k + j) Y 0) = rsum n (fun j => nth (k + j) Y 0) - nth k Y 0 + nth (n + k) Y 0).
  { destruct n as [|n]; [lia|].
    assert (A : rsum (S n) (fun j => nth (k + j) Y 0) = nth k Y 0 + rsum n (fun j => nth (S k + j) Y 0)).
    { change (S n) with (1 + n)%nat. rewrite (rsum_split 1 n).
      rewrite (rsum_ext n _ (fun j => nth (S k + j) Y 0)) by (intros; f_equal; lia).
      cbn [rsum]. rewrite Nat.add_0_r. ring. }
    rewrite A. cbn [rsum]. replace (S n + k)%nat with (S k + n)%nat by lia. ring. }
  rewrite E. replace (n - 1 + S k)%nat with (n + k)%nat by lia. lra.
Qed.

Lemma mtmLoop_ok c n Y : (1 <= n)%nat -> forall todo k, (n + k + todo <= length Y)%nat ->
  mtmLoop (repeat c n) Y (mtm_value c n Y k) (S k) todo = Ok (map (mtm_value c n Y) (seq (S k) todo)).
Proof.
  intros N. induction todo as [|m IH]; intros k L; [reflexivity|].
  cbn [mtmLoop seq map]. rewrite repeat_length.
  assert (R0 : forall i, (i < n)%nat -> vget (repeat c n) i = Ok c).
  { intros i Hi. unfold vget. rewrite nth_error_repeat by exact Hi. reflexivity. }
  rewrite !R0 by lia. replace (S k - 1)%nat with k by lia. replace (n - 1 + S k - 1)%nat with (n - 1 + k)%nat by lia.
  rewrite !vget_nth by lia. cbn [rbind]. rewrite <- mtm_step by lia.
  rewrite (IH (S k)) by lia. reflexivity.
Qed.

Lemma MtMFast_value c n Y nShifts : (1 <= n)%nat -> (1 <= nShifts)%nat -> (n + nShifts - 1 <= length Y)%nat ->
  EstimateMtMFast (repeat c n) Y nShifts =
  Ok (map (fun k => correlation_at (repeat c n) Y k + c * (nth (n - 1) Y 0 - nth (n - 1 + k) Y 0)) (seq 0 nShifts)).
Proof.
  intros N S0 L. unfold EstimateMtMFast. destruct nShifts as [|m]; [lia|].
  rewrite dotLoop_ok by (rewrite repeat_length; lia). cbn [rbind].
  assert (E : dot (repeat c n) Y = mtm_value c n Y 0).
  { unfold mtm_value, correlation_at. simpl skipn. rewrite Nat.add_0_r. ring. }
  rewrite E, mtmLoop_ok by lia. reflexivity.
Qed.

Lemma MtMFast_wrong : exists n Y nShifts, (1 <= n)%nat /\ (length Y = n + nShifts - 1)%nat /\
  exists r, EstimateMtMFast (repeat 1 n) Y nShifts = Ok r /\ r <> correlations (repeat 1 n) Y.
Proof.
  exists 2%nat, [1; 2; 3], 2%nat. split; [lia|]. split; [reflexivity|].
  eexists. split; [apply MtMFast_value; simpl; lia|].
  unfold correlations, correlation_at. simpl. intros H. injection H as H1 H2. lra.
Qed.

Lemma single n j1 j2 X Y slot : fits n X Y ->
  exists st', EstimateXtY (InitFFT n j1 j2) X Y slot = Ok (st', correlations X Y).
Proof.
  intros F. assert (Hc : consistent [(X, Y, slot)]).
  { intros A B A' B' s _ [E|[]] [E'|[]]. congruence. }
  pose proof (calls_correlations n j1 j2 [(X, Y, slot)] Hc) as H.
  cbn [calls] in H.
  destruct (EstimateXtY (InitFFT n j1 j2) X Y slot) as [[st' r]| |] eqn:E; cbn [rbind] in H.
  - exists st'. f_equal. f_equal. assert (Ok [r] = Ok [correlations X Y]).
    { apply H. intros A B s [E'|[]]. injection E' as <- <- <-. exact F. }
    congruence.
  - exfalso. assert (Throw e = Ok [correlations X Y]); [|discriminate]. apply H. intros A B s [E'|[]]. injection E' as <- <- <-. exact F.
  - exfalso. assert (UB = Ok [correlations X Y]); [|discriminate]. apply H. intros A B s [E'|[]]. injection E' as <- <- <-. exact F.
Qed.

Lemma stale : exists n X X' Y, fits n X Y /\ fits n X' Y /\
  forall j1 j2, exists r r', calls (InitFFT n j1 j2) [(X, Y, 0%Z); (X', Y, 0%Z)] = Ok [r; r'] /\
    r' <> correlations X' Y.
Proof.
  exists 2%nat, [1], [2], [1; 1]. split; [split; simpl; lia|]. split; [split; simpl; lia|].
  intros j1 j2.
  destruct (calls_values 2 j1 j2 [([1], [1; 1], 0%Z); ([2], [1; 1], 0%Z)]) as (rs & R & L & N).
  { intros X Y s [E|[E|[]]]; injection E as <- <- <-; split; simpl; lia. }
  destruct rs as [|r [|r' [|? ?]]]; try discriminate.
  exists r, r'. split; [exact R|].
  specialize (N 1%nat [2] [1; 1] 0%Z eq_refl). cbn [nth_error] in N. injection N as ->.
  unfold correlations, correlation_at, cyclic_at, source, kept_slot. simpl. intros H. injection H as H1 H2. lra.
Qed.
