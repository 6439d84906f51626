From Coq Require Import Qabs Lqa Setoid.
From Verif Require Import Base RangeModel RebinModel RebinSpec CalzModel MeikModel TplModel TplSpec SvdModel SvdSpec SvdProofs TcmbModel TcmbSpec.
Open Scope Q_scope.

Lemma at_err l i x : nth_error l i = Some x -> at_ l i = x.
Proof. intros H. unfold at_. exact (nth_error_nth l i 0 H). Qed.
Lemma vget_at (l : list Q) i x : vget l i = Ok x -> at_ l i = x /\ (i < length l)%nat.
Proof. unfold vget. destruct (nth_error l i) eqn:E; [|discriminate]. intros H. inversion H; subst. split; [apply at_err; exact E|]. apply nth_error_Some. congruence. Qed.
Definition models (ts : list tpl) : list (list Q) := map t_flux ts.
Lemma row_spec ts i r : mapr (fun t => vget (t_flux t) i) ts = Ok r -> r = map (fun m => at_ m i) (models ts).
Proof.
  revert r. induction ts as [|t ts IH]; intros r H; cbn [mapr] in H; [inversion H; reflexivity|].
  destruct (vget (t_flux t) i) as [x| |] eqn:E; try discriminate. cbn [rbind] in H. destruct (mapr _ ts) as [r'| |]; try discriminate. cbn [rbind] in H. inversion H; subst.
  cbn [models map]. f_equal; [symmetry; exact (proj1 (vget_at _ _ _ E))|]. apply IH. reflexivity.
Qed.
Definition mk_row (flux err : list Q) (nf : Q) (ms : list (list Q)) (k : nat) : obs :=
  mkObs (1 / ((at_ err k / nf) * (at_ err k / nf))) (at_ flux k / nf) (map (fun m => at_ m k) ms).
Lemma rows_spec flux err nf ts : forall n ks rs, rows flux err ks n nf ts = Ok rs -> rs = map (mk_row flux err nf (models ts)) (seq ks n) /\ ((0 < n)%nat -> (ks + n <= length flux)%nat /\ (ks + n <= length err)%nat).
Proof.
  unfold rows. induction n as [|n IH]; intros ks rs H; cbn [seq mapr] in H; [inversion H; split; [reflexivity|lia]|].
  destruct (vget flux ks) as [y| |] eqn:Ey; try discriminate. cbn [rbind] in H. destruct (vget err ks) as [e| |] eqn:Ee; try discriminate. cbn [rbind] in H.
  destruct (mapr (fun t => vget (t_flux t) ks) ts) as [r| |] eqn:Er; try discriminate. cbn [rbind] in H.
  destruct (mapr _ (seq (S ks) n)) as [rs'| |] eqn:Es; try discriminate. cbn [rbind] in H. inversion H; subst. destruct (IH _ _ Es) as [-> L].
  apply vget_at in Ey, Ee. destruct Ey as [Ey Ly], Ee as [Ee Le]. split; [|intros _; destruct n; [lia|specialize (L ltac:(lia)); lia]].
  cbn [seq map]. f_equal. unfold mk_row. rewrite Ey, Ee, (row_spec _ _ _ Er). reflexivity.
Qed.
Lemma dot_combination k nf : forall ms c, nf * dot (map (fun m => at_ m k) ms) c == combination ms (map (fun a => a * nf) c) k.
Proof. induction ms as [|m ms IH]; intros [|x c]; cbn [map dot combination]; try ring. rewrite <- IH. ring. Qed.
Lemma squares_chi2 flux err nf ms c : ~ nf == 0 -> forall n ks, (forall k, (ks <= k < ks + n)%nat -> ~ at_ err k == 0) ->
  squares (map (mk_row flux err nf ms) (seq ks n)) c == chi2 flux err ms (map (fun a => a * nf) c) ks n.
Proof.
  intros N. induction n as [|n IH]; intros ks E; cbn [seq map squares chi2]; [reflexivity|]. rewrite IH by (intros k K; apply E; lia).
  assert (Ek := E ks ltac:(lia)). cbn [mk_row o_w o_y o_row]. rewrite <- (dot_combination ks nf ms c). set (D := dot _ c). clearbody D. cbv zeta. generalize dependent (at_ err ks). intros e Ek.
  set (R := chi2 _ _ _ _ _ _). clearbody R. field. split; assumption.
Qed.
Lemma weights_nn flux err nf ms ks n r : In r (map (mk_row flux err nf ms) (seq ks n)) -> 0 <= o_w r /\ length (o_row r) = length ms.
Proof.
  intros I. apply in_map_iff in I. destruct I as (k & <- & _). cbn [mk_row o_w o_row]. split; [|apply map_length].
  unfold Qdiv at 1. rewrite Qmult_1_l. apply Qinv_le_0_compat. apply sq0.
Qed.
Lemma nth_map_at ms k i : (i < length ms)%nat -> nth i (map (fun m => at_ m k) ms) 0 = at_ (nth i ms []) k.
Proof. revert i. induction ms as [|m ms IH]; intros [|i] L; cbn in *; try lia; [reflexivity|]. apply IH. lia. Qed.
Lemma normal_information flux err nf ms i j : ~ nf == 0 -> (i < length ms)%nat -> (j < length ms)%nat -> forall n ks, (forall k, (ks <= k < ks + n)%nat -> ~ at_ err k == 0) ->
  normal (map (mk_row flux err nf ms) (seq ks n)) i j == nf * nf * information err ms ks n i j.
Proof.
  intros N Li Lj. induction n as [|n IH]; intros ks E; cbn [seq map normal information]; [ring|]. rewrite IH by (intros k K; apply E; lia).
  assert (Ek := E ks ltac:(lia)). cbn [mk_row o_w o_row]. rewrite !nth_map_at by assumption. field. split; assumption.
Qed.
Lemma sumto_ext n f g : (forall i, (i < n)%nat -> f i == g i) -> sumto n f == sumto n g.
Proof. induction n as [|n IH]; intros H; cbn; [reflexivity|]. rewrite IH by (intros; apply H; lia). rewrite (H n) by lia. reflexivity. Qed.
Lemma inverse_scaled k N s m : (forall i j, (i < k)%nat -> (j < k)%nat -> N i j == s * m i j) -> forall x, is_inverse k N x -> is_inverse k m (fun i j => s * x i j).
Proof. intros H x I i j Li Lj. rewrite <- (I i j Li Lj). apply sumto_ext. intros l L. rewrite (H i l Li L). ring. Qed.
Lemma inverse_unscaled k N s m : ~ s == 0 -> (forall i j, (i < k)%nat -> (j < k)%nat -> N i j == s * m i j) -> forall x, is_inverse k m x -> is_inverse k N (fun i j => x i j / s).
Proof. intros S0 H x I i j Li Lj. rewrite <- (I i j Li Lj). apply sumto_ext. intros l L. rewrite (H i l Li L). field. exact S0. Qed.

Lemma combination_ext k : forall ms a b, Forall2 Qeq a b -> combination ms a k == combination ms b k.
Proof. induction ms as [|m ms IH]; intros a b H; [reflexivity|]. destruct H as [|x y a b E H]; [reflexivity|]. cbn [combination]. rewrite (IH _ _ H), E. reflexivity. Qed.
Lemma chi2_ext flux err ms a b : Forall2 Qeq a b -> forall n k, chi2 flux err ms a k n == chi2 flux err ms b k n.
Proof. intros H. induction n as [|n IH]; intros k; cbn [chi2]; [reflexivity|]. rewrite IH, (combination_ext k ms a b H). reflexivity. Qed.
Lemma unscale (nf : Q) : ~ nf == 0 -> forall b, Forall2 Qeq (map (fun a => a * nf) (map (fun a => a / nf) b)) b.
Proof. intros N. induction b as [|x b IH]; cbn [map]; constructor; [field; exact N|exact IH]. Qed.
Lemma at_map f l i : (i < length l)%nat -> at_ (map f l) i = f (at_ l i).
Proof. unfold at_. revert i. induction l as [|x l IH]; intros [|i] L; cbn in *; try lia; [reflexivity|]. apply IH. lia. Qed.
Lemma diag_len m n : length (diag m n) = n. Proof. unfold diag. rewrite map_length, seq_length. reflexivity. Qed.
Lemma at_diag m n i : (i < n)%nat -> at_ (diag m n) i = entry m i i.
Proof. intros L. unfold at_, diag, entry. rewrite (nth_indep _ 0 ((fun i => nth i (nth i m []) 0) 0%nat)) by (rewrite map_length, seq_length; exact L). rewrite (map_nth (fun i => nth i (nth i m []) 0)), seq_nth by exact L. reflexivity. Qed.
Lemma at_combine c d i : (i < length c)%nat -> (i < length d)%nat -> nth i (combine c d) (0, 0) = (at_ c i, at_ d i).
Proof. unfold at_. revert d i. induction c as [|x c IH]; intros [|y d] [|i] L M; cbn in *; try lia; [reflexivity|]. apply IH; lia. Qed.
Lemma qsum_app l l' : qsum (l ++ l') == qsum l + qsum l'.
Proof. induction l as [|x l IH]; cbn [app qsum]; [ring|]. rewrite IH. ring. Qed.
Lemma qsum_sumto f : forall l n, length l = n -> qsum (map f l) == sumto n (fun i => f (at_ l i)).
Proof.
  intros l. induction l as [|x l IH] using rev_ind; intros n <-; [reflexivity|]. rewrite map_app, qsum_app, app_length, Nat.add_comm. cbn [length Nat.add sumto map qsum]. rewrite (IH _ eq_refl).
  apply Qplus_comp.
  - apply sumto_ext. intros i L. unfold at_. rewrite app_nth1 by exact L. reflexivity.
  - unfold at_. rewrite app_nth2, Nat.sub_diag by lia. cbn [nth]. ring.
Qed.
Lemma map_id' (l : list Q) : map (fun x => x) l = l. Proof. apply map_id. Qed.
Lemma sumto_scal n s f : sumto n (fun i => s * f i) == s * sumto n f.
Proof. induction n as [|n IH]; cbn [sumto]; [ring|]. rewrite IH. ring. Qed.

Section Fit.
  Variable sqrtf : Q -> Q.
  Variable solve : nat -> list obs -> list Q * list (list Q) * Q.
  Hypothesis LS : least_squares solve.
  Lemma fit_ok flux err ks ke nf ts rs f : 0 < nf -> (ks <= ke)%nat -> (forall k, (ks <= k <= ke)%nat -> ~ at_ err k == 0) ->
    rows flux err ks (S ke - ks) nf ts = Ok rs -> fit_one sqrtf solve (length ts) nf rs = Ok f ->
    right_fit sqrtf flux err ks ke nf (models ts) f.
  Proof.
    intros Nf K E R F. assert (N0 : ~ nf == 0) by lra. destruct (rows_spec _ _ _ _ _ _ _ R) as [-> _].
    assert (E' : forall k, (ks <= k < ks + (S ke - ks))%nat -> ~ at_ err k == 0) by (intros k Hk; apply E; lia).
    unfold fit_one in F. destruct (Nat.ltb_spec (length (map (mk_row flux err nf (models ts)) (seq ks (S ke - ks)))) (length ts)); [discriminate|].
    assert (Lm : length (models ts) = length ts) by apply map_length.
    pose proof (LS (length ts) (map (mk_row flux err nf (models ts)) (seq ks (S ke - ks)))) as P.
    destruct (solve _ _) as [[c cov] chi] eqn:S0. cbn [fst snd] in P. destruct P as (Lc & Chi & Min & Inv).
    { intros r I. rewrite <- Lm. exact (weights_nn _ _ _ _ _ _ _ I). }
    destruct (Nat.ltb_spec (length ts) 2); [discriminate|]. inversion F; subst f. clear F. unfold right_fit. cbn [f_amp f_err f_sig f_cov f_snr f_chi].
    pose proof (squares_chi2 flux err nf (models ts)) as SC.
    split; [|split; [|split; [|split; [|split; [|split]]]]].
    - split; [rewrite map_length; congruence|]. intros b Lb. rewrite <- (SC c N0 _ _ E'). apply (Qle_trans _ _ _ (Min (map (fun a => a / nf) b) ltac:(rewrite map_length; congruence))).
      rewrite (SC _ N0 _ _ E'). rewrite (chi2_ext _ _ _ _ _ (unscale nf N0 b)). apply Qle_refl.
    - rewrite Chi, (SC c N0 _ _ E'). reflexivity.
    - rewrite map_length, diag_len. auto.
    - rewrite map_length, combine_length, diag_len, Lc, Lm. apply Nat.min_id.
    - rewrite Lm. intros i L. exists (entry cov i i). split; [reflexivity|]. rewrite at_map by (rewrite diag_len; exact L). rewrite at_diag by exact L. split; [reflexivity|]. intros NE.
      rewrite at_map by lia. unfold at_ at 1. rewrite (nth_indep _ 0 ((fun p => fst p / sqrtf (snd p)) (0, 0))) by (rewrite map_length, combine_length, diag_len, Lc; lia).
      rewrite (map_nth (fun p => fst p / sqrtf (snd p))), at_combine by (rewrite ?diag_len; lia). cbn [fst snd]. rewrite at_diag by exact L. field. split; [exact N0|]. intros Z. apply NE. rewrite Z. ring.
    - rewrite Lm. intros (m & Im).
      assert (NI : forall i j, (i < length ts)%nat -> (j < length ts)%nat -> normal (map (mk_row flux err nf (models ts)) (seq ks (S ke - ks))) i j == nf * nf * information err (models ts) ks (S ke - ks) i j).
      { intros i j Li Lj. apply normal_information; try assumption; congruence. }
      apply (inverse_scaled _ _ _ _ NI). apply Inv. exists (fun i j => m i j / (nf * nf)). refine (inverse_unscaled _ _ (nf * nf) (information err (models ts) ks (S ke - ks)) _ NI m Im). intros Z. apply Qmult_integral in Z. tauto.
    - exists (qsum (map (fun a => a * a) c) / qsum (diag cov (length ts))). split; [reflexivity|]. rewrite Lm. intros NE.
      assert (EA : sumto (length ts) (fun i => at_ (map (fun a => a * nf) c) i * at_ (map (fun a => a * nf) c) i) == nf * nf * sumto (length ts) (fun i => at_ c i * at_ c i)).
      { rewrite <- sumto_scal. apply sumto_ext. intros i L. rewrite at_map by lia. ring. }
      assert (EC := sumto_scal (length ts) (nf * nf) (fun i => entry cov i i)). cbv beta in EC.
      assert (EQ := qsum_sumto (fun a => a * a) c (length ts) Lc). cbv beta in EQ.
      assert (ED : qsum (diag cov (length ts)) == sumto (length ts) (fun i => entry cov i i)).
      { rewrite <- (map_id' (diag cov (length ts))) at 1. rewrite (qsum_sumto (fun x => x) (diag cov (length ts)) (length ts)) by apply diag_len. apply sumto_ext. intros i L. rewrite at_diag by exact L. reflexivity. }
      rewrite EA, EC, EQ, ED. field. split; [exact NE|exact N0].
  Qed.
End Fit.

Lemma norm_ok flux : forall n k m nf, norm_loop flux k n m = Ok nf ->
  m <= nf /\ (forall i, (k <= i < k + n)%nat -> Qabs (at_ flux i) <= nf) /\ (nf = m \/ exists i, (k <= i < k + n)%nat /\ nf = Qabs (at_ flux i)).
Proof.
  induction n as [|n IH]; intros k m nf H; cbn [norm_loop] in H; [inversion H; subst; split; [apply Qle_refl|]; split; [lia|left; reflexivity]|].
  destruct (vget flux k) as [y| |] eqn:E; try discriminate. cbn [rbind] in H. apply vget_at in E. destruct E as [E _]. destruct (IH _ _ _ H) as (A & B & C).
  assert (W : m <= (if Qltb m (Qabs y) then Qabs y else m) /\ Qabs y <= (if Qltb m (Qabs y) then Qabs y else m)) by (destruct (Qltb_spec m (Qabs y)); split; lra).
  split; [lra|]. split.
  - intros i I. destruct (Nat.eq_dec i k) as [->|]; [rewrite E; lra|]. apply B. lia.
  - destruct C as [-> |(i & I & ->)]; [|right; exists i; split; [lia|reflexivity]]. destruct (Qltb m (Qabs y)); [|left; reflexivity]. right. exists k. split; [lia|]. rewrite E. reflexivity.
Qed.
