From Verif Require Import Base RBase FftModel FftSpec FftProofs FftProofs2 FftProofs3 LfitModel LfitSpec LfitProofs LfitProofs2.
Open Scope R_scope.

Lemma Rround_INR k : Rround (INR k) = Z.of_nat k.
Proof.
  unfold Rround. pose proof (pos_INR k). destruct (Rltb_spec (INR k) 0); [lra|].
  apply Rfloor_unique; rewrite <- INR_IZR_INZ; lra.
Qed.
Lemma to_int_nat k : (Z.of_nat k <= 2147483647)%Z -> Rto_int32 (IZR (Z.of_nat k)) = Ok (Z.of_nat k).
Proof.
  intros L. unfold Rto_int32, Rtrunc. assert (0 <= IZR (Z.of_nat k)) by (apply IZR_le; lia).
  destruct (Rltb_spec (IZR (Z.of_nat k)) 0); [lra|].
  rewrite (Rfloor_unique _ (Z.of_nat k)) by lra.
  destruct (Z.leb_spec (-2147483648) (Z.of_nat k)); [|lia]. destruct (Z.leb_spec (Z.of_nat k) 2147483647); [reflexivity|lia].
Qed.

Lemma Rround_near x k : Rabs (x - INR k) < / 2 -> Rround x = Z.of_nat k.
Proof.
  intros A. apply Rabs_def2 in A. destruct A as [A B]. unfold Rround. pose proof (INR_IZR_INZ k) as E.
  destruct (Rltb_spec x 0) as [L|L].
  - destruct k as [|k]; [|rewrite S_INR in B; pose proof (pos_INR k); lra]. cbn [INR] in A, B.
    rewrite (Rfloor_unique _ 0%Z) by lra. reflexivity.
  - apply Rfloor_unique; rewrite <- E; lra.
Qed.
Lemma FindTpl_near sb se tb te spc tpl step zb ze ka kr : (2 <= length spc)%nat -> (2 <= length tpl)%nat -> (Z.of_nat (length tpl) <= 2147483647)%Z ->
  nth 0 spc 0 = sb -> nth (length spc - 1) spc 0 = se -> nth 0 tpl 0 = tb -> nth (length tpl - 1) tpl 0 = te -> tb <> 0 -> te <> 0 ->
  Rabs (ln (sb / tb / (1 + ze)) / step - INR ka) < / 2 -> Rabs (ln ((1 + zb) / (se / te)) / step - INR kr) < / 2 -> (ka + kr < length tpl)%nat ->
  FindTplSpectralIndex spc tpl step zb ze = Ok (Z.of_nat ka, Z.of_nat (length tpl - 1 - kr)).
Proof.
  intros L1 L2 L3 <- <- <- <- N1 N2 A B K. unfold FindTplSpectralIndex, lambdaRange.
  destruct (Nat.ltb_spec (length spc) 2) as [C|_]; [lia|]. destruct (Nat.ltb_spec (length tpl) 2) as [C|_]; [lia|]. cbn [rbind].
  set (sb := nth 0 spc 0) in *. set (se := nth (length spc - 1) spc 0) in *. set (tb := nth 0 tpl 0) in *. set (te := nth (length tpl - 1) tpl 0) in *.
  replace ((sb - tb) / tb + 1) with (sb / tb) by (field; exact N1). replace ((se - te) / te + 1) with (se / te) by (field; exact N2).
  rewrite (Rplus_comm ze), (Rplus_comm zb). rewrite (Rround_near _ _ A), (Rround_near _ _ B), to_int_nat by lia. cbn [rbind].
  rewrite <- minus_IZR. replace (Z.of_nat (length tpl) - 1 - Z.of_nat kr)%Z with (Z.of_nat (length tpl - 1 - kr)) by lia. rewrite to_int_nat by lia. cbn [rbind].
  destruct (Z.leb_spec (Z.of_nat (length tpl)) (Z.of_nat (length tpl - 1 - kr))) as [C|_]; [lia|].
  destruct (Z.ltb_spec (Z.of_nat ka) 0) as [C|_]; [lia|]. cbn [orb].
  destruct (Z.ltb_spec (Z.of_nat (length tpl - 1 - kr)) (Z.of_nat ka)) as [C|_]; [lia|]. reflexivity.
Qed.

Lemma log_grid_length x0 s n : length (log_grid x0 s n) = n.
Proof. unfold log_grid. rewrite map_length, seq_length. reflexivity. Qed.
Lemma log_grid_nth x0 s n j : (j < n)%nat -> nth j (log_grid x0 s n) 0 = x0 * exp (INR j * s).
Proof. intros L. exact (nth_mapseq (fun j => x0 * exp (INR j * s)) n j 0 L). Qed.
Lemma log_grid_nth_error x0 s n j : (j < n)%nat -> nth_error (log_grid x0 s n) j = Some (x0 * exp (INR j * s)).
Proof. intros L. exact (nth_error_mapseq (fun j => x0 * exp (INR j * s)) n j L). Qed.
Lemma redshift_grid_length s0 tpl p n : length (redshift_grid s0 tpl p n) = n.
Proof. unfold redshift_grid. rewrite map_length, seq_length. reflexivity. Qed.
Lemma redshift_grid_nth s0 tpl p n i : (i < n)%nat ->
  nth_error (redshift_grid s0 tpl p n) i = Some (s0 / nth (p + (n - 1 - i)) tpl 0 - 1).
Proof. intros L. exact (nth_error_mapseq (fun i => s0 / nth (p + (n - 1 - i)) tpl 0 - 1) n i L). Qed.

Lemma ln_ratio_step k (s : R) : 0 < s -> ln (exp (INR k * s)) / s = INR k.
Proof. intros S0. rewrite ln_exp. field. lra. Qed.

Section Grid.
  Context (s0 t0 step : R) (nS N p n : nat).
  Hypothesis Hs : 0 < s0. Hypothesis Ht : 0 < t0. Hypothesis Hst : 0 < step.
  Hypothesis HnS : (2 <= nS)%nat.
  Hypothesis Hfit : (p + n + nS <= N + 1)%nat.
  Hypothesis HN : (Z.of_nat N <= 2147483647)%Z.
  Hypothesis Hn : (1 <= n)%nat.
  Let spc := log_grid s0 step nS.
  Let tpl := log_grid t0 step N.

  Lemma FindTpl_any b e : (e < n)%nat -> (b < n)%nat -> (b <= S e)%nat ->
    FindTplSpectralIndex spc tpl step (s0 / nth (p + (n - 1 - b)) tpl 0 - 1) (s0 / nth (p + (n - 1 - e)) tpl 0 - 1)
    = Ok (Z.of_nat (p + (n - 1 - e)), Z.of_nat (p + (n - 1 - b) + nS - 1)).
  Proof.
    intros Hen Hbn Hbe. unfold FindTplSpectralIndex, lambdaRange, spc, tpl.
    rewrite !log_grid_length.
    destruct (Nat.ltb_spec nS 2) as [C|_]; [lia|]. cbn [rbind].
    destruct (Nat.ltb_spec N 2) as [C|_]; [lia|]. cbn [rbind].
    rewrite !log_grid_nth by lia.
    set (ka := (p + (n - 1 - e))%nat). set (kb := (p + (n - 1 - b))%nat).
    pose proof (exp_pos (INR 0 * step)). pose proof (exp_pos (INR ka * step)). pose proof (exp_pos (INR kb * step)).
    pose proof (exp_pos (INR (nS - 1) * step)). pose proof (exp_pos (INR (N - 1) * step)).
    replace (INR 0 * step) with 0 by (simpl; ring). rewrite exp_0.
    replace (((s0 * 1 - t0 * 1) / (t0 * 1) + 1) / (s0 / (t0 * exp (INR ka * step)) - 1 + 1)) with (exp (INR ka * step)).
    2:{ field. repeat split; lra. }
    rewrite ln_ratio_step, Rround_INR, to_int_nat by (try exact Hst; unfold ka; lia). cbn [rbind].
    assert (R2 : (s0 / (t0 * exp (INR kb * step)) - 1 + 1) /
       ((s0 * exp (INR (nS - 1) * step) - t0 * exp (INR (N - 1) * step)) / (t0 * exp (INR (N - 1) * step)) + 1)
       = exp (INR (N - 1 - (kb + nS - 1)) * step)).
    { assert (Ex : exp (INR (N - 1 - (kb + nS - 1)) * step) * (exp (INR kb * step) * exp (INR (nS - 1) * step)) = exp (INR (N - 1) * step)).
      { rewrite <- !exp_plus. f_equal. rewrite <- !Rmult_plus_distr_r. f_equal.
        rewrite <- !plus_INR. f_equal. unfold kb. lia. }
      pose proof (exp_pos (INR (N - 1 - (kb + nS - 1)) * step)). revert Ex.
      generalize dependent (exp (INR (N - 1 - (kb + nS - 1)) * step)). generalize dependent (exp (INR kb * step)).
      generalize dependent (exp (INR (nS - 1) * step)). generalize dependent (exp (INR (N - 1) * step)).
      intros x4 P4 x3 P3 x2 P2 x1 P1 Ex.
      replace (s0 / (t0 * x2) - 1 + 1) with (s0 / (t0 * x2)) by lra.
      replace ((s0 * x3 - t0 * x4) / (t0 * x4) + 1) with (s0 * x3 / (t0 * x4)) by (field; lra).
      subst x4. field. repeat split; lra. }
    rewrite R2, ln_ratio_step, Rround_INR by exact Hst.
    rewrite <- minus_IZR.
    replace (Z.of_nat N - 1 - Z.of_nat (N - 1 - (kb + nS - 1)))%Z with (Z.of_nat (kb + nS - 1)) by (unfold kb; lia).
    rewrite to_int_nat by (unfold kb; lia). cbn [rbind].
    destruct (Z.leb_spec (Z.of_nat N) (Z.of_nat (kb + nS - 1))) as [C|_]; [unfold kb in C; lia|].
    destruct (Z.ltb_spec (Z.of_nat ka) 0) as [C|_]; [lia|]. cbn [orb].
    destruct (Z.ltb_spec (Z.of_nat (kb + nS - 1)) (Z.of_nat ka)) as [C|_]; [unfold ka, kb in C; lia|].
    reflexivity.
  Qed.
  Lemma FindTpl_ok b e : (b <= e < n)%nat ->
    FindTplSpectralIndex spc tpl step (s0 / nth (p + (n - 1 - b)) tpl 0 - 1) (s0 / nth (p + (n - 1 - e)) tpl 0 - 1)
    = Ok (Z.of_nat (p + (n - 1 - e)), Z.of_nat (p + (n - 1 - b) + nS - 1)).
  Proof. intros. apply FindTpl_any; lia. Qed.
End Grid.

(** * copy into the global result *)
Section Copy.
  Context (thr : R) (ebmvIndex : R -> res nat) (dtd : R) (lp : list (list ptze)).

  Lemma copyRange_spec : forall bests inter result idx r',
    copyRange thr ebmvIndex dtd lp result idx bests inter = Ok r' ->
    length r' = length result /\
    (forall j, (j < idx)%nat \/ (idx + length bests <= j)%nat -> nth_error r' j = nth_error result j) /\
    (forall i c t, nth_error bests i = Some c -> nth_error inter i = Some t ->
       exists row, nth_error r' (idx + i) = Some (Some row) /\ row_made thr ebmvIndex dtd lp (idx + i) c t row).
  Proof.
    induction bests as [|b bests IH]; intros [|t0 inter] result idx r' H; cbn [copyRange] in H.
    - injection H as <-. repeat split; auto. intros i c t N. destruct i; discriminate.
    - injection H as <-. repeat split; auto. intros i c t N. destruct i; discriminate.
    - discriminate.
    - destruct (Nat.leb_spec (length result) idx) as [C|C]; [discriminate|].
      match type of H with rbind ?q _ = _ => destruct q as [[b' lpv]| |] eqn:Eq; cbn [rbind] in H; try discriminate end.
      destruct (vset_ok result idx (Some (mkRow b' lpv t0)) C) as (l' & El & Ll & Nl & Ol).
      rewrite El in H. cbn [rbind] in H. destruct (IH _ _ _ _ H) as (L1 & O1 & R1).
      split; [congruence|]. split.
      + intros j J. rewrite O1 by (simpl in J; lia). apply Ol. simpl in J; lia.
      + intros i c t N1 N2. destruct i as [|i].
        * simpl in N1, N2. injection N1 as <-. injection N2 as <-. rewrite Nat.add_0_r.
          exists (mkRow b' lpv t0). split; [rewrite O1 by lia; exact Nl|].
          split; [reflexivity|]. destruct lp as [|p0 lp'] eqn:Elp.
          -- simpl in Eq. injection Eq as <- <-. split; reflexivity.
          -- change (0 <? length (p0 :: lp'))%nat with true in Eq. cbv iota in Eq. destruct b as [c|]; [|discriminate]. cbv iota beta in Eq.
             match type of Eq with rbind ?q _ = _ => destruct q as [kism| |] eqn:Ek; cbn [rbind] in Eq; try discriminate end.
             destruct (vget (p0 :: lp') idx) as [ps| |] eqn:Ep; cbn [rbind] in Eq; try discriminate.
             destruct (vget ps kism) as [p| |] eqn:Epp; cbn [rbind] in Eq; try discriminate.
             destruct (applyPrior thr dtd c p) as [[c' l1]| |] eqn:Ea; cbn [rbind] in Eq; try discriminate.
             injection Eq as <- <-. exists c, kism, ps, p, c'. repeat split; auto.
             ++ destruct (Reqb (c_ebmv c) (-1)); [congruence|exact Ek].
             ++ apply vget_Ok in Ep. exact Ep.
             ++ apply vget_Ok in Epp. exact Epp.
        * replace (idx + S i)%nat with (S idx + i)%nat by lia. apply (R1 i c t); assumption.
  Qed.

  Lemma copyRange_total : lp = [] -> forall bests inter result idx,
    length inter = length bests -> (idx + length bests <= length result)%nat ->
    exists r', copyRange thr ebmvIndex dtd lp result idx bests inter = Ok r'.
  Proof.
    intros ->. induction bests as [|b bests IH]; intros [|t0 inter] result idx L1 L2; simpl in L1, L2; try lia;
      cbn [copyRange]; [eauto|].
    destruct (Nat.leb_spec (length result) idx) as [C|C]; [lia|].
    change (0 <? length (@nil (list ptze)))%nat with false. cbv iota. cbn [rbind].
    destruct (vset_ok result idx (Some (mkRow b 0 t0)) C) as (l' & El & Ll & _). rewrite El. cbn [rbind].
    apply IH; lia.
  Qed.
End Copy.

Section All.
  Context (thr : R) (enIGM enISM : bool) (ebmvValue : Z -> R) (ebmvIndex : R -> res nat).
  Context (flux : nat -> nat -> R -> option Z -> option Z -> list R).
  Context (junk : nat -> list complex * list complex).
  Context (s0 t0 step : R) (nS N p n : nat) (data w : list R) (dtd : R) (M E : list Z) (lp : list (list ptze)).
  Hypothesis Hs : 0 < s0. Hypothesis Ht : 0 < t0. Hypothesis Hst : 0 < step.
  Hypothesis HnS : (2 <= nS)%nat.
  Hypothesis Hfit : (p + n + nS <= N + 1)%nat.
  Hypothesis HN : (Z.of_nat N <= 2147483647)%Z.
  Hypothesis Hn : (1 <= n)%nat.
  Hypothesis HD : length data = nS.
  Hypothesis HW : length w = nS.
  Hypothesis Wp : Forall (fun v => 0 <= v) w.
  Hypothesis Ed : dtd = wdot w data data.
  Hypothesis HF : forall a b z igm ism, length (flux a b z igm ism) = N.
  Hypothesis HM : M <> [].
  Hypothesis HE : E <> [].
  Notation spc := (log_grid s0 step nS).
  Notation tpl := (log_grid t0 step N).
  Notation zs := (redshift_grid s0 tpl p n).
  Notation zat i := (s0 / nth (p + (n - 1 - i)) tpl 0 - 1).

  (** the rows of one range *)
  Definition rows_of (result : list (option row)) (b e : nat) : Prop :=
    exists bests inter,
      range_fitted thr enIGM enISM ebmvValue w data
        (flux (p + (n - 1 - e)) (p + (n - 1 - b) + nS - 1) (zat b)) (nth (p + (n - 1 - e)) tpl 0)
        (p + (n - 1 - e)) (e + 1 - b) M E bests inter /\
      forall i c t, nth_error bests i = Some c -> nth_error inter i = Some t ->
        exists row, nth_error result (b + i) = Some (Some row) /\ row_made thr ebmvIndex dtd lp (b + i) c t row.

  Lemma tpl_pos j : (j < N)%nat -> 0 < nth j tpl 0.
  Proof. intros L. rewrite log_grid_nth by exact L. apply Rmult_lt_0_compat; [exact Ht|apply exp_pos]. Qed.

  Lemma one_range k b e : (b <= e < n)%nat ->
    exists bests inter,
      FitRangez thr enIGM enISM ebmvValue flux (fst (junk k)) (snd (junk k)) spc data w tpl
        (p + (n - 1 - e)) (p + (n - 1 - b) + nS - 1) (firstn (e + 1 - b) (skipn b zs)) M E dtd = Ok (bests, inter) /\
      range_fitted thr enIGM enISM ebmvValue w data
        (flux (p + (n - 1 - e)) (p + (n - 1 - b) + nS - 1) (zat b)) (nth (p + (n - 1 - e)) tpl 0)
        (p + (n - 1 - e)) (e + 1 - b) M E bests inter.
  Proof.
    intros [Hbe Hen]. set (sub := firstn (e + 1 - b) (skipn b zs)).
    assert (Lsub : length sub = (e + 1 - b)%nat).
    { unfold sub. rewrite firstn_length, skipn_length, redshift_grid_length. lia. }
    assert (Nsub : forall i, (i < e + 1 - b)%nat -> nth_error sub i = Some (zat (b + i))).
    { intros i Li. unfold sub. rewrite <- (redshift_grid_nth s0 tpl p n (b + i)) by lia.
      rewrite <- (firstn_skipn b zs) at 2. rewrite nth_error_app2; rewrite firstn_length_le by (rewrite redshift_grid_length; lia); [|lia].
      replace (b + i - b)%nat with i by lia.
      rewrite <- (firstn_skipn (e + 1 - b) (skipn b zs)) at 2. rewrite nth_error_app1; [reflexivity|].
      change (i < length sub)%nat. lia. }
    pose proof (FitRangez_ok thr enIGM enISM ebmvValue flux (fst (junk k)) (snd (junk k)) spc data w tpl
      (p + (n - 1 - e)) (p + (n - 1 - b) + nS - 1) sub M E dtd (zat b) (s0 * exp (INR 0 * step)) (nth (p + (n - 1 - e)) tpl 0)) as H.
    rewrite !log_grid_length, Lsub in H. apply H; clear H; auto; try lia.
    - rewrite Nsub by lia. rewrite Nat.add_0_r. reflexivity.
    - apply log_grid_nth_error. lia.
    - rewrite log_grid_nth_error, log_grid_nth by lia. reflexivity.
    - intros i l z Li El Ez.
      assert (Er : nth_error (rev sub) i = Some (zat (b + (e - b - i)))).
      { rewrite (nth_error_nth' (rev sub) 0) by (rewrite rev_length; lia). rewrite rev_nth by lia. rewrite Lsub.
        replace (e + 1 - b - S i)%nat with (e - b - i)%nat by lia.
        pose proof (Nsub (e - b - i)%nat ltac:(lia)) as Q. rewrite (nth_error_nth' sub 0) in Q by lia. exact Q. }
      rewrite Er in Ez. injection Ez as <-.
      rewrite (nth_error_nth' tpl 0) in El by (rewrite log_grid_length; lia). injection El as <-.
      replace (b + (e - b - i))%nat with (e - i)%nat by lia.
      replace (p + (n - 1 - (e - i)))%nat with (i + (p + (n - 1 - e)))%nat by lia.
      pose proof (tpl_pos (i + (p + (n - 1 - e))) ltac:(lia)) as P.
      set (l := nth (i + (p + (n - 1 - e))) tpl 0) in *.
      replace (s0 * exp (INR 0 * step)) with s0 by (simpl INR; rewrite Rmult_0_l, exp_0; ring).
      replace (s0 / l - 1 - (s0 - l) / l) with 0 by (field; lra). rewrite Rabs_R0. unfold Rdiv. rewrite Rmult_0_l. lra.
  Qed.

  Lemma loop_spec : forall ranges b k result r', chain b ranges n -> length result = n ->
    rangesLoop thr enIGM enISM ebmvValue flux ebmvIndex junk spc data w tpl step zs M E lp dtd ranges k result = Ok r' ->
    length r' = n /\ (forall j, (j < b)%nat -> nth_error r' j = nth_error result j) /\
    forall b' e, In (b', e) ranges -> rows_of r' b' (Z.to_nat e) /\ (b <= b')%nat.
  Proof.
    induction ranges as [|[b1 e1] ranges IH]; intros b k result r' C L H.
    - cbn [rangesLoop] in H. injection H as <-. repeat split; auto; contradiction.
    - destruct C as (-> & C1 & C2). cbn [rangesLoop] in H.
      destruct (Z.ltb_spec e1 0) as [Ce|_]; [lia|].
      assert (En : (Z.to_nat e1 < n)%nat).
      { clear - C2. revert C2. generalize (Z.to_nat e1). clear e1. induction ranges as [|[b2 e2] r IH]; intros e C2; simpl in C2; [lia|].
        destruct C2 as (_ & C3 & C4). apply IH in C4. lia. }
      set (e' := Z.to_nat e1) in *. assert (Hbe : (b <= e')%nat) by (unfold e'; lia).
      unfold vget in H. rewrite !redshift_grid_nth in H by lia. cbn [rbind] in H.
      rewrite (FindTpl_ok s0 t0 step nS N p n Hs Ht Hst HnS Hfit HN Hn b e') in H by lia.
      cbn [rbind] in H. rewrite !Nat2Z.id in H.
      destruct (one_range k b e') as (bests & inter & EF & RF); [lia|]. rewrite EF in H. cbn [rbind] in H.
      destruct (copyRange thr ebmvIndex dtd lp result b bests inter) as [r1| |] eqn:Ec; cbn [rbind] in H; try discriminate.
      destruct (copyRange_spec _ _ _ _ _ _ _ _ _ Ec) as (L1 & O1 & R1).
      destruct (IH (S e') (S k) r1 r' C2 ltac:(congruence) H) as (L2 & O2 & R2).
      pose proof RF as (Lb & Li & _).
      split; [exact L2|]. split.
      + intros j J. rewrite O2 by lia. apply O1. left. exact J.
      + intros b' e2 [Eb|I0].
        * injection Eb as <- <-. split; [|lia]. exists bests, inter. split; [exact RF|].
          intros i c t N1 N2. fold e'. destruct (R1 i c t N1 N2) as (rw & Nr & Rm). exists rw. split; [|exact Rm].
          rewrite O2; [exact Nr|]. assert (i < length bests)%nat by (apply nth_error_Some; congruence). lia.
        * destruct (R2 b' e2 I0). split; [assumption|lia].
  Qed.

  Lemma chain_end : forall ranges b m, chain b ranges m -> (b <= m)%nat.
  Proof.
    induction ranges as [|[b2 e2] r IH]; intros b m C; cbn [chain] in C; [lia|].
    destruct C as (_ & C3 & C4). apply IH in C4. lia.
  Qed.
  Lemma loop_prefix : lp = [] -> forall ranges b m k result, chain b ranges m -> (m <= n)%nat -> length result = n ->
    exists r', rangesLoop thr enIGM enISM ebmvValue flux ebmvIndex junk spc data w tpl step zs M E lp dtd ranges k result = Ok r' /\ length r' = n.
  Proof.
    intros Hlp. induction ranges as [|[b1 e1] ranges IH]; intros b m k result C Lm L; [cbn [rangesLoop]; eauto|].
    destruct C as (-> & C1 & C2). cbn [rangesLoop].
    destruct (Z.ltb_spec e1 0) as [Ce|_]; [lia|].
    assert (En : (Z.to_nat e1 < n)%nat) by (apply chain_end in C2; lia).
    set (e' := Z.to_nat e1) in *. assert (Hbe : (b <= e')%nat) by (unfold e'; lia).
    unfold vget. rewrite !redshift_grid_nth by lia. cbn [rbind].
    rewrite (FindTpl_ok s0 t0 step nS N p n Hs Ht Hst HnS Hfit HN Hn b e') by lia.
    cbn [rbind]. rewrite !Nat2Z.id.
    destruct (one_range k b e') as (bests & inter & EF & RF); [lia|]. rewrite EF. cbn [rbind].
    pose proof RF as (Lb & Li & _).
    destruct (copyRange_total thr ebmvIndex dtd lp Hlp bests inter result b) as (r1 & Ec); [congruence|lia|].
    rewrite Ec. cbn [rbind]. destruct (copyRange_spec _ _ _ _ _ _ _ _ _ Ec) as (L1 & _).
    apply (IH (S e') m); [exact C2|exact Lm|congruence].
  Qed.
  Lemma loop_total : lp = [] -> forall ranges b k result, chain b ranges n -> length result = n ->
    exists r', rangesLoop thr enIGM enISM ebmvValue flux ebmvIndex junk spc data w tpl step zs M E lp dtd ranges k result = Ok r'.
  Proof.
    intros Hlp ranges b k result C L. destruct (loop_prefix Hlp ranges b n k result C (Nat.le_refl n) L) as (r & H & _). eauto.
  Qed.
  Lemma loop_app ranges rest : forall k result,
    rangesLoop thr enIGM enISM ebmvValue flux ebmvIndex junk spc data w tpl step zs M E lp dtd (ranges ++ rest) k result =
    rbind (rangesLoop thr enIGM enISM ebmvValue flux ebmvIndex junk spc data w tpl step zs M E lp dtd ranges k result)
      (fun r => rangesLoop thr enIGM enISM ebmvValue flux ebmvIndex junk spc data w tpl step zs M E lp dtd rest (k + length ranges) r).
  Proof.
    induction ranges as [|[b1 e1] ranges IH]; intros k result.
    - cbn [app rangesLoop rbind length]. f_equal. lia.
    - cbn [app rangesLoop length]. destruct (e1 <? 0)%Z; [reflexivity|].
      destruct (vget zs b1); [cbn [rbind]|reflexivity|reflexivity].
      destruct (vget zs (Z.to_nat e1)); [cbn [rbind]|reflexivity|reflexivity].
      destruct (FindTplSpectralIndex spc tpl step _ _) as [[kmin kmax]| |]; [cbn [rbind]|reflexivity|reflexivity].
      destruct (FitRangez _ _ _ _ _ _ _ _ _ _ _ _ _ _ _ _ _) as [[bests inter]| |]; [cbn [rbind]|reflexivity|reflexivity].
      destruct (copyRange _ _ _ _ _ _ _ _) as [r1| |]; [cbn [rbind]|reflexivity|reflexivity].
      rewrite IH. replace (k + S (length ranges))%nat with (S k + length ranges)%nat by lia. reflexivity.
  Qed.
  (** an empty range: the first redshift of an empty vector is read *)
  Lemma loop_empty b rest k result : (1 <= b < n)%nat ->
    rangesLoop thr enIGM enISM ebmvValue flux ebmvIndex junk spc data w tpl step zs M E lp dtd ((b, (Z.of_nat b - 1)%Z) :: rest) k result = UB.
  Proof.
    intros Hb. cbn [rangesLoop]. destruct (Z.ltb_spec (Z.of_nat b - 1) 0) as [K|_]; [lia|].
    replace (Z.to_nat (Z.of_nat b - 1)) with (b - 1)%nat by lia.
    unfold vget. rewrite !redshift_grid_nth by lia. cbn [rbind].
    rewrite (FindTpl_any s0 t0 step nS N p n Hs Ht Hst HnS Hfit HN Hn b (b - 1)) by lia.
    cbn [rbind]. replace (b - 1 + 1 - b)%nat with 0%nat by lia. cbn [firstn].
    unfold FitRangez. rewrite log_grid_length.
    destruct (Nat.eqb_spec (length data) nS) as [_|K]; [|congruence]. cbn [negb].
    destruct (Nat.eqb_spec (length w) nS) as [_|K]; [|congruence]. reflexivity.
  Qed.
End All.

Lemma invErr2_nn err : Forall (fun v => 0 <= v) (invErr2 err).
Proof.
  unfold invErr2. apply Forall_map, Forall_forall. intros e _. unfold Rdiv. rewrite Rmult_1_l.
  destruct (Req_dec e 0) as [-> |H]; [rewrite Rmult_0_l, Rinv_0; lra|].
  left. apply Rinv_0_lt_compat. nra.
Qed.
