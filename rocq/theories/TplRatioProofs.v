From Verif Require Import Base TplRatioModel TplRatioSpec.
Open Scope Q_scope.

Lemma Qsq_nonneg x : 0 <= x * x.
Proof. destruct x as [n d]. unfold Qle, Qmult; simpl. nia. Qed.
Lemma Qsq_pos x : ~ x == 0 -> 0 < x * x.
Proof. destruct x as [n d]. unfold Qeq, Qlt, Qmult; simpl. intro H. nia. Qed.
Lemma zip3_nth y e t i a b c : nth_error y i = Some a -> nth_error e i = Some b -> nth_error t i = Some c ->
  length y = length e -> length y = length t -> skipn i (zip3 y e t) = (a, b, c) :: skipn (S i) (zip3 y e t).
Proof.
  intros A B C. revert e t A B C. revert i. induction y as [|y0 y IH]; intros i e t A B C L1 L2; [destruct i; discriminate|].
  destruct e as [|e0 e]; [discriminate|]. destruct t as [|t0 t]; [discriminate|]. destruct i as [|i]; simpl in A, B, C.
  - injection A as ->. injection B as ->. injection C as ->. reflexivity.
  - change (skipn (S i) (zip3 (y0 :: y) (e0 :: e) (t0 :: t))) with (skipn i (zip3 y e t)).
    change (skipn (S (S i)) (zip3 (y0 :: y) (e0 :: e) (t0 :: t))) with (skipn (S i) (zip3 y e t)).
    apply IH; auto.
Qed.
Lemma cross_loop_spec lm err tpl : length lm = length err -> length lm = length tpl ->
  forall n i c t, (i + n = length lm)%nat -> exists c' t', cross_loop lm err tpl i n c t = Ok (c', t') /\
    c' == c + cross_sum (skipn i (zip3 lm err tpl)) /\ t' == t + tpl_sum (skipn i (zip3 lm err tpl)).
Proof.
  intros L1 L2. induction n as [|n IH]; intros i c t H.
  - exists c, t. split; [reflexivity|].
    rewrite skipn_all2 by (unfold zip3; rewrite !combine_length; lia). simpl. split; lra.
  - cbn [cross_loop]. destruct (vget_in err i) as [e E]; [lia|]. destruct (vget_in lm i) as [a A]; [lia|]. destruct (vget_in tpl i) as [u U]; [lia|].
    rewrite E, A, U. cbn [rbind]. destruct (IH (S i) (c + a * u * (1 / (e * e))) (t + u * u * (1 / (e * e))) ltac:(lia)) as [c' [t' [R [R1 R2]]]].
    exists c', t'. split; [exact R|]. apply vget_Ok in E, A, U. rewrite (zip3_nth _ _ _ _ _ _ _ A E U L1 L2). cbn [cross_sum tpl_sum].
    rewrite R1, R2. unfold Qdiv. split; ring.
Qed.
Lemma fit_loop_spec lm err tpl k : length lm = length err -> length lm = length tpl ->
  forall n i f, (i + n = length lm)%nat -> exists f', fit_loop lm err tpl k i n f = Ok (f', map (fun t => t * k) (skipn i tpl)) /\
    f' == f + chi2 k (skipn i (zip3 lm err tpl)).
Proof.
  intros L1 L2. induction n as [|n IH]; intros i f H.
  - exists f. rewrite skipn_all2 with (l := tpl) by lia. split; [reflexivity|].
    rewrite skipn_all2 by (unfold zip3; rewrite !combine_length; lia). simpl. lra.
  - cbn [fit_loop]. destruct (vget_in err i) as [e E]; [lia|]. destruct (vget_in lm i) as [a A]; [lia|]. destruct (vget_in tpl i) as [u U]; [lia|].
    rewrite E, A, U. cbn [rbind]. destruct (IH (S i) (f + (a - k * u) * (a - k * u) * (1 / (e * e))) ltac:(lia)) as [f' [R R1]].
    rewrite R. cbn [rbind]. exists f'. apply vget_Ok in E, A, U. split.
    + assert (Es : skipn i tpl = u :: skipn (S i) tpl).
      { clear - U. revert i U. induction tpl as [|x t IH]; intros i U; [destruct i; discriminate|]. destruct i; simpl in *; [injection U as ->; reflexivity|apply IH; exact U]. }
      rewrite Es. reflexivity.
    + rewrite (zip3_nth _ _ _ _ _ _ _ A E U L1 L2). cbn [chi2]. rewrite R1. unfold Qdiv. ring.
Qed.
Lemma chi2_quadratic l : exists s, forall a, chi2 a l == s - 2 * a * cross_sum l + a * a * tpl_sum l.
Proof.
  induction l as [|[[y e] t] l [s IH]]; [exists 0; intro a; simpl; ring|].
  exists (y * y / (e * e) + s). intro a. cbn [chi2 cross_sum tpl_sum]. rewrite IH. unfold Qdiv. ring.
Qed.
Lemma tpl_sum_nonneg l : 0 <= tpl_sum l.
Proof.
  induction l as [|[[y e] t] l IH]; simpl; [lra|]. assert (0 <= t * t / (e * e)); [|lra]. unfold Qdiv.
  apply Qmult_le_0_compat; [apply Qsq_nonneg|]. destruct (Qlt_le_dec 0 (e * e)) as [H|H].
  - apply Qlt_le_weak, Qinv_lt_0_compat, H.
  - pose proof (Qsq_nonneg e). assert (E : e * e == 0) by lra. rewrite E. discriminate.
Qed.
Lemma least_squares l a b : ~ tpl_sum l == 0 -> a == cross_sum l / tpl_sum l -> chi2 a l <= chi2 b l.
Proof.
  intros T A. destruct (chi2_quadratic l) as [s S]. rewrite !S. pose proof (tpl_sum_nonneg l) as P.
  assert (C : cross_sum l == a * tpl_sum l) by (rewrite A; field; exact T). rewrite C.
  assert (0 <= (b - a) * (b - a) * tpl_sum l) by (apply Qmult_le_0_compat; [apply Qsq_nonneg|exact P]). lra.
Qed.

Lemma computeFitValue_spec lm err tpl : length lm = length err -> length lm = length tpl -> (forall e, In e err -> ~ e == 0) ->
  let l := zip3 lm err tpl in
  ((cross_sum l == 0 \/ tpl_sum l == 0) -> computeFitValue lm err tpl = Ok (Some (-1, []))) /\
  (~ cross_sum l == 0 -> ~ tpl_sum l == 0 -> exists a fit corr, computeFitValue lm err tpl = Ok (Some (fit, corr)) /\
     fit == chi2 a l /\ (forall b, fit <= chi2 b l) /\ corr = map (fun t => t * a) tpl).
Proof.
  intros L1 L2 Ne l. unfold computeFitValue.
  assert (X : existsb (fun e => Qeq_bool e 0) (firstn (length lm) err) = false).
  { destruct (existsb _ _) eqn:E; [|reflexivity]. apply existsb_exists in E. destruct E as [e [H1 H2]]. exfalso.
    apply (Ne e); [|apply Qeq_bool_iff; exact H2]. rewrite <- (firstn_skipn (length lm) err). apply in_or_app. left. exact H1. }
  rewrite X. destruct (cross_loop_spec lm err tpl L1 L2 (length lm) 0 0 0 ltac:(lia)) as [c [t [R [R1 R2]]]]. rewrite R. cbn [rbind].
  cbn [skipn] in R1, R2. fold l in R1, R2. rewrite Qplus_0_l in R1, R2. split.
  - intros [H|H]; [destruct (Qeq_bool_spec c 0) as [K|K]; [reflexivity|exfalso; apply K; rewrite R1; exact H]|].
    destruct (Qeq_bool_spec t 0) as [K|K]; [rewrite orb_true_r; reflexivity|exfalso; apply K; rewrite R2; exact H].
  - intros H1 H2. destruct (Qeq_bool_spec c 0) as [K|K]; [exfalso; apply H1; rewrite <- R1; exact K|].
    destruct (Qeq_bool_spec t 0) as [J|J]; [exfalso; apply H2; rewrite <- R2; exact J|]. cbn [orb].
    destruct (fit_loop_spec lm err tpl (c / t) L1 L2 (length lm) 0 0 ltac:(lia)) as [f [F F1]]. rewrite F. cbn [rbind skipn] in *. fold l in F1.
    rewrite Qplus_0_l in F1.
    exists (c / t), f, (map (fun u => u * (c / t)) tpl). split; [reflexivity|]. split; [exact F1|]. split; [|reflexivity].
    intro b. rewrite F1. apply least_squares; [exact H2|]. rewrite R1, R2. reflexivity.
Qed.
Lemma fit_nonneg a l : (forall y e t, In (y, e, t) l -> ~ e == 0) -> 0 <= chi2 a l.
Proof.
  induction l as [|[[y e] t] l IH]; intro H; simpl; [lra|]. assert (0 <= (y - a * t) * (y - a * t) / (e * e)).
  { unfold Qdiv. apply Qmult_le_0_compat; [apply Qsq_nonneg|]. apply Qlt_le_weak, Qinv_lt_0_compat.
    apply Qsq_pos. apply (H y e t); left; reflexivity. }
  assert (0 <= chi2 a l); [|lra]. apply IH. intros y' e' t' Hin. apply (H y' e' t'). right; exact Hin.
Qed.

(** ** the best catalog *)
Definition fits (valid : list nat) (lm err : list Q) (cats : list (list Q)) (fs : list (option Q)) : Prop :=
  Forall2 (fun c f => exists r, getFitForOneCatalog valid lm err c = Ok r /\ option_map fst r = f) cats fs.
(** state of the loop after the catalogs of [fs] *)
Definition best_inv (fs : list (option Q)) (st : best_state) : Prop :=
  let '(cm, amps, b) := st in
  (cm == -1 /\ b = None /\ forall f, In (Some f) fs -> ~ 0 < f) \/ (exists k, b = Some k /\ first_best fs k cm).
Lemma first_best_app_old fs f k v : first_best fs k v -> (forall w, f = Some w -> 0 < w -> v <= w) -> first_best (fs ++ [f]) k v.
Proof.
  intros [A [B C]] H. assert (k < length fs)%nat by (apply nth_error_Some; congruence).
  split; [rewrite nth_error_app1 by lia; exact A|]. split; [exact B|]. intros j w Hj Hw.
  destruct (Nat.lt_ge_cases j (length fs)) as [L|L].
  - rewrite nth_error_app1 in Hj by exact L. apply C; auto.
  - rewrite nth_error_app2 in Hj by exact L. destruct (j - length fs)%nat as [|d] eqn:D; [|destruct d; discriminate].
    simpl in Hj. injection Hj as ->. split; [apply H; auto|intro; lia].
Qed.
Lemma best_loop_spec valid lm err : forall cats fs done st, fits valid lm err cats fs -> best_inv done st ->
  exists st', best_loop valid lm err (length done) cats st = Ok st' /\ best_inv (done ++ fs) st'.
Proof.
  induction cats as [|c cats IH]; intros fs done st H I.
  - inversion H; subst. exists st. split; [reflexivity|]. rewrite app_nil_r. exact I.
  - inversion H as [|? f ? fs' Hf Hr]; subst. destruct Hf as [r [E M]]. cbn [best_loop]. rewrite E. cbn [rbind].
    destruct st as [[cm amps] b].
    set (st' := match r with Some (fit, corr) => if (Qltb 0 fit && (Qltb fit cm || Qeq_bool cm (-1)))%bool then (fit, corr, Some (length done)) else (cm, amps, b) | None => (cm, amps, b) end).
    destruct (IH fs' (done ++ [f]) st' Hr) as [s2 [E2 I2]].
    + unfold st'. destruct r as [[fit corr]|]; simpl in M; subst f.
      * destruct (Qltb_spec 0 fit) as [P|P]; cbn [andb].
        { destruct I as [[Ic [Ib If]]|[k [Ib Ik]]].
          - destruct (Qeq_bool_spec cm (-1)) as [_|Nc]; [|contradiction]. rewrite orb_true_r. right. exists (length done). split; [reflexivity|].
            split; [rewrite nth_error_app2 by lia; rewrite Nat.sub_diag; reflexivity|]. split; [exact P|]. intros j w Hj Hw.
            destruct (Nat.lt_ge_cases j (length done)) as [L|L].
            + rewrite nth_error_app1 in Hj by exact L. apply nth_error_In in Hj. exfalso. apply (If w Hj Hw).
            + rewrite nth_error_app2 in Hj by exact L. destruct (j - length done)%nat as [|d] eqn:D; [|destruct d; discriminate].
              simpl in Hj. injection Hj as ->. split; [lra|intro; lia].
          - pose proof Ik as [A [B C]]. destruct (Qeq_bool_spec cm (-1)) as [Z|Z]; [exfalso; rewrite Z in B; discriminate|]. rewrite orb_false_r.
            destruct (Qltb_spec fit cm) as [L|L]; right.
            + exists (length done). split; [reflexivity|]. split; [rewrite nth_error_app2 by lia; rewrite Nat.sub_diag; reflexivity|]. split; [exact P|].
              intros j w Hj Hw. destruct (Nat.lt_ge_cases j (length done)) as [Lj|Lj].
              * rewrite nth_error_app1 in Hj by exact Lj. destruct (C j w Hj Hw) as [C1 _]. split; [lra|intros _; lra].
              * rewrite nth_error_app2 in Hj by exact Lj. destruct (j - length done)%nat as [|d] eqn:D; [|destruct d; discriminate].
                simpl in Hj. injection Hj as ->. split; [lra|intro; lia].
            + exists k. split; [exact Ib|]. apply first_best_app_old; [exact Ik|]. intros w Hw Pw. injection Hw as <-. lra. }
        { destruct I as [[Ic [Ib If]]|[k [Ib Ik]]].
          - left. split; [exact Ic|]. split; [exact Ib|]. intros g Hg. apply in_app_or in Hg. destruct Hg as [Hg|[Hg|[]]]; [apply If; exact Hg|].
            injection Hg as <-. exact P.
          - right. exists k. split; [exact Ib|]. apply first_best_app_old; [exact Ik|]. intros w Hw Pw. injection Hw as <-. contradiction. }
      * destruct I as [[Ic [Ib If]]|[k [Ib Ik]]].
        { left. split; [exact Ic|]. split; [exact Ib|]. intros g Hg. apply in_app_or in Hg. destruct Hg as [Hg|[Hg|[]]]; [apply If; exact Hg|discriminate]. }
        { right. exists k. split; [exact Ib|]. apply first_best_app_old; [exact Ik|]. intros w Hw Pw. discriminate. }
    + exists s2. split; [|rewrite <- app_assoc in I2; exact I2]. rewrite app_length in E2. simpl in E2. rewrite Nat.add_1_r in E2. exact E2.
Qed.
Lemma mask_ok lm err : forall n i, (i + n <= length lm)%nat -> (i + n <= length err)%nat ->
  exists m, mask_loop lm err i n = Ok m /\ length m = n /\
    forall k a e, (k < n)%nat -> nth_error lm (i + k) = Some a -> nth_error err (i + k) = Some e ->
      nth_error m k = Some (negb (Qltb a 0 || Qle_bool e 0)).
Proof.
  induction n as [|n IH]; intros i H1 H2; [exists []; split; [reflexivity|split; [reflexivity|intros; lia]]|].
  cbn [mask_loop]. destruct (vget_in lm i) as [a A]; [lia|]. destruct (vget_in err i) as [e E]; [lia|]. rewrite A, E. cbn [rbind].
  destruct (IH (S i) ltac:(lia) ltac:(lia)) as [m [R [Lm N]]]. rewrite R. cbn [rbind]. eexists; split; [reflexivity|]. split; [simpl; lia|].
  intros [|k] a' e' Hk Ha He.
  - rewrite Nat.add_0_r in Ha, He. apply vget_Ok in A, E. rewrite A in Ha. rewrite E in He. injection Ha as <-. injection He as <-. reflexivity.
  - simpl. apply N; [lia| |]; replace (S i + k)%nat with (i + S k)%nat by lia; assumption.
Qed.
(** clearing then assigning: the first unmasked line writes out of the bounds of an empty vector *)
Lemma fill_UB mask best : forall n i, (i + n <= length mask)%nat -> (i + n <= length best)%nat ->
  (exists k, (i <= k < i + n)%nat /\ nth_error mask k = Some true) -> fill_loop mask best [] i n = UB.
Proof.
  induction n as [|n IH]; intros i Hm Hb [k [K1 K2]]; [lia|]. cbn [fill_loop].
  destruct (vget_in mask i) as [b B]; [lia|]. rewrite B. cbn [rbind]. destruct b.
  - destruct (vget_in best i) as [x X]; [lia|]. rewrite X. reflexivity.
  - cbn [rbind]. apply IH; [lia|lia|]. exists k. split; [|exact K2]. apply vget_Ok in B.
    destruct (Nat.eq_dec k i) as [->|]; [congruence|lia].
Qed.
Lemma fill_nothing mask best c : forall n i, (i + n <= length mask)%nat ->
  (forall k, (i <= k < i + n)%nat -> nth_error mask k = Some false) -> fill_loop mask best c i n = Ok c.
Proof.
  induction n as [|n IH]; intros i Hm H; [reflexivity|]. cbn [fill_loop]. pose proof (H i ltac:(lia)) as Hi. apply vget_Ok in Hi. rewrite Hi. cbn [rbind].
  apply IH; [lia|]. intros k Hk. apply H. lia.
Qed.

Lemma fit_loop_length lm err tpl k : forall n i q f l, fit_loop lm err tpl k i n q = Ok (f, l) -> length l = n.
Proof.
  induction n as [|n IH]; intros i q f l F; cbn [fit_loop] in F; [injection F as _ <-; reflexivity|].
  destruct (vget err i); cbn [rbind] in F; try discriminate. destruct (vget lm i); cbn [rbind] in F; try discriminate. destruct (vget tpl i); cbn [rbind] in F; try discriminate.
  destruct (fit_loop lm err tpl k (S i) n _) as [[f' l']|e|] eqn:G; cbn [rbind] in F; try discriminate. injection F as _ <-. simpl. f_equal. eapply IH; exact G.
Qed.
Lemma best_amps_length valid lm err : forall cats icat st st', best_loop valid lm err icat cats st = Ok st' ->
  (let '(cm, amps, b) := st in 0 < cm -> length amps = length lm) -> (let '(cm, amps, b) := st' in 0 < cm -> length amps = length lm).
Proof.
  induction cats as [|c cats IH]; intros icat [[cm amps] b] st' H I; [injection H as <-; exact I|].
  cbn [best_loop] in H. destruct (getFitForOneCatalog valid lm err c) as [r|e|] eqn:E; cbn [rbind] in H; try discriminate.
  apply IH in H; [exact H|]. destruct r as [[fit corr]|]; [|exact I].
  destruct (Qltb_spec 0 fit) as [P|P]; cbn [andb]; [|exact I]. destruct (_ || _)%bool; [|exact I]. intros _.
  unfold getFitForOneCatalog in E. destruct lm as [|l0 lm']; [discriminate|]. set (lm := l0 :: lm') in *.
  destruct (select c valid) as [tpl|e|]; cbn [rbind] in E; try discriminate. unfold computeFitValue in E.
  destruct (existsb _ _); [discriminate|]. destruct (cross_loop lm err tpl 0 (length lm) 0 0) as [[cr t2]|e|]; cbn [rbind] in E; try discriminate.
  destruct (_ || _)%bool; [injection E as <- <-; exfalso; apply (Qlt_irrefl 0); eapply Qlt_trans; [exact P|reflexivity]|].
  destruct (fit_loop lm err tpl (cr / t2) 0 (length lm) 0) as [[f l]|e|] eqn:F; cbn [rbind] in E; try discriminate. injection E as <- <-.
  eapply fit_loop_length; exact F.
Qed.

Lemma GetBestFit_none cats valid lm err fs : (length valid <= length lm)%nat -> (length valid <= length err)%nat -> fits valid lm err cats fs ->
  (forall f, In (Some f) fs -> ~ 0 < f) -> exists cm, GetBestFit cats valid lm err = Ok (cm, [], None) /\ cm == -1.
Proof.
  intros L1 L2 F H. unfold GetBestFit. destruct (mask_ok lm err (length valid) 0 L1 L2) as [m [E _]]. rewrite E. cbn [rbind].
  destruct (best_loop_spec valid lm err cats fs [] (-1, [], None) F) as [[[cm amps] b] [E2 I]].
  { left. split; [reflexivity|]. split; [reflexivity|]. intros f []. }
  cbn [length] in E2. rewrite E2. cbn [rbind]. simpl app in I. destruct I as [[Ic [Ib _]]|[k [_ [A [B _]]]]].
  - subst b. destruct (Qltb_spec cm 0) as [_|K]; [exists cm; auto|]. exfalso. apply K. rewrite Ic. reflexivity.
  - exfalso. apply (H cm); [apply nth_error_In in A; exact A|exact B].
Qed.
Lemma GetBestFit_found cats valid lm err fs : (length valid = length lm)%nat -> (length valid <= length err)%nat -> fits valid lm err cats fs ->
  (exists f, In (Some f) fs /\ 0 < f) ->
  ((exists k a e, (k < length valid)%nat /\ nth_error lm k = Some a /\ nth_error err k = Some e /\ 0 <= a /\ 0 < e) -> GetBestFit cats valid lm err = UB) /\
  ((forall k a e, nth_error lm k = Some a -> nth_error err k = Some e -> a < 0 \/ e <= 0) ->
     exists k v, GetBestFit cats valid lm err = Ok (v, [], Some k) /\ first_best fs k v).
Proof.
  intros L1 L2 F [f [Hf Pf]]. unfold GetBestFit. destruct (mask_ok lm err (length valid) 0 ltac:(lia) L2) as [m [E [Lm N]]]. rewrite E. cbn [rbind].
  destruct (best_loop_spec valid lm err cats fs [] (-1, [], None) F) as [[[cm amps] b] [E2 I]].
  { left. split; [reflexivity|]. split; [reflexivity|]. intros g []. }
  cbn [length] in E2. rewrite E2. cbn [rbind]. simpl app in I. destruct I as [[_ [_ If]]|[k [Ib Ik]]]; [exfalso; apply (If f Hf Pf)|].
  pose proof Ik as [_ [P _]]. destruct (Qltb_spec cm 0) as [K|_]; [exfalso; lra|].
  pose proof (best_amps_length valid lm err cats 0 (-1, [], None) (cm, amps, b) E2) as La. cbn beta iota in La.
  assert (La' : length amps = length lm) by (apply La; [intro X; discriminate|exact P]). clear La. split.
  - intros [j [a [e [Hj [Ha [He [Pa Pe]]]]]]]. rewrite fill_UB; [reflexivity|lia|lia|]. exists j. split; [lia|].
    rewrite (N j a e Hj Ha He). destruct (Qltb_spec a 0); [lra|]. destruct (Qle_bool_spec e 0); [lra|]. reflexivity.
  - intro H. rewrite fill_nothing; [|lia|].
    + cbn [rbind]. exists k, cm. rewrite Ib. split; [reflexivity|exact Ik].
    + intros j Hj. destruct (nth_error lm j) as [a|] eqn:A; [|apply nth_error_None in A; lia].
      destruct (nth_error err j) as [e|] eqn:B; [|apply nth_error_None in B; lia]. rewrite (N j a e ltac:(lia) A B).
      destruct (H j a e A B) as [X|X]; [destruct (Qltb_spec a 0); [reflexivity|contradiction]|].
      destruct (Qle_bool_spec e 0); [rewrite orb_true_r; reflexivity|contradiction].
Qed.
