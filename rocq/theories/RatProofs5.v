From Verif Require Import Base RangeModel AxisModel MeikModel EfitModel F64 RatModel RatSpec RatProofs RatProofs2 RatProofs3 RatProofs4.
Open Scope Q_scope.

Lemma save_restored e e1 p sv e' : same_lines e e1 -> e_nom e1 = e_nom e -> save_elt p e = Ok sv -> reset_elt e1 sv = Ok e' -> restored e e'.
Proof.
  intros Sl En Es Er. unfold reset_elt in Er. apply rbind_ok in Er. destruct Er as (e2 & E2 & Er). inversion Er; subst e'; clear Er.
  assert (F : exists a s, e2 = with_amps e1 a s).
  { unfold setAmplitudes in E2. destruct (v_amp sv); [destruct (e_allout e1); [inversion E2; eauto|]|inversion E2; eauto].
    apply rbind_ok in E2. destruct E2 as (l & _ & E2). inversion E2. eauto. }
  destruct F as (fa & fs & F).
  assert (P : forall q i, let e' := SetSymIgmIdx (SetAsymfitParams (with_sums e2 (v_dtm sv) (v_mtm sv)) q) i in
     e_abs e' = e_abs e1 /\ e_out e' = e_out e1 /\ e_allout e' = e_allout e1 /\ e_hasasym e' = e_hasasym e1 /\ e_limit e' = e_limit e1 /\
     e_nom e' = e_nom e1 /\ e_amp e' = e_amp e2 /\ e_std e' = e_std e2 /\ e_cross e' = v_dtm sv /\ e_gauss e' = v_mtm sv /\
     (e_hasasym e1 = true -> e_asym e' = q /\ e_igm e' = i)).
  { intros q i. cbn. subst e2. unfold SetSymIgmIdx, SetAsymfitParams. cbn [e_hasasym with_sums with_amps].
    destruct (e_hasasym e1) eqn:H; cbn [e_hasasym with_prof with_sums with_amps]; rewrite ?H; cbn; repeat split; auto; try discriminate; try congruence. }
  specialize (P (v_asym sv) (v_igm sv)). cbn zeta in P.
  set (e' := SetSymIgmIdx (SetAsymfitParams (with_sums e2 (v_dtm sv) (v_mtm sv)) (v_asym sv)) (v_igm sv)) in *.
  destruct P as (P1 & P2 & P3 & P4 & P5 & P6 & P7 & P8 & P9 & P10 & P11).
  destruct Sl as (S1 & S2 & S3 & S4 & S5).
  assert (Sz : e_size e' = e_size e) by (unfold e_size; congruence).
  assert (Sz1 : e_size e1 = e_size e) by (unfold e_size; congruence).
  split; [repeat split; congruence|]. split; [congruence|]. split.
  - intros A S_ A0 Sc Lo Ln Out U HL.
    destruct Sc as (La & Ls & Sc). unfold save_elt in Es. apply rbind_ok in Es. destruct Es as (r & Es & Ev).
    assert (X : exists a s, save_line (e_out e) (e_nom e) (e_amp e) (e_std e) = Ok (Some (a, Some s)) /\ a == A /\ s == S_).
    { apply save_line_scaled; try congruence; auto. intros i Li. apply Sc. congruence. }
    destruct X as (a & s & Esl & Ea & Ess).
    rewrite Esl in Es. inversion Es; subst r; clear Es. inversion Ev; subst sv; clear Ev. cbn [v_amp v_err v_dtm v_mtm v_asym v_igm] in *.
    assert (Sc2 : scaled e2 a s).
    { apply (setAmplitudes_scaled e1 a s e2 E2); [congruence| |congruence]. intros i n Hi Hn. rewrite S1 in Hi. rewrite En in Hn. specialize (U i n Hi Hn). rewrite S5, Ea. exact U. }
    split; [|split; [exact P9|split; [exact P10|]]].
    + apply (scaled_ext _ a s); auto. destruct Sc2 as (X1 & X2 & X3).
      assert (Sz2 : e_size e2 = e_size e1) by (subst e2; reflexivity).
      split; [congruence|]. split; [congruence|]. intros i Li. rewrite Sz, <- Sz1, <- Sz2 in Li. destruct (X3 i Li) as (o & n & Xo & Xn & Xc).
      assert (e_out e2 = e_out e1 /\ e_nom e2 = e_nom e1) as [Y1 Y2] by (subst e2; split; reflexivity).
      exists o, n. rewrite P2, P6, P7, P8, <- Y1, <- Y2. auto.
    + intro Ha. rewrite <- S4 in Ha. specialize (P11 Ha). unfold GetAsymfitParams, GetSymIgmIdx in P11. rewrite S4 in Ha. rewrite Ha in P11. exact P11.
  - intros Nu Out. unfold save_elt in Es. rewrite (save_line_null _ _ _ _ Nu) in Es. cbn [rbind] in Es. inversion Es; subst sv; clear Es.
    cbn [v_amp v_err v_dtm v_mtm v_asym v_igm] in *. unfold setAmplitudes in E2. rewrite S3, Out in E2. apply rbind_ok in E2.
    destruct E2 as (l & El & E2). clear F. inversion E2; subst e2; clear E2. cbn [with_amps e_amp e_std] in P7, P8.
    apply mapr_nth in El. destruct El as [L N]. rewrite seq_length in L.
    split; [|split; [|split; [exact P9|split; [exact P10|intro Ha; apply P11; congruence]]]].
    + intros i Ho Li. rewrite <- Sz1 in Li. destruct (N i i (nth_seq0 _ _ Li)) as ([f d] & Ef & Nf). unfold set_line in Ef.
      apply rbind_ok in Ef. destruct Ef as (o & Eo & Ef). apply vget_Ok in Eo. rewrite S2, Ho in Eo. inversion Eo; subst o.
      apply rbind_ok in Ef. destruct Ef as (n & En1 & Ef). apply rbind_ok in Ef. destruct Ef as (fa0 & Efa & Ef). inversion Ef; subst f d; clear Ef.
      rewrite P7, nth_error_map, Nf. cbn [option_map fst]. exists fa0. split; auto.
      unfold setFittedAmplitude in Efa. apply rbind_ok in Efa. destruct Efa as (neg & Eneg & Efa). inversion Efa; subst fa0; clear Efa.
      destruct (neg && Qltb 0 (e_limit e1) && Qltb (e_limit e1) (0 * n)) eqn:Q3; [|lra].
      apply andb_prop in Q3. destruct Q3 as [Q3 Q4]. apply andb_prop in Q3. destruct Q3 as [_ Q3].
      destruct (Qltb_spec 0 (e_limit e1)) as [G|G]; [|discriminate]. destruct (Qltb_spec (e_limit e1) (0 * n)) as [G'|G']; [|discriminate].
      exfalso. lra.
    + intros i Li. rewrite <- Sz1 in Li. destruct (N i i (nth_seq0 _ _ Li)) as ([f d] & Ef & Nf). unfold set_line in Ef.
      rewrite P8, nth_error_map, Nf. cbn [option_map snd].
      apply rbind_ok in Ef. destruct Ef as (o & Eo & Ef). destruct o; [inversion Ef; auto|].
      apply rbind_ok in Ef. destruct Ef as (n & En1 & Ef). apply rbind_ok in Ef. destruct Ef as (fa0 & Efa & Ef). inversion Ef; auto.
Qed.

Lemma mapr_F2' {A B} (f : A -> res B) l l' : mapr f l = Ok l' -> Forall2 (fun x y => f x = Ok y) l l'.
Proof.
  revert l'. induction l as [|a t IH]; intros l' E; cbn [mapr] in E; [inversion E; constructor|].
  apply rbind_ok in E. destruct E as (y & Ey & E). apply rbind_ok in E. destruct E as (r & Er & E). inversion E; subst. constructor; auto.
Qed.
Lemma restore_all p (es es1 es' : list elt) sv :
  Forall2 (fun e e1 => same_lines e e1 /\ e_nom e1 = e_nom e) es es1 -> mapr (save_elt p) es = Ok sv -> reset_elts es1 sv = Ok es' ->
  Forall2 restored es es'.
Proof.
  intros F M. apply mapr_F2' in M. revert sv es' M. induction F as [|e e1 t u [Hl Hn] _ IH]; intros sv es' M E.
  - inversion M; subst. cbn in E. inversion E. constructor.
  - inversion M as [|? s ? ss Ms Mt]; subst. cbn [reset_elts] in E. apply rbind_ok in E. destruct E as (x & Ex & E).
    apply rbind_ok in E. destruct E as (y & Ey & E). inversion E; subst. constructor; [|apply (IH ss); auto].
    apply (save_restored e e1 p s); auto.
Qed.

Section T.
  Context {C : Type}.
  Variable v : env C.
  Notation pr := (fun a : attempt C => (t_k a, t_r a)).

  Lemma best_saved c es h s x : inv v c es h s -> scan t_m h = Some x ->
    f_best s = t_m x /\ f_k s = Z.of_nat (t_k x) /\ f_sol s = Some (t_es x, t_c x) /\
    f_saved s = match knd v with TplRatio => Z.of_nat (t_r x) | Rules => undefIdx end.
  Proof. intros (_ & _ & B & _) E. unfold best_ok in B. rewrite E in B. exact B. Qed.

  (** without line priors, the entry of the saved ratio is the one of the best fit *)
  Lemma no_prior_row c es h x : knd v = TplRatio -> priors v = [] -> history v c es h -> scan t_m h = Some x ->
    scan with_prior (of_ratio (t_r x) h) = Some x.
  Proof.
    intros K P H E.
    assert (Z : forall a, In a h -> t_p a = Fin 0).
    { clear E. revert es H. induction h as [|b t IH]; intros es H a Ia; [destruct Ia|].
      destruct H as [M H]. cbn [In] in Ia. destruct Ia as [Ia|Ia]; [subst b|apply (IH (t_es b)); auto].
      unfold made in M. rewrite K in M. destruct M as (_ & _ & es1 & _ & _ & Ep). unfold computelogLinePriorMerit in Ep. rewrite P in Ep.
      cbn in Ep. inversion Ep. reflexivity. }
    unfold of_ratio. apply scan_filter; [|apply Nat.eqb_refl]. rewrite <- E.
    apply scan_ext; intros a; [intros b Ia Ib|intros Ia]; unfold with_prior; rewrite ?(Z a Ia), ?(Z b Ib).
    - apply fadd0.
    - destruct (t_m a); reflexivity.
  Qed.

  Lemma pairs_bounds nk nr f k r : In (k, r) (pairs nk nr f) <-> (k < nk)%nat /\ (r < nr)%nat /\ f r = true.
  Proof.
    unfold pairs. rewrite in_flat_map. split.
    - intros (k' & Ik & I2). apply in_map_iff in I2. destruct I2 as (r' & E & I2). inversion E; subst. apply filter_In in I2.
      destruct I2 as [I2 T]. apply in_seq in Ik, I2. repeat split; auto; lia.
    - intros (L1 & L2 & T). exists k. split; [apply in_seq; lia|]. apply in_map_iff. exists r. split; auto. apply filter_In.
      split; auto. apply in_seq. lia.
  Qed.
  Lemma hist_bounds nk nr f (h : list (attempt C)) a : map pr h = pairs nk nr f -> In a h -> (t_k a < nk)%nat /\ (t_r a < nr)%nat /\ f (t_r a) = true.
  Proof. intros M Ia. apply pairs_bounds. rewrite <- M. apply in_map_iff. exists a. auto. Qed.

  (** the fit hands back the best fit: elements, ratio, continuum *)
  Lemma best_restored es tab c s' : knd v = TplRatio -> priors v = [] -> fitter_keeps v -> (svdlc v = false \/ nContinuum v = 1%nat) ->
    length tab = length (cat v) -> fit v es tab c true = Ok s' ->
    exists h x, history v c es h /\ map pr h = pairs (nContinuum v) (nratio v) (tried v) /\ first_least t_m h x /\
      f_best s' = t_m x /\ f_saved s' = Z.of_nat (t_r x) /\ f_k s' = Z.of_nat (t_k x) /\ candidate v c (t_k x) (f_c s') /\
      f_sol s' = Some (f_es s', f_c s') /\ Forall2 restored (t_es x) (f_es s').
  Proof.
    intros K P FK Sv Lt E. destruct (fit_split v es tab c true s' E) as (s & h & I & M & Lts & Lc & T1 & T2 & T3 & T4 & T5 & T6).
    rewrite K in T6. destruct T6 as (T6 & es1 & w & Em & Ew & Er).
    pose proof (scan_spec t_m h) as Sp. destruct (scan t_m h) as [x|] eqn:Ex.
    2: { exfalso. destruct I as (_ & _ & B & _). unfold best_ok in B. rewrite Ex in B. destruct B as (_ & _ & B & _).
         rewrite B in Em. unfold setTplratioModel, SetNominalAmplitudes in Em. cbn in Em. discriminate Em. }
    destruct (best_saved c es h s x I Ex) as (B1 & B2 & B3 & B4). rewrite K in B4.
    destruct I as (Hh & Hl & Hb & Ht). specialize (Ht K).
    pose proof (scan_in _ _ _ Ex) as Ix. destruct (hist_bounds _ _ _ h x M Ix) as (Bk & Br & Btr).
    exists h, x. split; auto. split; auto. split; auto. split; [congruence|]. split; [congruence|]. split; [congruence|]. split.
    { unfold candidate, LoadFitContinuum in *. rewrite B2 in T5.
      destruct (nContinuum v) as [|j] eqn:Nc; [lia|].
      destruct (comp v) eqn:Cm; [rewrite T5; apply Lc|rewrite T5; apply Lc|].
      assert (Nn : (Z.of_nat (t_k x) <? 0)%Z = false) by (destruct (Z.ltb_spec (Z.of_nat (t_k x)) 0) as [G|G]; auto; lia).
      rewrite Nn, Nat2Z.id in T5.
      destruct (negb (svdlc v) && Nat.ltb 1 (S j)) eqn:Cond.
      - destruct (fromStore v); [|inversion T5; congruence || tauto].
        destruct (nth_error (store v) (t_k x)); inversion T5; reflexivity.
      - assert (J : j = 0%nat).
        { destruct Sv as [Sv|Sv]; [|lia]. rewrite Sv in Cond. cbn [negb andb] in Cond. apply Nat.ltb_ge in Cond. lia. }
        subst j. assert (t_k x = 0%nat) as -> by lia. rewrite T5. apply Lc. }
    split; auto.
    rewrite B4 in Em, Ew. rewrite Nat2Z.id in Ew. apply vget_Ok in Ew.
    specialize (Ht (t_r x) w Btr Ew). unfold row_ok in Ht. rewrite (no_prior_row c es h x K P Hh Ex) in Ht. destruct Ht as [old Hu].
    unfold updateTplratioResults in Hu. apply rbind_ok in Hu. destruct Hu as (sv & Hsv & Hu). inversion Hu; subst w; clear Hu. cbn [w_elts] in Er.
    destruct (history_lines v c h K FK es Hh) as [HL1 HL2]. destruct (HL2 x Ix) as [HL3 (g & Eg & Ng)].
    apply setTplratioModel_ok in Em. destruct Em as (g2 & _ & Eg2 & Lem & Nem). rewrite Nat2Z.id in Eg2. assert (g2 = g) by congruence. subst g2.
    rewrite Hl in Lem.
    apply (restore_all (t_p x) (t_es x) es1 (f_es s') sv); auto.
    assert (Ls : Forall2 same_lines (t_es x) es1).
    { apply (F2_trans _ _ es); [intros a b d; apply lines_trans| |].
      - clear -HL3. induction HL3 as [|a b t u H _ IH]; constructor; auto. apply lines_sym; auto.
      - apply (F2_trans _ _ (last_es es h)); auto. intros a b d; apply lines_trans. }
    clear -Ls Ng Nem. assert (G : forall i, (forall j e', nth_error (t_es x) j = Some e' -> nominal_of (g_nom g) (i + j) e' (e_nom e')) ->
      (forall j e', nth_error es1 j = Some e' -> nominal_of (g_nom g) (i + j) e' (e_nom e')) ->
      Forall2 (fun e e1 => same_lines e e1 /\ e_nom e1 = e_nom e) (t_es x) es1).
    { clear Ng Nem. induction Ls as [|a b t u Hab _ IH]; intros i N1 N2; constructor.
      - split; auto. symmetry. apply (nominal_unique (g_nom g) i a b).
        + symmetry. apply lines_size; auto.
        + specialize (N1 0%nat a eq_refl). rewrite Nat.add_0_r in N1. exact N1.
        + specialize (N2 0%nat b eq_refl). rewrite Nat.add_0_r in N2. exact N2.
      - apply (IH (S i)).
        + intros j e' Hj. specialize (N1 (S j) e' Hj). rewrite Nat.add_succ_r in N1. exact N1.
        + intros j e' Hj. specialize (N2 (S j) e' Hj). rewrite Nat.add_succ_r in N2. exact N2. }
    apply (G 0%nat); auto.
  Qed.
End T.
