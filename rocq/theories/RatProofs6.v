From Verif Require Import Base RangeModel AxisModel MeikModel EfitModel F64 RatModel RatSpec RatProofs RatProofs2 RatProofs3 RatProofs4 RatProofs5.
Open Scope Q_scope.

Section T.
  Context {C : Type}.
  Variable v : env C.
  Notation pr := (fun a : attempt C => (t_k a, t_r a)).

  Lemma least_merit es tab c lg s' : fit v es tab c lg = Ok s' ->
    exists h, history v c es h /\ map pr h = pairs (nContinuum v) (nratio v) (tried v) /\
      ((exists x, first_least t_m h x /\ f_best s' = t_m x /\ f_k s' = Z.of_nat (t_k x) /\
                  (knd v = TplRatio -> f_saved s' = Z.of_nat (t_r x)) /\
                  (lg = false \/ knd v = Rules -> f_sol s' = Some (t_es x, t_c x))) \/
       (none_counts t_m h /\ f_best s' = PInf /\ f_k s' = undefIdx)).
  Proof.
    intro E. destruct (fit_split v es tab c lg s' E) as (s & h & I & M & Lts & Lc & T1 & T2 & T3 & T4 & T5).
    exists h. split; [apply I|]. split; auto. pose proof (scan_spec t_m h) as Sp. destruct (scan t_m h) as [x|] eqn:Ex.
    - left. exists x. destruct (best_saved v c es h s x I Ex) as (B1 & B2 & B3 & B4).
      split; auto. split; [congruence|]. split; [congruence|]. split; [intro K; rewrite K in B4; congruence|].
      intros [L|K].
      + subst lg. subst s'. exact B3.
      + destruct lg; [|subst s'; exact B3]. rewrite K in T5. destruct T5 as (_ & T6 & _). congruence.
    - right. split; auto. destruct I as (_ & _ & B & _). unfold best_ok in B. rewrite Ex in B. destruct B as (B1 & B2 & _). split; congruence.
  Qed.

  Lemma no_finite_merit es tab c : knd v = TplRatio -> forall s', fit v es tab c true = Ok s' -> flt (f_best s') PInf = true.
  Proof.
    intros K s' E. destruct (fit_split v es tab c true s' E) as (s & h & I & M & Lts & Lc & T1 & T2 & T3 & T4 & T5 & T6).
    rewrite K in T6. destruct T6 as (T6 & es1 & w & Em & Ew & Er).
    pose proof (scan_spec t_m h) as Sp. destruct (scan t_m h) as [x|] eqn:Ex.
    - destruct (best_saved v c es h s x I Ex) as (B1 & _). destruct Sp as (? & ? & _ & F & _). congruence.
    - exfalso. destruct I as (_ & _ & B & _). unfold best_ok in B. rewrite Ex in B. destruct B as (_ & _ & B & _).
      rewrite B in Em. unfold setTplratioModel, SetNominalAmplitudes in Em. cbn in Em. discriminate Em.
  Qed.

  Lemma table es tab c lg s' : knd v = TplRatio -> length tab = length (cat v) -> fit v es tab c lg = Ok s' ->
    exists h, history v c es h /\ map pr h = pairs (nContinuum v) (length (cat v)) (tried v) /\
      forall r, (r < length (cat v))%nat ->
        exists w, nth_error (f_tab s') r = Some w /\
          (tried v r = true ->
             (exists x, first_least with_prior (of_ratio r h) x /\ w_merit w = t_m x /\ w_prior w = t_p x /\
                        w_scale w = scale v (t_es x) /\ w_strong w = strong v (t_es x) /\
                        (haprior v = true -> w_ha w = strong v (t_es x) && haStrongest v (t_es x)) /\
                        Forall (fun sv => v_lprior sv = t_p x) (w_elts w)) \/
             (none_counts with_prior (of_ratio r h) /\ w_merit w = PInf /\ w_prior w = Fin 0)) /\
          (tried v r = false -> (0 < nContinuum v)%nat -> (0 < r)%nat /\ nth_error (f_tab s') (r - 1) = Some w).
  Proof.
    intros K Lt E. destruct (fit_split v es tab c lg s' E) as (s & h & I & M & Lts & Lc & T1 & T2 & T3 & T4 & T5).
    exists h. split; [apply I|]. split; [unfold nratio in M; rewrite K in M; exact M|].
    intros r Lr. assert (Lr' : (r < length (f_tab s'))%nat) by (rewrite T1; lia). apply nth_error_Some in Lr'.
    destruct (nth_error (f_tab s') r) as [w|] eqn:Nw; [|congruence]. exists w. split; auto. split.
    - intro Tr. destruct I as (_ & _ & _ & Ht). rewrite T1 in Nw. specialize (Ht K r w Tr Nw).
      unfold row_ok in Ht. pose proof (scan_spec with_prior (of_ratio r h)) as Sp.
      destruct (scan with_prior (of_ratio r h)) as [x|]; [|right; tauto]. left. exists x. split; auto.
      destruct Ht as [old Hu]. unfold updateTplratioResults in Hu. apply rbind_ok in Hu. destruct Hu as (l & Hl & Hu). inversion Hu; subst w; clear Hu.
      cbn. split; auto. split; auto. split; auto. split; auto. split.
      + intros ->. destruct (strong v (t_es x)); reflexivity.
      + apply mapr_F2' in Hl. clear -Hl. induction Hl as [|e sv t u H _ IH]; constructor; auto.
        unfold save_elt in H. apply rbind_ok in H. destruct H as (q & _ & H). inversion H. destruct q as [[? ?]|]; reflexivity.
    - intros Tr Nc. destruct (nContinuum v) as [|j]; [lia|]. destruct Lc as [_ Cp].
      destruct (Cp r) as [R0 R1]; auto. { unfold nratio. rewrite K. exact Lr. }
      split; auto. rewrite T1 in Nw |- *. congruence.
  Qed.

  (** with the rules, the object is left with the last fit *)
  Lemma rules_last es tab c lg s' : knd v = Rules -> fit v es tab c lg = Ok s' ->
    exists h, history v c es h /\ map pr h = pairs (nContinuum v) 1 (tried v) /\ f_es s' = last_es es h.
  Proof.
    intros K E. destruct (fit_split v es tab c lg s' E) as (s & h & I & M & Lts & Lc & T1 & T2 & T3 & T4 & T5).
    exists h. split; [apply I|]. split; [unfold nratio in M; rewrite K in M; exact M|].
    destruct I as (_ & Hl & _). destruct lg; [|subst s'; exact Hl]. rewrite K in T5. destruct T5 as (_ & _ & T6). congruence.
  Qed.
End T.

Lemma chi2_fold er y m i n acc q : (i + n <= length y)%nat -> (i + n <= length m)%nat -> (i + n <= length er)%nat ->
  (forall x, In x er -> ~ x == 0) -> rfold (sample_merit er y m) (seq i n) acc = Ok q -> q == acc + chi2_from y m er i n.
Proof.
  intros L1 L2 L3 Ne. revert q. induction n as [|n IH]; intros q E.
  - cbn in E. inversion E; subst. cbn. lra.
  - rewrite seq_S, rfold_app' in E. apply rbind_ok in E. destruct E as (q1 & E1 & E2). cbn [rfold] in E2. apply rbind_ok in E2.
    destruct E2 as (q2 & E2 & E3). inversion E3; subst q2; clear E3. specialize (IH ltac:(lia) ltac:(lia) ltac:(lia) q1 E1).
    unfold sample_merit in E2. apply rbind_ok in E2. destruct E2 as (a & Ea & E2). apply rbind_ok in E2. destruct E2 as (b & Eb & E2).
    apply rbind_ok in E2. destruct E2 as (e & Ee & E2). apply vget_Ok in Ea, Eb, Ee. cbn [chi2_from].
    rewrite (nth_error_nth _ _ 0 Ea), (nth_error_nth _ _ 0 Eb), (nth_error_nth _ _ 0 Ee).
    assert (Nz : ~ e == 0) by (apply Ne; apply (nth_error_In _ _ Ee)).
    destruct (Qeq_bool e 0) eqn:Q0; [apply Qeq_bool_iff in Q0; tauto|]. inversion E2; subst q. rewrite IH. field. exact Nz.
Qed.
Lemma chi2_total er y m i n acc : (i + n <= length y)%nat -> (i + n <= length m)%nat -> (i + n <= length er)%nat ->
  (forall x, In x er -> ~ x == 0) -> exists q, rfold (sample_merit er y m) (seq i n) acc = Ok q.
Proof.
  intros L1 L2 L3 Ne. induction n as [|n IH]; [eexists; reflexivity|].
  destruct IH as [q1 E1]; try lia. rewrite seq_S, rfold_app', E1. cbn [rbind rfold]. unfold sample_merit at 1.
  destruct (vget_in y (i + n) ltac:(lia)) as [a ->]. destruct (vget_in m (i + n) ltac:(lia)) as [b ->].
  destruct (vget_in er (i + n) ltac:(lia)) as [e Ee]. rewrite Ee. cbn [rbind]. apply vget_Ok in Ee.
  destruct (Qeq_bool e 0) eqn:Q0; [apply Qeq_bool_iff in Q0; exfalso; apply (Ne e); auto; apply (nth_error_In _ _ Ee)|].
  cbn [rbind]. eexists; reflexivity.
Qed.
Lemma least_square o y m fs imin imax :
  length y = length (o_axis o) -> length m = length (o_axis o) -> length (o_err o) = length (o_axis o) -> (forall x, In x (o_err o) -> ~ x == 0) ->
  GetIndexAtWaveLength (o_axis o) (rbeg (o_range o)) = Ok imin -> GetIndexAtWaveLength (o_axis o) (rend (o_range o)) = Ok imax ->
  (imin <= imax < length (o_axis o))%nat ->
  exists q, getLeastSquareMerit [o] [y] [m] (Some fs) = Ok (Fin q) /\ q == chi2_from y m (o_err o) imin (imax - imin) + fs.
Proof.
  intros L1 L2 L3 Ne I1 I2 B. unfold getLeastSquareMerit, all_obs, obs_merit. rewrite I1, I2. cbn [rbind].
  destruct (chi2_total (o_err o) y m imin (imax - imin) 0) as [q E]; try lia; auto. rewrite E. cbn [rbind].
  exists (q + fs). split; auto. assert (Eq : q == 0 + chi2_from y m (o_err o) imin (imax - imin)) by (apply chi2_fold; auto; lia). rewrite Eq. lra.
Qed.
