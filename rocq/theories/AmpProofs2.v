From Verif Require Import Base RangeModel AxisModel AxisProofs ElemModel ElemSpec ElemProofs EfitModel EfitSpec EfitProofs EfitProofs2 EfitProofs3 AmpModel AmpSpec AmpProofs.
Open Scope Q_scope.

(** * sums over the views *)
Definition F_d (y m e : Q) : Q := m * y / (e * e).
Definition F_m (y m e : Q) : Q := m * m / (e * e).
Lemma view_sum_lin f g h a v : (forall y m e, f y m e == g y m e + a * h y m e) -> view_sum f v == view_sum g v + a * view_sum h v.
Proof.
  intros H. unfold view_sum. rewrite <- sumn_scale, <- sumn_plus. apply sumn_ext. intros t T. destruct (v_cov v t); [apply H|lra].
Qed.
Lemma views_sum_lin f g h a vs : (forall y m e, f y m e == g y m e + a * h y m e) -> views_sum f vs == views_sum g vs + a * views_sum h vs.
Proof. intros H. induction vs as [|v t IH]; cbn [views_sum]; [lra|]. rewrite (view_sum_lin _ _ _ _ _ H), IH. lra. Qed.
Lemma views_sum_ext f g vs : (forall y m e, f y m e == g y m e) -> views_sum f vs == views_sum g vs.
Proof. intros H. rewrite (views_sum_lin f g (fun _ _ _ => 0) 0); [lra|]. intros. rewrite H. lra. Qed.
Lemma sq_le_0 (x : Q) : 0 <= x * x.
Proof. destruct (Qlt_le_dec x 0); [setoid_replace (x * x) with (- x * - x) by ring; apply Qmult_le_0_compat; lra|apply Qmult_le_0_compat; assumption]. Qed.
Lemma info_nonneg vs : 0 <= amp_info vs.
Proof.
  unfold amp_info. induction vs as [|v t IH]; cbn [views_sum]; [lra|]. assert (0 <= view_sum (fun _ m e => m / e * (m / e)) v); [|lra].
  unfold view_sum. apply sumn_nonneg. intros k K. destruct (v_cov v k); [apply sq_le_0|lra].
Qed.
Lemma info_m vs : amp_info vs == views_sum F_m vs.
Proof. apply views_sum_ext. intros y m e. unfold F_m, Qdiv. rewrite Qinv_mult_distr. ring. Qed.
Lemma chi2_expand vs a : amp_chi2 vs a == amp_chi2 vs 0 + a * a * amp_info vs - 2 * a * views_sum F_d vs.
Proof.
  rewrite info_m. unfold amp_chi2.
  rewrite (views_sum_lin _ (fun y m e => (y - 0 * m) / e * ((y - 0 * m) / e) + a * a * F_m y m e) F_d (- (2) * a)).
  - rewrite (views_sum_lin _ (fun y m e => (y - 0 * m) / e * ((y - 0 * m) / e)) F_m (a * a)); [ring|]. intros; reflexivity.
  - intros y m e. unfold F_d, F_m, Qdiv. rewrite Qinv_mult_distr. ring.
Qed.
Lemma best_amplitude vs : 0 < amp_info vs -> let A := Qmaxb 0 (views_sum F_d vs) / amp_info vs in 0 <= A /\ forall a, 0 <= a -> amp_chi2 vs A <= amp_chi2 vs a.
Proof.
  intros P A. set (D := views_sum F_d vs) in *. set (M := amp_info vs) in *.
  assert (PA : 0 <= A). { unfold A. apply Qle_shift_div_l; [exact P|]. unfold Qmaxb. destruct (Qltb_spec 0 D); lra. }
  split; [exact PA|]. intros a Ha. rewrite (chi2_expand vs A), (chi2_expand vs a). fold D M.
  assert (H : A * A * M - 2 * A * D <= a * a * M - 2 * a * D); [|lra].
  unfold Qmaxb in A. destruct (Qltb_spec 0 D) as [d|d].
  - assert (E : A * M == D) by (unfold A; field; lra). assert (S : 0 <= (a - A) * (a - A) * M) by (apply Qmult_le_0_compat; [apply sq_le_0|lra]).
    assert (E2 : (a - A) * (a - A) * M == a * a * M - 2 * a * (A * M) + A * (A * M)) by ring. rewrite E in E2.
    assert (E3 : A * A * M == A * D) by (rewrite <- E; ring). lra.
  - assert (E : A == 0) by (unfold A; field; lra). rewrite E. assert (S : 0 <= a * a * M) by (apply Qmult_le_0_compat; [apply sq_le_0|lra]).
    assert (T : 0 <= a * - D) by (apply Qmult_le_0_compat; lra). lra.
Qed.

(** * the sums of the fit *)
Section Fit.
Variables (prof : nat -> Q -> Q -> Q -> Q) (sqrtf : Q -> Q) (absLimit : Q) (ls : list eline) (z : Q) (li : option nat).

Lemma One_obs o v acc : good_obs ls z o -> unshared (a_s o) -> is_view prof ls li z o v ->
  exists b, computeCrossProducts prof o ls z li acc = Ok b /\ stepped acc b (view_sum F_d v) (view_sum F_m v).
Proof.
  intros (Inc & Len & LY & LE & LC & NE & (zs & r & mo & ls0 & L0 & Prep) & Known) Un V.
  destruct (Cross_products prof ls z o li zs mo r ls0 Inc Len LY LE LC NE L0 Prep Known acc) as (b & E & ST). exists b. split; [exact E|].
  eapply stepped_ext; [exact ST| |].
  - unfold term_d. rewrite (Sum_view prof ls z o li zs mo r ls0 Inc Len LY LE LC L0 Prep Un v (fun m t => m * at0 (a_y o) t / (at0 (a_e o) t * at0 (a_e o) t)) V).
    + destruct V as (<- & _). reflexivity.
    + intros a a' e Ea. rewrite Ea. reflexivity.
  - unfold term_m. rewrite (Sum_view prof ls z o li zs mo r ls0 Inc Len LY LE LC L0 Prep Un v (fun m t => m * m / (at0 (a_e o) t * at0 (a_e o) t)) V).
    + destruct V as (<- & _). reflexivity.
    + intros a a' e Ea. rewrite Ea. reflexivity.
Qed.
Lemma All_obs os vs : Forall (good_obs ls z) os -> Forall (fun o => unshared (a_s o)) os -> Forall2 (is_view prof ls li z) os vs -> forall acc,
  exists b, rfold (fun acc o => computeCrossProducts prof o ls z li acc) os acc = Ok b /\ stepped acc b (views_sum F_d vs) (views_sum F_m vs).
Proof.
  intros G U V. induction V as [|o v os vs Vo V IH]; intros acc; cbn [rfold views_sum].
  - exists acc. split; [reflexivity|]. apply stepped_refl; reflexivity.
  - destruct (One_obs o v acc (Forall_inv G) (Forall_inv U) Vo) as (b1 & -> & S1). cbn [rbind].
    destruct (IH (Forall_inv_tail G) (Forall_inv_tail U) b1) as (b & E & S2). exists b. split; [exact E|]. eapply stepped_trans; eauto.
Qed.

Lemma set_amps_nth os A l0 : forall i k, nth_error (set_amps absLimit os A i l0) k = match nth_error l0 k with
  | Some l => Some (set_efit l (if globalOutsideLine os (i + k) then None else Some (limited absLimit l A))) | None => None end.
Proof.
  induction l0 as [|l t IH]; intros i k; cbn [set_amps]; [destruct k; reflexivity|]. destruct k as [|k]; cbn [nth_error]; [rewrite Nat.add_0_r; reflexivity|].
  rewrite IH. replace (S i + k)%nat with (i + S k)%nat by lia. reflexivity.
Qed.
Lemma set_amps_length os A l0 : forall i, length (set_amps absLimit os A i l0) = length l0.
Proof. induction l0 as [|l t IH]; intros i; cbn [set_amps length]; [reflexivity|]. rewrite IH. reflexivity. Qed.
Lemma set_stds_nth os A l0 : forall i k, nth_error (set_stds os A i l0) k = match nth_error l0 k with
  | Some l => Some (if globalOutsideLine os (i + k) then None else Some (A * el_nom l)) | None => None end.
Proof.
  induction l0 as [|l t IH]; intros i k; cbn [set_stds]; [destruct k; reflexivity|]. destruct k as [|k]; cbn [nth_error]; [rewrite Nat.add_0_r; reflexivity|].
  rewrite IH. replace (S i + k)%nat with (i + S k)%nat by lia. reflexivity.
Qed.
Lemma limited_cases l A A' : A == A' -> (el_neg l = true /\ 0 < absLimit /\ absLimit < A' * el_nom l /\ limited absLimit l A == absLimit) \/
  (~ (el_neg l = true /\ 0 < absLimit /\ absLimit < A' * el_nom l) /\ limited absLimit l A == A' * el_nom l).
Proof.
  intros E. unfold limited. destruct (el_neg l) eqn:N; cbn [andb]; [|right; split; [intros (X & _); discriminate|rewrite E; reflexivity]].
  destruct (Qltb_spec 0 absLimit) as [p|p]; cbn [andb]; [|right; split; [intros (_ & X & _); lra|rewrite E; reflexivity]].
  destruct (Qltb_spec absLimit (A * el_nom l)) as [q|q]; rewrite E in q; [left; repeat (split; [auto|]); reflexivity|right; split; [intros (_ & _ & X); lra|rewrite E; reflexivity]].
Qed.
Lemma amps_set os A A' l0 : A == A' -> amplitude_set absLimit os A' l0 (set_amps absLimit os A 0 l0).
Proof.
  intros E. split; [apply set_amps_length|]. intros k l l' N N'. rewrite set_amps_nth, N in N'. cbn [Nat.add] in N'. inversion N'; subst l'. cbn [set_efit el_s el_neg el_nom el_fit].
  split; [reflexivity|]. split; [reflexivity|]. split; [reflexivity|]. unfold globalOutsideLine. split.
  - intros H. assert (F : forallb (fun o => s_out (a_s o) k) os = true) by (apply forallb_forall; exact H). rewrite F. reflexivity.
  - intros (o & I & O). destruct (forallb (fun o => s_out (a_s o) k) os) eqn:F; [exfalso; rewrite forallb_forall in F; rewrite (F o I) in O; discriminate|].
    eexists. split; [reflexivity|]. apply limited_cases. exact E.
Qed.
Lemma amps_unset l0 : amplitude_unset l0 (unset l0).
Proof.
  unfold unset. split; [apply map_length|]. intros k l l' N N'. rewrite nth_error_map, N in N'. cbn in N'. inversion N'; subst. repeat split.
Qed.
Lemma unset_amp l0 : GetParamAmplitude (unset l0) = None.
Proof. induction l0 as [|l t IH]; cbn; [reflexivity|exact IH]. Qed.
(** the amplitude read after the fit: A, or that of the first line in the range, limited *)
Lemma param_amp os A l0 a : forall i, GetParamAmplitude (set_amps absLimit os A i l0) = Some a ->
  exists k l, nth_error l0 k = Some l /\ ~ el_nom l == 0 /\ a = limited absLimit l A / el_nom l.
Proof.
  induction l0 as [|l t IH]; intros i; cbn [set_amps GetParamAmplitude]; [discriminate|]. cbn [set_efit el_fit el_nom].
  destruct (globalOutsideLine os i).
  - intros H. destruct (IH _ H) as (k & x & N & Z0 & E). exists (S k), x. auto.
  - destruct (Qeq_bool (el_nom l) 0) eqn:Z0.
    + intros H. destruct (IH _ H) as (k & x & N & Z1 & E). exists (S k), x. auto.
    + intros H. inversion H. exists 0%nat, l. split; [reflexivity|]. split; [intros C; apply Qeq_eq_bool in C; congruence|reflexivity].
Qed.

Lemma Fit p os vs : p_lines p = ls -> globalOutside os = false -> Forall (good_obs ls z) os -> Forall (fun o => unshared (a_s o)) os -> Forall2 (is_view prof ls li z) os vs ->
  exists p', fitAmplitude prof sqrtf absLimit p os z li = Ok p' /\
    ((amp_info vs == 0 /\ amplitude_unset ls (p_lines p') /\ p_std p' = map (fun _ => None) ls /\ getLeastSquareMeritFast p' = None) \/
     (0 < amp_info vs /\ exists A, 0 <= A /\ (forall a, 0 <= a -> amp_chi2 vs A <= amp_chi2 vs a) /\ amplitude_set absLimit os A ls (p_lines p') /\
        (exists i, i == amp_info vs /\ forall k l, nth_error ls k = Some l -> (exists o, In o os /\ s_out (a_s o) k = false) -> nth_error (p_std p') k = Some (Some (1 / sqrtf i * el_nom l))) /\
        forall f, getLeastSquareMeritFast p' = Some f -> exists a, GetParamAmplitude (p_lines p') = Some a /\ f == amp_chi2 vs a - amp_chi2 vs 0 /\
          ((forall l, In l ls -> el_neg l = false) -> a == A))).
Proof.
  intros PL GO G U V. unfold fitAmplitude. rewrite GO, PL. destruct (All_obs os vs G U V (0%Z, 0, 0)) as ([[num dtm] mtm] & E & n & A1 & A2 & A3 & A4 & A5).
  rewrite E. cbn [rbind]. cbn [fst snd] in *. pose proof (info_m vs) as IM. pose proof (info_nonneg vs) as IN.
  assert (M : mtm == amp_info vs) by lra. assert (D : dtm == views_sum F_d vs) by lra.
  destruct ((num =? 0)%Z || Qeq_bool mtm 0)%bool eqn:T.
  - eexists. split; [reflexivity|]. left. cbn [p_lines p_std]. split.
    + apply orb_true_iff in T. destruct T as [T|T]; [apply Z.eqb_eq in T; rewrite IM; apply A3; lia|apply Qeq_bool_eq in T; lra].
    + split; [apply amps_unset|]. split; [reflexivity|]. unfold getLeastSquareMeritFast. cbn [p_lines]. rewrite unset_amp. reflexivity.
  - apply orb_false_iff in T. destruct T as (_ & T). assert (NZ : ~ mtm == 0) by (intros C; apply Qeq_eq_bool in C; congruence).
    assert (P : 0 < amp_info vs) by lra. eexists. split; [reflexivity|]. right. split; [exact P|]. cbn [p_lines p_std].
    destruct (best_amplitude vs P) as (PA & BA). set (A := Qmaxb 0 (views_sum F_d vs) / amp_info vs) in *.
    assert (EC : Qmaxb 0 dtm == Qmaxb 0 (views_sum F_d vs)). { unfold Qmaxb. destruct (Qltb_spec 0 dtm), (Qltb_spec 0 (views_sum F_d vs)); lra. }
    assert (EA : Qmaxb 0 dtm / mtm == A) by (unfold A; rewrite EC, M; reflexivity).
    exists A. split; [exact PA|]. split; [exact BA|]. split; [apply amps_set; exact EA|]. split.
    + exists mtm. split; [exact M|]. intros k l N (o & I & O). rewrite set_stds_nth, N. cbn [Nat.add]. unfold globalOutsideLine.
      destruct (forallb (fun o => s_out (a_s o) k) os) eqn:F; [exfalso; rewrite forallb_forall in F; rewrite (F o I) in O; discriminate|]. reflexivity.
    + intros f H. unfold getLeastSquareMeritFast in H. cbn [p_lines p_gauss p_cross] in H.
      destruct (GetParamAmplitude (set_amps absLimit os (Qmaxb 0 dtm / mtm) 0 ls)) as [a|] eqn:GA; [|discriminate]. inversion H; subst f. exists a. split; [reflexivity|].
      destruct (param_amp _ _ _ _ _ GA) as (k & l & N & Z0 & Ea).
      assert (Aa : a == A \/ 0 < views_sum F_d vs /\ el_neg l = true).
      { subst a. destruct (limited_cases l _ _ EA) as [(X1 & X2 & X3 & X4)|(X1 & X2)].
        - destruct (Qlt_le_dec 0 (views_sum F_d vs)) as [q|q]; [right; auto|]. exfalso. assert (A0 : A == 0). { unfold A, Qmaxb. destruct (Qltb_spec 0 (views_sum F_d vs)); [lra|]. field. lra. } rewrite A0 in X3. lra.
        - left. rewrite X2. field. exact Z0. }
      split.
      * rewrite (chi2_expand vs a), M, EC. unfold Qmaxb. destruct (Qltb_spec 0 (views_sum F_d vs)) as [q|q]; [ring|].
        assert (A0 : A == 0). { unfold A, Qmaxb. destruct (Qltb_spec 0 (views_sum F_d vs)); [lra|]. field. lra. }
        destruct Aa as [Aa|(Aa & _)]; [|lra]. rewrite Aa, A0. ring.
      * intros NN. destruct Aa as [Aa|(_ & Aa)]; [exact Aa|]. rewrite (NN l (nth_error_In _ _ N)) in Aa. discriminate.
Qed.
End Fit.

(** * the views exist *)
Section Views.
Variables (prof : nat -> Q -> Q -> Q -> Q) (ls : list eline) (z : Q) (li : option nat).
Lemma View_exists o : good_obs ls z o -> exists v, is_view prof ls li z o v.
Proof.
  intros (Inc & Len & LY & LE & LC & NE & (zs & r & mo & ls0 & L0 & Prep) & Known).
  set (s := a_s o) in *.
  pose (g := fun x c t k => sumn (fun h => if (selh o li h && in_sub s h t && negb (s_out s k) && ac (s_state s) h k)%bool then nom_val prof ls z o x c k else 0) (length ls)).
  exists (mkView o (covb ls0 s li) (fun t => sumn (g (at0 (a_axis o) t) (at0 (a_c o) t) t) (length ls))). split; [reflexivity|].
  intros t x c X C. cbn [v_cov v_model]. split; [apply (covb_spec _ _ _ _ _ _ _ _ Inc Len Prep)|]. exists (g x c t). split.
  2: { unfold at0. rewrite (nth_error_nth _ _ 0 X), (nth_error_nth _ _ 0 C). reflexivity. }
  assert (UI : forall k, used s k <-> (k < length ls)%nat /\ s_out s k = false) by (intros k; apply (used_iff0 ls o zs mo r ls0 L0 Prep)).
  assert (HD : forall h k, (h < length ls)%nat -> (selh o li h && in_sub s h t && negb (s_out s k) && ac (s_state s) h k)%bool = true ->
     head s h k /\ of_interest s li k /\ reach s k t).
  { intros h k Hh E. apply andb_true_iff in E. destruct E as (E & E4). apply andb_true_iff in E. destruct E as (E & E3). apply andb_true_iff in E. destruct E as (E1 & E2).
    unfold selh in E1. apply negb_true_iff in E1. apply orb_false_iff in E1. destruct E1 as (O & I).
    assert (Uh : used s h) by (apply UI; auto). apply in_sub_spec in E2. assert (N : nonempty (getSupportSubElt s h)) by (destruct E2; unfold nonempty; lia).
    assert (H : head s h k) by (split; [exact Uh|split; [exact N|apply (head_active _ _ _ _ _ _ _ _ Inc Len Prep h k Uh N); exact E4]]).
    split; [exact H|]. split; [apply (head_interest _ _ _ _ _ _ _ _ Inc Len Prep li h k H); exact I|apply (head_reach _ _ _ _ _ _ _ _ Inc Len Prep h k t H); exact E2]. }
  intros k l N. pose proof (nth_error_len _ _ _ N) as K. fold s. split.
  - intros (U & I & R). destruct (head_ex _ _ _ _ _ _ _ _ Inc Len Prep k U) as (h & H). pose proof H as (Uh & Nh & Lh). destruct (proj1 (UI h) Uh) as (Hl & Oh). destruct (proj1 (UI k) U) as (_ & Ok').
    unfold g. rewrite (sumn_one _ _ h Hl).
    + unfold selh. fold s. rewrite Oh, (proj2 (head_interest _ _ _ _ _ _ _ _ Inc Len Prep li h k H) I), Ok'.
      rewrite (proj2 (in_sub_spec s h t) (proj1 (head_reach _ _ _ _ _ _ _ _ Inc Len Prep h k t H) R)).
      rewrite (proj2 (head_active _ _ _ _ _ _ _ _ Inc Len Prep h k Uh Nh) Lh). cbn [orb negb andb]. unfold nom_val. rewrite N. reflexivity.
    + intros h' H' D. destruct (selh o li h' && in_sub s h' t && negb (s_out s k) && ac (s_state s) h' k)%bool eqn:E; [|reflexivity]. exfalso. apply D.
      destruct (HD h' k H' E) as (Hh' & _). exact (head_unique _ _ _ _ _ _ _ _ Inc Len Prep h' h k Hh' H).
  - intros NO. unfold g. rewrite (sumn_ext _ (fun _ => 0)); [apply sumn_zero|]. intros h Hh.
    destruct (selh o li h && in_sub s h t && negb (s_out s k) && ac (s_state s) h k)%bool eqn:E; [|reflexivity]. exfalso. apply NO. destruct (HD h k Hh E) as ((A & B & C0) & I & R).
    split; [exact (linked_inr2 _ _ _ _ C0)|]. split; assumption.
Qed.
Lemma Views_exist os : Forall (good_obs ls z) os -> exists vs, Forall2 (is_view prof ls li z) os vs.
Proof.
  induction 1 as [|o os G _ (vs & V)]; [exists []; constructor|]. destruct (View_exists o G) as (v & Vo). exists (v :: vs). constructor; assumption.
Qed.
End Views.
