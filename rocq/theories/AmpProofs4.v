From Verif Require Import Base RangeModel AxisModel AxisProofs ElemModel ElemSpec ElemProofs EfitModel EfitSpec EfitProofs EfitProofs2 EfitProofs3 AmpModel AmpSpec AmpProofs AmpProofs2 AmpProofs3.
Open Scope Q_scope.

Lemma sumn_zero_inv f n : sumn f n == 0 -> (forall k, (k < n)%nat -> 0 <= f k) -> forall k, (k < n)%nat -> f k == 0.
Proof.
  induction n as [|n IH]; intros H P k K; [lia|]. cbn [sumn] in H. assert (P1 : forall k, (k < n)%nat -> 0 <= f k) by (intros; apply P; lia).
  pose proof (sumn_nonneg f n P1) as S0. pose proof (P n ltac:(lia)) as Fn. destruct (Nat.eq_dec k n) as [->|D]; [lra|]. apply IH; [lra|exact P1|lia].
Qed.
Section Joint.
Variables (prof : nat -> Q -> Q -> Q -> Q) (sqrtf : Q -> Q) (absLimit : Q) (z : Q) (li : option nat) (os : list aobs).

Lemma param_none A l0 : forall i, GetParamAmplitude (set_amps absLimit os A i l0) = None -> forall k l, nth_error l0 k = Some l -> globalOutsideLine os (i + k) = false -> el_nom l == 0.
Proof.
  induction l0 as [|l t IH]; intros i H k l1 N O; [destruct k; discriminate|]. cbn [set_amps GetParamAmplitude] in H. cbn [set_efit el_fit el_nom] in H.
  destruct k as [|k]; cbn [nth_error] in N.
  - inversion N; subst l1. rewrite Nat.add_0_r in O. rewrite O in H. destruct (Qeq_bool (el_nom l) 0) eqn:Z0; [apply Qeq_bool_eq; exact Z0|discriminate].
  - apply (IH (S i)) with (k := k); [|exact N|replace (S i + k)%nat with (i + S k)%nat by lia; exact O].
    destruct (globalOutsideLine os i); [exact H|]. destruct (Qeq_bool (el_nom l) 0); [exact H|discriminate].
Qed.
Lemma view_zero ls o v : good_obs ls z o -> In o os -> is_view prof ls li z o v -> (forall k l, nth_error ls k = Some l -> globalOutsideLine os k = false -> el_nom l == 0) -> view_sum (fun _ m e => m / e * (m / e)) v == 0.
Proof.
  intros (Inc & Len & LY & LE & LC & NE & (zs & r & mo & ls0 & L0 & Prep) & Known) I (<- & V) H. set (o := v_obs v) in *. unfold view_sum. fold o.
  rewrite (sumn_ext _ (fun _ => 0)); [apply sumn_zero|]. intros t T. destruct (v_cov v t); [|reflexivity].
  destruct (nth_error_lt (a_axis o) t T) as (x & X). destruct (nth_error_lt (a_c o) t ltac:(lia)) as (c & C).
  destruct (V t x c X C) as (_ & g & NA & M). assert (M0 : v_model v t == 0).
  { rewrite M. rewrite (sumn_ext _ (fun _ => 0)); [apply sumn_zero|]. intros k K. destruct (nth_error_lt ls k K) as (l & N). destruct (NA k l N) as (Y1 & Y2).
    destruct (s_out (a_s o) k) eqn:Out.
    - apply Y2. intros (U & _). apply (used_iff0 ls o zs mo r ls0 L0 Prep) in U. destruct U as (_ & U). congruence.
    - assert (NZ : el_nom l == 0). { apply (H k l N). unfold globalOutsideLine. destruct (forallb (fun o0 => s_out (a_s o0) k) os) eqn:F; [|reflexivity]. rewrite forallb_forall in F. rewrite (F o I) in Out. discriminate. }
      destruct (Qeq_dec (g k) 0) as [e|e]; [exact e|]. apply Y2. intros B. apply e. rewrite (Y1 B). unfold line_value. rewrite NZ. ring. }
  rewrite M0. unfold Qdiv. ring.
Qed.
Lemma amp_some ls vs A : Forall (good_obs ls z) os -> Forall2 (is_view prof ls li z) os vs -> 0 < amp_info vs -> exists a, GetParamAmplitude (set_amps absLimit os A 0 ls) = Some a.
Proof.
  intros G V P. destruct (GetParamAmplitude (set_amps absLimit os A 0 ls)) as [a|] eqn:E; [eauto|]. exfalso.
  assert (Z0 : amp_info vs == 0).
  { pose proof (param_none A ls 0 E) as H. cbn [Nat.add] in H. 
    assert (K : forall os2 vs2, Forall (good_obs ls z) os2 -> Forall2 (is_view prof ls li z) os2 vs2 -> incl os2 os -> views_sum (fun _ m e => m / e * (m / e)) vs2 == 0).
    { intros os2 vs2 G2 V2. induction V2 as [|o v os2 vs2 Vo V2 IH]; intros I; cbn [views_sum]; [reflexivity|].
      rewrite (view_zero ls o v (Forall_inv G2) (I o (or_introl eq_refl)) Vo H), (IH (Forall_inv_tail G2)); [lra|]. intros x X. apply I. right. exact X. }
    apply (K os vs G V). intros x; auto. }
  lra.
Qed.
Lemma amp_line A a l0 : forall i, GetParamAmplitude (set_amps absLimit os A i l0) = Some a -> exists k l, nth_error l0 k = Some l /\ globalOutsideLine os (i + k) = false /\ ~ el_nom l == 0.
Proof.
  induction l0 as [|l t IH]; intros i; cbn [set_amps GetParamAmplitude]; [discriminate|]. cbn [set_efit el_fit el_nom]. destruct (globalOutsideLine os i) eqn:Gi.
  - intros H. destruct (IH _ H) as (k & x & N & O & Z0). exists (S k), x. replace (i + S k)%nat with (S i + k)%nat by lia. auto.
  - destruct (Qeq_bool (el_nom l) 0) eqn:Z0.
    + intros H. destruct (IH _ H) as (k & x & N & O & Z1). exists (S k), x. replace (i + S k)%nat with (S i + k)%nat by lia. auto.
    + intros _. exists 0%nat, l. rewrite Nat.add_0_r. split; [reflexivity|]. split; [exact Gi|]. intros C. apply Qeq_eq_bool in C. congruence.
Qed.
Lemma line_in ls vs : Forall (good_obs ls z) os -> Forall2 (is_view prof ls li z) os vs -> 0 < amp_info vs -> exists k l, nth_error ls k = Some l /\ globalOutsideLine os k = false /\ ~ el_nom l == 0.
Proof. intros G V P. destruct (amp_some ls vs 0 G V P) as (a & Ha). exact (amp_line 0 a ls 0%nat Ha). Qed.
(** the merit of a fit which has one *)
Lemma merit_some p os' q : globalOutside os' = false -> fitAmplitude prof sqrtf absLimit p os' z li = Ok q -> forall a, GetParamAmplitude (p_lines q) = Some a -> exists m, getLeastSquareMeritFast q = Some m.
Proof.
  intros G E a GA. unfold fitAmplitude in E. rewrite G in E. destruct (rfold _ os' _) as [[[n d] m]| |]; cbn [rbind] in E; [|discriminate|discriminate].
  destruct ((n =? 0)%Z || Qeq_bool m 0)%bool; inversion E; subst q; cbn [p_lines] in GA.
  - rewrite unset_amp in GA. discriminate.
  - unfold getLeastSquareMeritFast. cbn [p_lines p_gauss p_cross]. rewrite GA. eauto.
Qed.
Lemma fit_lines_cases p q : globalOutside os = false -> fitAmplitude prof sqrtf absLimit p os z li = Ok q -> p_lines q = unset (p_lines p) \/ exists A, p_lines q = set_amps absLimit os A 0 (p_lines p).
Proof.
  intros G E. unfold fitAmplitude in E. rewrite G in E. destruct (rfold _ os _) as [[[n d] m]| |]; cbn [rbind] in E; [|discriminate|discriminate].
  destruct ((n =? 0)%Z || Qeq_bool m 0)%bool; inversion E; cbn [p_lines]; [left; reflexivity|right; eexists; reflexivity].
Qed.
(** * one fit, with its merit *)
Lemma Fit_merit p vs q : globalOutside os = false -> Forall (good_obs (p_lines p) z) os -> Forall (fun o => unshared (a_s o)) os -> Forall2 (is_view prof (p_lines p) li z) os vs ->
  (forall l, In l (p_lines p) -> el_neg l = false) -> fitAmplitude prof sqrtf absLimit p os z li = Ok q ->
  (amp_info vs == 0 /\ amplitude_unset (p_lines p) (p_lines q) /\ getLeastSquareMeritFast q = None) \/
  (0 < amp_info vs /\ exists A m, 0 <= A /\ (forall a, 0 <= a -> amp_chi2 vs A <= amp_chi2 vs a) /\ amplitude_set absLimit os A (p_lines p) (p_lines q) /\
     getLeastSquareMeritFast q = Some m /\ m == amp_chi2 vs A - amp_chi2 vs 0).
Proof.
  intros G GO U V Em E. destruct (Fit prof sqrtf absLimit (p_lines p) z li p os vs eq_refl G GO U V) as (q' & E' & C). rewrite E in E'. inversion E'; subst q'.
  destruct C as [(C1 & C2 & C3 & C4)|(C1 & A & C2 & C3 & C4 & _ & C5)]; [left; auto|right]. split; [exact C1|].
  destruct (fit_lines_cases p q G E) as [L|(A' & L)].
  - exfalso. destruct C4 as (_ & C4). destruct (line_in (p_lines p) vs GO V C1) as (k & l & N & O & Z0).
    assert (HU : nth_error (p_lines q) k = Some (set_efit l None)) by (rewrite L; unfold unset; rewrite nth_error_map, N; reflexivity).
    destruct (C4 k l _ N HU) as (_ & _ & _ & _ & X). destruct X as (f & Ff & _); [|discriminate].
    assert (EB : existsb (fun o => negb (s_out (a_s o) k)) os = true).
    { unfold globalOutsideLine in O. clear -O. induction os as [|o t IH]; cbn [forallb existsb] in *; [discriminate|]. destruct (s_out (a_s o) k); cbn [andb negb orb] in *; [apply IH; exact O|reflexivity]. }
    apply existsb_exists in EB. destruct EB as (o & I & Oo). exists o. split; [exact I|]. apply negb_true_iff. exact Oo.
  - destruct (amp_some (p_lines p) vs A' GO V C1) as (a & Ha). rewrite <- L in Ha. destruct (merit_some p os q G E a Ha) as (m & M). exists A, m.
    split; [exact C2|]. split; [exact C3|]. split; [exact C4|]. split; [exact M|]. destruct (C5 m M) as (a' & GA & Em' & Ea). rewrite Em'. pose proof (Ea Em) as Ea'.
    rewrite (chi2_expand vs a'), (chi2_expand vs A), Ea'. ring.
Qed.

(** the chi square without lines does not depend on the offset *)
Lemma chi2_zero ls ls' vs vs' : Forall (good_obs ls z) os -> Forall2 (is_view prof ls li z) os vs -> Forall2 (is_view prof ls' li z) os vs' -> amp_chi2 vs 0 == amp_chi2 vs' 0.
Proof.
  intros G V. revert vs'. induction V as [|o v os' vs Vo V IH]; intros vs' V'; inversion V' as [|? v' ? vs2 Vo' V2]; subst; [reflexivity|].
  unfold amp_chi2 in *. cbn [views_sum]. rewrite (IH (Forall_inv_tail G) vs2 V2). assert (H : view_sum (fun y m e => (y - 0 * m) / e * ((y - 0 * m) / e)) v == view_sum (fun y m e => (y - 0 * m) / e * ((y - 0 * m) / e)) v'); [|rewrite H; reflexivity].
  pose proof (Forall_inv G) as (_ & _ & _ & _ & LC & _). destruct Vo as (<- & Vo). destruct Vo' as (E' & Vo'). unfold view_sum. rewrite E'. apply sumn_ext. intros t T.
  destruct (nth_error_lt (a_axis (v_obs v)) t T) as (x & X). destruct (nth_error_lt (a_c (v_obs v)) t ltac:(lia)) as (c & C).
  destruct (Vo t x c X C) as (C1 & _). destruct (Vo' t x c X C) as (C2 & _).
  assert (E : v_cov v t = v_cov v' t). { destruct (v_cov v t) eqn:A, (v_cov v' t) eqn:B; auto; [symmetry; apply C2, C1; reflexivity|apply C1, C2; reflexivity]. }
  rewrite E. destruct (v_cov v' t); [|reflexivity]. unfold Qdiv. ring.
Qed.

(** * offset and amplitude together *)
Lemma Joint_fit p en vs : let lines i := p_lines (setLambdaOffset en i p) in
  globalOutside os = false -> (exists k, nth_error en k = Some true) -> (forall l, In l (p_lines p) -> el_neg l = false) -> Forall (fun o => unshared (a_s o)) os ->
  (forall i, (0 <= i < 32)%Z -> Forall (good_obs (lines i) z) os /\ Forall2 (is_view prof (lines i) li z) os (vs i)) ->
  exists p', fitAmplitudeAndLambdaOffset prof sqrtf absLimit p en os z li true = Ok p' /\
   ((exists j A, (0 <= j < 32)%Z /\ 0 <= A /\ amplitude_set absLimit os A (lines j) (p_lines p') /\
      forall i a, (0 <= i < 32)%Z -> 0 <= a -> amp_chi2 (vs j) A <= amp_chi2 (vs i) a) \/
    ((forall i, (0 <= i < 32)%Z -> amp_info (vs i) == 0) /\ amplitude_unset (lines 31%Z) (p_lines p'))).
Proof.
  intros lines G K Em U H.
  assert (Em' : forall i l, In l (lines i) -> el_neg l = false).
  { intros i l I. apply In_nth_error in I. destruct I as (k & N). unfold lines, setLambdaOffset in N. cbn [p_lines] in N. rewrite off_nth in N.
    destruct (nth_error (p_lines p) k) as [l0|] eqn:N0; [|discriminate]. apply nth_error_In in N0. inversion N; subst l. destruct (nth_error en k) as [[|]|]; cbn [set_offset el_neg]; apply Em; exact N0. }
  assert (FT : forall i, (0 <= i < 32)%Z -> exists q, at_offset prof sqrtf absLimit z li os en p i = Ok q).
  { intros i R. destruct (H i R) as (GO & V). destruct (Fit prof sqrtf absLimit (lines i) z li (setLambdaOffset en i p) os (vs i) eq_refl G GO U V) as (q & E & _). exists q. exact E. }
  pose (q := fun i => match at_offset prof sqrtf absLimit z li os en p i with Ok x => x | _ => p end).
  assert (Q : forall i, (0 <= i < 32)%Z -> at_offset prof sqrtf absLimit z li os en p i = Ok (q i)).
  { intros i R. destruct (FT i R) as (x & X). unfold q. rewrite X. reflexivity. }
  assert (FM : forall i, (0 <= i < 32)%Z -> (amp_info (vs i) == 0 /\ amplitude_unset (lines i) (p_lines (q i)) /\ getLeastSquareMeritFast (q i) = None) \/
    (0 < amp_info (vs i) /\ exists A m, 0 <= A /\ (forall a, 0 <= a -> amp_chi2 (vs i) A <= amp_chi2 (vs i) a) /\ amplitude_set absLimit os A (lines i) (p_lines (q i)) /\ getLeastSquareMeritFast (q i) = Some m /\ m == amp_chi2 (vs i) A - amp_chi2 (vs i) 0)).
  { intros i R. destruct (H i R) as (GO & V). exact (Fit_merit (setLambdaOffset en i p) (vs i) (q i) G GO U V (Em' i) (Q i R)). }
  destruct (Offsets prof sqrtf absLimit z li os en p q G K Q) as [(j & m & J & E & M & Min)|(N & E)].
  - exists (q j). split; [exact E|]. left. destruct (FM j J) as [(_ & _ & X)|(_ & A & m' & PA & BA & SA & M' & EM)]; [congruence|]. rewrite M in M'. inversion M'; subst m'.
    exists j, A. split; [exact J|]. split; [exact PA|]. split; [exact SA|]. intros i a R Ha.
    destruct (H j J) as (GOj & Vj). destruct (H i R) as (GOi & Vi). pose proof (chi2_zero _ _ _ _ GOj Vj Vi) as Z0.
    destruct (FM i R) as [(I0 & _ & _)|(_ & A' & m' & PA' & BA' & _ & Mi & EMi)].
    + pose proof (BA 0 ltac:(lra)) as B0. assert (X : amp_chi2 (vs i) a == amp_chi2 (vs i) 0); [|lra].
      assert (AZ : forall (w : list view), amp_info w == 0 -> amp_chi2 w a == amp_chi2 w 0); [|apply AZ; exact I0].
      intros w W. assert (D : views_sum F_d w == 0).
      { clear -W. unfold amp_info in W. induction w as [|v t IH]; cbn [views_sum] in *; [reflexivity|].
        assert (N1 : 0 <= view_sum (fun _ m e => m / e * (m / e)) v) by (pose proof (info_nonneg [v]) as X; unfold amp_info in X; cbn [views_sum] in X; lra).
        pose proof (info_nonneg t) as N2. unfold amp_info in N2. rewrite (IH ltac:(lra)). assert (Zv : view_sum (fun _ m e => m / e * (m / e)) v == 0) by lra.
        assert (Y : view_sum F_d v == 0); [|rewrite Y; lra]. unfold view_sum in *.
        rewrite (sumn_ext _ (fun _ => 0)); [apply sumn_zero|]. intros k Kk.
        assert (PT : (if v_cov v k then v_model v k / at0 (a_e (v_obs v)) k * (v_model v k / at0 (a_e (v_obs v)) k) else 0) == 0).
        { apply (sumn_zero_inv _ _ Zv); [|exact Kk]. intros k' _. destruct (v_cov v k'); [apply sq_le_0|lra]. }
        destruct (v_cov v k); [|reflexivity]. unfold F_d. assert (ME : v_model v k / at0 (a_e (v_obs v)) k == 0). { apply Qmult_integral in PT. destruct PT; assumption. }
        unfold Qdiv in *. rewrite Qinv_mult_distr. setoid_replace (v_model v k * at0 (a_y (v_obs v)) k * (/ at0 (a_e (v_obs v)) k * / at0 (a_e (v_obs v)) k)) with ((v_model v k * / at0 (a_e (v_obs v)) k) * (at0 (a_y (v_obs v)) k * / at0 (a_e (v_obs v)) k)) by ring. rewrite ME. ring. }
      rewrite (chi2_expand w a), W, D. ring.
    + pose proof (BA' a Ha) as B1. destruct (Min i m' R Mi) as (B2 & _). lra.
  - exists (q 31%Z). split; [exact E|]. right. split.
    + intros i R. destruct (FM i R) as [(I0 & _ & _)|(_ & A' & m' & _ & _ & _ & Mi & _)]; [exact I0|]. rewrite (N i R) in Mi. discriminate.
    + destruct (FM 31%Z ltac:(lia)) as [(_ & X & _)|(_ & A' & m' & _ & _ & _ & Mi & _)]; [exact X|]. rewrite (N 31%Z ltac:(lia)) in Mi. discriminate.
Qed.
End Joint.
Lemma unset_eq l0 : forall l1 : list eline, length l0 = length l1 -> (forall k l l', nth_error l0 k = Some l -> nth_error l1 k = Some l' -> el_s l = el_s l' /\ el_neg l = el_neg l' /\ el_nom l = el_nom l') -> unset l0 = unset l1.
Proof.
  induction l0 as [|a t IH]; intros [|b t'] L H; [reflexivity|discriminate|discriminate|]. cbn [unset map]. fold (unset t). fold (unset t').
  destruct (H 0%nat a b eq_refl eq_refl) as (E1 & E2 & E3). rewrite (IH t'); [|cbn in L; lia|intros k l l' N N'; exact (H (S k) l l' N N')]. unfold set_efit. rewrite E1, E2, E3. reflexivity.
Qed.
Lemma Forgets prof sqrtf absLimit z li os p p' : globalOutside os = false -> length (p_lines p) = length (p_lines p') ->
  (forall k l l', nth_error (p_lines p) k = Some l -> nth_error (p_lines p') k = Some l' -> el_s l = el_s l' /\ el_neg l = el_neg l' /\ el_nom l = el_nom l') ->
  fitAmplitude prof sqrtf absLimit p os z li = fitAmplitude prof sqrtf absLimit p' os z li.
Proof. intros G L H. apply fit_shape; [exact G|]. apply unset_eq; assumption. Qed.
Lemma Outside prof sqrtf absLimit z li os p : (forall o, In o os -> s_allout (a_s o) = true) ->
  exists p', fitAmplitude prof sqrtf absLimit p os z li = Ok p' /\ p_lines p' = p_lines p /\ p_std p' = p_std p /\ getLeastSquareMeritFast p' = None.
Proof.
  intros H. assert (G : globalOutside os = true) by (apply forallb_forall; exact H). unfold fitAmplitude. rewrite G. eexists. split; [reflexivity|]. cbn [p_lines p_std].
  split; [reflexivity|]. split; [reflexivity|]. unfold getLeastSquareMeritFast. cbn [p_lines p_gauss]. destruct (GetParamAmplitude (p_lines p)); reflexivity.
Qed.
Lemma Set_offsets en i p k l : nth_error (p_lines p) k = Some l -> exists l', nth_error (p_lines (setLambdaOffset en i p)) k = Some l' /\
  l_off (el_s l') = match nth_error en k with Some true => -400 + 25 * inject_Z i | _ => l_off (el_s l) end /\
  l_pos (el_s l') = l_pos (el_s l) /\ l_delta (el_s l') = l_delta (el_s l) /\ l_nsigma (el_s l') = l_nsigma (el_s l) /\ el_neg l' = el_neg l /\ el_nom l' = el_nom l.
Proof.
  intros N. unfold setLambdaOffset. cbn [p_lines]. rewrite off_nth, N. eexists. split; [reflexivity|]. destruct (nth_error en k) as [[|]|]; (split; [reflexivity|]); repeat (split; [reflexivity|]); reflexivity.
Qed.
Lemma No_offset prof sqrtf absLimit z li os p en b : (b = false \/ forall k, nth_error en k <> Some true) ->
  fitAmplitudeAndLambdaOffset prof sqrtf absLimit p en os z li b = fitAmplitude prof sqrtf absLimit p os z li.
Proof.
  intros H. unfold fitAmplitudeAndLambdaOffset, HasLambdaOffsetFitting. destruct (b && existsb (fun x => x) en)%bool eqn:E; [|reflexivity].
  exfalso. apply andb_true_iff in E. destruct E as (-> & E). apply existsb_exists in E. destruct E as (x & I & ->). apply In_nth_error in I. destruct I as (k & K). destruct H as [H|H]; [discriminate|exact (H k K)].
Qed.
