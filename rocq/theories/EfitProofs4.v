From Verif Require Import Base RangeModel AxisModel AxisProofs ElemModel ElemSpec ElemProofs ElemProofs2 ElemProofs3 ElemProofs4 ElemProofs5 EfitModel EfitSpec EfitProofs EfitProofs2 EfitProofs3.
Open Scope Q_scope.

Section Prep.
Variables (avail : Q -> bool) (width : Q -> Q) (prof : nat -> Q -> Q -> Q -> Q) (axis : list Q) (z : Q) (r : range) (mo : Q) (ls : list eline) (s : support).
Hypothesis Inc : strictly_increasing axis.
Hypothesis Len : (0 < length axis)%nat.
Hypothesis Prep : prepared_for avail width axis z r mo ls s.
Lemma used_iff k : used s k <-> (k < length ls)%nat /\ s_out s k = false.
Proof. exact (EfitProofs2.used_iff avail width axis z r mo ls s Prep k). Qed.
Lemma allout_used : s_allout s = true -> forall k, ~ used s k.
Proof. exact (EfitProofs2.allout_used avail width axis z r mo ls s Inc Len Prep). Qed.

Lemma nth_used k l : nth_error ls k = Some l -> (used s k <-> s_out s k = false).
Proof. intros N. pose proof (nth_error_len _ _ _ N) as B. rewrite used_iff. split; [intros (_ & H'); exact H'|intros H'; split; assumption]. Qed.

Lemma Model_at_lambda z' x c : lsf_known avail s ls z' ->
  exists y g, getModelAtLambda avail width prof s ls x z' c None = Ok y /\ all_used_lines width prof s ls z' x c g /\ y == sumn g (length ls).
Proof.
  intros K. unfold getModelAtLambda. destruct (s_allout s) eqn:AO.
  - exists 0, (fun _ => 0). split; [reflexivity|]. split; [|symmetry; apply sumn_zero]. intros k l N. split; [intros U; exfalso; exact (allout_used AO k U)|intros; reflexivity].
  - destruct (sum_lines_sum (fun i => s_out s i || inactive s None i)%bool (line_flux avail width prof z' x c) (val width prof ls z' x c) ls) as (y & E & Y).
    + intros i l N T. apply line_flux_ok; [exact N|]. intros A SH. apply (K i l A N); [|exact SH]. apply (nth_used i l N). apply orb_false_iff in T. tauto.
    + exists y, (fun k => if s_out s k then 0 else val width prof ls z' x c k). split; [exact E|]. split.
      * intros k l N. split; intros U.
        -- apply (nth_used k l N) in U. rewrite U. apply val_adds; exact N.
        -- destruct (s_out s k) eqn:O; [reflexivity|]. exfalso. apply U. apply (nth_used k l N). exact O.
      * rewrite Y. apply sumn_ext. intros k Hk. cbn [inactive]. rewrite orb_false_r. reflexivity.
Qed.
Lemma line_flux_cases z' x c i l : (exists y, line_flux avail width prof z' x c i l = Ok y) \/ line_flux avail width prof z' x c i l = Throw INTERNAL_ERROR.
Proof.
  unfold line_flux. destruct (el_fit l) as [A|]; [|eauto]. destruct (Qltb A 0); [eauto|]. unfold GetLineProfileAtRedshift.
  destruct (negb _); cbn [rbind]; eauto.
Qed.
Lemma Model_throws z' x c k l A : nth_error ls k = Some l -> used s k -> shown l A -> avail (line_center l z') = false ->
  getModelAtLambda avail width prof s ls x z' c None = Throw INTERNAL_ERROR.
Proof.
  intros N U (F & P) NA. unfold getModelAtLambda. destruct (s_allout s) eqn:AO; [exfalso; exact (allout_used AO k U)|].
  apply sum_lines_throw with k l; [intros j x0 _ _; apply line_flux_cases|exact N| |].
  - cbn [inactive Nat.add]. rewrite (proj1 (nth_used k l N) U). reflexivity.
  - cbn [Nat.add]. unfold line_flux. rewrite F. destruct (Qltb_spec A 0); [lra|]. unfold GetLineProfileAtRedshift.
    change (GetObservedPosition (el_s l) z' false) with (line_center l z'). rewrite NA. reflexivity.
Qed.
Definition deriv_val (z' x c : Q) (k : nat) : Q := match nth_error ls k with Some l => line_value width prof k l z' x c (el_nom l) | None => 0 end.
Lemma Deriv_at z' x c : lsf_known_all avail s ls z' ->
  exists d, GetModelDerivAmplitudeAtLambda avail width prof s ls x z' c = Ok d /\ d == sumn (fun k => if s_out s k then 0 else deriv_val z' x c k) (length ls).
Proof.
  intros K. unfold GetModelDerivAmplitudeAtLambda. destruct (s_allout s) eqn:AO.
  - exists 0. split; [reflexivity|]. symmetry. rewrite (sumn_ext _ (fun _ => 0)); [apply sumn_zero|]. intros k Hk.
    destruct (s_out s k) eqn:O; [reflexivity|]. exfalso. apply (allout_used AO k). apply used_iff. auto.
  - apply sum_lines_sum. intros i l N T. unfold GetLineProfileAtRedshift. change (GetObservedPosition (el_s l) z' false) with (line_center l z').
    rewrite (K i l N) by (apply (nth_used i l N); exact T). cbn [negb rbind]. eexists. split; [reflexivity|]. unfold deriv_val. rewrite N. unfold line_value, profile_at, sign. destruct (el_neg l); ring.
Qed.
Lemma known_all z' : lsf_known_all avail s ls z' -> lsf_known avail s ls z'.
Proof. intros K k l A N U _. exact (K k l N U). Qed.
Lemma Deriv_amplitude z' x c A : lsf_known_all avail s ls z' -> of_amplitude s ls A -> 0 <= A -> (forall k l, nth_error ls k = Some l -> used s k -> 0 <= el_nom l) ->
  exists y d, getModelAtLambda avail width prof s ls x z' c None = Ok y /\ GetModelDerivAmplitudeAtLambda avail width prof s ls x z' c = Ok d /\ y == A * d.
Proof.
  intros K OA PA PN. destruct (Model_at_lambda z' x c (known_all z' K)) as (y & g & E & G & Y). destruct (Deriv_at z' x c K) as (d & D & EV).
  exists y, d. split; [exact E|]. split; [exact D|]. rewrite Y, EV, <- sumn_scale. apply sumn_ext. intros k Hk.
  destruct (nth_error ls k) as [l|] eqn:N; [|apply nth_error_None in N; lia]. destruct (G k l N) as (G1 & G2). destruct (s_out s k) eqn:O.
  - rewrite G2; [lra|]. intros U. apply (nth_used k l N) in U. congruence.
  - assert (U : used s k) by (apply (nth_used k l N); exact O). destruct (OA k l N U) as (f & F & EF). pose proof (PN k l N U) as Pn.
    assert (Pf : 0 <= f). { rewrite EF. apply Qmult_le_0_compat; assumption. }
    unfold deriv_val. rewrite N. destruct (G1 U) as [(B & (FB & PB) & V)|(NS & _)].
    + rewrite F in FB. inversion FB; subst B. rewrite V. unfold line_value. rewrite EF. ring.
    + exfalso. apply (NS f). split; assumption.
Qed.
Definition cont_val (z' x : Q) (k : nat) : Q :=
  match nth_error ls k with Some l => if el_neg l then match el_fit l with Some A => - A * profile_at width prof k l z' x | None => 0 end else 0 | None => 0 end.
Lemma Deriv_continuum z' x c0 a : lsf_known_all avail s ls z' ->
  (forall k l A, nth_error ls k = Some l -> used s k -> el_neg l = true -> el_fit l = Some A -> 0 <= A) ->
  exists y y0 d, getModelAtLambda avail width prof s ls x z' (a * c0) None = Ok y /\ getModelAtLambda avail width prof s ls x z' 0 None = Ok y0 /\
    GetModelDerivContinuumAmpAtLambda avail width prof s ls x z' c0 = Ok d /\ y == y0 + a * d.
Proof.
  intros K P. destruct (Model_at_lambda z' x (a * c0) (known_all z' K)) as (y & g & E & G & Y). destruct (Model_at_lambda z' x 0 (known_all z' K)) as (y0 & g0 & E0 & G0 & Y0).
  assert (D : exists d, GetModelDerivContinuumAmpAtLambda avail width prof s ls x z' c0 = Ok d /\ d == sumn (fun k => if s_out s k then 0 else c0 * cont_val z' x k) (length ls)).
  { unfold GetModelDerivContinuumAmpAtLambda. destruct (s_allout s) eqn:AO.
    - exists 0. split; [reflexivity|]. symmetry. rewrite (sumn_ext _ (fun _ => 0)); [apply sumn_zero|]. intros k Hk.
      destruct (s_out s k) eqn:O; [reflexivity|]. exfalso. apply (allout_used AO k). apply used_iff. auto.
    - apply sum_lines_sum. intros i l N T. unfold cont_val. rewrite N. unfold sign. destruct (el_neg l); cbn [negb]; [|exists 0; split; [reflexivity|lra]].
      destruct (el_fit l) as [A|]; [|exists 0; split; [reflexivity|lra]]. unfold GetLineProfileAtRedshift. change (GetObservedPosition (el_s l) z' false) with (line_center l z').
      rewrite (K i l N) by (apply (nth_used i l N); exact T). cbn [negb rbind]. eexists. split; [reflexivity|]. unfold profile_at. ring. }
  destruct D as (d & ED & D). exists y, y0, d. split; [exact E|]. split; [exact E0|]. split; [exact ED|].
  rewrite Y, Y0, D, <- sumn_scale, <- sumn_plus. apply sumn_ext. intros k Hk. destruct (nth_error ls k) as [l|] eqn:N; [|apply nth_error_None in N; lia].
  destruct (G k l N) as (G1 & G2), (G0 k l N) as (H1 & H2). destruct (s_out s k) eqn:O.
  - assert (NU : ~ used s k) by (intros U; apply (nth_used k l N) in U; congruence). rewrite (G2 NU), (H2 NU). lra.
  - assert (U : used s k) by (apply (nth_used k l N); exact O). unfold cont_val. rewrite N.
    destruct (G1 U) as [(A & (FA & PA) & V)|(NS & V)], (H1 U) as [(B & (FB & PB) & W)|(NB & W)].
    + rewrite FA in FB. inversion FB; subst B. rewrite V, W. unfold line_value. destruct (el_neg l); [rewrite FA|]; ring.
    + exfalso. exact (NB A (conj FA PA)). + exfalso. exact (NS B (conj FB PB)).
    + rewrite V, W. destruct (el_neg l) eqn:EN; [|lra]. destruct (el_fit l) as [A|] eqn:F; [|lra]. exfalso. apply (NS A). split; [exact F|]. exact (P k l A N U EN F).
Qed.

End Prep.

Lemma sum_pos_bounds s z' asym lo hi l0 : forall b mu n mu' n', sum_pos s z' asym b l0 mu n = (mu', n') ->
  (forall i l, nth_error l0 i = Some l -> s_out s (b + i)%nat = false -> lo <= GetObservedPosition (el_s l) z' asym <= hi) ->
  exists m, n' = (n + m)%nat /\ (m = O <-> forall i l, nth_error l0 i = Some l -> s_out s (b + i)%nat = true) /\
    lo * inject_Z (Z.of_nat m) <= mu' - mu <= hi * inject_Z (Z.of_nat m).
Proof.
  induction l0 as [|l t IH]; intros b mu n mu' n' E H; cbn [sum_pos] in E.
  - inversion E; subst. exists O. split; [lia|]. split; [split; [intros _ [|i] l N; discriminate|reflexivity]|]. change (inject_Z (Z.of_nat 0)) with 0. lra.
  - assert (H' : forall i x, nth_error t i = Some x -> s_out s (S b + i)%nat = false -> lo <= GetObservedPosition (el_s x) z' asym <= hi).
    { intros i x N O. apply (H (S i) x N). replace (b + S i)%nat with (S b + i)%nat by lia. exact O. }
    destruct (s_out s b) eqn:O.
    + destruct (IH (S b) mu n mu' n' E H') as (m & A & B & C). exists m. split; [exact A|]. split; [|exact C]. rewrite B. split.
      * intros Q1 [|i] x N; [rewrite Nat.add_0_r; exact O|]. replace (b + S i)%nat with (S b + i)%nat by lia. apply (Q1 i x N).
      * intros Q1 i x N. replace (S b + i)%nat with (b + S i)%nat by lia. apply (Q1 (S i) x N).
    + destruct (IH (S b) _ _ mu' n' E H') as (m & A & B & C). exists (S m). split; [lia|]. split.
      * split; [discriminate|]. intros Q1. specialize (Q1 0%nat l eq_refl). rewrite Nat.add_0_r in Q1. congruence.
      * assert (P : lo <= GetObservedPosition (el_s l) z' asym <= hi) by (apply (H 0%nat l eq_refl); rewrite Nat.add_0_r; exact O).
        rewrite Nat2Z.inj_succ. unfold Z.succ. rewrite inject_Z_plus. change (inject_Z 1) with 1. lra.
Qed.
Lemma sum_pos_linear s z' asym l0 : forall b mu n, exists m, sum_pos s z' asym b l0 mu n = (m, (n + length (filter (fun i => negb (s_out s i)) (seq b (length l0))))%nat) /\
  m == mu + lsum (fun i => match nth_error l0 (i - b) with Some l => if s_out s i then 0 else GetObservedPosition (el_s l) z' asym | None => 0 end) (seq b (length l0)).
Proof.
  induction l0 as [|l t IH]; intros b mu n; cbn [sum_pos lsum seq length filter].
  - eexists; split; [rewrite Nat.add_0_r; reflexivity|lra].
  - rewrite Nat.sub_diag. cbn [nth_error]. assert (EX : forall i, In i (seq (S b) (length t)) -> match nth_error (l :: t) (i - b) with Some l => if s_out s i then 0 else GetObservedPosition (el_s l) z' asym | None => 0 end == match nth_error t (i - S b) with Some l => if s_out s i then 0 else GetObservedPosition (el_s l) z' asym | None => 0 end).
    { intros i I. apply in_seq in I. replace (i - b)%nat with (S (i - S b)) by lia. cbn [nth_error]. reflexivity. }
    destruct (s_out s b); cbn [negb].
    + destruct (IH (S b) mu n) as (m & A & B). exists m. split; [exact A|]. rewrite B. rewrite (lsum_ext _ _ _ EX). lra.
    + destruct (IH (S b) (mu + GetObservedPosition (el_s l) z' asym) (S n)) as (m & A & B). exists m. split; [rewrite A; cbn [length]; f_equal; lia|]. rewrite B, (lsum_ext _ _ _ EX). lra.
Qed.

Section Prep2.
Variables (avail : Q -> bool) (width : Q -> Q) (prof : nat -> Q -> Q -> Q -> Q) (axis : list Q) (z : Q) (r : range) (mo : Q) (ls : list eline) (s : support).
Hypothesis Inc : strictly_increasing axis.
Hypothesis Len : (0 < length axis)%nat.
Hypothesis Prep : prepared_for avail width axis z r mo ls s.
Let nth_used := nth_used avail width axis z r mo ls s Prep.
Lemma Mean_position z' asym :
  ((forall k, ~ used s k) -> GetMeanObservedPosition s ls z' asym = Throw INTERNAL_ERROR) /\
  ((exists k, used s k) -> exists m, GetMeanObservedPosition s ls z' asym = Ok m /\
     (forall lo hi, (forall k l, nth_error ls k = Some l -> used s k -> lo <= GetObservedPosition (el_s l) z' asym <= hi) -> lo <= m <= hi) /\
     forall g, (forall k l, nth_error ls k = Some l -> (used s k -> g k == GetObservedPosition (el_s l) z' asym) /\ (~ used s k -> g k == 0)) ->
       m * inject_Z (Z.of_nat (length (filter (fun i => negb (s_out s i)) (seq 0 (length ls))))) == sumn g (length ls)).
Proof.
  unfold GetMeanObservedPosition. destruct (sum_pos_linear s z' asym ls 0 0 0) as (m & E & M). rewrite E. cbn [Nat.add].
  set (N := length (filter (fun i => negb (s_out s i)) (seq 0 (length ls)))) in *.
  split.
  - intros H. assert (Z0 : N = O).
    { unfold N. destruct (filter (fun i => negb (s_out s i)) (seq 0 (length ls))) as [|a q] eqn:F; [reflexivity|]. exfalso.
      assert (I : In a (filter (fun i => negb (s_out s i)) (seq 0 (length ls)))) by (rewrite F; left; reflexivity). apply filter_In in I. destruct I as (I & O). apply in_seq in I.
      apply (H a). apply (used_iff avail width axis z r mo ls s Prep). split; [lia|]. destruct (s_out s a); [discriminate|reflexivity]. }
    rewrite Z0. reflexivity.
  - intros (k0 & U0). apply (used_iff avail width axis z r mo ls s Prep) in U0. destruct U0 as (K0 & O0).
    assert (NZ : N <> O). { unfold N. assert (I : In k0 (filter (fun i => negb (s_out s i)) (seq 0 (length ls)))) by (apply filter_In; split; [apply in_seq; lia|rewrite O0; reflexivity]). destruct (filter _ _); [destruct I|cbn [length]; lia]. }
    destruct (Nat.eqb_spec N 0) as [C|_]; [contradiction|]. assert (PN : 0 < inject_Z (Z.of_nat N)) by (change 0 with (inject_Z 0); rewrite <- Zlt_Qlt; lia).
    eexists. split; [reflexivity|]. split.
    + intros lo hi B. destruct (sum_pos_bounds s z' asym lo hi ls 0 0 0 _ _ E) as (q & Q1 & _ & Q3); [intros i l Ni O; apply (B i l Ni); apply (nth_used i l Ni); exact O|].
      assert (q = N) by lia. subst q. split; [apply Qle_shift_div_l; [exact PN|lra]|apply Qle_shift_div_r; [exact PN|lra]].
    + intros g G. assert (E1 : m / inject_Z (Z.of_nat N) * inject_Z (Z.of_nat N) == m) by (field; lra). rewrite E1, M, lsum_seq, Qplus_0_l. apply sumn_ext. intros k K. rewrite Nat.sub_0_r.
      destruct (nth_error ls k) as [l|] eqn:Nk; [|apply nth_error_None in Nk; lia]. destruct (G k l Nk) as (G1 & G2). destruct (s_out s k) eqn:O.
      * symmetry. apply G2. intros U. apply (nth_used k l Nk) in U. congruence.
      * symmetry. apply G1. apply (nth_used k l Nk). exact O.
Qed.
(** * the amplitude of an element *)
Lemma first_amp_ok A l0 : forall b, (forall i l, nth_error l0 i = Some l -> s_out s (b + i)%nat = false -> exists f, el_fit l = Some f /\ f == A * el_nom l) ->
  ((exists i l, nth_error l0 i = Some l /\ s_out s (b + i)%nat = false /\ ~ el_nom l == 0) -> exists a, first_amp s b l0 = Some a /\ a == A) /\
  ((forall i l, nth_error l0 i = Some l -> s_out s (b + i)%nat = false -> el_nom l == 0) -> first_amp s b l0 = None).
Proof.
  induction l0 as [|l t IH]; intros b H; cbn [first_amp].
  - split; [intros ([|i] & l & N & _); discriminate|reflexivity].
  - assert (H' : forall i x, nth_error t i = Some x -> s_out s (S b + i)%nat = false -> exists f, el_fit x = Some f /\ f == A * el_nom x).
    { intros i x N O. apply (H (S i) x N). replace (b + S i)%nat with (S b + i)%nat by lia. exact O. }
    specialize (IH (S b) H'). destruct IH as (I1 & I2).
    destruct (s_out s b) eqn:O; cbn [negb andb].
    + split; intros Q1.
      * apply I1. destruct Q1 as ([|i] & x & N & O' & Z0); [rewrite Nat.add_0_r in O'; congruence|]. exists i, x. split; [exact N|]. split; [|exact Z0]. replace (S b + i)%nat with (b + S i)%nat by lia. exact O'.
      * apply I2. intros i x N O'. apply (Q1 (S i) x N). replace (b + S i)%nat with (S b + i)%nat by lia. exact O'.
    + destruct (Qeq_bool (el_nom l) 0) eqn:Z0; cbn [negb].
      * apply Qeq_bool_eq in Z0. split; intros Q1.
        -- apply I1. destruct Q1 as ([|i] & x & N & O' & Z1); [cbn [nth_error] in N; inversion N; subst; contradiction|]. exists i, x. split; [exact N|]. split; [|exact Z1]. replace (S b + i)%nat with (b + S i)%nat by lia. exact O'.
        -- apply I2. intros i x N O'. apply (Q1 (S i) x N). replace (b + S i)%nat with (S b + i)%nat by lia. exact O'.
      * assert (NZ : ~ el_nom l == 0) by (intros C; apply Qeq_eq_bool in C; congruence).
        destruct (H 0%nat l eq_refl) as (f & F & EF); [rewrite Nat.add_0_r; exact O|]. rewrite F. split.
        -- intros _. eexists. split; [reflexivity|]. rewrite EF. field. exact NZ.
        -- intros Q1. exfalso. apply NZ. apply (Q1 0%nat l eq_refl). rewrite Nat.add_0_r. exact O.
Qed.
Lemma Element_amplitude A : of_amplitude s ls A ->
  ((exists k l, nth_error ls k = Some l /\ used s k /\ ~ el_nom l == 0) -> exists a, GetElementAmplitude s ls = Some a /\ a == A) /\
  ((forall k l, nth_error ls k = Some l -> used s k -> el_nom l == 0) -> GetElementAmplitude s ls = None).
Proof.
  intros OA. unfold GetElementAmplitude. destruct (first_amp_ok A ls 0) as (I1 & I2); [intros i l N O; apply (OA i l N); apply (nth_used i l N); exact O|]. cbn [Nat.add] in *.
  destruct (s_allout s) eqn:AO.
  - split; [|reflexivity]. intros (k & l & N & U & _). exfalso. exact (allout_used avail width axis z r mo ls s Inc Len Prep AO k U).
  - split; intros H.
    + apply I1. destruct H as (k & l & N & U & Z0). exists k, l. split; [exact N|]. split; [exact (proj1 (nth_used k l N) U)|exact Z0].
    + apply I2. intros i l N O. apply (H i l N). apply (nth_used i l N). exact O.
Qed.
End Prep2.

(** * the continuum at the centre *)
Lemma Center_continuum l axis z cont poly : strictly_increasing axis -> (0 < length axis)%nat -> length cont = length axis ->
  exists i x c, nth_error axis i = Some x /\ nth_error cont i = Some c /\ (forall j y, (j < i)%nat -> nth_error axis j = Some y -> y < line_mu (el_s l) z) /\
    (line_mu (el_s l) z <= x \/ i = (length axis - 1)%nat) /\
    GetContinuumAtCenterProfile l axis z cont poly = Ok (Some (match poly with Some f => c + f x | None => c end)).
Proof.
  intros S L LC. unfold GetContinuumAtCenterProfile. change (GetObservedPosition (el_s l) z true) with (line_mu (el_s l) z).
  destruct (GetIndexAtWaveLength_ok axis (line_mu (el_s l) z) S L) as (i & E & I & B1 & _ & B3).
  rewrite E. cbn [rbind]. destruct (Z.ltb_spec (Z.of_nat (length cont) - 1) (Z.of_nat i)); [lia|].
  destruct (nth_error axis i) as [x|] eqn:EX; [|apply nth_error_None in EX; lia]. destruct (nth_error cont i) as [c|] eqn:EC; [|apply nth_error_None in EC; lia].
  exists i, x, c. split; [exact EX|]. split; [exact EC|]. split; [exact B1|]. split; [apply B3; reflexivity|]. unfold vget. rewrite EC, EX. cbn [rbind]. destruct poly; reflexivity.
Qed.
