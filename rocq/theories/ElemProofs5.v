From Verif Require Import Base RangeModel AxisModel AxisProofs ElemModel ElemSpec ElemProofs ElemProofs2 ElemProofs3 ElemProofs4.
Open Scope Q_scope.

Section Final.
Variables (avail : Q -> bool) (width : Q -> Q) (ls : list sline) (axis : list Q) (z : Q) (r : range) (mo : Q) (s : support).
Hypothesis S : strictly_increasing axis.
Hypothesis L : (0 < length axis)%nat.
Hypothesis PS : prepareSupport avail width ls axis z r mo = Ok s.

Lemma Groups : (forall h k, used s h -> nonempty (getSupportSubElt s h) -> (Z.of_nat (length ls) < 2 ^ 21)%Z ->
    (isLineActiveOnSupport s h k = true <-> linked (used s) (s_theo s) h k)) /\
  (forall h t, used s h -> nonempty (getSupportSubElt s h) -> (Z.of_nat (length ls) < 2 ^ 21)%Z ->
    (in_support t (getSupportSubElt s h) <-> exists k, linked (used s) (s_theo s) h k /\ in_support t (s_theo s k))) /\
  (forall k, used s k -> exists h, used s h /\ nonempty (getSupportSubElt s h) /\ isLineActiveOnSupport s h k = true /\ inside (s_theo s k) (getSupportSubElt s h) /\
    forall h', used s h' -> nonempty (getSupportSubElt s h') -> isLineActiveOnSupport s h' k = true -> h' = h).
Proof.
  pose proof (Prepare_prep _ _ _ _ _ _ _ _ S L PS) as P. destruct (p_inv _ _ _ _ _ _ _ _ P) as [G I].
  assert (AL : forall h, used s h -> nonempty (getSupportSubElt s h) -> alive (s_size s) (s_out s) (s_state s) h) by (intros h A B; split; auto).
  assert (F : forall h k, used s h -> nonempty (getSupportSubElt s h) -> isLineActiveOnSupport s h k = true -> linked (used s) (s_theo s) h k /\ inside (s_theo s k) (getSupportSubElt s h)).
  { intros h k U N A. apply (i_mem _ _ _ _ _ I h k (AL h U N)). apply (i_act _ _ _ _ _ I); auto. }
  assert (B : forall h k, used s h -> nonempty (getSupportSubElt s h) -> (Z.of_nat (length ls) < 2 ^ 21)%Z -> linked (used s) (s_theo s) h k -> isLineActiveOnSupport s h k = true).
  { intros h k U N LL K. induction K as [|l m K IH M O].
    - apply (i_diag _ _ _ _ _ I). apply U.
    - destruct (F h l U N IH) as [_ In1]. destruct (i_all _ _ _ _ _ I m M) as (h' & A' & M'). destruct (i_mem _ _ _ _ _ I h' m A' M') as [_ In2].
      destruct (Nat.eq_dec h h') as [<- |Nh]; [apply (i_act _ _ _ _ _ I); auto|].
      exfalso. apply (p_dis _ _ _ _ _ _ _ _ P LL h h' U (proj1 A') Nh). change (getSupportSubElt s h') with (X (s_state s) h').
      apply overlap_mono with (s_theo s l); auto. apply overlap_sym. apply overlap_mono with (s_theo s m); auto. apply overlap_sym. exact O. }
  split; [|split].
  - intros h k U N LL. split; [intro A; apply F; auto|apply B; auto].
  - intros h t U N LL. split.
    + intro T. destruct (i_cov _ _ _ _ _ I h t (AL h U N) T) as (k & K1 & K2). exists k. split; auto. apply F; auto. apply (i_act _ _ _ _ _ I); auto.
    + intros (k & K1 & K2). destruct (F h k U N (B h k U N LL K1)) as [_ [I1 I2]]. unfold in_support in *. lia.
  - intros k U. destruct (i_all _ _ _ _ _ I k U) as (h & A & M). exists h. split; [apply A|]. split; [apply A|]. split; [apply (i_act _ _ _ _ _ I); auto|].
    split; [apply (i_mem _ _ _ _ _ I); auto|]. intros h' U' N' A'. apply (i_dis _ _ _ _ _ I h' h k); auto. apply (i_act _ _ _ _ _ I); auto.
Qed.
Lemma Symmetric : (forall x y, isLineActiveOnSupport s x y = true -> isLineActiveOnSupport s y x = true) /\ (forall x, (x < length ls)%nat -> isLineActiveOnSupport s x x = true) /\
  (forall x y, isLineActiveOnSupport s x y = true -> x = y \/ (used s x /\ used s y)).
Proof.
  pose proof (Prepare_prep _ _ _ _ _ _ _ _ S L PS) as P. destruct (p_inv _ _ _ _ _ _ _ _ P) as [G I].
  split; [apply (i_sym _ _ _ _ _ I)|]. split; [rewrite <- (p_size _ _ _ _ _ _ _ _ P); apply (i_diag _ _ _ _ _ I)|apply (i_out _ _ _ _ _ I)].
Qed.
Lemma Disjoint_supports : (Z.of_nat (length ls) < 2 ^ 21)%Z -> forall h h' t, used s h -> used s h' -> h <> h' ->
  in_support t (getSupportSubElt s h) -> in_support t (getSupportSubElt s h') -> ~ (in_support (t + 1) (getSupportSubElt s h) /\ in_support (t + 1) (getSupportSubElt s h')).
Proof.
  intros LL h h' t U U' N A B [C D]. pose proof (Prepare_prep _ _ _ _ _ _ _ _ S L PS) as P. apply (p_dis _ _ _ _ _ _ _ _ P LL h h' U U' N). exists t. auto.
Qed.
Lemma used_dec k : used s k \/ ~ used s k.
Proof. unfold used. destruct (lt_dec k (s_size s)); destruct (s_out s k); tauto || (right; intros [? ?]; congruence || lia). Qed.
(** the samples of getSupport are those of getTheoreticalSupport *)
Lemma Same_samples : forall t, (exists p, In p (getSupport s) /\ in_support t p) <-> (exists p, In p (getTheoreticalSupport s) /\ in_support t p).
Proof.
  intro t. pose proof (Prepare_prep _ _ _ _ _ _ _ _ S L PS) as P. destruct (p_inv _ _ _ _ _ _ _ _ P) as [G I].
  assert (AO : s_allout s = true -> forall k, ~ used s k) by apply (p_all _ _ _ _ _ _ _ _ P).
  assert (E : forall f, (exists p, In p (if s_allout s then [] else flat_map (fun i => if s_out s i then [] else [f i]) (seq 0 (s_size s))) /\ in_support t p) <-> exists k, used s k /\ in_support t (f k)).
  { intro f. destruct (s_allout s) eqn:Ea.
    - split; [intros (p & [] & _)|]. intros (k & U & _). destruct (AO eq_refl k U).
    - split.
      + intros (p & Hp & T). apply in_flat_map in Hp. destruct Hp as (i & Hi & Hp). apply in_seq in Hi. destruct (s_out s i) eqn:O; [destruct Hp|]. destruct Hp as [<- |[]]. exists i. split; [split; [lia|auto]|auto].
      + intros (k & [U1 U2] & T). exists (f k). split; auto. apply in_flat_map. exists k. split; [apply in_seq; lia|]. rewrite U2. left; auto. }
  unfold getSupport, getTheoreticalSupport. rewrite (E (fun i => (sn (s_state s) i, en (s_state s) i))), (E (s_theo s)). split.
  - intros (h & U & T). assert (A : alive (s_size s) (s_out s) (s_state s) h). { split; auto. unfold nonempty, X, in_support in *. cbn [fst snd] in *. lia. }
    destruct (i_cov _ _ _ _ _ I h t A T) as (k & K1 & K2). exists k. split; auto. destruct (i_mem _ _ _ _ _ I h k A K1) as [Lk _]. apply linked_in in Lk. apply Lk.
  - intros (k & U & T). destruct (i_all _ _ _ _ _ I k U) as (h & A & M). exists h. split; [apply A|]. destruct (i_mem _ _ _ _ _ I h k A M) as [_ [I1 I2]]. unfold in_support, X in *. cbn [fst snd] in *. lia.
Qed.
Lemma Line_support k l : nth_error ls k = Some l ->
  (used s k <-> avail (line_mu l z) = true /\ kept axis r (line_mu l z) (line_win width l z mo)) /\
  (used s k -> EstimateIndexRange axis (line_mu l z) r (line_win width l z mo) = Ok (s_theo s k) /\ (0 <= fst (s_theo s k) <= snd (s_theo s k))%Z /\ (snd (s_theo s k) < Z.of_nat (length axis))%Z).
Proof.
  intro Hl. pose proof (Prepare_prep _ _ _ _ _ _ _ _ S L PS) as P. pose proof (p_used _ _ _ _ _ _ _ _ P k l Hl) as U. split.
  - unfold used. rewrite (p_size _ _ _ _ _ _ _ _ P). pose proof (nth_error_len _ _ _ Hl). tauto.
  - intro K. destruct (p_theo _ _ _ _ _ _ _ _ P k l Hl K) as [E N]. split; [exact E|].
    destruct (Index_range axis (line_mu l z) r (line_win width l z mo) S L) as (b & e & E' & Lb & Le & _). rewrite E in E'. inversion E' as [E0]. rewrite E0 in N |- *. unfold nonempty in N. cbn [fst snd] in *. lia.
Qed.
Lemma All_outside : (s_allout s = true <-> forall k, ~ used s k) /\ (s_allout s = true -> getSupport s = [] /\ getTheoreticalSupport s = []).
Proof.
  pose proof (Prepare_prep _ _ _ _ _ _ _ _ S L PS) as P. split; [apply (p_all _ _ _ _ _ _ _ _ P)|]. intro A. unfold getSupport, getTheoreticalSupport. now rewrite A.
Qed.
Lemma In_axis : forall h t, used s h -> in_support t (getSupportSubElt s h) -> (0 <= t < Z.of_nat (length axis))%Z.
Proof.
  intros h t U T. pose proof (Prepare_prep _ _ _ _ _ _ _ _ S L PS) as P. destruct (p_inv _ _ _ _ _ _ _ _ P) as [G I].
  assert (A : alive (s_size s) (s_out s) (s_state s) h). { split; auto. unfold nonempty, X, in_support, getSupportSubElt in *. cbn [fst snd] in *. lia. }
  destruct (i_cov _ _ _ _ _ I h t A T) as (k & K1 & K2). destruct (i_mem _ _ _ _ _ I h k A K1) as [Lk _]. apply linked_in in Lk. destruct Lk as [_ Uk].
  assert (Lk : (k < length ls)%nat) by (rewrite <- (p_size _ _ _ _ _ _ _ _ P); apply Uk). destruct (nth_error_lt ls k Lk) as [l Hl]. destruct (Line_support k l Hl) as [_ K]. destruct (K Uk) as (_ & K3 & K4). unfold in_support in K2. lia.
Qed.
End Final.

(** ** lines far from the range, lines well inside the range *)

Lemma Window_outside axis mu r w : strictly_increasing axis -> range_in_axis axis r -> 0 < w -> step_le axis (overlap_threshold * w) ->
  (mu + w / 2 < rbeg r \/ rend r < mu - w / 2) -> ~ kept axis r mu w.
Proof.
  intros S (f & l & F & La & Hf & Hr & Hl) W ST O (b & e & xb & xe & E & BE & [Nb0 Nb] & [Ne0 Ne] & K1 & K2).
  assert (L : (0 < length axis)%nat) by (apply nth_error_len in F; lia).
  destruct (Index_range axis mu r w S L) as (b' & e' & E' & Lb & Le & R1 & R2). rewrite E in E'. inversion E'; subst b' e'.
  destruct (R2 e xe (conj Ne0 Ne)) as (X1 & _ & X3); [lia|]. destruct (R2 b xb (conj Nb0 Nb)) as (Y1 & Y2 & Y3); [lia|].
  destruct O as [O|O].
  - (* the sample before e is below the window end *)
    destruct (Z.eq_dec b e) as [EQ|NE].
    + subst e. assert (xb = xe) by congruence. subst xe.
      destruct (Z.eq_dec b 0) as [Z0|NZ]. { subst b. assert (xb = f) by (change (Z.to_nat 0) with 0%nat in Nb; congruence). subst. unfold overlap_threshold in *. nra. }
      destruct (nth_error_lt axis (Z.to_nat (b - 1))) as [xp Hp]; [lia|].
      assert (ST' : xb - xp <= overlap_threshold * w). { apply (ST (Z.to_nat (b - 1))); auto. replace (Datatypes.S (Z.to_nat (b - 1))) with (Z.to_nat b) by lia. auto. }
      (* xp < rbeg r, otherwise b would not be the first sample *)
      assert (LO : win_lo mu w r == rbeg r). { unfold win_lo. apply Q.max_r. assert (0 < w / 2) by (apply Qlt_shift_div_l; lra). lra. }
      assert (xp < rbeg r).
      { unfold EstimateIndexRange in E. cbn zeta in E. 
        destruct (GetIndexAtWaveLength_ok axis (if Qltb (mu - w / 2) (rbeg r) then rbeg r else mu - w / 2) S L) as (b0 & Eb & Lb0 & B1 & _). rewrite Eb in E. cbn [rbind] in E.
        destruct (GetIndexAtWaveLength axis (if Qltb (rend r) (mu + w / 2) then rend r else mu + w / 2)) as [e0| |]; cbn [rbind] in E; try discriminate.
        destruct (vget axis e0) as [x0| |]; cbn [rbind] in E; try discriminate. assert (E0 : Z.of_nat b0 = b) by congruence.
        assert (Q0 : xp < (if Qltb (mu - w / 2) (rbeg r) then rbeg r else mu - w / 2)) by (apply (B1 (Z.to_nat (b - 1))); auto; lia). rewrite lo_eq, LO in Q0. auto. }
      lra.
    + destruct (R2 b xb (conj Nb0 Nb)) as (_ & Y & Z'); [lia|]. assert (xb < win_hi mu w r) by (apply Y; lia).
      assert (HI : win_hi mu w r <= mu + w / 2) by apply Q.le_min_l. assert (win_lo mu w r <= l). { unfold win_lo. apply Q.max_lub; [|lra]. assert (0 < w / 2) by (apply Qlt_shift_div_l; lra). lra. }
      assert (win_lo mu w r <= xb) by (apply (Z' l); auto). assert (rbeg r <= win_lo mu w r) by apply Q.le_max_r. lra.
  - (* the window begins after the range: samples of the support are not below rend r - step *)
    destruct (Qlt_le_dec l (win_lo mu w r)) as [C|C].
    + (* no sample reaches the window: b is the last sample *)
      assert (Hb : b = (Z.of_nat (length axis) - 1)%Z).
      { unfold EstimateIndexRange in E. cbn zeta in E.
        destruct (GetIndexAtWaveLength_ok axis (if Qltb (mu - w / 2) (rbeg r) then rbeg r else mu - w / 2) S L) as (b0 & Eb & Lb0 & B1 & B2 & B3). rewrite Eb in E. cbn [rbind] in E.
        destruct (GetIndexAtWaveLength axis (if Qltb (rend r) (mu + w / 2) then rend r else mu + w / 2)) as [e0| |]; cbn [rbind] in E; try discriminate.
        destruct (vget axis e0) as [x0| |]; cbn [rbind] in E; try discriminate. assert (E0 : Z.of_nat b0 = b) by congruence.
        destruct (Nat.eq_dec b0 (length axis - 1)) as [K|K]; [lia|]. exfalso.
        assert (Q0 : (if Qltb (mu - w / 2) (rbeg r) then rbeg r else mu - w / 2) <= l) by (apply (B2 (length axis - 1)%nat); auto; lia). rewrite lo_eq in Q0. lra. }
      subst b. replace (Z.to_nat (Z.of_nat (length axis) - 1)) with (length axis - 1)%nat in Nb by lia. assert (xb = l) by congruence. subst. unfold overlap_threshold in *. nra.
    + assert (win_lo mu w r <= xb) by (apply (Y3 l); auto). assert (mu - w / 2 <= win_lo mu w r) by apply Q.le_max_l. unfold overlap_threshold in *. nra.
Qed.

Lemma Window_inside axis mu r w d : strictly_increasing axis -> range_in_axis axis r -> 0 < w -> step_le axis d -> d < (67 # 100) * w ->
  rbeg r <= mu - w / 2 -> mu + w / 2 <= rend r -> kept axis r mu w.
Proof.
  intros S (f & l & F & La & Hf & Hr & Hl) W ST D O1 O2.
  assert (L : (0 < length axis)%nat) by (apply nth_error_len in F; lia).
  assert (W2 : w / 2 == w * (1 # 2)) by (unfold Qdiv; reflexivity).
  assert (LO : win_lo mu w r == mu - w / 2) by (unfold win_lo; apply Q.max_l; lra). assert (HI : win_hi mu w r == mu + w / 2) by (unfold win_hi; apply Q.min_l; lra).
  unfold kept, EstimateIndexRange. cbn zeta.
  set (lo := if Qltb (mu - w / 2) (rbeg r) then rbeg r else mu - w / 2). set (hi := if Qltb (rend r) (mu + w / 2) then rend r else mu + w / 2).
  assert (LO' : lo == mu - w / 2) by (rewrite <- LO; apply lo_eq). assert (HI' : hi == mu + w / 2) by (rewrite <- HI; apply hi_eq).
  destruct (GetIndexAtWaveLength_ok axis lo S L) as (b & Eb & Lb & B1 & B2 & B3).
  destruct (GetIndexAtWaveLength_ok axis hi S L) as (e & Ee & Le & E1 & E2 & E3).
  rewrite Eb. cbn [rbind]. rewrite Ee. cbn [rbind]. destruct (nth_error_lt axis e Le) as [xe Hxe]. destruct (nth_error_lt axis b Lb) as [xb Hxb].
  assert (Vx : vget axis e = Ok xe) by (apply vget_Ok; auto). rewrite Vx. cbn [rbind].
  (* xb is at most one step after the begin of the window *)
  assert (HB : xb <= lo + d /\ lo <= xb).
  { split.
    - destruct b as [|b]. { assert (xb = f) by congruence. subst. destruct (nth_error axis 1) as [y|] eqn:N1.
        + pose proof (ST 0%nat f y F N1). pose proof (S 0%nat 1%nat f y ltac:(lia) F N1). lra.
        + apply nth_error_None in N1. assert (f = l) by (replace (length axis - 1)%nat with 0%nat in La by lia; congruence). subst. lra. }
      destruct (nth_error_lt axis b) as [xp Hp]; [lia|]. assert (xp < lo) by (apply (B1 b); auto). pose proof (ST b xp xb Hp Hxb). lra.
    - destruct (B3 _ Hxb) as [K|K]; auto. subst b. assert (xb = l) by congruence. subst. lra. }
  assert (HE : hi <= xe). { destruct (E3 _ Hxe) as [K|K]; auto. subst e. assert (xe = l) by congruence. subst. lra. }
  assert (BE : (b < e)%nat). { apply (sinc_inv axis b e xb xe); auto. lra. }
  destruct (Qltb_spec (rend r) xe) as [K|K].
  - destruct (nth_error_lt axis (e - 1)%nat) as [xp Hp]; [lia|]. assert (xe - xp <= d). { apply (ST (e - 1)%nat); auto. replace (Datatypes.S (e - 1)) with e by lia. auto. }
    destruct (Z.ltb_spec (Z.of_nat e - 1) (Z.of_nat b)); [lia|]. exists (Z.of_nat b), (Z.of_nat e - 1)%Z, xb, xp.
    split; [reflexivity|]. split; [lia|]. split; [split; [lia|now rewrite Nat2Z.id]|]. split; [split; [lia|replace (Z.to_nat (Z.of_nat e - 1)) with (e - 1)%nat by lia; auto]|].
    unfold overlap_threshold. split; lra.
  - destruct (Z.ltb_spec (Z.of_nat e) (Z.of_nat b)); [lia|]. exists (Z.of_nat b), (Z.of_nat e), xb, xe.
    split; [reflexivity|]. split; [lia|]. split; [split; [lia|now rewrite Nat2Z.id]|]. split; [split; [lia|now rewrite Nat2Z.id]|].
    unfold overlap_threshold. split; lra.
Qed.
