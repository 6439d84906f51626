From Verif Require Import Base RangeModel AxisModel AxisProofs ElemModel ElemSpec ElemProofs ElemProofs2 ElemProofs3.
Open Scope Q_scope.

Lemma lo_eq mu w r : (if Qltb (mu - w / 2) (rbeg r) then rbeg r else mu - w / 2) == win_lo mu w r.
Proof.
  unfold win_lo. destruct (Qltb_spec (mu - w / 2) (rbeg r)) as [H|H].
  - symmetry. apply Q.max_r. lra.
  - symmetry. apply Q.max_l. lra.
Qed.
Lemma hi_eq mu w r : (if Qltb (rend r) (mu + w / 2) then rend r else mu + w / 2) == win_hi mu w r.
Proof.
  unfold win_hi. destruct (Qltb_spec (rend r) (mu + w / 2)) as [H|H].
  - symmetry. apply Q.min_r. lra.
  - symmetry. apply Q.min_l. lra.
Qed.

Lemma sinc axis i j x y : strictly_increasing axis -> nth_error axis i = Some x -> nth_error axis j = Some y -> (i < j)%nat -> x < y.
Proof. intros S A B L. eapply S; eauto. Qed.
Lemma sinc_inv axis i j x y : strictly_increasing axis -> nth_error axis i = Some x -> nth_error axis j = Some y -> x < y -> (i < j)%nat.
Proof.
  intros S A B L. destruct (Nat.lt_trichotomy i j) as [H|[H|H]]; auto.
  - subst. assert (x = y) by congruence. subst. lra.
  - pose proof (sinc _ _ _ _ _ S B A H). lra.
Qed.

Lemma Index_range axis mu r w : strictly_increasing axis -> (0 < length axis)%nat ->
  exists b e, EstimateIndexRange axis mu r w = Ok (b, e) /\ (0 <= b < Z.of_nat (length axis))%Z /\ (b - 1 <= e < Z.of_nat (length axis))%Z /\
    (forall t x, nth_is axis t x -> win_lo mu w r <= x -> x <= win_hi mu w r -> (b <= t <= e)%Z) /\
    (forall t x, nth_is axis t x -> (b <= t <= e)%Z -> x <= rend r /\ ((t < e)%Z -> x < win_hi mu w r) /\
       (forall l, nth_error axis (length axis - 1) = Some l -> win_lo mu w r <= l -> win_lo mu w r <= x)).
Proof.
  intros S L. unfold EstimateIndexRange. cbn zeta.
  set (lo := if Qltb (mu - w / 2) (rbeg r) then rbeg r else mu - w / 2). set (hi := if Qltb (rend r) (mu + w / 2) then rend r else mu + w / 2).
  assert (LO : lo == win_lo mu w r) by apply lo_eq. assert (HI : hi == win_hi mu w r) by apply hi_eq.
  assert (HR : hi <= rend r). { unfold hi. destruct (Qltb_spec (rend r) (mu + w / 2)); lra. }
  destruct (GetIndexAtWaveLength_ok axis lo S L) as (b & Eb & Lb & B1 & B2 & B3).
  destruct (GetIndexAtWaveLength_ok axis hi S L) as (e & Ee & Le & E1 & E2 & E3).
  rewrite Eb. cbn [rbind]. rewrite Ee. cbn [rbind]. destruct (nth_error_lt axis e Le) as [xe Hxe].
  assert (Vx : vget axis e = Ok xe) by (apply vget_Ok; auto). rewrite Vx. cbn [rbind].
  set (e1 := if Qltb (rend r) xe then (Z.of_nat e - 1)%Z else Z.of_nat e).
  set (e2 := if (e1 <? Z.of_nat b)%Z then (Z.of_nat b - 1)%Z else e1).
  assert (A1 : (e1 <= Z.of_nat e)%Z /\ (Z.of_nat e - 1 <= e1)%Z) by (unfold e1; destruct (Qltb (rend r) xe); lia).
  assert (A2 : (e1 = Z.of_nat e -> xe <= rend r)) by (unfold e1; destruct (Qltb_spec (rend r) xe); [lia|intros; lra]).
  assert (A3 : ((e1 = Z.of_nat e - 1)%Z -> rend r < xe)) by (unfold e1; destruct (Qltb_spec (rend r) xe); [intros; lra|lia]).
  assert (A4 : (e2 <= Z.max e1 (Z.of_nat b - 1) /\ Z.of_nat b - 1 <= e2 /\ (Z.of_nat b <= e2 -> e2 = e1) /\ (Z.of_nat b <= e1 -> e2 = e1))%Z).
  { unfold e2. destruct (Z.ltb_spec e1 (Z.of_nat b)); lia. }
  clearbody e1 e2. exists (Z.of_nat b), e2.
  split; [reflexivity|]. split; [lia|]. split; [lia|]. split.
  - intros t x [T0 Ht] H1 H2. rewrite <- LO in H1. rewrite <- HI in H2.
    assert (Lbt : (b <= Z.to_nat t)%nat). { destruct (le_lt_dec b (Z.to_nat t)) as [K|K]; auto. pose proof (B1 _ _ K Ht). lra. }
    assert (Lte : (Z.to_nat t <= e)%nat).
    { destruct (le_lt_dec (Z.to_nat t) e) as [K|K]; auto. pose proof (sinc _ _ _ _ _ S Hxe Ht K) as Q1. destruct (E3 _ Hxe) as [Q2|Q2]; [lra|].
      apply nth_error_len in Ht. lia. }
    assert (Lte1 : (t <= e1)%Z).
    { destruct (Z.eq_dec e1 (Z.of_nat e)) as [K|K]; [lia|]. assert (R : rend r < xe) by (apply A3; lia).
      assert (Z.to_nat t <> e). { intro; subst. assert (x = xe) by congruence. subst. lra. } lia. }
    lia.
  - intros t x [T0 Ht] T. assert (EQ : e2 = e1) by lia. subst e2.
    assert (Lt : (Z.to_nat t <= e)%nat) by lia.
    assert (X1 : (t < e1)%Z -> x < hi). { intro K. apply (E1 (Z.to_nat t)); auto. lia. }
    assert (X2 : x <= rend r).
    { destruct (Z.eq_dec e1 (Z.of_nat e)) as [K|K].
      - pose proof (A2 K). destruct (Nat.eq_dec (Z.to_nat t) e) as [K'|K']; [assert (x = xe) by congruence; subst; auto|].
        assert (x < xe) by (apply (sinc _ _ _ _ _ S Ht Hxe); lia). lra.
      - assert (x < hi) by (apply (E1 (Z.to_nat t)); auto; lia). lra. }
    split; [auto|]. split; [intro K; rewrite <- HI; auto|].
    intros l Hl Hlo. rewrite <- LO in *. destruct (Nat.eq_dec b (length axis - 1)) as [K|K].
    + assert (Z.to_nat t = length axis - 1)%nat. { apply nth_error_len in Ht. lia. } assert (x = l) by congruence. subst. auto.
    + apply (B2 (Z.to_nat t)); auto; lia.
Qed.

(** ** which lines are used *)
Lemma Estimate_spec avail width l axis z r mo : strictly_increasing axis -> (0 < length axis)%nat ->
  let mu := line_mu l z in let w := line_win width l z mo in
  exists p o, EstimateTheoreticalSupport avail width l axis z r mo = Ok (p, o) /\
    (o = false <-> avail mu = true /\ kept axis r mu w) /\
    (forall q, p = Some q -> avail mu = true /\ EstimateIndexRange axis mu r w = Ok q) /\ (o = false -> exists q, p = Some q /\ nonempty q).
Proof.
  intros S L mu w. unfold EstimateTheoreticalSupport. change (GetObservedPosition l z true) with mu. destruct (avail mu) eqn:A; cbn [negb].
  - cbn zeta. change (l_nsigma l * width mu + 2 * (mo / speed_of_light) * mu) with w.
    destruct (Index_range axis mu r w S L) as (b & e & E & Lb & Le & _). rewrite E. cbn [rbind].
    destruct (Z.ltb_spec e b) as [H|H].
    + exists (Some (b, e)), true. split; [auto|]. split; [split; [congruence|]|].
      * intros [_ (b' & e' & xb & xe & E' & K & _)]. rewrite E in E'. inversion E'. lia.
      * split; [intros q [= <-]; auto|congruence].
    + destruct (nth_error_lt axis (Z.to_nat b)) as [xb Hb]; [lia|]. destruct (nth_error_lt axis (Z.to_nat e)) as [xe He]; [lia|].
      assert (Vb : vget axis (Z.to_nat b) = Ok xb) by (apply vget_Ok; auto). assert (Ve : vget axis (Z.to_nat e) = Ok xe) by (apply vget_Ok; auto).
      rewrite Vb. cbn [rbind]. rewrite Ve. cbn [rbind]. eexists _, _. split; [reflexivity|]. split; [|split].
      * rewrite orb_false_iff. split.
        { intros [H1 H2]. split; auto. exists b, e, xb, xe. split; [auto|]. split; [auto|]. split; [split; auto; lia|]. split; [split; auto; lia|].
          destruct (Qle_bool_spec (rend r - overlap_threshold * w) xb); [discriminate|]. destruct (Qle_bool_spec xe (rbeg r + overlap_threshold * w)); [discriminate|]. lra. }
        { intros [_ (b' & e' & xb' & xe' & E' & K & [_ N1] & [_ N2] & K1 & K2)]. rewrite E in E'. inversion E'. subst b' e'. assert (xb' = xb) by congruence. assert (xe' = xe) by congruence. subst.
          destruct (Qle_bool_spec (rend r - overlap_threshold * w) xb); [lra|]. destruct (Qle_bool_spec xe (rbeg r + overlap_threshold * w)); [lra|]. auto. }
      * intros q [= <-]. auto.
      * intros _. exists (b, e). split; auto.
  - exists None, true. split; [auto|]. split; [split; [congruence|intros [K _]; congruence]|]. split; [discriminate|congruence].
Qed.

Lemma estimate_all_spec avail width ls axis z r mo : strictly_increasing axis -> (0 < length axis)%nat ->
  exists rs, estimate_all avail width ls axis z r mo = Ok rs /\ length rs = length ls /\
    forall k l, nth_error ls k = Some l -> exists p o, nth_error rs k = Some (p, o) /\ EstimateTheoreticalSupport avail width l axis z r mo = Ok (p, o).
Proof.
  intros S L. induction ls as [|l ls IH]; cbn [estimate_all].
  - exists []. split; [auto|]. split; auto. intros [|k] l H; discriminate.
  - destruct (Estimate_spec avail width l axis z r mo S L) as (p & o & E & _). rewrite E. cbn [rbind]. destruct IH as (rs & Er & Lr & H). rewrite Er. cbn [rbind].
    exists ((p, o) :: rs). split; [auto|]. split; [cbn [length]; lia|]. intros [|k] l' Hl; cbn [nth_error] in *.
    + inversion Hl; subst. eauto.
    + apply H; auto.
Qed.

Lemma Prepare_total avail width ls axis z r mo : strictly_increasing axis -> (0 < length axis)%nat ->
  exists s, prepareSupport avail width ls axis z r mo = Ok s.
Proof. intros S L. unfold prepareSupport. cbn zeta. destruct (estimate_all_spec avail width ls axis z r mo S L) as (rs & -> & _). cbn [rbind]. eauto. Qed.

(** everything about prepareSupport *)
Record prep (avail : Q -> bool) (width : Q -> Q) (ls : list sline) (axis : list Q) (z : Q) (r : range) (mo : Q) (s : support) : Prop := {
  p_size : s_size s = length ls;
  p_used : forall k l, nth_error ls k = Some l -> (s_out s k = false <-> avail (line_mu l z) = true /\ kept axis r (line_mu l z) (line_win width l z mo));
  p_theo : forall k l, nth_error ls k = Some l -> used s k -> EstimateIndexRange axis (line_mu l z) r (line_win width l z mo) = Ok (s_theo s k) /\ nonempty (s_theo s k);
  p_all : s_allout s = true <-> forall k, ~ used s k;
  p_inv : exists G, Inv (s_size s) (s_out s) (s_theo s) (s_state s) G;
  p_dis : (Z.of_nat (length ls) < 2 ^ 21)%Z -> forall h h', used s h -> used s h' -> h <> h' -> ~ overlap (getSupportSubElt s h) (getSupportSubElt s h')
}.
Lemma Prepare_prep avail width ls axis z r mo s : strictly_increasing axis -> (0 < length axis)%nat ->
  prepareSupport avail width ls axis z r mo = Ok s -> prep avail width ls axis z r mo s.
Proof.
  intros S L. unfold prepareSupport. cbn zeta. destruct (estimate_all_spec avail width ls axis z r mo S L) as (rs & -> & Lr & H). cbn [rbind]. intros [= <-].
  set (theo := fun i : nat => _). set (out := fun i : nat => _). set (st0 := mkSup _ _ _).
  assert (O : forall k l, nth_error ls k = Some l -> exists p o, nth_error rs k = Some (p, o) /\ out k = o /\ (forall q, p = Some q -> theo k = q) /\
      (o = false <-> avail (line_mu l z) = true /\ kept axis r (line_mu l z) (line_win width l z mo)) /\
      (forall q, p = Some q -> avail (line_mu l z) = true /\ EstimateIndexRange axis (line_mu l z) r (line_win width l z mo) = Ok q) /\ (o = false -> exists q, p = Some q /\ nonempty q)).
  { intros k l Hl. destruct (H k l Hl) as (p & o & Hr & He). destruct (Estimate_spec avail width l axis z r mo S L) as (p' & o' & He' & A1 & A2 & A3). rewrite He in He'. inversion He'; subst p' o'.
    exists p, o. split; [auto|]. split; [unfold out; now rewrite Hr|]. split; [intros q ->; unfold theo; now rewrite Hr|]. auto. }
  assert (NE : forall k, inr (length ls) out k -> nonempty (theo k)).
  { intros k [K1 K2]. destruct (nth_error_lt ls k K1) as [l Hl]. destruct (O k l Hl) as (p & o & _ & E & T & _ & _ & F). rewrite K2 in E. destruct (F (eq_sym E)) as (q & -> & N). now rewrite (T q eq_refl). }
  assert (X0 : forall k, X st0 k = theo k) by (intro k; symmetry; apply surjective_pairing).
  assert (I0 : Inv (length ls) out theo st0 (fun k => [k])).
  { split.
    - intros h k _. unfold st0. cbn [ac In]. rewrite Nat.eqb_eq. split; [auto|]. intros [K|[]]; auto.
    - intros h _. left; auto.
    - intros h k Ah [<- |[]]. rewrite X0. split; [constructor; apply Ah|]. unfold inside. lia.
    - intros h t _ Ht. rewrite X0 in Ht. exists h. split; [left; auto|auto].
    - intros h t _ Ht Ht'. rewrite X0 in Ht, Ht'. exists h. split; [left; auto|auto].
    - intros k Hk. exists k. split; [split; auto; rewrite X0; auto|left; auto].
    - intros h h' k _ _ [<- |[]] [<- |[]]. auto.
    - intros h _. constructor; [intros []|constructor].
    - intros x y. unfold st0. cbn [ac]. rewrite !Nat.eqb_eq. auto.
    - intros x _. unfold st0. cbn [ac]. apply Nat.eqb_refl.
    - intros x y. unfold st0. cbn [ac]. rewrite Nat.eqb_eq. auto. }
  destruct (loop_spec (length ls) out theo 20 1 st0 (fun k => [k])) as (G & I & D); [lia|auto| |lia|].
  { intros h _. right. unfold big. cbn [length]. lia. }
  split; cbn [s_size s_theo s_out s_allout s_state].
  - auto.
  - intros k l Hl. destruct (O k l Hl) as (p & o & _ & E & _ & F & _). rewrite E. auto.
  - intros k l Hl [K1 K2]. cbn [s_size s_out] in K1, K2. destruct (O k l Hl) as (p & o & _ & E & T & _ & F & F'). rewrite K2 in E. destruct (F' (eq_sym E)) as (q & -> & N). rewrite (T q eq_refl). split; auto. apply F; auto.
  - unfold used. cbn [s_size s_out]. rewrite forallb_forall. split.
    + intros K k [K1 K2]. rewrite K in K2; [discriminate|]. apply in_seq. lia.
    + intros K k Hk. apply in_seq in Hk. destruct (out k) eqn:E; auto. exfalso. apply (K k). split; [lia|auto].
  - exists G. exact I.
  - intros Hn h h' Uh Uh' N. destruct D as [D|D]; [apply D; auto|]. change (2 ^ (Z.of_nat 20 + 1) * 1)%Z with 2097152%Z in D. change (2 ^ 21)%Z with 2097152%Z in Hn. lia.
Qed.
