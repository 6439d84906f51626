From Verif Require Import Base RangeModel RangeSpec RangeProofs ZGridModel LogZModel LogZSpec LogZProofs.
Open Scope Q_scope.

Lemma interp_eval_nan cache zs vs x :
  strictly_increasing zs -> length vs = length zs -> (cache + 1 < length zs)%nat -> covered_by zs x ->
  exists y c, interp_eval cache zs vs x = Ok (y, c) /\ (c + 1 < length zs)%nat /\ (nan_between zs vs x -> y = None).
Proof.
  intros Hs Hl Hc (a & b & Ha & Hb & La & Lb). unfold interp_eval.
  assert (Hne : zs <> []) by (intro K; subst; discriminate).
  destruct (front_ok zs Hne) as (a' & Ea & Ha'). rewrite Ea. cbn [rbind].
  destruct (back_ok zs Hne) as (b' & Eb & Hb'). rewrite Eb. cbn [rbind].
  rewrite Ha in Ha'. injection Ha' as <-. rewrite Hb in Hb'. injection Hb' as <-.
  destruct (Qltb_spec x a) as [K|_]; [lra|]. destruct (Qltb_spec b x) as [K|_]; [lra|]. cbn [orb].
  destruct (accel_find_spec zs x cache a b Hs Hc Ha Hb La Lb) as (i & c & d & E & Hi & Hi1 & Lc & Ld).
  rewrite E. cbn [rbind]. rewrite (proj2 (vget_Ok _ _ _) Hi), (proj2 (vget_Ok _ _ _) Hi1). cbn [rbind].
  pose proof (nth_error_len _ _ _ Hi1) as Len.
  destruct (nth_error_lt vs i ltac:(lia)) as [yl Hyl]. destruct (nth_error_lt vs (i + 1) ltac:(lia)) as [yh Hyh].
  rewrite (proj2 (vget_Ok _ _ _) Hyl), (proj2 (vget_Ok _ _ _) Hyh). cbn [rbind].
  assert (Lcd : c < d) by (apply (Hs i (i + 1)%nat); auto; lia).
  destruct (Qltb_spec 0 (d - c)) as [_|K]; [|lra].
  do 2 eexists. split; [reflexivity|]. split; [exact Len|].
  intros (j & xl & xh & Hj & Hj1 & L1 & L2 & Hn).
  assert (j = i).
  { destruct (Nat.lt_trichotomy j i) as [K|[K|K]]; [exfalso|exact K|exfalso].
    - destruct (Nat.eq_dec (S j) i) as [Q1|Q1].
      + subst i. rewrite Hj1 in Hi. injection Hi as <-. lra.
      + pose proof (Hs (S j) i _ _ ltac:(lia) Hj1 Hi). lra.
    - destruct (Nat.eq_dec (i + 1) j) as [Q1|Q1].
      + subst j. rewrite Hj in Hi1. injection Hi1 as <-. lra.
      + pose proof (Hs (i + 1)%nat j _ _ ltac:(lia) Hi1 Hj). lra. }
  subst j. replace (S i) with (i + 1)%nat in Hn by lia. unfold lin.
  destruct Hn as [Hn|Hn]; [rewrite Hyl in Hn|rewrite Hyh in Hn]; injection Hn as ->; [reflexivity|destruct yl; reflexivity].
Qed.

Lemma interp_loop_nan zs vs a b :
  strictly_increasing zs -> length vs = length zs ->
  nth_error zs 0 = Some a -> nth_error zs (length zs - 1) = Some b ->
  forall target cache, (cache + 1 < length zs)%nat ->
  exists out, interp_loop cache a b zs vs target = Ok out /\ length out = length target /\
    forall k x, nth_error target k = Some x -> nan_between zs vs x -> nth_error out k = Some None.
Proof.
  intros Hs Hl Ha Hb. induction target as [|x t IH]; intros cache Hc.
  - exists []. split; [reflexivity|]. split; [reflexivity|]. intros [|k] x H; discriminate.
  - cbn [interp_loop]. pose proof (covered_by_b zs x a b Ha Hb) as Hcov.
    destruct (Qltb x a || Qltb b x)%bool.
    + destruct (IH cache Hc) as (out & E & Ln & Hk). rewrite E. cbn [rbind]. exists (None :: out).
      split; [reflexivity|]. split; [simpl; lia|]. intros [|k] x' Hx'; [reflexivity|].
      change (nth_error t k = Some x') in Hx'. exact (Hk k x' Hx').
    + assert (C : covered_by zs x) by (apply Hcov; reflexivity).
      destruct (interp_eval_nan cache zs vs x Hs Hl Hc C) as (y & c & E & Lc & Seg). rewrite E. cbn [rbind].
      destruct (IH c Lc) as (out & E2 & Ln & Hk). rewrite E2. cbn [rbind]. exists (y :: out).
      split; [reflexivity|]. split; [simpl; lia|]. intros [|k] x' Hx'.
      * simpl in Hx'. injection Hx' as <-. intros Nb. simpl. rewrite (Seg Nb). reflexivity.
      * change (nth_error t k = Some x') in Hx'. exact (Hk k x' Hx').
Qed.

Lemma interpolateOnGrid_nan p target : strictly_increasing (p_z p) -> length (p_val p) = length (p_z p) ->
  (2 <= length (p_z p))%nat -> target <> [] ->
  exists p', interpolateOnGrid p target = Ok p' /\
    forall k x, nth_error target k = Some x -> nan_between (p_z p) (p_val p) x -> nth_error (p_val p') k = Some None.
Proof.
  intros Hs Hl H2 Ht. unfold interpolateOnGrid.
  assert (Hne : p_z p <> []) by (intro K; rewrite K in H2; simpl in H2; lia).
  destruct (front_ok _ Hne) as (a & Ea & Ha). rewrite Ea. cbn [rbind].
  destruct (back_ok _ Hne) as (b & Eb & Hb). rewrite Eb. cbn [rbind].
  destruct (front_ok _ Ht) as (ta & Eta & _). rewrite Eta. cbn [rbind].
  destruct (back_ok _ Ht) as (tb & Etb & _). rewrite Etb. cbn [rbind].
  destruct (Nat.ltb_spec (length (p_val p)) 2) as [K|_]; [lia|].
  destruct (Nat.ltb_spec (length (p_z p)) (length (p_val p))) as [K|_]; [lia|].
  rewrite Hl, firstn_all. rewrite (proj2 (all_increasing_spec _) Hs). cbn [negb].
  destruct (interp_loop_nan (p_z p) (p_val p) a b Hs Hl Ha Hb target 0 ltac:(lia)) as (out & E & Ln & Hk).
  rewrite E. cbn [rbind]. unfold check_sizes. cbn [p_val p_z]. rewrite Ln, Nat.eqb_refl.
  eexists. split; [reflexivity|]. exact Hk.
Qed.
