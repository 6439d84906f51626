(** Proofs for C77: the GSL interpolation. *)
From Verif Require Import Base RangeModel RangeSpec RangeProofs RangeGridProofs ZGridModel LogZModel LogZSpec.
Open Scope Q_scope.

Lemma all_increasing_spec xs : all_increasing xs = true <-> strictly_increasing xs.
Proof.
  induction xs as [|a t IH].
  - split; [intros _ i j x y _ H|reflexivity]. destruct i; discriminate.
  - destruct t as [|b t'].
    + split; [|reflexivity]. intros _ i j x y L H1 H2. destruct j as [|[|j]]; simpl in *; try lia; discriminate.
    + change (all_increasing (a :: b :: t')) with (Qltb a b && all_increasing (b :: t'))%bool.
      rewrite andb_true_iff, IH. split.
      * intros [Hab Ht] i j x y L H1 H2. destruct (Qltb_spec a b) as [Lab|]; [|discriminate].
        destruct j as [|j]; [lia|]. change (nth_error (b :: t') j = Some y) in H2.
        destruct i as [|i].
        -- simpl in H1. injection H1 as <-. destruct j as [|j].
           ++ simpl in H2. injection H2 as <-. exact Lab.
           ++ pose proof (Ht 0%nat (S j) b y ltac:(lia) eq_refl H2). lra.
        -- change (nth_error (b :: t') i = Some x) in H1. apply (Ht i j); auto. lia.
      * intro H. split.
        -- destruct (Qltb_spec a b) as [|N]; [reflexivity|]. exfalso. apply N. apply (H 0%nat 1%nat); auto.
        -- intros i j x y L H1 H2. apply (H (S i) (S j)); auto. lia.
Qed.

Lemma incr_le xs i j x y : strictly_increasing xs -> (i <= j)%nat -> nth_error xs i = Some x -> nth_error xs j = Some y ->
  x <= y.
Proof.
  intros Hs L H1 H2. destruct (Nat.eq_dec i j) as [E|E].
  - subst j. rewrite H1 in H2. injection H2 as <-. lra.
  - apply Qlt_le_weak. apply (Hs i j); auto. lia.
Qed.

Lemma bsearch_spec xs x : strictly_increasing xs -> forall fuel lo hi a b,
  (lo < hi)%nat -> (hi < length xs)%nat -> (hi - lo <= fuel)%nat ->
  nth_error xs lo = Some a -> nth_error xs hi = Some b -> a <= x -> x <= b ->
  exists i c d, bsearch fuel xs x lo hi = Ok i /\ nth_error xs i = Some c /\ nth_error xs (i + 1) = Some d /\
    c <= x /\ x <= d.
Proof.
  intros Hs. induction fuel as [|f IH]; intros lo hi a b L H1 Hf Ha Hb La Lb; [lia|].
  cbn [bsearch]. destruct (Nat.ltb_spec (lo + 1) hi) as [G|G].
  - set (i := Nat.div (hi + lo) 2).
    assert (Hi : (lo < i)%nat /\ (i < hi)%nat).
    { unfold i. pose proof (Nat.div_mod (hi + lo) 2 ltac:(lia)). pose proof (Nat.mod_upper_bound (hi + lo) 2 ltac:(lia)). lia. }
    destruct (nth_error_lt xs i ltac:(lia)) as [xi Hxi]. rewrite (proj2 (vget_Ok _ _ _) Hxi). cbn [rbind].
    destruct (Qltb_spec x xi) as [Lx|Lx].
    + apply (IH lo i a xi); auto; try lia. lra.
    + apply (IH i hi xi b); auto; try lia. lra.
  - assert (hi = (lo + 1)%nat) by lia. subst hi. exists lo, a, b. auto.
Qed.

Lemma accel_find_spec xs x cache a b : strictly_increasing xs -> (cache + 1 < length xs)%nat ->
  nth_error xs 0 = Some a -> nth_error xs (length xs - 1) = Some b -> a <= x -> x <= b ->
  exists i c d, accel_find cache xs x = Ok i /\ nth_error xs i = Some c /\ nth_error xs (i + 1) = Some d /\
    c <= x /\ x <= d.
Proof.
  intros Hs Hc Ha Hb La Lb. unfold accel_find.
  destruct (nth_error_lt xs cache ltac:(lia)) as [x0 H0]. rewrite (proj2 (vget_Ok _ _ _) H0). cbn [rbind].
  destruct (Qltb_spec x x0) as [L0|L0].
  - destruct (Nat.eq_dec cache 0) as [E|E]; [subst cache; rewrite Ha in H0; injection H0 as <-; lra|].
    destruct (bsearch_spec xs x Hs cache 0 cache a x0) as (i & c & d & K); auto; try lia; try lra. eauto.
  - destruct (nth_error_lt xs (cache + 1) ltac:(lia)) as [x1 H1']. rewrite (proj2 (vget_Ok _ _ _) H1'). cbn [rbind].
    destruct (Qltb_spec x x1) as [L1|L1].
    + exists cache, x0, x1. repeat (split; [solve [auto; lra]|]). lra.
    + destruct (bsearch_spec xs x Hs (length xs - 1 - cache) cache (length xs - 1) x0 b) as (i & c & d & K); auto; try lia; try lra.
      eauto.
Qed.

Lemma lin_segment xl xh x a b : xl < xh -> (a + (x - xl) / (xh - xl) * (b - a) - a) * (xh - xl) == (x - xl) * (b - a).
Proof. intro L. field. lra. Qed.

Lemma interp_eval_spec cache zs vs x :
  strictly_increasing zs -> length vs = length zs -> (forall v, In v vs -> v <> None) ->
  (cache + 1 < length zs)%nat -> covered_by zs x ->
  exists y c, interp_eval cache zs vs x = Ok (Some y, c) /\ (c + 1 < length zs)%nat /\ on_segment zs vs x y.
Proof.
  intros Hs Hl Hv Hc (a & b & Ha & Hb & La & Lb). unfold interp_eval.
  assert (Hne : zs <> []) by (intro K; subst; discriminate).
  destruct (front_ok zs Hne) as (a' & Ea & Ha'). rewrite Ea. cbn [rbind].
  destruct (back_ok zs Hne) as (b' & Eb & Hb'). rewrite Eb. cbn [rbind].
  rewrite Ha in Ha'. injection Ha' as <-. rewrite Hb in Hb'. injection Hb' as <-.
  destruct (Qltb_spec x a) as [K|_]; [lra|]. destruct (Qltb_spec b x) as [K|_]; [lra|]. cbn [orb].
  destruct (accel_find_spec zs x cache a b Hs Hc Ha Hb La Lb) as (i & c & d & E & Hi & Hi1 & Lc & Ld).
  rewrite E. cbn [rbind]. rewrite (proj2 (vget_Ok _ _ _) Hi), (proj2 (vget_Ok _ _ _) Hi1). cbn [rbind].
  pose proof (nth_error_len _ _ _ Hi1) as Len.
  destruct (nth_error_lt vs i ltac:(lia)) as [yl Hyl]. destruct (nth_error_lt vs (i + 1) ltac:(lia)) as [yh Hyh].
  rewrite (proj2 (vget_Ok _ _ _) Hyl), (proj2 (vget_Ok _ _ _) Hyh). cbn [rbind].
  assert (Lcd : c < d) by (apply (Hs i (i + 1)%nat); auto; lia).
  destruct (Qltb_spec 0 (d - c)) as [_|K]; [|lra].
  destruct yl as [yl|]; [|exfalso; apply (Hv None); [eapply nth_error_In; eauto|reflexivity]].
  destruct yh as [yh|]; [|exfalso; apply (Hv None); [eapply nth_error_In; eauto|reflexivity]].
  cbn [lin]. do 2 eexists. split; [reflexivity|]. split; [exact Len|].
  exists i, c, d, yl, yh. replace (S i) with (i + 1)%nat by lia.
  repeat (split; [assumption|]). apply lin_segment; exact Lcd.
Qed.

Lemma covered_by_b zs x a b : nth_error zs 0 = Some a -> nth_error zs (length zs - 1) = Some b ->
  ((Qltb x a || Qltb b x)%bool = false <-> covered_by zs x).
Proof.
  intros Ha Hb. rewrite orb_false_iff. split.
  - intros [H1 H2]. destruct (Qltb_spec x a); [discriminate|]. destruct (Qltb_spec b x); [discriminate|].
    exists a, b. repeat (split; [solve [auto; lra]|]). lra.
  - intros (a' & b' & Ha' & Hb' & La & Lb). rewrite Ha in Ha'. injection Ha' as <-. rewrite Hb in Hb'. injection Hb' as <-.
    destruct (Qltb_spec x a); [lra|]. destruct (Qltb_spec b x); [lra|]. auto.
Qed.

Lemma interp_loop_spec zs vs a b :
  strictly_increasing zs -> length vs = length zs -> (forall v, In v vs -> v <> None) ->
  nth_error zs 0 = Some a -> nth_error zs (length zs - 1) = Some b ->
  forall target cache, (cache + 1 < length zs)%nat ->
  exists out, interp_loop cache a b zs vs target = Ok out /\ length out = length target /\
    forall k x, nth_error target k = Some x ->
    (covered_by zs x -> exists y, nth_error out k = Some (Some y) /\ on_segment zs vs x y) /\
    (~ covered_by zs x -> nth_error out k = Some None).
Proof.
  intros Hs Hl Hv Ha Hb. induction target as [|x t IH]; intros cache Hc.
  - exists []. split; [reflexivity|]. split; [reflexivity|]. intros [|k] x H; discriminate.
  - cbn [interp_loop]. pose proof (covered_by_b zs x a b Ha Hb) as Hcov.
    destruct (Qltb x a || Qltb b x)%bool.
    + destruct (IH cache Hc) as (out & E & Ln & Hk). rewrite E. cbn [rbind]. exists (None :: out).
      split; [reflexivity|]. split; [simpl; lia|]. intros [|k] x' Hx'.
      * simpl in Hx'. injection Hx' as <-. split; [|reflexivity]. intro K. apply Hcov in K. discriminate.
      * change (nth_error t k = Some x') in Hx'. exact (Hk k x' Hx').
    + assert (C : covered_by zs x) by (apply Hcov; reflexivity).
      destruct (interp_eval_spec cache zs vs x Hs Hl Hv Hc C) as (y & c & E & Lc & Seg). rewrite E. cbn [rbind].
      destruct (IH c Lc) as (out & E2 & Ln & Hk). rewrite E2. cbn [rbind]. exists (Some y :: out).
      split; [reflexivity|]. split; [simpl; lia|]. intros [|k] x' Hx'.
      * simpl in Hx'. injection Hx' as <-. split; [|intro K; contradiction]. intros _. exists y. split; [reflexivity|exact Seg].
      * change (nth_error t k = Some x') in Hx'. exact (Hk k x' Hx').
Qed.

Lemma interpolateOnGrid_spec p target : curve p -> target <> [] ->
  exists p', interpolateOnGrid p target = Ok p' /\ resampled p p' target /\
    p_center p' = p_center p /\ p_min p' = p_min p /\ p_max p' = p_max p /\ p_step p' = p_step p.
Proof.
  intros (Hs & Hl & H2 & Hv) Ht. unfold interpolateOnGrid.
  assert (Hne : p_z p <> []) by (intro K; rewrite K in H2; simpl in H2; lia).
  destruct (front_ok _ Hne) as (a & Ea & Ha). rewrite Ea. cbn [rbind].
  destruct (back_ok _ Hne) as (b & Eb & Hb). rewrite Eb. cbn [rbind].
  destruct (front_ok _ Ht) as (ta & Eta & _). rewrite Eta. cbn [rbind].
  destruct (back_ok _ Ht) as (tb & Etb & _). rewrite Etb. cbn [rbind].
  destruct (Nat.ltb_spec (length (p_val p)) 2) as [K|_]; [lia|].
  destruct (Nat.ltb_spec (length (p_z p)) (length (p_val p))) as [K|_]; [lia|].
  rewrite Hl, firstn_all. rewrite (proj2 (all_increasing_spec _) Hs). cbn [negb].
  destruct (interp_loop_spec (p_z p) (p_val p) a b Hs Hl Hv Ha Hb target 0 ltac:(lia)) as (out & E & Ln & Hk).
  rewrite E. cbn [rbind]. unfold check_sizes. cbn [p_val p_z]. rewrite Ln, Nat.eqb_refl.
  eexists. split; [reflexivity|]. split; [|cbn; auto]. split; [reflexivity|]. split; [exact Ln|]. exact Hk.
Qed.

(** at a tabulated redshift the interpolated value is the tabulated one *)
Lemma on_segment_node zs vs x y k v : strictly_increasing zs -> on_segment zs vs x y ->
  nth_error zs k = Some x -> nth_error vs k = Some (Some v) -> y == v.
Proof.
  intros Hs (i & xl & xh & yl & yh & Hl & Hh & Vl & Vh & L1 & L2 & E) Hk Hv.
  assert (Lx : xl < xh) by (apply (Hs i (S i)); auto).
  assert (k = i \/ k = S i) as [-> | ->].
  { destruct (Nat.lt_trichotomy k i) as [K|[K|K]]; [|auto|].
    - pose proof (Hs k i x xl K Hk Hl). lra.
    - destruct (Nat.eq_dec k (S i)) as [|N]; [auto|]. pose proof (Hs (S i) k xh x ltac:(lia) Hh Hk). lra. }
  - rewrite Hl in Hk. injection Hk as <-. rewrite Vl in Hv. injection Hv as <-.
    assert (K : (y - yl) * (xh - xl) == 0) by (rewrite E; ring).
    apply Qmult_integral in K. destruct K as [K|K]; lra.
  - rewrite Hh in Hk. injection Hk as <-. rewrite Vh in Hv. injection Hv as <-.
    assert (K : (y - yh) * (xh - xl) == 0).
    { setoid_replace ((y - yh) * (xh - xl)) with ((y - yl) * (xh - xl) - (yh - yl) * (xh - xl)) by ring. rewrite E. ring. }
    apply Qmult_integral in K. destruct K as [K|K]; lra.
Qed.

(** and it never leaves the range of the tabulated values *)
Lemma on_segment_bounded zs vs x y m M : strictly_increasing zs -> on_segment zs vs x y ->
  (forall v, In (Some v) vs -> m <= v /\ v <= M) -> m <= y /\ y <= M.
Proof.
  intros Hs (i & xl & xh & yl & yh & Hl & Hh & Vl & Vh & L1 & L2 & E) Hb.
  assert (Lx : xl < xh) by (apply (Hs i (S i)); auto).
  destruct (Hb yl (nth_error_In _ _ Vl)) as [A1 A2]. destruct (Hb yh (nth_error_In _ _ Vh)) as [B1 B2].
  assert (G : y * (xh - xl) == yl * (xh - x) + yh * (x - xl)).
  { setoid_replace (y * (xh - xl)) with ((y - yl) * (xh - xl) + yl * (xh - xl)) by ring. rewrite E. ring. }
  split.
  - destruct (Qlt_le_dec y m) as [K|K]; [exfalso|exact K].
    assert (y * (xh - xl) < m * (xh - xl)) by (apply Qmult_lt_compat_r; lra).
    assert (m * (xh - x) <= yl * (xh - x)) by (apply Qmult_le_compat_r; lra).
    assert (m * (x - xl) <= yh * (x - xl)) by (apply Qmult_le_compat_r; lra). lra.
  - destruct (Qlt_le_dec M y) as [K|K]; [exfalso|exact K].
    assert (M * (xh - xl) < y * (xh - xl)) by (apply Qmult_lt_compat_r; lra).
    assert (yl * (xh - x) <= M * (xh - x)) by (apply Qmult_le_compat_r; lra).
    assert (yh * (x - xl) <= M * (x - xl)) by (apply Qmult_le_compat_r; lra). lra.
Qed.

(** too few points or redshifts that do not increase: the library call fails *)
Lemma interpolateOnGrid_throw p target : p_z p <> [] -> target <> [] ->
  ((length (p_val p) < 2)%nat \/ (length (p_val p) = length (p_z p) /\ ~ strictly_increasing (p_z p))) ->
  interpolateOnGrid p target = Throw EXTERNAL_LIB_ERROR.
Proof.
  intros Hne Ht H. unfold interpolateOnGrid.
  destruct (front_ok _ Hne) as (a & Ea & _). rewrite Ea. cbn [rbind].
  destruct (back_ok _ Hne) as (b & Eb & _). rewrite Eb. cbn [rbind].
  destruct (front_ok _ Ht) as (ta & Eta & _). rewrite Eta. cbn [rbind].
  destruct (back_ok _ Ht) as (tb & Etb & _). rewrite Etb. cbn [rbind].
  destruct (Nat.ltb_spec (length (p_val p)) 2) as [K|K]; [reflexivity|].
  destruct H as [H|[H1 H2]]; [lia|].
  destruct (Nat.ltb_spec (length (p_z p)) (length (p_val p))) as [K'|_]; [lia|].
  rewrite H1, firstn_all. destruct (all_increasing (p_z p)) eqn:E; [|reflexivity].
  exfalso. apply H2. apply all_increasing_spec. exact E.
Qed.
