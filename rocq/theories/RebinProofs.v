(** Proofs for C23, C24. *)
From Verif Require Import Base RangeModel RangeSpec RangeProofs FluxProofs RebinModel RebinSpec.
Open Scope Q_scope.

Lemma nth_skipn {A} (l : list A) n i : nth_error (skipn n l) i = nth_error l (n + i).
Proof.
  revert l; induction n as [|n IH]; intros l; [reflexivity|].
  destruct l as [|a l]; [destruct i; reflexivity|]. simpl. apply IH.
Qed.

Lemma skipn_add {A} (l : list A) n m : skipn m (skipn n l) = skipn (n + m) l.
Proof. revert l; induction n as [|n IH]; intros l; [reflexivity|]. destruct l; [destruct m; reflexivity|]. apply IH. Qed.

Lemma increasing_skipn l n : increasing l -> increasing (skipn n l).
Proof.
  intros H i j x y Hij Hx Hy. rewrite nth_skipn in Hx, Hy. apply (H (n+i)%nat (n+j)%nat x y); auto; lia.
Qed.

Lemma scan_spec bound f (P : nat -> Q -> cell -> Prop) : forall rem cursor, increasing rem ->
  (forall j x, nth_error rem j = Some x -> x <= bound -> exists c, f (cursor + j)%nat x = Ok c /\ P (cursor + j)%nat x c) ->
  exists cs, scan bound f cursor rem = Ok cs /\ (length cs <= length rem)%nat /\
    forall j x, nth_error rem j = Some x ->
      ((j < length cs)%nat -> x <= bound /\ exists c, nth_error cs j = Some c /\ P (cursor + j)%nat x c) /\
      ((length cs <= j)%nat -> bound < x).
Proof.
  induction rem as [|a r IH]; intros cursor Hi Hf; simpl.
  - exists []. split; [reflexivity|]. split; [simpl; lia|]. intros j x Hj. destruct j; discriminate.
  - destruct (Qle_bool_spec a bound) as [Ha|Ha].
    + destruct (Hf 0%nat a eq_refl Ha) as (c & Hc & HP). rewrite Nat.add_0_r in Hc, HP. rewrite Hc. simpl.
      destruct (IH (S cursor) (increasing_tail _ _ Hi)) as (cs & Hcs & Hl & Hn).
      { intros j x Hj Hx. destruct (Hf (S j) x Hj Hx) as (c' & H1 & H2).
        replace (S cursor + j)%nat with (cursor + S j)%nat by lia. eauto. }
      rewrite Hcs. simpl. exists (c :: cs). split; [reflexivity|]. split; [simpl; lia|].
      intros j x Hj. destruct j as [|j].
      * simpl in Hj. injection Hj as <-. split; intro H.
        -- split; auto. exists c. split; [reflexivity|]. rewrite Nat.add_0_r. exact HP.
        -- simpl in H. lia.
      * simpl in Hj. destruct (Hn j x Hj) as [H1 H2]. split; intro H; simpl in H.
        -- destruct (H1 ltac:(lia)) as (Hb & c' & Hc' & HP'). split; auto. exists c'. split; [exact Hc'|].
           replace (cursor + S j)%nat with (S cursor + j)%nat by lia. exact HP'.
        -- apply H2. lia.
    + exists []. split; [reflexivity|]. split; [simpl; lia|]. intros j x Hj. split; intro H; [simpl in H; lia|].
      assert (a <= x).
      { destruct j as [|j]; simpl in Hj.
        - injection Hj as <-. lra.
        - apply nth_error_In in Hj. apply (increasing_head _ _ _ Hi Hj). }
      apply Qnot_le_lt in Ha. lra.
Qed.

Lemma before_range_spec b Xt :
  (before_range b Xt <= length Xt)%nat /\
  (forall i x, (i < before_range b Xt)%nat -> nth_error Xt i = Some x -> x < b) /\
  (increasing Xt -> forall i x, (before_range b Xt <= i)%nat -> nth_error Xt i = Some x -> b <= x).
Proof.
  induction Xt as [|a r (H1 & H2 & H3)]; simpl.
  - split; [lia|]. split; [intros; lia|]. intros _ i x _ Hx. destruct i; discriminate.
  - destruct (Qltb_spec a b) as [Ha|Ha].
    + split; [lia|]. split.
      * intros i x Hi Hx. destruct i; simpl in Hx; [injection Hx as <-; exact Ha|]. apply (H2 i); auto; lia.
      * intros Hinc i x Hi Hx. destruct i; [lia|]. simpl in Hx.
        apply (H3 (increasing_tail _ _ Hinc) i); auto; lia.
    + split; [lia|]. split; [intros; lia|]. intros Hinc i x _ Hx.
      assert (a <= x).
      { destruct i; simpl in Hx; [injection Hx as <-; lra|]. apply nth_error_In in Hx.
        apply (increasing_head _ _ _ Hinc Hx). }
      apply Qnot_lt_le in Ha. lra.
Qed.

Lemma nth_repeat {A} (a : A) n i : (i < n)%nat -> nth_error (repeat a n) i = Some a.
Proof. revert i; induction n; intros i Hi; [lia|]. destruct i; simpl; auto. apply IHn; lia. Qed.

Lemma compute_cells op opt s b e Xt (Post : nat -> Q -> cell -> Prop) (Cov : Q -> Prop) :
  range_inside s b e -> increasing Xt ->
  (forall c0, (c0 <= length Xt)%nat ->
     (forall i x, nth_error Xt i = Some x -> (c0 <= i)%nat -> b <= x) ->
     exists cs, op opt s Xt e c0 (skipn c0 Xt) = Ok cs /\ (c0 + length cs <= length Xt)%nat /\
       forall i x, nth_error Xt i = Some x -> (c0 <= i)%nat ->
         ((i < c0 + length cs)%nat -> exists c, nth_error cs (i - c0) = Some c /\ Post i x c) /\
         ((c0 + length cs <= i)%nat -> ~ Cov x)) ->
  exists out, compute op opt s b e Xt = Ok out /\ length out = length Xt /\
    forall i x, nth_error Xt i = Some x -> exists c, nth_error out i = Some c /\
      ((b <= x /\ Post i x c) \/ ((x < b \/ ~ Cov x) /\ c = outside_cell opt)).
Proof.
  intros (x0 & xl & Hx0 & Hxl & H0 & Hl) Hinc Hop.
  destruct (before_range_spec b Xt) as (B1 & B2 & B3). specialize (B3 Hinc).
  destruct (Hop (before_range b Xt) B1) as (cs & Hcs & Hlen & Hn); [intros i x Hx Hi; apply (B3 i); auto|].
  unfold compute. unfold vget. rewrite Hx0, Hxl. simpl.
  destruct (Qltb_spec b x0); [lra|]. destruct (Qltb_spec xl e); [lra|]. simpl.
  rewrite Hcs. simpl. eexists. split; [reflexivity|]. split.
  { rewrite !app_length, !repeat_length. lia. }
  intros i x Hx. pose proof (nth_error_len _ _ _ Hx) as Hi.
  destruct (Nat.lt_ge_cases i (before_range b Xt)) as [C|C].
  - exists (outside_cell opt). split.
    + rewrite nth_error_app1 by (rewrite repeat_length; lia). apply nth_repeat. exact C.
    + right. split; auto. left. apply (B2 i); auto.
  - rewrite nth_error_app2 by (rewrite repeat_length; lia). rewrite repeat_length.
    destruct (Hn i x Hx C) as [N1 N2].
    destruct (Nat.lt_ge_cases i (before_range b Xt + length cs)) as [D|D].
    + destruct (N1 D) as (c & Hc & HP). exists c. split.
      * rewrite nth_error_app1; auto. lia.
      * left. split; auto. apply (B3 i); auto.
    + exists (outside_cell opt). split.
      * rewrite nth_error_app2 by lia. apply nth_repeat. lia.
      * right. split; auto.
Qed.

Lemma range_outside_throws op opt s b e Xt x0 xl :
  nth_error (s_X s) 0 = Some x0 -> nth_error (s_X s) (length (s_X s) - 1) = Some xl ->
  b < x0 \/ xl < e -> compute op opt s b e Xt = Throw INTERNAL_ERROR.
Proof.
  intros H0 Hl H. unfold compute, vget. rewrite H0, Hl. simpl.
  destruct (Qltb_spec b x0); simpl; auto. destruct (Qltb_spec xl e); simpl; auto. intuition.
Qed.

(** step compensation *)
Lemma step_comp_spec Xt i x ds : strictly_increasing Xt -> nth_error Xt i = Some x -> (2 <= length Xt)%nat ->
  exists c dt, computeXStepCompensation Xt i ds = Ok c /\ target_step Xt i dt /\ c * dt == ds.
Proof.
  intros Hs Hx H2. pose proof (nth_error_len _ _ _ Hx) as Hi. unfold computeXStepCompensation.
  destruct (Nat.ltb_spec i (length Xt - 1)) as [H|H].
  - destruct (nth_error_lt Xt (S i) ltac:(lia)) as (y & Hy).
    unfold vget. replace (i + 1)%nat with (S i) by lia. rewrite Hx, Hy. simpl.
    assert (x < y) by (apply (Hs i (S i)); auto).
    exists (ds / (y - x)), (y - x). split; [reflexivity|]. split.
    + exists x, y. split; [reflexivity|]. left; auto.
    + field. intro Hz. lra.
  - destruct i as [|p]; [lia|]. destruct (nth_error_lt Xt p ltac:(lia)) as (y & Hy).
    unfold vget. rewrite Hx, Hy. simpl.
    assert (y < x) by (apply (Hs p (S p)); auto).
    exists (ds / (x - y)), (x - y). split; [reflexivity|]. split.
    + exists y, x. split; [reflexivity|]. right. split; [lia|]. exists p. auto.
    + field. intro Hz. lra.
Qed.

Definition variance_ok (opt : opt_error) (Xt : list Q) : Prop :=
  opt = OptRebinVariance -> (2 <= length Xt)%nat /\ strictly_increasing Xt.

Lemma lin_cell_spec opt s Xt k i x xk xk1 : wf_source s -> variance_ok opt Xt ->
  nth_error Xt i = Some x ->
  nth_error (s_X s) k = Some xk -> nth_error (s_X s) (S k) = Some xk1 -> xk <= x -> x <= xk1 ->
  exists c, lin_cell opt s Xt k i x = Ok c /\ c_mask c = true /\
    interpolates s (s_Y s) k x (c_flux c) /\ lin_noise opt s Xt i k x (c_err c).
Proof.
  intros (Hs & HY & HE) Hv Hx Hk Hk1 Hlo Hhi.
  assert (Hlt : xk < xk1) by (apply (Hs k (S k)); auto).
  pose proof (nth_error_len _ _ _ Hk1) as Hlen.
  destruct (nth_error_lt (s_Y s) k ltac:(lia)) as (yk & Hyk).
  destruct (nth_error_lt (s_Y s) (S k) ltac:(lia)) as (yk1 & Hyk1).
  destruct (nth_error_lt (s_E s) k ltac:(lia)) as (ek & Hek).
  destruct (nth_error_lt (s_E s) (S k) ltac:(lia)) as (ek1 & Hek1).
  assert (Hd : ~ xk1 - xk == 0) by (intro Hz; lra).
  unfold lin_cell, vget. replace (k + 1)%nat with (S k) by lia.
  rewrite Hk, Hk1, Hyk, Hyk1. cbn [rbind]. rewrite Hek, Hek1. cbn [rbind].
  assert (HI : forall (V : list Q) vk vk1, nth_error V k = Some vk -> nth_error V (S k) = Some vk1 ->
     interpolates s V k x (vk + (vk1 - vk) * ((x - xk) / (xk1 - xk)))).
  { intros V vk vk1 HV HV1. exists xk, xk1, vk, vk1. repeat (split; [assumption|]). unfold on_segment. field. exact Hd. }
  destruct opt; simpl.
  - eexists. split; [reflexivity|]. simpl. split; [reflexivity|]. split; [apply HI; auto|]. reflexivity.
  - eexists. split; [reflexivity|]. simpl. split; [reflexivity|]. split; [apply HI; auto|].
    eexists. split; [reflexivity|]. apply HI; auto.
  - destruct (Hv eq_refl) as [H2 Hst].
    destruct (step_comp_spec Xt i x (xk1 - xk) Hst Hx H2) as (c & dt & Hc & Ht & Hcd).
    rewrite Hc. simpl. eexists. split; [reflexivity|]. simpl. split; [reflexivity|]. split; [apply HI; auto|].
    eexists _, c, (xk1 - xk), dt. split; [reflexivity|]. split; [|split; [|split; [exact Ht|exact Hcd]]].
    + exists xk, xk1, ek, ek1. repeat (split; [assumption|]). field. exact Hd.
    + exists xk, xk1. split; [reflexivity|]. left. auto.
  - eexists. split; [reflexivity|]. simpl. split; [reflexivity|]. split; [apply HI; auto|]. reflexivity.
Qed.

Definition lin_post (opt : opt_error) (s : source) (Xt : list Q) (e : Q) (i : nat) (x : Q) (c : cell) : Prop :=
  c_mask c = true /\ exists k xk, nth_error (s_X s) k = Some xk /\ xk <= e /\
    interpolates s (s_Y s) k x (c_flux c) /\ lin_noise opt s Xt i k x (c_err c).

Lemma lin_outer_spec opt s Xt e : wf_source s -> variance_ok opt Xt -> increasing Xt ->
  forall m k cursor xk, nth_error (s_X s) k = Some xk -> (k + m = length (s_X s) - 1)%nat ->
  (cursor <= length Xt)%nat ->
  (forall i x, nth_error Xt i = Some x -> (cursor <= i)%nat -> xk <= x) ->
  exists cs, lin_outer opt s Xt e m k cursor (skipn cursor Xt) = Ok cs /\ (cursor + length cs <= length Xt)%nat /\
    forall i x, nth_error Xt i = Some x -> (cursor <= i)%nat ->
      ((i < cursor + length cs)%nat -> exists c, nth_error cs (i - cursor) = Some c /\ lin_post opt s Xt e i x c) /\
      ((cursor + length cs <= i)%nat ->
         forall k' yk yk1, (k <= k')%nat -> nth_error (s_X s) k' = Some yk -> nth_error (s_X s) (S k') = Some yk1 ->
           yk <= e -> yk1 < x).
Proof.
  intros Hwf Hv Hinc. pose proof Hwf as (Hs & HY & HE).
  induction m as [|m IH]; intros k cursor xk Hk Hm Hcur Hge; cbn [lin_outer].
  - exists []. split; [reflexivity|]. split; [simpl; lia|]. intros i x Hx Hi. split; intro H; [simpl in H; lia|].
    intros k' yk yk1 Hk' _ Hy1 _. apply nth_error_len in Hy1. lia.
  - unfold vget. rewrite Hk. cbn [rbind].
    destruct (Qle_bool_spec xk e) as [He|He].
    + destruct (nth_error_lt (s_X s) (S k) ltac:(lia)) as (xk1 & Hk1).
      replace (k + 1)%nat with (S k) by lia. rewrite Hk1. cbn [rbind].
      destruct (scan_spec xk1 (lin_cell opt s Xt k) (fun i x c => lin_post opt s Xt e i x c)
                 (skipn cursor Xt) cursor (increasing_skipn _ _ Hinc)) as (cs & Hcs & Hl & Hn).
      { intros j x Hj Hx. rewrite nth_skipn in Hj.
        destruct (lin_cell_spec opt s Xt k (cursor + j)%nat x xk xk1 Hwf Hv Hj Hk Hk1) as (c & Hc & H1 & H2 & H3); auto.
        - apply (Hge (cursor + j)%nat); auto; lia.
        - exists c. split; [exact Hc|]. split; [exact H1|]. exists k, xk. auto. }
      rewrite skipn_length in Hl. rewrite Hcs. cbn [rbind].
      assert (Hsk : skipn (length cs) (skipn cursor Xt) = skipn (cursor + length cs) Xt)
        by (apply skipn_add).
      rewrite Hsk.
      destruct (IH (S k) (cursor + length cs)%nat xk1 Hk1 ltac:(lia) ltac:(lia)) as (cs' & Hcs' & Hl' & Hn').
      { intros i x Hx Hi. destruct (Hn (i - cursor)%nat x) as [_ N2].
        - rewrite nth_skipn. replace (cursor + (i - cursor))%nat with i by lia. exact Hx.
        - apply Qlt_le_weak. apply N2. lia. }
      rewrite Hcs'. cbn [rbind]. exists (cs ++ cs'). split; [reflexivity|]. rewrite app_length. split; [lia|].
      intros i x Hx Hi. destruct (Hn (i - cursor)%nat x) as [N1 N2].
      { rewrite nth_skipn. replace (cursor + (i - cursor))%nat with i by lia. exact Hx. }
      split; intro H.
      * destruct (Nat.lt_ge_cases (i - cursor) (length cs)) as [C|C].
        -- destruct (N1 C) as (_ & c & Hc & HP). exists c.
           replace (cursor + (i - cursor))%nat with i in HP by lia.
           split; [|exact HP]. rewrite nth_error_app1; auto.
        -- destruct (Hn' i x Hx ltac:(lia)) as [M1 _]. destruct (M1 ltac:(lia)) as (c & Hc & HP).
           exists c. split; [|exact HP]. rewrite nth_error_app2 by lia.
           replace (i - cursor - length cs)%nat with (i - (cursor + length cs))%nat by lia. exact Hc.
      * intros k' yk yk1 Hk' Hyk Hyk1 Hye.
        destruct (Nat.eq_dec k' k) as [->|Hne].
        -- rewrite Hk1 in Hyk1. injection Hyk1 as <-. apply N2. lia.
        -- destruct (Hn' i x Hx ltac:(lia)) as [_ M2]. apply (M2 ltac:(lia) k' yk yk1); auto; lia.
    + exists []. split; [reflexivity|]. split; [simpl; lia|]. intros i x Hx Hi. split; intro H; [simpl in H; lia|].
      intros k' yk yk1 Hk' Hyk _ Hye. exfalso. apply He.
      destruct (Nat.eq_dec k' k) as [->|Hne]; [congruence|].
      assert (xk < yk) by (apply (Hs k k'); auto; lia). lra.
Qed.

Theorem linear_spec opt s b e Xt : wf_source s -> increasing Xt -> range_inside s b e -> variance_ok opt Xt ->
  exists out, compute rebinLinear opt s b e Xt = Ok out /\ length out = length Xt /\
    forall i x, nth_error Xt i = Some x -> exists c, nth_error out i = Some c /\
      (c_mask c = true <-> lin_reached s b e x) /\
      (c_mask c = true -> exists k, interpolates s (s_Y s) k x (c_flux c) /\ lin_noise opt s Xt i k x (c_err c)) /\
      (c_mask c = false -> c_flux c = 0 /\ outside_noise opt (c_err c)).
Proof.
  intros Hwf Hinc Hr Hv. pose proof Hr as (x0 & xl & Hx0 & Hxl & H0 & Hl).
  destruct (compute_cells rebinLinear opt s b e Xt (lin_post opt s Xt e) (lin_reached s b e) Hr Hinc)
    as (out & Ho & Hlen & Hn).
  { intros c0 Hc0 Hge. unfold rebinLinear.
    destruct (lin_outer_spec opt s Xt e Hwf Hv Hinc (length (s_X s) - 1) 0 c0 x0 Hx0 eq_refl Hc0) as (cs & Hcs & Hl' & Hn).
    { intros i x Hx Hi. specialize (Hge i x Hx Hi). lra. }
    exists cs. split; [exact Hcs|]. split; [exact Hl'|]. intros i x Hx Hi.
    destruct (Hn i x Hx Hi) as [N1 N2]. split; [exact N1|]. intros Hout (_ & k & xk & xk1 & Hk & Hk1 & He & Hle).
    specialize (N2 Hout k xk xk1 (Nat.le_0_l k) Hk Hk1 He). lra. }
  exists out. split; [exact Ho|]. split; [exact Hlen|]. intros i x Hx.
  destruct (Hn i x Hx) as (c & Hc & [(Hb & Hm & k & xk & Hk & Hke & HI & HN)|(Hout & ->)]).
  - exists c. split; [exact Hc|]. split; [|split].
    + split; intros _; [|exact Hm]. split; [exact Hb|].
      destruct HI as (yk & yk1 & vk & vk1 & H1 & H2 & _ & _ & _ & H3 & _).
      exists k, yk, yk1. repeat split; auto. congruence.
    + intros _. exists k. auto.
    + rewrite Hm. discriminate.
  - exists (outside_cell opt). split; [exact Hc|]. split; [|split].
    + split; [discriminate|]. intros HR. exfalso. destruct Hout as [Hlt|Hno].
      * destruct HR as [Hb _]. lra.
      * contradiction.
    + discriminate.
    + intros _. split; [reflexivity|]. destruct opt; reflexivity.
Qed.

(** inside the range everything is reached, provided the source has two samples *)
Lemma in_range_reached s b e x : wf_source s -> range_inside s b e -> (2 <= length (s_X s))%nat ->
  b <= x -> x <= e -> lin_reached s b e x.
Proof.
  intros (Hs & _) (x0 & xl & Hx0 & Hxl & H0 & Hl) H2 Hb He. split; [exact Hb|].
  (* last index k with X_k <= x *)
  assert (H : forall k, (k + 1 < length (s_X s))%nat ->
     (exists yk, nth_error (s_X s) k = Some yk /\ yk <= x) ->
     exists k' yk yk1, nth_error (s_X s) k' = Some yk /\ nth_error (s_X s) (S k') = Some yk1 /\ yk <= e /\ x <= yk1).
  { intros k. remember (length (s_X s) - 2 - k)%nat as d eqn:Hd. revert k Hd.
    induction d as [|d IH]; intros k Hd Hk (yk & Hyk & Hle).
    - exists k, yk, xl. split; [exact Hyk|]. split; [|split; lra].
      replace (S k) with (length (s_X s) - 1)%nat by lia. exact Hxl.
    - destruct (nth_error_lt (s_X s) (S k) ltac:(lia)) as (y1 & Hy1).
      destruct (Qlt_le_dec y1 x) as [C|C].
      + apply (IH (S k)); [lia|lia|]. exists y1. split; auto. lra.
      + exists k, yk, y1. repeat split; auto. lra. }
  destruct (H 0%nat ltac:(lia)) as (k & yk & yk1 & A & B & C & D); [exists x0; split; auto; lra|].
  exists k, yk, yk1. auto.
Qed.

Lemma interpolates_between s V k x v lo hi : strictly_increasing (s_X s) -> interpolates s V k x v ->
  (forall y, nth_error V k = Some y \/ nth_error V (S k) = Some y -> lo <= y /\ y <= hi) -> lo <= v /\ v <= hi.
Proof.
  intros Hs (xk & xk1 & vk & vk1 & H1 & H2 & H3 & H4 & H5 & H6 & H7) Hb. unfold on_segment in H7.
  assert (xk < xk1) by (apply (Hs k (S k)); auto).
  destruct (Hb vk (or_introl H3)), (Hb vk1 (or_intror H4)).
  assert (E : v == vk * ((xk1 - x) / (xk1 - xk)) + vk1 * ((x - xk) / (xk1 - xk))).
  { assert (Hz : ~ xk1 - xk == 0) by (intro Hz; lra).
    apply (Qmult_inj_r _ _ (xk1 - xk) Hz).
    transitivity (vk * (xk1 - xk) + (vk1 - vk) * (x - xk)); [lra|]. field. exact Hz. }
  set (p := (xk1 - x) / (xk1 - xk)) in *. set (q := (x - xk) / (xk1 - xk)) in *.
  assert (Hp : 0 <= p) by (apply Qle_shift_div_l; lra).
  assert (Hq : 0 <= q) by (apply Qle_shift_div_l; lra).
  assert (Hpq : p + q == 1) by (unfold p, q; field; intro Hz; lra).
  split; rewrite E; nra.
Qed.

Lemma interpolates_at_node s V k x v j xj vj : strictly_increasing (s_X s) -> interpolates s V k x v ->
  nth_error (s_X s) j = Some xj -> nth_error V j = Some vj -> x == xj -> v == vj.
Proof.
  intros Hs (xk & xk1 & vk & vk1 & H1 & H2 & H3 & H4 & H5 & H6 & H7) Hj Hvj Hx. unfold on_segment in H7.
  assert (Hlt : xk < xk1) by (apply (Hs k (S k)); auto).
  assert (Hz : ~ xk1 - xk == 0) by (intro Hz; lra).
  assert (j = k \/ j = S k) as [->| ->].
  { destruct (Nat.lt_trichotomy j k) as [C|[C|C]]; auto.
    - assert (xj < xk) by (apply (Hs j k); auto). lra.
    - destruct (Nat.eq_dec j (S k)); auto. assert (xk1 < xj) by (apply (Hs (S k) j); auto; lia). lra. }
  - rewrite H1 in Hj. rewrite H3 in Hvj. injection Hj as <-. injection Hvj as <-.
    apply (Qmult_inj_r _ _ (xk1 - xk) Hz). assert ((vk1 - vk) * (x - xk) == 0) by (rewrite Hx; ring). lra.
  - rewrite H2 in Hj. rewrite H4 in Hvj. injection Hj as <-. injection Hvj as <-.
    apply (Qmult_inj_r _ _ (xk1 - xk) Hz).
    assert ((vk1 - vk) * (x - xk) == (vk1 - vk) * (xk1 - xk)) by (rewrite Hx; ring). lra.
Qed.

(** NGP *)
Lemma source_step_at s k x : (2 <= length (s_X s))%nat -> nth_error (s_X s) k = Some x ->
  exists d, source_step s k d /\
  (if Nat.eqb k (length (s_X s) - 1) then
     do a <- vget (s_X s) k;
     match k with O => UB | S p => do b <- vget (s_X s) p; Ok (a - b) end
   else do a <- vget (s_X s) (k + 1); do b <- vget (s_X s) k; Ok (a - b)) = Ok d.
Proof.
  intros H2 Hk. pose proof (nth_error_len _ _ _ Hk) as Hl. unfold vget. rewrite Hk. simpl.
  destruct (Nat.eqb_spec k (length (s_X s) - 1)) as [E|E].
  - destruct k as [|p]; [lia|]. destruct (nth_error_lt (s_X s) p ltac:(lia)) as (y & Hy). rewrite Hy. simpl.
    exists (x - y). split; [|reflexivity]. exists y, x. split; [reflexivity|]. right. split; [lia|]. exists p. auto.
  - replace (k + 1)%nat with (S k) by lia. destruct (nth_error_lt (s_X s) (S k) ltac:(lia)) as (y & Hy). rewrite Hy.
    simpl. exists (y - x). split; [|reflexivity]. exists x, y. split; [reflexivity|]. left; auto.
Qed.

Lemma ngp_cell_spec opt s Xt i x : wf_source s -> (2 <= length (s_X s))%nat -> variance_ok opt Xt ->
  nth_error Xt i = Some x ->
  exists c k y, ngp_cell opt s Xt i x = Ok c /\ c_mask c = true /\ nearest (s_X s) x k /\
    nth_error (s_Y s) k = Some y /\ c_flux c = y /\ ngp_noise opt s Xt i k (c_err c).
Proof.
  intros (Hs & HY & HE) H2 Hv Hx.
  destruct (getCloserIndex_spec (s_X s) x (strictly_increasing_increasing _ Hs)) as (k & Hk & Hnear).
  { intro Hz. rewrite Hz in H2. simpl in H2. lia. }
  pose proof Hnear as (xk & Hxk & _). pose proof (nth_error_len _ _ _ Hxk) as Hlen.
  destruct (nth_error_lt (s_Y s) k ltac:(lia)) as (yk & Hyk).
  destruct (nth_error_lt (s_E s) k ltac:(lia)) as (ek & Hek).
  destruct (source_step_at s k xk H2 Hxk) as (d & Hd & Hdo).
  unfold ngp_cell. rewrite Hk. cbn [rbind]. rewrite Hdo. cbn [rbind].
  unfold vget. rewrite Hyk, Hek. cbn [rbind].
  destruct opt; simpl.
  - eexists _, k, yk. split; [reflexivity|]. repeat (split; [assumption || reflexivity|]). reflexivity.
  - eexists _, k, yk. split; [reflexivity|]. repeat (split; [assumption || reflexivity|]). exists ek. auto.
  - destruct (Hv eq_refl) as [HL Hst].
    destruct (step_comp_spec Xt i x d Hst Hx HL) as (c & dt & Hc & Ht & Hcd).
    rewrite Hc. simpl. eexists _, k, yk. split; [reflexivity|]. repeat (split; [assumption || reflexivity|]).
    exists ek, c, d, dt. repeat (split; [assumption || reflexivity|]). exact Hcd.
  - eexists _, k, yk. split; [reflexivity|]. repeat (split; [assumption || reflexivity|]). exists ek. auto.
Qed.

(** generic consequence for the three operators whose loop stops at the end of the range *)
Lemma point_op_spec op f opt s b e Xt (P : nat -> Q -> cell -> Prop) :
  (forall cursor rem, op opt s Xt e cursor rem = scan e f cursor rem) ->
  range_inside s b e -> increasing Xt ->
  (forall i x, nth_error Xt i = Some x -> b <= x -> x <= e -> exists c, f i x = Ok c /\ P i x c) ->
  exists out, compute op opt s b e Xt = Ok out /\ length out = length Xt /\
    forall i x, nth_error Xt i = Some x -> exists c, nth_error out i = Some c /\
      (b <= x /\ x <= e -> P i x c) /\ (~ (b <= x /\ x <= e) -> c = outside_cell opt).
Proof.
  intros Hop Hr Hinc Hf.
  destruct (compute_cells op opt s b e Xt (fun i x c => x <= e /\ P i x c) (fun x => x <= e) Hr Hinc)
    as (out & Ho & Hlen & Hn).
  { intros c0 Hc0 Hge. rewrite Hop.
    destruct (scan_spec e f (fun i x c => x <= e /\ P i x c) (skipn c0 Xt) c0 (increasing_skipn _ _ Hinc)) as (cs & Hcs & Hl & Hn).
    { intros j x Hj Hx. rewrite nth_skipn in Hj.
      destruct (Hf (c0 + j)%nat x Hj) as (c & Hc & HP); auto.
      - apply (Hge (c0 + j)%nat); auto; lia.
      - exists c. auto. }
    rewrite skipn_length in Hl. exists cs. split; [exact Hcs|]. split; [lia|]. intros i x Hx Hi.
    destruct (Hn (i - c0)%nat x) as [N1 N2].
    { rewrite nth_skipn. replace (c0 + (i - c0))%nat with i by lia. exact Hx. }
    replace (c0 + (i - c0))%nat with i in N1 by lia.
    split; intro H.
    - apply N1. lia.
    - apply Qlt_not_le. apply N2. lia. }
  exists out. split; [exact Ho|]. split; [exact Hlen|]. intros i x Hx.
  destruct (Hn i x Hx) as (c & Hc & [(Hb & He & HP)|(Hout & ->)]).
  - exists c. split; [exact Hc|]. split; [auto|]. intro Hno. exfalso. apply Hno. auto.
  - eexists. split; [exact Hc|]. split; [|auto]. intros [Hb He]. exfalso. destruct Hout; [lra|contradiction].
Qed.

Theorem ngp_spec opt s b e Xt : wf_source s -> (2 <= length (s_X s))%nat -> increasing Xt -> range_inside s b e ->
  variance_ok opt Xt ->
  exists out, compute rebinNgp opt s b e Xt = Ok out /\ length out = length Xt /\
    forall i x, nth_error Xt i = Some x -> exists c, nth_error out i = Some c /\
      (b <= x /\ x <= e -> c_mask c = true /\ exists k y, nearest (s_X s) x k /\ nth_error (s_Y s) k = Some y /\
          c_flux c = y /\ ngp_noise opt s Xt i k (c_err c)) /\
      (~ (b <= x /\ x <= e) -> c_mask c = false /\ c_flux c = 0 /\ outside_noise opt (c_err c)).
Proof.
  intros Hwf H2 Hinc Hr Hv.
  destruct (point_op_spec rebinNgp (ngp_cell opt s Xt) opt s b e Xt
     (fun i x c => c_mask c = true /\ exists k y, nearest (s_X s) x k /\ nth_error (s_Y s) k = Some y /\
          c_flux c = y /\ ngp_noise opt s Xt i k (c_err c))) as (out & Ho & Hl & Hn); auto.
  { intros i x Hx _ _. destruct (ngp_cell_spec opt s Xt i x Hwf H2 Hv Hx) as (c & k & y & A & B & C & D & E & F).
    exists c. split; [exact A|]. split; [exact B|]. exists k, y. auto. }
  exists out. split; [exact Ho|]. split; [exact Hl|]. intros i x Hx. destruct (Hn i x Hx) as (c & Hc & N1 & N2).
  exists c. split; [exact Hc|]. split; [exact N1|]. intro H. rewrite (N2 H). split; [reflexivity|].
  split; [reflexivity|]. destruct opt; reflexivity.
Qed.

(** Spline and fine grid *)
Lemma sorted_strictb_true l : strictly_increasing l -> sorted_strictb l = true.
Proof.
  induction l as [|a l IH]; intros H; [reflexivity|]. destruct l as [|b l]; [reflexivity|].
  change (Qltb a b && sorted_strictb (b :: l) = true). apply andb_true_intro. split.
  - apply Qltb_true. apply (H 0%nat 1%nat); auto.
  - apply IH. apply strictly_increasing_tail with a. exact H.
Qed.

Lemma gsl_init_ok s : wf_source s -> (3 <= length (s_X s))%nat -> gsl_spline_init s = Ok tt.
Proof.
  intros (Hs & _) H3. unfold gsl_spline_init. rewrite (sorted_strictb_true _ Hs). simpl.
  destruct (Nat.ltb_spec (length (s_X s)) 3); [lia|]. reflexivity.
Qed.

Theorem spline_spec gsl s b e Xt : wf_source s -> (3 <= length (s_X s))%nat -> increasing Xt -> range_inside s b e ->
  exists out, compute (rebinSpline gsl) OptNo s b e Xt = Ok out /\ length out = length Xt /\
    forall i x, nth_error Xt i = Some x -> exists c, nth_error out i = Some c /\
      (b <= x /\ x <= e -> c = mkCell (gsl (s_X s) (s_Y s) x) true (EVal 1)) /\
      (~ (b <= x /\ x <= e) -> c = mkCell 0 false (EVal 1)).
Proof.
  intros Hwf H3 Hinc Hr.
  apply (point_op_spec (rebinSpline gsl) (spline_cell gsl OptNo s) OptNo s b e Xt
     (fun i x c => c = mkCell (gsl (s_X s) (s_Y s) x) true (EVal 1))); auto.
  - intros cursor rem. unfold rebinSpline. rewrite (gsl_init_ok s Hwf H3). reflexivity.
  - intros i x Hx _ _. eexists. split; [reflexivity|]. reflexivity.
Qed.

Lemma scan_throw bound f e rem cursor x : hd_error rem = Some x -> x <= bound -> f cursor x = Throw e ->
  scan bound f cursor rem = Throw e.
Proof.
  destruct rem as [|a r]; simpl; [discriminate|]. intros [= ->] Hx Hf.
  destruct (Qle_bool_spec x bound); [|contradiction]. rewrite Hf. reflexivity.
Qed.

(** noise rebinning is not implemented for the spline operator: as soon as one target lies in the range, error *)
Theorem spline_noise_throws gsl opt s b e Xt i x : opt <> OptNo -> wf_source s -> (3 <= length (s_X s))%nat ->
  increasing Xt -> range_inside s b e -> nth_error Xt i = Some x -> b <= x -> x <= e ->
  compute (rebinSpline gsl) opt s b e Xt = Throw INTERNAL_ERROR.
Proof.
  intros Hopt Hwf H3 Hinc (x0 & xl & Hx0 & Hxl & H0 & Hl) Hx Hb He.
  unfold compute, vget. rewrite Hx0, Hxl. simpl.
  destruct (Qltb_spec b x0); [lra|]. destruct (Qltb_spec xl e); [lra|]. simpl.
  unfold rebinSpline. rewrite (gsl_init_ok s Hwf H3). simpl.
  destruct (before_range_spec b Xt) as (B1 & B2 & B3). specialize (B3 Hinc).
  assert (Hc0 : (before_range b Xt <= i)%nat).
  { destruct (Nat.le_gt_cases (before_range b Xt) i) as [C|C]; auto. specialize (B2 i x C Hx). lra. }
  pose proof (nth_error_len _ _ _ Hx) as Hi.
  destruct (nth_error_lt Xt (before_range b Xt) ltac:(lia)) as (y & Hy).
  assert (Hyx : y <= x).
  { destruct (Nat.eq_dec (before_range b Xt) i) as [E|E].
    - rewrite E in Hy. assert (y = x) by congruence. subst. lra.
    - apply (Hinc (before_range b Xt) i); auto; lia. }
  rewrite (scan_throw e _ INTERNAL_ERROR _ _ y); [reflexivity| |lra|].
  - pose proof (nth_skipn Xt (before_range b Xt) 0) as Hs. rewrite Nat.add_0_r, Hy in Hs.
    destruct (skipn (before_range b Xt) Xt); simpl in *; [discriminate|congruence].
  - destruct opt; try reflexivity. contradiction.
Qed.

(** fine grid *)
Lemma Qtrunc_nonneg q : 0 <= q -> (0 <= Qtrunc q)%Z /\ inject_Z (Qtrunc q) <= q /\ q < inject_Z (Qtrunc q) + 1.
Proof.
  intro H. unfold Qtrunc. destruct (Qle_bool_spec 0 q); [|contradiction].
  pose proof (Qfloor_le q). pose proof (Qlt_floor q). rewrite inject_Z_plus in *.
  change (inject_Z 1) with 1 in *. repeat split; auto.
  apply Z.lt_succ_r. unfold Z.succ. rewrite Zlt_Qlt. rewrite inject_Z_plus. change (inject_Z 0) with 0.
  change (inject_Z 1) with 1. lra.
Qed.

Lemma to_int32_ok q : 0 <= q -> q < 2147483648 -> exists z, to_int32 q = Ok z /\ (0 <= z)%Z /\
  inject_Z z <= q /\ q < inject_Z z + 1.
Proof.
  intros H0 H1. destruct (Qtrunc_nonneg q H0) as (A & B & C). exists (Qtrunc q). unfold to_int32.
  assert (Qtrunc q < 2147483648)%Z.
  { rewrite Zlt_Qlt. change (inject_Z 2147483648) with 2147483648. lra. }
  destruct (Z.leb_spec (-2147483648) (Qtrunc q)); [|lia].
  destruct (Z.leb_spec (Qtrunc q) 2147483647); [|lia]. simpl. auto.
Qed.

Lemma nth_map_seq {A} (f : nat -> A) n k : (k < n)%nat -> nth_error (map f (seq 0 n)) k = Some (f k).
Proof.
  intro H. rewrite nth_error_map. 
  assert (E : nth_error (seq 0 n) k = Some k).
  { rewrite (nth_error_nth' _ 0%nat) by (rewrite seq_length; exact H). rewrite seq_nth by exact H. reflexivity. }
  rewrite E. reflexivity.
Qed.

Theorem finegrid_spec gsl s b e Xt lmin lmax : wf_source s -> (3 <= length (s_X s))%nat -> increasing Xt ->
  range_inside s b e ->
  nth_error (s_X s) 0 = Some lmin -> nth_error (s_X s) (length (s_X s) - 1) = Some lmax ->
  lmax - lmin <= 200000000 ->
  exists out, compute (rebinFine gsl) OptNo s b e Xt = Ok out /\ length out = length Xt /\
    forall i x, nth_error Xt i = Some x -> exists c, nth_error out i = Some c /\
      (b <= x /\ x <= e -> c_mask c = true /\ c_err c = EVal 1 /\
         exists k : nat, let g := lmin + inject_Z (Z.of_nat k) * (1 # 10) in
           Qabs (g - x) <= 5 # 100 /\
           (g <= lmax -> c_flux c = gsl (s_X s) (s_Y s) g) /\ (lmax < g -> c_flux c = 0)) /\
      (~ (b <= x /\ x <= e) -> c = mkCell 0 false (EVal 1)).
Proof.
  intros Hwf H3 Hinc Hr Hmin Hmax Hbig.
  pose proof Hwf as (Hs & HY & HE).
  assert (Hmm : lmin < lmax) by (apply (Hs 0%nat (length (s_X s) - 1)%nat); auto; lia).
  pose proof Hr as (x0 & xl & Hx0 & Hxl & H0 & Hl).
  rewrite Hmin in Hx0. injection Hx0 as <-. rewrite Hmax in Hxl. injection Hxl as <-.
  destruct (to_int32_ok ((lmax - lmin) / dLambda + 2 / dLambda)) as (nT & HnT & HnT0 & HnT1 & HnT2).
  { unfold dLambda. assert ((lmax - lmin) / (1#10) == (lmax - lmin) * 10) by field. 
    assert (2 / (1#10) == 20) by field. lra. }
  { unfold dLambda. assert ((lmax - lmin) / (1#10) == (lmax - lmin) * 10) by field. 
    assert (2 / (1#10) == 20) by field. lra. }
  set (pfg := map (fine_sample gsl s lmin lmax) (seq 0 (Z.to_nat nT))).
  assert (Hpfg : rebinFineGrid gsl s = Ok pfg).
  { unfold rebinFineGrid. destruct (Nat.eqb_spec (length (s_X s)) 0); [lia|].
    unfold vget. rewrite Hmin, Hmax. cbn [rbind]. rewrite HnT. cbn [rbind].
    destruct (Z.ltb_spec nT 0); [lia|]. rewrite (gsl_init_ok s Hwf H3). reflexivity. }
  assert (HQ : (lmax - lmin) / dLambda + 2 / dLambda == (lmax - lmin) * 10 + 20) by (unfold dLambda; field).
  rewrite HQ in HnT1, HnT2.
  assert (Hlenp : length pfg = Z.to_nat nT) by (unfold pfg; rewrite map_length, seq_length; reflexivity).
  assert (HnTpos : (0 < nT)%Z).
  { rewrite Zlt_Qlt. change (inject_Z 0) with 0. lra. }
  apply (point_op_spec (rebinFine gsl) (fine_cell OptNo s lmin pfg) OptNo s b e Xt
    (fun i x c => c_mask c = true /\ c_err c = EVal 1 /\
         exists k : nat, let g := lmin + inject_Z (Z.of_nat k) * (1 # 10) in
           Qabs (g - x) <= 5 # 100 /\
           (g <= lmax -> c_flux c = gsl (s_X s) (s_Y s) g) /\ (lmax < g -> c_flux c = 0))); auto.
  - intros cursor rem. unfold rebinFine. rewrite Hpfg. cbn [rbind]. rewrite Hlenp.
    destruct (Nat.eqb_spec (Z.to_nat nT) 0); [lia|]. unfold vget. rewrite Hmin. reflexivity.
  - intros i x Hx Hb He. unfold fine_cell.
    assert (HQx : (x - lmin) / dLambda + (1#2) == (x - lmin) * 10 + (1#2)) by (unfold dLambda; field).
    destruct (to_int32_ok ((x - lmin) / dLambda + (1#2))) as (k & Hk & Hk0 & Hk1 & Hk2); [lra|lra|].
    rewrite HQx in Hk1, Hk2.
    rewrite Hk. cbn [rbind]. destruct (Z.ltb_spec k 0); [lia|].
    assert (Hkn : (k < nT)%Z) by (rewrite Zlt_Qlt; lra).
    assert (Hget : vget pfg (Z.to_nat k) = Ok (fine_sample gsl s lmin lmax (Z.to_nat k))).
    { apply vget_Ok. unfold pfg. apply nth_map_seq. lia. }
    rewrite Hget. cbn [rbind]. eexists. split; [reflexivity|]. cbn [c_mask c_err c_flux].
    split; [reflexivity|]. split; [reflexivity|]. exists (Z.to_nat k).
    assert (HZ : Z.of_nat (Z.to_nat k) = k) by lia. rewrite HZ.
    assert (Hk0' : 0 <= inject_Z k) by (change 0 with (inject_Z 0); rewrite <- Zle_Qle; exact Hk0).
    cbv zeta. split; [|split].
    + apply Qabs_Qle_condition. split; lra.
    + intro Hg. unfold fine_sample. rewrite HZ. fold dLambda in Hg. fold dLambda.
      destruct (Qltb_spec (lmin + inject_Z k * dLambda) lmin) as [D|D]; [unfold dLambda in D; lra|].
      destruct (Qltb_spec lmax (lmin + inject_Z k * dLambda)) as [F|F]; [unfold dLambda in *; lra|].
      reflexivity.
    + intro Hg. unfold fine_sample. rewrite HZ. fold dLambda in Hg. fold dLambda.
      destruct (Qltb_spec lmax (lmin + inject_Z k * dLambda)) as [F|F]; [|unfold dLambda in *; lra].
      rewrite orb_true_r. reflexivity.
Qed.

From Coq Require Import String.
Lemma create_spec n : match create n with
  | Ok OpLinear => n = "lin"%string | Ok OpFineGrid => n = "preComputedFineGrid"%string
  | Ok OpSpline => n = "spline"%string | Ok OpNgp => n = "ngp"%string
  | Throw e => e = INVALID_PARAMETER /\ ~ In n ["lin"; "preComputedFineGrid"; "spline"; "ngp"]%string
  | UB => False end.
Proof.
  unfold create.
  destruct (String.eqb_spec n "lin"); [assumption|].
  destruct (String.eqb_spec n "preComputedFineGrid"); [assumption|].
  destruct (String.eqb_spec n "spline"); [assumption|].
  destruct (String.eqb_spec n "ngp"); [assumption|].
  split; [reflexivity|]. intros [H|[H|[H|[H|[]]]]]; congruence.
Qed.
