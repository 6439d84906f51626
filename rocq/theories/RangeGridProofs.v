(** Grids built over a range: SpreadOver, SpreadOver_backward, SpreadOverEpsilon,
    spanCenteredWindow. *)
From Verif Require Import Base RangeModel RangeSpec RangeProofs.
Open Scope Q_scope.

Lemma Qfloor_unique x z : inject_Z z <= x -> x < inject_Z (z + 1) -> Qfloor x = z.
Proof.
  intros H1 H2. pose proof (Qfloor_le x) as F1. pose proof (Qlt_floor x) as F2.
  assert (A : inject_Z z < inject_Z (Qfloor x + 1)) by lra.
  assert (B : inject_Z (Qfloor x) < inject_Z (z + 1)) by lra.
  rewrite <- Zlt_Qlt in A, B. lia.
Qed.
Lemma Qfloor_plus1 x : Qfloor (x + 1) = (Qfloor x + 1)%Z.
Proof.
  pose proof (Qfloor_le x) as F1. pose proof (Qlt_floor x) as F2.
  apply Qfloor_unique; rewrite !inject_Z_plus in *; change (inject_Z 1) with 1 in *; lra.
Qed.

Lemma Qtrunc_nonneg x : 0 <= x -> Qtrunc x = Qfloor x.
Proof. intro H. unfold Qtrunc. destruct (Qltb_spec x 0); [lra|reflexivity]. Qed.

Lemma to_int32_count x : 0 <= x -> x < int32_max -> to_int32 (x + 1) = Ok (Qfloor x + 1)%Z.
Proof.
  intros H1 H2. unfold to_int32. rewrite Qtrunc_nonneg by lra. rewrite Qfloor_plus1.
  pose proof (Qfloor_le x) as F1.
  assert (A : (0 <= Qfloor x)%Z).
  { pose proof (Qlt_floor x) as F2. assert (0 < inject_Z (Qfloor x + 1)) by lra.
    change 0 with (inject_Z 0) in *. rewrite <- Zlt_Qlt in *. lia. }
  assert (B : (Qfloor x < 2147483647)%Z).
  { unfold int32_max in H2. rewrite Zlt_Qlt. change (inject_Z 2147483647) with 2147483647. lra. }
  destruct (Z.leb_spec (-2147483648) (Qfloor x + 1)); [|lia].
  destruct (Z.leb_spec (Qfloor x + 1) 2147483647); [|lia]. reflexivity.
Qed.

Lemma nth_error_map_seq {A} (f : nat -> A) n : forall s i x,
  nth_error (map f (seq s n)) i = Some x <-> (i < n)%nat /\ x = f (s + i)%nat.
Proof.
  induction n as [|n IH]; intros s i x; simpl.
  - destruct i; split; intro H; try discriminate; lia.
  - destruct i as [|i]; simpl.
    + rewrite Nat.add_0_r. split; intro H; [inversion H; split; [lia|auto]|destruct H as [_ ->]; auto].
    + rewrite (IH (S s) i x). rewrite <- plus_n_Sm. simpl. split; intros [H1 H2]; split; auto; lia.
Qed.

(** number of full steps in the range *)
Definition nsteps (r : range) (delta : Q) : Z := Qfloor (GetLength r / delta).

Section Grid.
  Variables (r : range) (delta : Q).
  Hypothesis Hwf : well_formed r.
  Hypothesis Hd : 0 < delta.
  Hypothesis Hcount : GetLength r / delta < int32_max.

  Lemma len_div : GetLength r / delta * delta == GetLength r.
  Proof. field. lra. Qed.
  Lemma len_nonneg : 0 <= GetLength r.
  Proof. unfold GetLength, well_formed in *. lra. Qed.
  Lemma quot_nonneg : 0 <= GetLength r / delta.
  Proof. pose proof len_div as E. pose proof len_nonneg. nra. Qed.
  Lemma nsteps_nonneg : (0 <= nsteps r delta)%Z.
  Proof.
    unfold nsteps. pose proof (Qlt_floor (GetLength r / delta)) as F2. pose proof quot_nonneg.
    assert (0 < inject_Z (Qfloor (GetLength r / delta) + 1)) by lra.
    change 0 with (inject_Z 0) in *. rewrite <- Zlt_Qlt in *. lia.
  Qed.
  Lemma nsteps_fit : delta * inject_Z (nsteps r delta) <= GetLength r.
  Proof. unfold nsteps. pose proof (Qfloor_le (GetLength r / delta)). pose proof len_div. nra. Qed.
  Lemma nsteps_max : GetLength r < delta * inject_Z (nsteps r delta) + delta.
  Proof.
    unfold nsteps. pose proof (Qlt_floor (GetLength r / delta)) as H. rewrite inject_Z_plus in H.
    change (inject_Z 1) with 1 in H. pose proof len_div. nra.
  Qed.
  Lemma nsteps_short : GetLength r < delta -> nsteps r delta = 0%Z.
  Proof.
    intro H. pose proof nsteps_nonneg. pose proof nsteps_fit.
    destruct (Z.eq_dec (nsteps r delta) 0); auto. exfalso.
    assert (1 <= inject_Z (nsteps r delta)) by (change 1 with (inject_Z 1); rewrite <- Zle_Qle; lia).
    nra.
  Qed.
  Lemma nsteps_guard : (GetIsEmpty r || Qeq_bool delta 0 || Qltb (GetLength r) delta)%bool = true ->
    nsteps r delta = 0%Z.
  Proof.
    intro H. apply nsteps_short. unfold GetIsEmpty in H.
    destruct (Qeq_bool_spec (rbeg r) (rend r)) as [E|E].
    - unfold GetLength. lra.
    - destruct (Qeq_bool_spec delta 0); [lra|]. cbn [orb] in H. apply Qltb_true in H. exact H.
  Qed.

  Lemma SpreadOver_ok : exists v, SpreadOver r delta false = Ok v /\
    length v = S (Z.to_nat (nsteps r delta)) /\ arithmetic v (rbeg r) delta.
  Proof.
    pose proof nsteps_nonneg as Hn. unfold SpreadOver.
    destruct (GetIsEmpty r || Qeq_bool delta 0 || Qltb (GetLength r) delta)%bool eqn:E.
    - rewrite (nsteps_guard E). exists [rbeg r]. split; [reflexivity|]. split; [reflexivity|].
      intros i x H. destruct i as [|i]; simpl in H; [|destruct i; discriminate].
      inversion H; subst. simpl. change (inject_Z 0) with 0. lra.
    - rewrite to_int32_count by (auto using quot_nonneg). fold (nsteps r delta). cbn [rbind].
      unfold build. destruct (Z.ltb_spec (nsteps r delta + 1) 0); [lia|].
      eexists. split; [reflexivity|]. split.
      + rewrite map_length, seq_length. lia.
      + intros i x H'. apply nth_error_map_seq in H'. destruct H' as [_ ->]. reflexivity.
  Qed.

  Lemma SpreadOver_backward_ok : exists v, SpreadOver r delta true = Ok v /\
    length v = S (Z.to_nat (nsteps r delta)) /\
    arithmetic v (rend r - delta * inject_Z (nsteps r delta)) delta.
  Proof.
    pose proof nsteps_nonneg as Hn. unfold SpreadOver, SpreadOver_backward.
    destruct (GetIsEmpty r || Qeq_bool delta 0 || Qltb (GetLength r) delta)%bool eqn:E.
    - rewrite (nsteps_guard E). exists [rend r]. split; [reflexivity|]. split; [reflexivity|].
      intros i x H. destruct i as [|i]; simpl in H; [|destruct i; discriminate].
      inversion H; subst. simpl. change (inject_Z 0) with 0. lra.
    - rewrite to_int32_count by (auto using quot_nonneg). fold (nsteps r delta). cbn [rbind].
      unfold build. destruct (Z.ltb_spec (nsteps r delta + 1) 0); [lia|].
      eexists. split; [reflexivity|]. split.
      + rewrite map_length, seq_length. lia.
      + intros i x H'. apply nth_error_map_seq in H'. destruct H' as [_ ->].
        unfold Z.sub. rewrite !inject_Z_plus, !inject_Z_opp. cbn [Nat.add]. change (inject_Z 1) with 1. lra.
  Qed.
End Grid.

Lemma arithmetic_bounds v x0 d n i x : 0 < d -> arithmetic v x0 d -> length v = S n ->
  nth_error v i = Some x -> x0 <= x /\ x <= x0 + d * inject_Z (Z.of_nat n).
Proof.
  intros Hd Ha Hl Hx. pose proof (nth_error_len _ _ _ Hx) as Hi. rewrite (Ha i x Hx).
  assert (0 <= inject_Z (Z.of_nat i)) by (change 0 with (inject_Z 0); rewrite <- Zle_Qle; lia).
  assert (inject_Z (Z.of_nat i) <= inject_Z (Z.of_nat n)) by (rewrite <- Zle_Qle; lia).
  split; nra.
Qed.

Lemma arithmetic_strict v x0 d : 0 < d -> arithmetic v x0 d -> strictly_increasing v.
Proof.
  intros Hd Ha i j x y Hij Hx Hy. rewrite (Ha i x Hx), (Ha j y Hy).
  assert (inject_Z (Z.of_nat i) < inject_Z (Z.of_nat j)) by (rewrite <- Zlt_Qlt; lia). nra.
Qed.

Lemma SpreadOver_spec r delta : well_formed r -> 0 < delta -> GetLength r / delta < int32_max ->
  exists v, SpreadOver r delta false = Ok v /\
    Z.of_nat (length v) = (Qfloor ((rend r - rbeg r) / delta) + 1)%Z /\
    arithmetic v (rbeg r) delta /\ (forall x, In x v -> inside r x) /\
    exists x, nth_error v (length v - 1) = Some x /\ rend r - delta < x.
Proof.
  intros Hwf Hd Hc. destruct (SpreadOver_ok r delta Hwf Hd Hc) as (v & E & Hl & Ha).
  pose proof (nsteps_nonneg r delta Hwf Hd) as Hn. pose proof (nsteps_fit r delta Hd) as Hf.
  pose proof (nsteps_max r delta Hd) as Hm.
  exists v. split; [exact E|]. split; [rewrite Hl; unfold nsteps, GetLength in *; lia|]. split; [exact Ha|]. split.
  - intros x Hx. apply In_nth_error in Hx. destruct Hx as [i Hi].
    destruct (arithmetic_bounds v _ _ _ i x Hd Ha Hl Hi) as [B1 B2].
    rewrite Z2Nat.id in B2 by lia. unfold inside, GetLength in *. lra.
  - destruct (nth_error_lt v (length v - 1)) as [x Hx]; [lia|]. exists x. split; [exact Hx|].
    rewrite (Ha _ _ Hx), Hl. replace (Z.of_nat (S (Z.to_nat (nsteps r delta)) - 1)) with (nsteps r delta) by lia.
    unfold GetLength in *. lra.
Qed.

Lemma SpreadOver_backward_spec r delta : well_formed r -> 0 < delta -> GetLength r / delta < int32_max ->
  exists v, SpreadOver r delta true = Ok v /\
    Z.of_nat (length v) = (Qfloor ((rend r - rbeg r) / delta) + 1)%Z /\
    (exists x0, arithmetic v x0 delta /\ x0 < rbeg r + delta) /\ (forall x, In x v -> inside r x) /\
    last_is v (rend r).
Proof.
  intros Hwf Hd Hc. destruct (SpreadOver_backward_ok r delta Hwf Hd Hc) as (v & E & Hl & Ha).
  pose proof (nsteps_nonneg r delta Hwf Hd) as Hn. pose proof (nsteps_fit r delta Hd) as Hf.
  pose proof (nsteps_max r delta Hd) as Hm.
  exists v. split; [exact E|]. split; [rewrite Hl; unfold nsteps, GetLength in *; lia|]. split; [|split].
  - eexists. split; [exact Ha|]. unfold GetLength in *. lra.
  - intros x Hx. apply In_nth_error in Hx. destruct Hx as [i Hi].
    destruct (arithmetic_bounds v _ _ _ i x Hd Ha Hl Hi) as [B1 B2].
    rewrite Z2Nat.id in B2 by lia. unfold inside, GetLength in *. lra.
  - destruct (nth_error_lt v (length v - 1)) as [x Hx]; [lia|]. exists x. split; [exact Hx|].
    rewrite (Ha _ _ Hx), Hl. replace (Z.of_nat (S (Z.to_nat (nsteps r delta)) - 1)) with (nsteps r delta) by lia.
    lra.
Qed.

(** ** the epsilon variants *)
Definition clamp_at (r : range) (n i : nat) (x : Q) : Q :=
  let y := if Nat.eqb i 0 then Qmaxb x (rbeg r) else x in
  if Nat.eqb i (n - 1) then Qminb y (rend r) else y.

Lemma clamp_ends_spec r l : l <> [] -> exists l', clamp_ends r l = Ok l' /\ length l' = length l /\
  forall i x', nth_error l' i = Some x' -> exists x, nth_error l i = Some x /\ x' = clamp_at r (length l) i x.
Proof.
  intro Hne. destruct l as [|h t]; [contradiction|]. unfold clamp_ends.
  set (l1 := Qmaxb h (rbeg r) :: t). destruct (back_ok l1) as (b & Eb & Hb); [discriminate|].
  rewrite Eb. cbn [rbind].
  destruct (vset_ok l1 (length l1 - 1) (Qminb b (rend r))) as (l' & Ev & Hl & Hn & Ho); [unfold l1; simpl; lia|].
  exists l'. split; [exact Ev|]. split; [exact Hl|].
  intros i x' Hx'. unfold clamp_at. change (length (h :: t)) with (length l1).
  assert (Hi : (i < length l1)%nat) by (rewrite <- Hl; eapply nth_error_len; eauto).
  destruct (Nat.eqb_spec i (length l1 - 1)) as [E|E].
  - subst i. rewrite Hn in Hx'. inversion Hx'; subst x'. unfold l1 in Hb |- *. simpl in Hb |- *.
    destruct (length t - 0)%nat as [|k] eqn:Ek; simpl in *.
    + inversion Hb; subst. eauto.
    + rewrite Nat.sub_0_r in Ek. rewrite Ek in *. simpl in *. eauto.
  - rewrite Ho in Hx' by exact E. unfold l1 in Hx'. destruct i as [|i]; simpl in Hx' |- *.
    + inversion Hx'; subst. eauto.
    + eauto.
Qed.

Lemma clamp_ends_nth r l l' : clamp_ends r l = Ok l' -> l <> [] -> length l' = length l /\
  forall i x, nth_error l i = Some x -> nth_error l' i = Some (clamp_at r (length l) i x).
Proof.
  intros E Hne. destruct (clamp_ends_spec r l Hne) as (l2 & E2 & Hl & Hs).
  rewrite E in E2. inversion E2; subst l2. split; [exact Hl|]. intros i x Hx.
  destruct (nth_error_lt l' i) as [y Hy]; [rewrite Hl; eapply nth_error_len; eauto|].
  destruct (Hs i y Hy) as (x1 & Hx1 & ->). rewrite Hx in Hx1. inversion Hx1; subst. exact Hy.
Qed.

Lemma SpreadOverEpsilon_forward r delta eps :
  well_formed r -> 0 <= eps -> eps < delta -> (GetLength r + eps) / delta < int32_max ->
  exists v, SpreadOverEpsilon r delta false eps = Ok v /\ v <> [] /\ first_is v (rbeg r) /\
    (forall x, In x v -> inside r x) /\ near_uniform v delta eps /\
    (forall i x, (S i < length v)%nat -> nth_error v i = Some x -> x == rbeg r + delta * inject_Z (Z.of_nat i)) /\
    exists x, nth_error v (length v - 1) = Some x /\ rend r - delta < x.
Proof.
  intros Hwf He Hed Hc. unfold well_formed in Hwf. unfold SpreadOverEpsilon.
  set (r' := range_add r (mkRange 0 eps)).
  assert (W : well_formed r') by (unfold well_formed, r', range_add; simpl; lra).
  assert (C : GetLength r' / delta < int32_max).
  { unfold GetLength, r', range_add in *; cbn [rbeg rend] in *.
    setoid_replace (rend r + eps - (rbeg r + 0)) with (rend r - rbeg r + eps) by lra. exact Hc. }
  assert (Hd : 0 < delta) by lra.
  destruct (SpreadOver_ok r' delta W Hd C) as (w & Ew & Hl & Ha).
  pose proof (nsteps_nonneg r' delta W Hd) as Hn. pose proof (nsteps_fit r' delta Hd) as Hf.
  pose proof (nsteps_max r' delta Hd) as Hm.
  set (N := Z.to_nat (nsteps r' delta)) in *.
  assert (HN : nsteps r' delta = Z.of_nat N) by (unfold N; lia). rewrite HN in *.
  unfold GetLength in Hf, Hm.
  rewrite Ew. cbn [rbind].
  assert (B : rbeg r' == rbeg r) by (unfold r', range_add; simpl; lra).
  assert (Ee : rend r' == rend r + eps) by (unfold r', range_add; simpl; lra).
  assert (Hne : w <> []) by (intro K; rewrite K in Hl; discriminate).
  destruct (clamp_ends_spec r w Hne) as (v & Ev & Hlv & _).
  destruct (clamp_ends_nth r w v Ev Hne) as [_ Hv].
  assert (Hval : forall i x, nth_error v i = Some x -> (i <= N)%nat /\
      (i <> N -> x == rbeg r + delta * inject_Z (Z.of_nat i)) /\
      (i = N -> x == Qminb (rbeg r + delta * inject_Z (Z.of_nat N)) (rend r))).
  { intros i x Hx. pose proof (nth_error_len _ _ _ Hx) as Hi. rewrite Hlv in Hi.
    destruct (nth_error_lt w i Hi) as [z Hz]. pose proof (Hv i z Hz) as Hx2.
    rewrite Hx in Hx2. inversion Hx2; subst x; clear Hx2.
    pose proof (Ha i z Hz) as Hza. rewrite B in Hza. rewrite Hl in *. split; [lia|].
    unfold clamp_at. replace (S N - 1)%nat with N by lia.
    assert (Hy : (if Nat.eqb i 0 then Qmaxb z (rbeg r) else z) == rbeg r + delta * inject_Z (Z.of_nat i)).
    { destruct (Nat.eqb_spec i 0) as [->|]; [|exact Hza]. change (inject_Z (Z.of_nat 0)) with 0 in *.
      unfold Qmaxb. qcase; lra. }
    split; intro K.
    - destruct (Nat.eqb_spec i N) as [|_]; [lia|]. exact Hy.
    - subst i. rewrite Nat.eqb_refl. unfold Qminb. repeat qcase; lra. }
  exists v. split; [exact Ev|]. split; [intro K; rewrite K in Hlv; simpl in Hlv; lia|].
  assert (Hlast : rbeg r + delta * inject_Z (Z.of_nat N) <= rend r + eps) by lra.
  assert (Hprev : forall i, (i < N)%nat -> rbeg r + delta * inject_Z (Z.of_nat i) + delta <= rend r + eps).
  { intros i Hi. assert (inject_Z (Z.of_nat i) + 1 <= inject_Z (Z.of_nat N)).
    { change 1 with (inject_Z 1). rewrite <- inject_Z_plus, <- Zle_Qle. lia. } nra. }
  assert (Hpos : forall i, 0 <= delta * inject_Z (Z.of_nat i)).
  { intro i. assert (0 <= inject_Z (Z.of_nat i)) by (change 0 with (inject_Z 0); rewrite <- Zle_Qle; lia). nra. }
  split; [|split; [|split; [|split]]].
  - destruct (nth_error_lt v 0) as [x Hx]; [lia|]. exists x. split; [exact Hx|].
    destruct (Hval 0%nat x Hx) as (_ & V1 & V2).
    destruct (Nat.eq_dec 0 N) as [E0|E0].
    + rewrite V2 by exact E0. rewrite <- E0. change (inject_Z (Z.of_nat 0)) with 0. unfold Qminb. qcase; lra.
    + rewrite V1 by exact E0. change (inject_Z (Z.of_nat 0)) with 0. lra.
  - intros x Hx. apply In_nth_error in Hx. destruct Hx as [i Hi].
    destruct (Hval i x Hi) as (Vi & V1 & V2). unfold inside.
    destruct (Nat.eq_dec i N) as [E0|E0].
    + rewrite V2 by exact E0. pose proof (Hpos N). unfold Qminb. qcase; lra.
    + rewrite V1 by exact E0. pose proof (Hpos i). pose proof (Hprev i ltac:(lia)). lra.
  - intros i x y Hx Hy. destruct (Hval i x Hx) as (Vi & V1 & _). destruct (Hval (S i) y Hy) as (Wi & W1 & W2).
    rewrite V1 by lia.
    assert (Estep : delta * inject_Z (Z.of_nat (S i)) == delta * inject_Z (Z.of_nat i) + delta).
    { rewrite Nat2Z.inj_succ. unfold Z.succ. rewrite inject_Z_plus. change (inject_Z 1) with 1. lra. }
    destruct (Nat.eq_dec (S i) N) as [E0|E0].
    + rewrite W2 by exact E0. rewrite <- E0 in *. pose proof (Hprev i ltac:(lia)). unfold Qminb. qcase; lra.
    + rewrite W1 by exact E0. lra.
  - intros i x Hi Hx. apply Hval; auto. lia.
  - destruct (nth_error_lt v (length v - 1)) as [x Hx]; [lia|]. exists x. split; [exact Hx|].
    destruct (Hval _ x Hx) as (_ & _ & V2). rewrite V2 by lia. unfold Qminb. qcase; lra.
Qed.

Lemma SpreadOverEpsilon_backward r delta eps :
  well_formed r -> 0 <= eps -> eps < delta -> (GetLength r + eps) / delta < int32_max ->
  exists v, SpreadOverEpsilon r delta true eps = Ok v /\ v <> [] /\ last_is v (rend r) /\
    (forall x, In x v -> inside r x) /\ near_uniform v delta eps /\
    (forall i x, (0 < i)%nat -> nth_error v i = Some x ->
        x == rend r - delta * inject_Z (Z.of_nat (length v - 1 - i))) /\
    exists x, nth_error v 0 = Some x /\ x < rbeg r + delta.
Proof.
  intros Hwf He Hed Hc. unfold well_formed in Hwf. unfold SpreadOverEpsilon.
  set (r' := range_add r (mkRange (- eps) 0)).
  assert (W : well_formed r') by (unfold well_formed, r', range_add; simpl; lra).
  assert (C : GetLength r' / delta < int32_max).
  { unfold GetLength, r', range_add in *; cbn [rbeg rend] in *.
    setoid_replace (rend r + 0 - (rbeg r + - eps)) with (rend r - rbeg r + eps) by lra. exact Hc. }
  assert (Hd : 0 < delta) by lra.
  destruct (SpreadOver_backward_ok r' delta W Hd C) as (w & Ew & Hl & Ha).
  pose proof (nsteps_nonneg r' delta W Hd) as Hn. pose proof (nsteps_fit r' delta Hd) as Hf.
  pose proof (nsteps_max r' delta Hd) as Hm.
  set (N := Z.to_nat (nsteps r' delta)) in *.
  assert (HN : nsteps r' delta = Z.of_nat N) by (unfold N; lia). rewrite HN in *.
  unfold GetLength in Hf, Hm.
  rewrite Ew. cbn [rbind].
  assert (B : rbeg r' == rbeg r - eps) by (unfold r', range_add; simpl; lra).
  assert (Ee : rend r' == rend r) by (unfold r', range_add; simpl; lra).
  assert (Hne : w <> []) by (intro K; rewrite K in Hl; discriminate).
  destruct (clamp_ends_spec r w Hne) as (v & Ev & Hlv & _).
  destruct (clamp_ends_nth r w v Ev Hne) as [_ Hv].
  assert (Hlast : rbeg r - eps <= rend r - delta * inject_Z (Z.of_nat N)) by lra.
  assert (Hsub : forall i, (i <= N)%nat -> inject_Z (Z.of_nat (N - i)) == inject_Z (Z.of_nat N) - inject_Z (Z.of_nat i)).
  { intros i Hi. rewrite Nat2Z.inj_sub by lia. unfold Z.sub. rewrite inject_Z_plus, inject_Z_opp. lra. }
  assert (Hpos : forall i, 0 <= delta * inject_Z (Z.of_nat i)).
  { intro i. assert (0 <= inject_Z (Z.of_nat i)) by (change 0 with (inject_Z 0); rewrite <- Zle_Qle; lia). nra. }
  assert (Hval : forall i x, nth_error v i = Some x -> (i <= N)%nat /\
      (i <> O -> x == rend r - delta * inject_Z (Z.of_nat (N - i))) /\
      (i = O -> x == Qmaxb (rend r - delta * inject_Z (Z.of_nat N)) (rbeg r))).
  { intros i x Hx. pose proof (nth_error_len _ _ _ Hx) as Hi. rewrite Hlv in Hi.
    destruct (nth_error_lt w i Hi) as [z Hz]. pose proof (Hv i z Hz) as Hx2.
    rewrite Hx in Hx2. inversion Hx2; subst x; clear Hx2.
    pose proof (Ha i z Hz) as Hza. rewrite Ee in Hza. rewrite Hl in *. split; [lia|].
    unfold clamp_at. replace (S N - 1)%nat with N by lia.
    assert (Hz' : z == rend r - delta * inject_Z (Z.of_nat (N - i))) by (rewrite Hsub by lia; lra).
    split; intro K.
    - destruct (Nat.eqb_spec i 0) as [|_]; [lia|]. destruct (Nat.eqb_spec i N) as [E0|_]; [|exact Hz'].
      subst i. rewrite Nat.sub_diag in *. change (inject_Z (Z.of_nat 0)) with 0 in *. unfold Qminb. qcase; lra.
    - subst i. rewrite Nat.eqb_refl. rewrite Nat.sub_0_r in Hz'.
      assert (Qmaxb z (rbeg r) == Qmaxb (rend r - delta * inject_Z (Z.of_nat N)) (rbeg r)) by (unfold Qmaxb; repeat qcase; lra).
      destruct (Nat.eqb_spec 0 N) as [E0|_]; [|assumption].
      pose proof (Hpos N). unfold Qminb, Qmaxb in *. repeat qcase; lra. }
  exists v. split; [exact Ev|]. split; [intro K; rewrite K in Hlv; simpl in Hlv; lia|].
  assert (Hnext : forall i, (0 < i <= N)%nat -> rbeg r - eps + delta <= rend r - delta * inject_Z (Z.of_nat (N - i))).
  { intros i Hi. rewrite Hsub by lia. assert (1 <= inject_Z (Z.of_nat i)).
    { change 1 with (inject_Z 1). rewrite <- Zle_Qle. lia. } nra. }
  split; [|split; [|split; [|split]]].
  - destruct (nth_error_lt v (length v - 1)) as [x Hx]; [lia|]. exists x. split; [exact Hx|].
    destruct (Hval _ x Hx) as (_ & V1 & V2).
    destruct (Nat.eq_dec (length v - 1) 0) as [E0|E0].
    + rewrite V2 by exact E0. assert (N = 0)%nat by lia. subst N. rewrite H. change (inject_Z (Z.of_nat 0)) with 0.
      unfold Qmaxb. qcase; lra.
    + rewrite V1 by exact E0. replace (N - (length v - 1))%nat with 0%nat by lia. change (inject_Z (Z.of_nat 0)) with 0. lra.
  - intros x Hx. apply In_nth_error in Hx. destruct Hx as [i Hi].
    destruct (Hval i x Hi) as (Vi & V1 & V2). unfold inside.
    destruct (Nat.eq_dec i 0) as [E0|E0].
    + rewrite V2 by exact E0. pose proof (Hpos N). unfold Qmaxb. qcase; lra.
    + rewrite V1 by exact E0. pose proof (Hpos (N - i)%nat). pose proof (Hnext i ltac:(lia)). lra.
  - intros i x y Hx Hy. destruct (Hval i x Hx) as (Vi & V1 & V2). destruct (Hval (S i) y Hy) as (Wi & W1 & _).
    rewrite W1 by lia.
    assert (Estep : delta * inject_Z (Z.of_nat (N - i)) == delta * inject_Z (Z.of_nat (N - S i)) + delta).
    { rewrite !Hsub by lia. rewrite Nat2Z.inj_succ. unfold Z.succ. rewrite inject_Z_plus. change (inject_Z 1) with 1. lra. }
    destruct (Nat.eq_dec i 0) as [E0|E0].
    + rewrite V2 by exact E0. subst i. rewrite Nat.sub_0_r in Estep. pose proof (Hnext 1%nat ltac:(lia)).
      unfold Qmaxb. qcase; lra.
    + rewrite V1 by exact E0. lra.
  - intros i x Hi Hx. replace (length v - 1 - i)%nat with (N - i)%nat by lia. apply Hval; auto. lia.
  - destruct (nth_error_lt v 0) as [x Hx]; [lia|]. exists x. split; [exact Hx|].
    destruct (Hval _ x Hx) as (_ & _ & V2). rewrite V2 by lia. unfold Qmaxb. qcase; lra.
Qed.

Lemma near_uniform_strict v d eps : eps < d -> near_uniform v d eps -> strictly_increasing v.
Proof.
  intros H Hn i j x y Hij Hx Hy. revert y Hy.
  induction j as [|j IH]; [lia|]. intros y Hy.
  destruct (nth_error_lt v j) as [z Hz]; [pose proof (nth_error_len _ _ _ Hy); lia|].
  destruct (Hn j z y Hz Hy) as [A _].
  destruct (Nat.eq_dec i j) as [->|E].
  - assert (x = z) by congruence. subst. lra.
  - assert (x < z) by (apply IH; auto; lia). lra.
Qed.

(** spanCenteredWindow, linear sampling *)
Lemma spanCenteredWindow_lin_spec r center delta :
  inside r center -> default_epsilon < delta ->
  (rend r - rbeg r + default_epsilon) / delta < int32_max ->
  exists v, spanCenteredWindow_lin r center delta = Ok v /\
    strictly_increasing v /\ (forall x, In x v -> inside r x) /\
    near_uniform v delta default_epsilon /\
    (exists i x, nth_error v i = Some x /\ x == center) /\
    (exists x, nth_error v 0 = Some x /\ x < rbeg r + delta) /\
    (exists x, nth_error v (length v - 1) = Some x /\ rend r - delta < x).
Proof.
  intros [H1 H2] Hd Hc. unfold spanCenteredWindow_lin.
  set (eps := default_epsilon) in *.
  assert (He : 0 <= eps) by (unfold eps, default_epsilon; lra). assert (Hd0 : 0 < delta) by lra.
  assert (Hq : forall a, a <= rend r - rbeg r -> (a + eps) / delta < int32_max).
  { intros a Ha. assert (E1 : (a + eps) / delta * delta == a + eps) by (field; lra).
    assert (E2 : (rend r - rbeg r + eps) / delta * delta == rend r - rbeg r + eps) by (field; lra). nra. }
  destruct (SpreadOverEpsilon_backward (mkRange (rbeg r) center) delta eps) as
    (v1 & E1 & N1 & L1 & I1 & U1 & _ & F1); auto; try (unfold GetLength; cbn [rbeg rend]; apply Hq; lra).
  destruct (SpreadOverEpsilon_forward (mkRange center (rend r)) delta eps) as
    (v2 & E2 & N2 & L2 & I2 & U2 & _ & F2); auto; try (unfold GetLength; cbn [rbeg rend]; apply Hq; lra).
  rewrite E1. cbn [rbind]. rewrite E2. cbn [rbind]. cbn [rbeg rend] in *.
  destruct v2 as [|c t]; [contradiction|].
  destruct L2 as [c' [Hc' Ec]]. simpl in Hc'. inversion Hc'; subst c'. clear Hc'.
  destruct L1 as [l1 [Hl1 El1]].
  assert (Hlen1 : (0 < length v1)%nat) by (destruct v1; [contradiction|simpl; lia]).
  exists (v1 ++ t). split; [reflexivity|].
  assert (HU : near_uniform (v1 ++ t) delta eps).
  { intros i x y Hx Hy. destruct (le_lt_dec (length v1) i) as [K|K].
    - rewrite nth_error_app2 in Hx, Hy by lia. apply (U2 (S (i - length v1)) x y).
      + simpl. exact Hx.
      + replace (S (S (i - length v1))) with (S (S i - length v1)) by lia. simpl. exact Hy.
    - rewrite nth_error_app1 in Hx by lia. destruct (Nat.eq_dec (S i) (length v1)) as [E|E].
      + rewrite nth_error_app2 in Hy by lia. replace (S i - length v1)%nat with 0%nat in Hy by lia.
        replace (length v1 - 1)%nat with i in Hl1 by lia. assert (x = l1) by congruence. subst x.
        destruct (U2 0%nat c y) as [A B]; simpl; auto. lra.
      + rewrite nth_error_app1 in Hy by lia. apply (U1 i x y); auto. }
  split; [apply (near_uniform_strict _ delta eps); [lra|exact HU]|]. split; [|split; [exact HU|split; [|split]]].
  - intros x Hx. apply in_app_or in Hx. destruct Hx as [Hx|Hx].
    + destruct (I1 x Hx) as [A B]. cbn [rbeg rend] in *. split; lra.
    + destruct (I2 x (or_intror Hx)) as [A B]. cbn [rbeg rend] in *. split; lra.
  - exists (length v1 - 1)%nat, l1. split; [rewrite nth_error_app1 by lia; exact Hl1|exact El1].
  - destruct F1 as [x [Hx Hx']]. exists x. split; [rewrite nth_error_app1 by lia; exact Hx|exact Hx'].
  - destruct F2 as [x [Hx Hx']]. simpl in Hx. rewrite Nat.sub_0_r in Hx.
    destruct t as [|b t].
    + simpl in Hx. inversion Hx; subst. exists l1. rewrite app_nil_r. split; [exact Hl1|]. lra.
    + exists x. split; [|exact Hx']. rewrite app_length. simpl in *.
      rewrite nth_error_app2 by lia. replace (length v1 + S (length t) - 1 - length v1)%nat with (length t) by lia. exact Hx.
Qed.

(** a negative step: empty grid, then front() of an empty vector *)
Lemma SpreadOverEpsilon_negative_step_UB :
  exists r delta, well_formed r /\ delta < 0 /\ SpreadOverEpsilon r delta false default_epsilon = UB.
Proof. exists (mkRange 0 1), (- (1)). split; [unfold well_formed; simpl; lra|]. split; [lra|]. vm_compute. reflexivity. Qed.
