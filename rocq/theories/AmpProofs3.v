From Verif Require Import Base RangeModel AxisModel AxisProofs ElemModel ElemSpec ElemProofs EfitModel EfitSpec EfitProofs EfitProofs2 EfitProofs3 AmpModel AmpSpec AmpProofs AmpProofs2.
Open Scope Q_scope.

Section Off.
Variables (prof : nat -> Q -> Q -> Q -> Q) (sqrtf : Q -> Q) (absLimit : Q) (z : Q) (li : option nat) (os : list aobs).

(** * the fit does not read the amplitudes it replaces *)
Lemma sum_lines_unset skip o zz x c ls : forall i acc, sum_lines skip (nominal_flux prof o zz x c) i (unset ls) acc = sum_lines skip (nominal_flux prof o zz x c) i ls acc.
Proof.
  induction ls as [|l t IH]; intros i acc; cbn [unset map sum_lines]; [reflexivity|]. fold (unset t). destruct (skip i); [apply IH|].
  change (nominal_flux prof o zz x c i (set_efit l None)) with (nominal_flux prof o zz x c i l).
  destruct (nominal_flux prof o zz x c i l); cbn [rbind]; [apply IH|reflexivity|reflexivity].
Qed.
Lemma rfold_ext {A B} (f g : B -> A -> res B) l : (forall b a, f b a = g b a) -> forall b, rfold f l b = rfold g l b.
Proof. intros H. induction l as [|a t IH]; intros b; cbn [rfold]; [reflexivity|]. rewrite H. destruct (g b a); cbn [rbind]; [apply IH|reflexivity|reflexivity]. Qed.
Lemma cross_unset o ls acc : computeCrossProducts prof o (unset ls) z li acc = computeCrossProducts prof o ls z li acc.
Proof.
  unfold computeCrossProducts. apply rfold_ext. intros b h. destruct (s_out (a_s o) h); [reflexivity|]. destruct (inactive (a_s o) li h); [reflexivity|].
  apply rfold_ext. intros [[n d] m] i. unfold cross_sample. destruct (zget (a_c o) i); cbn [rbind]; [|reflexivity|reflexivity].
  destruct (zget (a_y o) i); cbn [rbind]; [|reflexivity|reflexivity]. destruct (zget (a_axis o) i); cbn [rbind]; [|reflexivity|reflexivity].
  rewrite sum_lines_unset. reflexivity.
Qed.
Lemma set_amps_unset A ls : forall i, set_amps absLimit os A i (unset ls) = set_amps absLimit os A i ls.
Proof. induction ls as [|l t IH]; intros i; cbn [unset map set_amps]; [reflexivity|]. fold (unset t). rewrite IH. reflexivity. Qed.
Lemma set_stds_unset A ls : forall i, set_stds os A i (unset ls) = set_stds os A i ls.
Proof. induction ls as [|l t IH]; intros i; cbn [unset map set_stds]; [reflexivity|]. fold (unset t). rewrite IH. reflexivity. Qed.
Lemma unset_set_amps A ls : forall i, unset (set_amps absLimit os A i ls) = unset ls.
Proof. induction ls as [|l t IH]; intros i; cbn [unset map set_amps]; [reflexivity|]. fold (unset t). fold (unset (set_amps absLimit os A (S i) t)). rewrite IH. reflexivity. Qed.
Lemma unset_unset ls : unset (unset ls) = unset ls.
Proof. induction ls as [|l t IH]; cbn [unset map]; [reflexivity|]. fold (unset t). fold (unset (unset t)). rewrite IH. reflexivity. Qed.
Lemma map_none_unset (ls : list eline) : map (fun _ => @None Q) (unset ls) = map (fun _ => None) ls.
Proof. unfold unset. rewrite map_map. reflexivity. Qed.
Lemma fit_unset p : globalOutside os = false -> fitAmplitude prof sqrtf absLimit p os z li = fitAmplitude prof sqrtf absLimit (mkEp (unset (p_lines p)) [] None None None) os z li.
Proof.
  intros G. unfold fitAmplitude. rewrite G. cbn [p_lines].
  rewrite (rfold_ext _ (fun acc o => computeCrossProducts prof o (unset (p_lines p)) z li acc)) by (intros; symmetry; apply cross_unset).
  destruct (rfold _ os _) as [[[n d] m]| |]; cbn [rbind]; [|reflexivity|reflexivity].
  rewrite unset_unset, map_none_unset, set_amps_unset, set_stds_unset. reflexivity.
Qed.
Lemma fit_shape p p' : globalOutside os = false -> unset (p_lines p) = unset (p_lines p') -> fitAmplitude prof sqrtf absLimit p os z li = fitAmplitude prof sqrtf absLimit p' os z li.
Proof. intros G E. rewrite (fit_unset p G), (fit_unset p' G), E. reflexivity. Qed.
Lemma fit_keeps p p' : globalOutside os = false -> fitAmplitude prof sqrtf absLimit p os z li = Ok p' -> unset (p_lines p') = unset (p_lines p).
Proof.
  intros G. unfold fitAmplitude. rewrite G. destruct (rfold _ os _) as [[[n d] m]| |]; cbn [rbind]; [|discriminate|discriminate].
  destruct ((n =? 0)%Z || Qeq_bool m 0)%bool; intros E; inversion E; cbn [p_lines]; [apply unset_unset|apply unset_set_amps].
Qed.

(** * the offsets *)
Lemma off_unset en v ls : unset (SetAllOffsetsEnabled en v ls) = SetAllOffsetsEnabled en v (unset ls).
Proof.
  revert en. induction ls as [|l t IH]; intros en; [destruct en; reflexivity|]. destruct en as [|b e]; [reflexivity|]. cbn [unset map SetAllOffsetsEnabled]. fold (unset t). fold (unset (SetAllOffsetsEnabled e v t)).
  rewrite IH. destruct b; reflexivity.
Qed.
Lemma off_off en v w ls : SetAllOffsetsEnabled en v (SetAllOffsetsEnabled en w ls) = SetAllOffsetsEnabled en v ls.
Proof. revert en. induction ls as [|l t IH]; intros en; [destruct en; reflexivity|]. destruct en as [|b e]; [reflexivity|]. cbn [SetAllOffsetsEnabled]. rewrite IH. destruct b; reflexivity. Qed.
Lemma off_nth en v ls k : nth_error (SetAllOffsetsEnabled en v ls) k = match nth_error ls k with
  | Some l => Some (match nth_error en k with Some true => set_offset l v | _ => l end) | None => None end.
Proof.
  revert en k. induction ls as [|l t IH]; intros en k; [destruct en, k; reflexivity|]. destruct en as [|b e]; cbn [SetAllOffsetsEnabled].
  - destruct k; cbn [nth_error]; [reflexivity|]. destruct (nth_error t k); reflexivity.
  - destruct k; cbn [nth_error]; [destruct b; reflexivity|apply IH].
Qed.
Lemma off_length en v ls : length (SetAllOffsetsEnabled en v ls) = length ls.
Proof. revert en. induction ls as [|l t IH]; intros en; [destruct en; reflexivity|]. destruct en as [|b e]; cbn [SetAllOffsetsEnabled length]; [reflexivity|]. rewrite IH. reflexivity. Qed.

Variables (en : list bool) (p0 : eparam).
Definition at_offset (i : Z) : res eparam := fitAmplitude prof sqrtf absLimit (setLambdaOffset en i p0) os z li.
(** same lines but for the amplitudes and the fitted offset *)
Definition same_frame (p : eparam) : Prop := forall v, SetAllOffsetsEnabled en v (unset (p_lines p)) = SetAllOffsetsEnabled en v (unset (p_lines p0)).
Lemma at_offset_frame p i : globalOutside os = false -> same_frame p -> fitAmplitude prof sqrtf absLimit (setLambdaOffset en i p) os z li = at_offset i.
Proof. intros G F. apply fit_shape; [exact G|]. unfold setLambdaOffset. cbn [p_lines]. rewrite !off_unset. apply F. Qed.
Lemma frame_at i q : globalOutside os = false -> at_offset i = Ok q -> same_frame q.
Proof. intros G E v. rewrite (fit_keeps _ _ G E). unfold setLambdaOffset. cbn [p_lines]. rewrite off_unset, off_off. reflexivity. Qed.

(** the best of the offsets seen *)
Definition best_of (lo hi : Z) (q : Z -> eparam) (best : option (Q * Z)) : Prop :=
  match best with
  | None => forall i, (lo <= i < hi)%Z -> getLeastSquareMeritFast (q i) = None
  | Some (b, j) => (lo <= j < hi)%Z /\ getLeastSquareMeritFast (q j) = Some b /\
      forall i m, (lo <= i < hi)%Z -> getLeastSquareMeritFast (q i) = Some m -> b <= m /\ ((i < j)%Z -> b < m)
  end.
Lemma loop_best q n : globalOutside os = false -> forall i0 p best, (0 <= i0)%Z -> (forall i, (i0 <= i < i0 + Z.of_nat n)%Z -> at_offset i = Ok (q i)) -> same_frame p -> best_of 0 i0 q best ->
  (0 < i0 -> p = q (i0 - 1))%Z ->
  exists p' best', offset_loop prof sqrtf absLimit en os z li n i0 p best = Ok (p', best') /\ same_frame p' /\ best_of 0 (i0 + Z.of_nat n) q best' /\
    ((0 < i0 + Z.of_nat n)%Z -> p' = q (i0 + Z.of_nat n - 1)%Z).
Proof.
  intros G. induction n as [|n IH]; intros i0 p best I0 Q F B L; cbn [offset_loop].
  - exists p, best. rewrite Z.add_0_r. repeat (split; [auto|]); auto.
  - rewrite (at_offset_frame p i0 G F). rewrite (Q i0 ltac:(lia)). cbn [rbind].
    set (best1 := match getLeastSquareMeritFast (q i0) with Some fit => match best with None => Some (fit, i0) | Some (b, _) => if Qltb fit b then Some (fit, i0) else best end | None => best end).
    assert (B1 : best_of 0 (i0 + 1) q best1).
    { unfold best1. destruct (getLeastSquareMeritFast (q i0)) as [m0|] eqn:M0.
      - destruct best as [[b j]|]; cbn [best_of] in *.
        + destruct B as (J & Mj & H). destruct (Qltb_spec m0 b) as [l|l]; cbn [best_of].
          * split; [lia|]. split; [exact M0|]. intros i m R Mi. destruct (Z.eq_dec i i0) as [->|D]; [rewrite M0 in Mi; inversion Mi; subst; split; [lra|lia]|].
            destruct (H i m ltac:(lia) Mi) as (H1 & _). split; [lra|]. intros _. lra.
          * split; [lia|]. split; [exact Mj|]. intros i m R Mi. destruct (Z.eq_dec i i0) as [->|D]; [rewrite M0 in Mi; inversion Mi; subst; split; [lra|lia]|]. apply H; [lia|exact Mi].
        + split; [lia|]. split; [exact M0|]. intros i m R Mi. destruct (Z.eq_dec i i0) as [->|D]; [rewrite M0 in Mi; inversion Mi; subst; split; [lra|lia]|]. rewrite (B i ltac:(lia)) in Mi. discriminate.
      - destruct best as [[b j]|]; cbn [best_of] in *.
        + destruct B as (J & Mj & H). split; [lia|]. split; [exact Mj|]. intros i m R Mi. destruct (Z.eq_dec i i0) as [->|D]; [congruence|]. apply H; [lia|exact Mi].
        + intros i R. destruct (Z.eq_dec i i0) as [->|D]; [exact M0|]. apply B. lia. }
    destruct (IH (i0 + 1)%Z (q i0) best1) as (p' & best' & E & F' & B' & L'); [lia|intros i R; apply Q; lia|exact (frame_at i0 (q i0) G (Q i0 ltac:(lia)))|exact B1|intros _; f_equal; lia|].
    exists p', best'. replace (i0 + Z.of_nat (S n))%Z with (i0 + 1 + Z.of_nat n)%Z by lia. repeat (split; [assumption|]). assumption.
Qed.
Lemma steps32 : Z.to_nat (GetLambdaOffsetSteps true) = 32%nat.
Proof. reflexivity. Qed.
Lemma Offsets q : globalOutside os = false -> (exists k, nth_error en k = Some true) -> (forall i, (0 <= i < 32)%Z -> at_offset i = Ok (q i)) ->
  (exists j m, (0 <= j < 32)%Z /\ fitAmplitudeAndLambdaOffset prof sqrtf absLimit p0 en os z li true = Ok (q j) /\ getLeastSquareMeritFast (q j) = Some m /\
     forall i m', (0 <= i < 32)%Z -> getLeastSquareMeritFast (q i) = Some m' -> m <= m' /\ ((i < j)%Z -> m < m')) \/
  ((forall i, (0 <= i < 32)%Z -> getLeastSquareMeritFast (q i) = None) /\ fitAmplitudeAndLambdaOffset prof sqrtf absLimit p0 en os z li true = Ok (q 31%Z)).
Proof.
  intros G (k & K) Q. unfold fitAmplitudeAndLambdaOffset, HasLambdaOffsetFitting. cbn [andb].
  assert (EX : existsb (fun b => b) en = true) by (apply existsb_exists; exists true; split; [exact (nth_error_In _ _ K)|reflexivity]).
  rewrite EX. cbn [negb]. rewrite steps32.
  destruct (loop_best q 32 G 0 p0 None) as (p' & best' & -> & F' & B' & L'); [lia|exact Q|intros v; reflexivity|intros i R; lia|lia|]. cbn [rbind].
  change (0 + Z.of_nat 32)%Z with 32%Z in *. destruct best' as [[b j]|]; cbn [best_of] in B'.
  - left. destruct B' as (J & M & H). exists j, b. split; [exact J|]. rewrite (at_offset_frame p' j G F'), (Q j J). split; [reflexivity|]. split; [exact M|exact H].
  - right. split; [exact B'|]. rewrite L' by lia. reflexivity.
Qed.
End Off.
