(** C67: the amplitude of an element, and its offset, are those of the least squares. *)
From Coq Require Import Qabs Qround.
From Verif Require Import Base RangeModel AxisModel AxisProofs ElemModel ElemSpec ElemProofs EfitModel EfitSpec EfitProofs EfitProofs2 EfitProofs3 AmpModel AmpSpec AmpProofs AmpProofs2 AmpProofs3 AmpProofs4.
Open Scope Q_scope.

(** ** the amplitude *)
(** the model of amplitude one is defined on the fitted samples of each observation *)
Theorem C67_views : forall prof ls z li os, Forall (good_obs ls z) os -> exists vs, Forall2 (is_view prof ls li z) os vs.
Proof. exact Views_exist. Qed.
Print Assumptions C67_views.
(** the amplitude fitted is not negative and minimises the chi square over all the observations; each line gets it times its nominal amplitude (an absorption line at most the
    limit); its uncertainty is one over the root of the information; the merit is the change of the chi square with respect to no line.  Without signal, no amplitude. *)
Theorem C67_fit : forall prof sqrtf absLimit ls z li p os vs, p_lines p = ls -> globalOutside os = false -> Forall (good_obs ls z) os -> Forall (fun o => unshared (a_s o)) os -> Forall2 (is_view prof ls li z) os vs ->
  exists p', fitAmplitude prof sqrtf absLimit p os z li = Ok p' /\
    ((amp_info vs == 0 /\ amplitude_unset ls (p_lines p') /\ p_std p' = map (fun _ => None) ls /\ getLeastSquareMeritFast p' = None) \/
     (0 < amp_info vs /\ exists A, 0 <= A /\ (forall a, 0 <= a -> amp_chi2 vs A <= amp_chi2 vs a) /\ amplitude_set absLimit os A ls (p_lines p') /\
        (exists i, i == amp_info vs /\ forall k l, nth_error ls k = Some l -> (exists o, In o os /\ s_out (a_s o) k = false) -> nth_error (p_std p') k = Some (Some (1 / sqrtf i * el_nom l))) /\
        forall f, getLeastSquareMeritFast p' = Some f -> exists a, GetParamAmplitude (p_lines p') = Some a /\ f == amp_chi2 vs a - amp_chi2 vs 0 /\
          ((forall l, In l ls -> el_neg l = false) -> a == A))).
Proof. exact Fit. Qed.
Print Assumptions C67_fit.
(** for emission lines with a signal the merit is always a number, the gain of the best amplitude *)
Theorem C67_merit : forall prof sqrtf absLimit z li os p vs q, globalOutside os = false -> Forall (good_obs (p_lines p) z) os -> Forall (fun o => unshared (a_s o)) os -> Forall2 (is_view prof (p_lines p) li z) os vs ->
  (forall l, In l (p_lines p) -> el_neg l = false) -> fitAmplitude prof sqrtf absLimit p os z li = Ok q ->
  (amp_info vs == 0 /\ amplitude_unset (p_lines p) (p_lines q) /\ getLeastSquareMeritFast q = None) \/
  (0 < amp_info vs /\ exists A m, 0 <= A /\ (forall a, 0 <= a -> amp_chi2 vs A <= amp_chi2 vs a) /\ amplitude_set absLimit os A (p_lines p) (p_lines q) /\
     getLeastSquareMeritFast q = Some m /\ m == amp_chi2 vs A - amp_chi2 vs 0).
Proof. exact Fit_merit. Qed.
Print Assumptions C67_merit.
(** the supports are not shared as soon as two of them with a common sample have two *)
Lemma Unshared_if s : (forall m m' t, used s m -> used s m' -> in_support t (s_theo s m) -> in_support t (s_theo s m') -> m = m' \/ overlap (s_theo s m) (s_theo s m')) -> unshared s.
Proof.
  intros H k k' t U U' (m & L & I) (m' & L' & I'). pose proof (linked_inr2 _ _ _ _ L) as Um. pose proof (linked_inr2 _ _ _ _ L') as Um'.
  apply linked_trans with m; [exact L|]. apply linked_trans with m'; [|apply linked_sym; exact L'].
  destruct (H m m' _ Um Um' I I') as [->|O]; [constructor; exact Um'|]. apply linked_step with m; [constructor; exact Um|exact Um'|exact O].
Qed.
Theorem C67_unshared : forall s, (forall m m' t, used s m -> used s m' -> in_support t (s_theo s m) -> in_support t (s_theo s m') -> m = m' \/ overlap (s_theo s m) (s_theo s m')) -> unshared s.
Proof. exact Unshared_if. Qed.
Print Assumptions C67_unshared.
(** the previous amplitudes have no effect on the fit *)
Theorem C67_forgets : forall prof sqrtf absLimit z li os p p', globalOutside os = false -> length (p_lines p) = length (p_lines p') ->
  (forall k l l', nth_error (p_lines p) k = Some l -> nth_error (p_lines p') k = Some l' -> el_s l = el_s l' /\ el_neg l = el_neg l' /\ el_nom l = el_nom l') ->
  fitAmplitude prof sqrtf absLimit p os z li = fitAmplitude prof sqrtf absLimit p' os z li.
Proof. exact Forgets. Qed.
Print Assumptions C67_forgets.
(** an element out of the range of all the spectra keeps its lines as they are and has no merit *)
Theorem C67_outside : forall prof sqrtf absLimit z li os p, (forall o, In o os -> s_allout (a_s o) = true) ->
  exists p', fitAmplitude prof sqrtf absLimit p os z li = Ok p' /\ p_lines p' = p_lines p /\ p_std p' = p_std p /\ getLeastSquareMeritFast p' = None.
Proof. exact Outside. Qed.
Print Assumptions C67_outside.

(** ** the offset *)
(** a common offset is given to the lines whose offset is fitted, and only to them *)
Theorem C67_set_offsets : forall en i p k l, nth_error (p_lines p) k = Some l -> exists l', nth_error (p_lines (setLambdaOffset en i p)) k = Some l' /\
  l_off (el_s l') = match nth_error en k with Some true => -400 + 25 * inject_Z i | _ => l_off (el_s l) end /\
  l_pos (el_s l') = l_pos (el_s l) /\ l_delta (el_s l') = l_delta (el_s l) /\ l_nsigma (el_s l') = l_nsigma (el_s l) /\ el_neg l' = el_neg l /\ el_nom l' = el_nom l.
Proof. exact Set_offsets. Qed.
Print Assumptions C67_set_offsets.
(** the offset and the amplitude kept are the best of all the offsets -400, -375, ..., 375 km/s and all the amplitudes; when no offset gives a signal the last one is kept *)
Theorem C67_joint : forall prof sqrtf absLimit z li os p en vs, let lines i := p_lines (setLambdaOffset en i p) in
  globalOutside os = false -> (exists k, nth_error en k = Some true) -> (forall l, In l (p_lines p) -> el_neg l = false) -> Forall (fun o => unshared (a_s o)) os ->
  (forall i, (0 <= i < 32)%Z -> Forall (good_obs (lines i) z) os /\ Forall2 (is_view prof (lines i) li z) os (vs i)) ->
  exists p', fitAmplitudeAndLambdaOffset prof sqrtf absLimit p en os z li true = Ok p' /\
   ((exists j A, (0 <= j < 32)%Z /\ 0 <= A /\ amplitude_set absLimit os A (lines j) (p_lines p') /\
      forall i a, (0 <= i < 32)%Z -> 0 <= a -> amp_chi2 (vs j) A <= amp_chi2 (vs i) a) \/
    ((forall i, (0 <= i < 32)%Z -> amp_info (vs i) == 0) /\ amplitude_unset (lines 31%Z) (p_lines p'))).
Proof. exact Joint_fit. Qed.
Print Assumptions C67_joint.
(** for any lines (absorption too), the first of the best merits *)
Theorem C67_first_best : forall prof sqrtf absLimit z li os en p q, globalOutside os = false -> (exists k, nth_error en k = Some true) ->
  (forall i, (0 <= i < 32)%Z -> fitAmplitude prof sqrtf absLimit (setLambdaOffset en i p) os z li = Ok (q i)) ->
  (exists j m, (0 <= j < 32)%Z /\ fitAmplitudeAndLambdaOffset prof sqrtf absLimit p en os z li true = Ok (q j) /\ getLeastSquareMeritFast (q j) = Some m /\
     forall i m', (0 <= i < 32)%Z -> getLeastSquareMeritFast (q i) = Some m' -> m <= m' /\ ((i < j)%Z -> m < m')) \/
  ((forall i, (0 <= i < 32)%Z -> getLeastSquareMeritFast (q i) = None) /\ fitAmplitudeAndLambdaOffset prof sqrtf absLimit p en os z li true = Ok (q 31%Z)).
Proof. intros prof sqrtf absLimit z li os en p q. exact (Offsets prof sqrtf absLimit z li os en p q). Qed.
Print Assumptions C67_first_best.
(** without an offset to fit, the amplitudes alone are fitted *)
Theorem C67_no_offset : forall prof sqrtf absLimit z li os p en b, (b = false \/ forall k, nth_error en k <> Some true) ->
  fitAmplitudeAndLambdaOffset prof sqrtf absLimit p en os z li b = fitAmplitude prof sqrtf absLimit p os z li.
Proof. exact No_offset. Qed.
Print Assumptions C67_no_offset.

(** ** what goes wrong *)
From Verif Require Import EfitProps.
(** a profile with a triangular shape, rounded *)
Definition tri : nat -> Q -> Q -> Q -> Q := fun _ x mu _ => inject_Z (Qfloor (16 * Qmaxb 0 (8 - Qabs (x - mu)))).
Definition ones (n : nat) : list Q := repeat 1 n.
Definition obs (s : support) (axis y c : list Q) : aobs := mkAobs all_avail unit_w s axis y (ones (length axis)) c.
Definition start (ls : list eline) : eparam := mkEp ls (map (fun _ => None) ls) None None None.
Definition fit1 (ls : list eline) (o : aobs) : res eparam := fitAmplitude tri (fun x => x) 0 (start ls) [o] 0 None.
(** the chi square of a spectrum where the lines are drawn *)
Fixpoint chi2_of (y m : list Q) : Q := match y, m with a :: y', b :: m' => (a - b) * (a - b) + chi2_of y' m' | _, _ => 0 end.
Definition drawn (s : support) (ls : list eline) (axis : list Q) : res (list Q) :=
  addToSpectrumModel all_avail unit_w tri s ls axis (map (fun _ => 0) axis) (map (fun _ => 0) axis) 0 None.
(** when two supports share a sample, this sample is counted twice, each time with a part of the lines: the amplitude is not the best one *)
Definition ax5 : list Q := [4; 7; 10; 13; 16].
Definition pair : list eline := [ln false 7 6 1; ln false 13 6 1].
Definition bump : list Q := [0; 0; 1; 0; 0].
Theorem C67_shared_refuted : exists s, prepared_for all_avail unit_w ax5 0 (mkRange 4 16) 0 pair s /\
  exists p' m m', fit1 pair (obs s ax5 bump bump) = Ok p' /\ drawn s (p_lines p') ax5 = Ok m /\
    drawn s (map (fun l => set_efit l (Some (29 # 12800))) pair) ax5 = Ok m' /\ chi2_of bump m' < chi2_of bump m.
Proof.
  destruct (wit all_avail ax5 (mkRange 4 16) pair (fun s => match fit1 pair (obs s ax5 bump bump) with
    | Ok p' => match drawn s (p_lines p') ax5, drawn s (map (fun l => set_efit l (Some (29 # 12800))) pair) ax5 with
               | Ok m, Ok m' => chi2_of bump m' < chi2_of bump m | _, _ => False end
    | _ => False end) eq_refl) as (s & P & H); [vm_compute; reflexivity|].
  exists s. split; [exact P|]. destruct (fit1 pair (obs s ax5 bump bump)) as [p'| |]; [|contradiction|contradiction]. exists p'.
  destruct (drawn s (p_lines p') ax5) as [m| |] eqn:E; [|contradiction|contradiction].
  destruct (drawn s (map (fun l => set_efit l (Some (29 # 12800))) pair) ax5) as [m'| |] eqn:E'; [|contradiction|contradiction].
  exists m, m'. auto.
Qed.
Print Assumptions C67_shared_refuted.
(** the last offset of the range, 400 km/s, is never tried, even when it is the best *)
Definition axis1000 : list Q := [998; 1000; 1002].
Definition single : list eline := [ln false 1000 4 1].
Definition shifted : list Q := map (fun x => Qred (tri 0 x (1000 * (1 + 400 / speed_of_light)) 1)) axis1000.
Theorem C67_last_offset_refuted : exists s, prepared_for all_avail unit_w axis1000 0 (mkRange 998 1002) 0 single s /\
  exists p' q m m', fitAmplitudeAndLambdaOffset tri (fun x => x) 0 (start single) [true] [obs s axis1000 shifted shifted] 0 None true = Ok p' /\
    fitAmplitude tri (fun x => x) 0 (start (SetAllOffsetsEnabled [true] offset_max single)) [obs s axis1000 shifted shifted] 0 None = Ok q /\
    getLeastSquareMeritFast p' = Some m /\ getLeastSquareMeritFast q = Some m' /\ m' < m /\ map (fun l => Qeq_bool (l_off (el_s l)) 375) (p_lines p') = [true].
Proof.
  destruct (wit all_avail axis1000 (mkRange 998 1002) single (fun s =>
    match fitAmplitudeAndLambdaOffset tri (fun x => x) 0 (start single) [true] [obs s axis1000 shifted shifted] 0 None true,
      fitAmplitude tri (fun x => x) 0 (start (SetAllOffsetsEnabled [true] offset_max single)) [obs s axis1000 shifted shifted] 0 None with
    | Ok p', Ok q => match getLeastSquareMeritFast p', getLeastSquareMeritFast q with
       | Some m, Some m' => m' < m /\ map (fun l => Qeq_bool (l_off (el_s l)) 375) (p_lines p') = [true] | _, _ => False end
    | _, _ => False end) eq_refl) as (s & P & H); [vm_compute; split; reflexivity|].
  exists s. split; [exact P|].
  destruct (fitAmplitudeAndLambdaOffset tri (fun x => x) 0 (start single) [true] [obs s axis1000 shifted shifted] 0 None true) as [p'| |]; [|contradiction|contradiction].
  destruct (fitAmplitude tri (fun x => x) 0 (start (SetAllOffsetsEnabled [true] offset_max single)) [obs s axis1000 shifted shifted] 0 None) as [q| |]; [|contradiction|contradiction].
  destruct (getLeastSquareMeritFast p') as [m|] eqn:M; [|contradiction]. destruct (getLeastSquareMeritFast q) as [m'|] eqn:M'; [|contradiction].
  exists p', q, m, m'. destruct H as (H1 & H2). repeat (split; [assumption || reflexivity|]). assumption.
Qed.
Print Assumptions C67_last_offset_refuted.
(** an absorption line without continuum under it cannot be fitted: its offset, which was null, becomes 375 km/s *)
Definition absorbed : list eline := [ln true 10 6 1].
Definition zeros (n : nat) : list Q := repeat 0 n.
Theorem C67_offset_left_refuted : exists s, prepared_for all_avail unit_w (ax 21) 0 (mkRange 0 20) 0 absorbed s /\ used s 0 /\
  exists p', fitAmplitudeAndLambdaOffset tri (fun x => x) 0 (start absorbed) [true] [obs s (ax 21) (zeros 21) (zeros 21)] 0 None true = Ok p' /\
    map (fun l => (Qeq_bool (l_off (el_s l)) 375, el_fit l)) (p_lines p') = [(true, None)].
Proof.
  destruct (wit all_avail (ax 21) (mkRange 0 20) absorbed (fun s => (s_size s = 1%nat /\ s_out s 0%nat = false) /\
    match fitAmplitudeAndLambdaOffset tri (fun x => x) 0 (start absorbed) [true] [obs s (ax 21) (zeros 21) (zeros 21)] 0 None true with
    | Ok p' => map (fun l => (Qeq_bool (l_off (el_s l)) 375, el_fit l)) (p_lines p') = [(true, None)] | _ => False end) eq_refl) as (s & P & (S1 & S2) & H);
    [vm_compute; split; [split|]; reflexivity|].
  exists s. split; [exact P|]. split; [split; [rewrite S1; lia|exact S2]|].
  destruct (fitAmplitudeAndLambdaOffset tri (fun x => x) 0 (start absorbed) [true] [obs s (ax 21) (zeros 21) (zeros 21)] 0 None true) as [p'| |]; [|contradiction|contradiction]. eauto.
Qed.
Print Assumptions C67_offset_left_refuted.

(** ** non-vacuity: three lines, two of which overlap, drawn with amplitude 5: the amplitude fitted is 5 *)
Definition three : list eline := [ln false 7 6 1; ln false 15 4 1; ln false 9 6 1].
Lemma ax_increasing : strictly_increasing (ax 21).
Proof.
  assert (E : ax 21 = ax 21) by reflexivity. unfold strictly_increasing. 
  intros i j x y L A B. unfold ax in A, B. rewrite nth_error_map in A, B. destruct (nth_error (seq 0 21) i) as [a|] eqn:Ea; [|discriminate]. destruct (nth_error (seq 0 21) j) as [b|] eqn:Eb; [|discriminate].
  cbn [option_map] in A, B. inversion A; inversion B; subst.
  assert (a = i). { pose proof (nth_error_nth _ _ 0%nat Ea) as P. rewrite seq_nth in P; [lia|]. apply nth_error_len in Ea. rewrite seq_length in Ea. lia. }
  assert (b = j). { pose proof (nth_error_nth _ _ 0%nat Eb) as P. rewrite seq_nth in P; [lia|]. apply nth_error_len in Eb. rewrite seq_length in Eb. lia. }
  subst. rewrite <- Zlt_Qlt. lia.
Qed.
Example C67_case : exists s y o, prepared_for all_avail unit_w (ax 21) 0 (mkRange 0 20) 0 three s /\ drawn s (map (fun l => set_efit l (Some 5)) three) (ax 21) = Ok y /\ o = obs s (ax 21) y (zeros 21) /\
  globalOutside [o] = false /\ good_obs three 0 o /\ unshared (a_s o) /\
  exists p', fit1 three o = Ok p' /\ map (fun l => match el_fit l with Some f => Qeq_bool f 5 | None => false end) (p_lines p') = [true; true; true].
Proof.
  destruct (wit all_avail (ax 21) (mkRange 0 20) three (fun s => (s_size s = 3%nat /\ s_allout s = false /\ map (s_theo s) (seq 0 3) = [(4, 10); (13, 17); (6, 12)]%Z) /\
    match drawn s (map (fun l => set_efit l (Some 5)) three) (ax 21) with
    | Ok y => length y = 21%nat /\ match fit1 three (obs s (ax 21) y (zeros 21)) with
       | Ok p' => map (fun l => match el_fit l with Some f => Qeq_bool f 5 | None => false end) (p_lines p') = [true; true; true] | _ => False end
    | _ => False end) eq_refl) as (s & P & (S1 & S2 & S3) & H); [vm_compute; split; [split; [|split]|split]; reflexivity|].
  exists s. destruct (drawn s (map (fun l => set_efit l (Some 5)) three) (ax 21)) as [y| |]; [|contradiction|contradiction]. destruct H as (Ly & H).
  exists y, (obs s (ax 21) y (zeros 21)). split; [exact P|]. split; [reflexivity|]. split; [reflexivity|].
  split; [unfold globalOutside, obs; cbn [forallb a_s]; rewrite S2; reflexivity|]. split; [|split].
  - split; [exact ax_increasing|]. split; [cbn; lia|]. split; [exact Ly|]. split; [reflexivity|]. split; [reflexivity|]. split.
    + intros t e N. cbn [obs a_e] in N. apply nth_error_In in N. apply repeat_spec in N. subst e. discriminate.
    + split; [exists 0, (mkRange 0 20), 0, three; split; [reflexivity|exact P]|]. intros k l _ _. reflexivity.
  - apply Unshared_if. cbn [obs a_s]. cbn [seq map] in S3. injection S3 as T0 T1 T2. intros m m' t (M & _) (M' & _) A A'. rewrite S1 in M, M'. unfold in_support in A, A'.
    destruct m as [|[|[|m]]]; [| | |lia]; (destruct m' as [|[|[|m']]]; [| | |lia]); try (left; reflexivity); rewrite ?T0, ?T1, ?T2 in A; rewrite ?T0, ?T1, ?T2 in A'; rewrite ?T0, ?T1, ?T2; cbn [fst snd] in A, A'; try (exfalso; lia);
      right; exists 6%Z; unfold in_support; cbn [fst snd]; lia.
  - destruct (fit1 three (obs s (ax 21) y (zeros 21))) as [p'| |]; [|contradiction|contradiction]. eauto.
Qed.
