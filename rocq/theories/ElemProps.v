(** C65: the supports of the lines of an element of the line model. *)
From Verif Require Import Base RangeModel AxisModel AxisProofs ElemModel ElemSpec ElemProofs ElemProofs2 ElemProofs3 ElemProofs4 ElemProofs5.
Open Scope Q_scope.

(** ** the samples of a window: all those of the window which are in the range, then at most one sample more, never after the end of the range *)
Theorem C65_index_range : forall axis mu r w, strictly_increasing axis -> (0 < length axis)%nat ->
  exists b e, EstimateIndexRange axis mu r w = Ok (b, e) /\ (0 <= b < Z.of_nat (length axis))%Z /\ (b - 1 <= e < Z.of_nat (length axis))%Z /\
    (forall t x, nth_is axis t x -> win_lo mu w r <= x -> x <= win_hi mu w r -> (b <= t <= e)%Z) /\
    (forall t x, nth_is axis t x -> (b <= t <= e)%Z -> x <= rend r /\ ((t < e)%Z -> x < win_hi mu w r) /\
       (forall l, nth_error axis (length axis - 1) = Some l -> win_lo mu w r <= l -> win_lo mu w r <= x)).
Proof. exact Index_range. Qed.
Print Assumptions C65_index_range.
(** ** preparing the supports always succeeds on a spectrum *)
Theorem C65_prepare_total : forall avail width ls axis z r mo, strictly_increasing axis -> (0 < length axis)%nat -> exists s, prepareSupport avail width ls axis z r mo = Ok s.
Proof. exact Prepare_total. Qed.
Print Assumptions C65_prepare_total.
(** ** a line is used when the LSF is known there and enough of its window is in the range; its support is that of its window *)
Theorem C65_line_support : forall avail width ls axis z r mo s, strictly_increasing axis -> (0 < length axis)%nat -> prepareSupport avail width ls axis z r mo = Ok s ->
  forall k l, nth_error ls k = Some l ->
  (used s k <-> avail (line_mu l z) = true /\ kept axis r (line_mu l z) (line_win width l z mo)) /\
  (used s k -> EstimateIndexRange axis (line_mu l z) r (line_win width l z mo) = Ok (s_theo s k) /\ (0 <= fst (s_theo s k) <= snd (s_theo s k))%Z /\ (snd (s_theo s k) < Z.of_nat (length axis))%Z).
Proof. exact Line_support. Qed.
Print Assumptions C65_line_support.
(** when the sampling is finer than 0.33 of the window, a window out of the range is not kept *)
Theorem C65_window_outside : forall axis mu r w, strictly_increasing axis -> range_in_axis axis r -> 0 < w -> step_le axis (overlap_threshold * w) ->
  (mu + w / 2 < rbeg r \/ rend r < mu - w / 2) -> ~ kept axis r mu w.
Proof. exact Window_outside. Qed.
Print Assumptions C65_window_outside.
(** when the sampling is finer than 0.67 of the window, a window inside the range is kept *)
Theorem C65_window_inside : forall axis mu r w d, strictly_increasing axis -> range_in_axis axis r -> 0 < w -> step_le axis d -> d < (67 # 100) * w ->
  rbeg r <= mu - w / 2 -> mu + w / 2 <= rend r -> kept axis r mu w.
Proof. exact Window_inside. Qed.
Print Assumptions C65_window_inside.
Theorem C65_all_outside : forall avail width ls axis z r mo s, strictly_increasing axis -> (0 < length axis)%nat -> prepareSupport avail width ls axis z r mo = Ok s ->
  (s_allout s = true <-> forall k, ~ used s k) /\ (s_allout s = true -> getSupport s = [] /\ getTheoreticalSupport s = []).
Proof. exact All_outside. Qed.
Print Assumptions C65_all_outside.
(** ** the merged supports *)
(** whatever the number of passes (the code stops after 20), below 2^21 lines no two merged supports have two consecutive samples in common *)
Theorem C65_supports_disjoint : forall avail width ls axis z r mo s, strictly_increasing axis -> (0 < length axis)%nat -> prepareSupport avail width ls axis z r mo = Ok s ->
  (Z.of_nat (length ls) < 2 ^ 21)%Z -> forall h h' t, used s h -> used s h' -> h <> h' ->
  in_support t (getSupportSubElt s h) -> in_support t (getSupportSubElt s h') -> ~ (in_support (t + 1) (getSupportSubElt s h) /\ in_support (t + 1) (getSupportSubElt s h')).
Proof. exact Disjoint_supports. Qed.
Print Assumptions C65_supports_disjoint.
(** the lines active on a merged support are those linked to it by overlapping supports; a merged support is the union of their supports; each used line is active
    on exactly one merged support which is not empty, and its own support is inside it *)
Theorem C65_groups : forall avail width ls axis z r mo s, strictly_increasing axis -> (0 < length axis)%nat -> prepareSupport avail width ls axis z r mo = Ok s ->
  (forall h k, used s h -> nonempty (getSupportSubElt s h) -> (Z.of_nat (length ls) < 2 ^ 21)%Z ->
    (isLineActiveOnSupport s h k = true <-> linked (used s) (s_theo s) h k)) /\
  (forall h t, used s h -> nonempty (getSupportSubElt s h) -> (Z.of_nat (length ls) < 2 ^ 21)%Z ->
    (in_support t (getSupportSubElt s h) <-> exists k, linked (used s) (s_theo s) h k /\ in_support t (s_theo s k))) /\
  (forall k, used s k -> exists h, used s h /\ nonempty (getSupportSubElt s h) /\ isLineActiveOnSupport s h k = true /\ inside (s_theo s k) (getSupportSubElt s h) /\
    forall h', used s h' -> nonempty (getSupportSubElt s h') -> isLineActiveOnSupport s h' k = true -> h' = h).
Proof. exact Groups. Qed.
Print Assumptions C65_groups.
Theorem C65_activity_symmetric : forall avail width ls axis z r mo s, strictly_increasing axis -> (0 < length axis)%nat -> prepareSupport avail width ls axis z r mo = Ok s ->
  (forall x y, isLineActiveOnSupport s x y = true -> isLineActiveOnSupport s y x = true) /\ (forall x, (x < length ls)%nat -> isLineActiveOnSupport s x x = true) /\
  (forall x y, isLineActiveOnSupport s x y = true -> x = y \/ (used s x /\ used s y)).
Proof. exact Symmetric. Qed.
Print Assumptions C65_activity_symmetric.
Theorem C65_same_samples : forall avail width ls axis z r mo s, strictly_increasing axis -> (0 < length axis)%nat -> prepareSupport avail width ls axis z r mo = Ok s ->
  forall t, (exists p, In p (getSupport s) /\ in_support t p) <-> (exists p, In p (getTheoreticalSupport s) /\ in_support t p).
Proof. exact Same_samples. Qed.
Print Assumptions C65_same_samples.
(** no access outside the spectrum through a merged support *)
Theorem C65_supports_in_axis : forall avail width ls axis z r mo s, strictly_increasing axis -> (0 < length axis)%nat -> prepareSupport avail width ls axis z r mo = Ok s ->
  forall h t, used s h -> in_support t (getSupportSubElt s h) -> (0 <= t < Z.of_nat (length axis))%Z.
Proof. exact In_axis. Qed.
Print Assumptions C65_supports_in_axis.

(** ** what goes wrong *)
Definition ax (n : nat) : list Q := map (fun i => inject_Z (Z.of_nat i)) (seq 0 n).
Definition ln (p w : Q) : sline := mkSline p 0 0 w.
Definition prepared (ls : list sline) (axis : list Q) (r : range) : res support := prepareSupport (fun _ => true) (fun _ => 1) ls axis 0 r 0.
Definition supports (n : nat) (s : support) : list (Z * Z) := map (getSupportSubElt s) (seq 0 n).
Lemma wit (r : res support) (P : support -> Prop) : match r with Ok s => P s | _ => False end -> exists s, r = Ok s /\ P s.
Proof. destruct r as [s| |]; [eauto|contradiction|contradiction]. Qed.
(** two supports with one sample in common are not merged: the sample 10 is in both *)
Theorem C65_shared_sample_refuted : exists s, prepared [ln 7 6; ln 13 6] (ax 21) (mkRange 0 20) = Ok s /\
  used s 0 /\ used s 1 /\ in_support 10 (getSupportSubElt s 0) /\ in_support 10 (getSupportSubElt s 1) /\ isLineActiveOnSupport s 0 1 = false.
Proof. apply wit. vm_compute. repeat split; lia || discriminate. Qed.
Print Assumptions C65_shared_sample_refuted.
(** on a coarse sampling, a line whose window is out of the range is used, on a sample out of its window *)
Theorem C65_coarse_sampling_refuted : exists s, prepared [ln 5 6] [0; 100; 200] (mkRange 10 190) = Ok s /\ used s 0 /\ getSupportSubElt s 0 = (1, 1)%Z.
Proof. apply wit. vm_compute. repeat split; lia. Qed.
Print Assumptions C65_coarse_sampling_refuted.
(** when the range is wider than the spectrum, a line far from the spectrum is used *)
Theorem C65_range_wider_than_axis_refuted : exists s, prepared [ln 2000 100] (map (fun x => x + 5000) (ax 21)) (mkRange 1000 9000) = Ok s /\ used s 0 /\ getSupportSubElt s 0 = (0, 0)%Z.
Proof. apply wit. vm_compute. repeat split; lia. Qed.
Print Assumptions C65_range_wider_than_axis_refuted.
(** the activity between two lines whose supports were merged into that of another line may be wrong: 1 and 3 are linked but not active on each other *)
Lemma rows_case : exists s, prepared [ln 25 10; ln 31 6; ln 6 8; ln 12 8; ln 18 8] (ax 41) (mkRange 0 40) = Ok s /\
  (s_size s = 5%nat /\ map (s_out s) (seq 0 5) = [false; false; false; false; false] /\ map (s_theo s) (seq 0 5) = [(20, 30); (28, 34); (2, 10); (8, 16); (14, 22)]%Z) /\
  isLineActiveOnSupport s 1 3 = false /\ supports 5 s = [(2, 34); (34, 33); (34, 33); (16, 15); (34, 33)]%Z.
Proof. apply wit. vm_compute. repeat split. Qed.
Theorem C65_absorbed_rows_refuted : exists s, prepared [ln 25 10; ln 31 6; ln 6 8; ln 12 8; ln 18 8] (ax 41) (mkRange 0 40) = Ok s /\
  (forall k, (k < 5)%nat -> used s k) /\ linked (used s) (s_theo s) 1 3 /\ isLineActiveOnSupport s 1 3 = false /\ supports 5 s = [(2, 34); (34, 33); (34, 33); (16, 15); (34, 33)]%Z.
Proof.
  destruct rows_case as (s & E & (N & O & T) & A & B). exists s. split; [exact E|].
  cbn [seq map] in O, T. injection O as O0 O1 O2 O3 O4. injection T as T0 T1 T2 T3 T4.
  assert (U : forall k, (k < 5)%nat -> used s k). { intros k H. split; [lia|]. do 5 (destruct k as [|k]; [assumption|]). lia. }
  split; [exact U|]. split; [|split; assumption].
  assert (V : forall p q t, in_support t p -> in_support t q -> in_support (t + 1) p -> in_support (t + 1) q -> overlap p q) by (intros p q t A1 A2 A3 A4; exists t; auto).
  apply linked_step with 4%nat; [|apply U; lia|rewrite T3, T4; apply (V _ _ 14%Z); vm_compute; split; discriminate].
  apply linked_step with 0%nat; [|apply U; lia|rewrite T0, T4; apply (V _ _ 20%Z); vm_compute; split; discriminate].
  apply linked_step with 1%nat; [|apply U; lia|rewrite T0, T1; apply (V _ _ 28%Z); vm_compute; split; discriminate].
  constructor. apply U. lia.
Qed.
Print Assumptions C65_absorbed_rows_refuted.

(** ** non-vacuity: three lines, two of which are merged, and one outside of the range *)
Example C65_case : exists s, prepared [ln 7 6; ln 15 4; ln 9 6; ln 40 6] (ax 21) (mkRange 0 20) = Ok s /\
  map (s_out s) (seq 0 4) = [false; false; false; true] /\ supports 3 s = [(4, 12); (13, 17); (12, 11)]%Z /\
  isLineActiveOnSupport s 0 2 = true /\ isLineActiveOnSupport s 0 1 = false.
Proof. apply wit. vm_compute. repeat split. Qed.
Example C65_windows : range_in_axis (ax 21) (mkRange 1 19) /\ step_le (ax 21) 1 /\ 1 < (67 # 100) * 4.
Proof.
  split; [exists 0, 20; vm_compute; repeat split; discriminate|]. split; [|reflexivity].
  intros i x y. unfold ax. intros A B. rewrite nth_error_map in A, B. destruct (nth_error (seq 0 21) i) as [a|] eqn:E; [|discriminate]. destruct (nth_error (seq 0 21) (S i)) as [b|] eqn:E'; [|discriminate].
  cbn [option_map] in *. inversion A; inversion B; subst.
  assert (a = i). { pose proof (nth_error_nth _ _ 0%nat E) as P. rewrite seq_nth in P; [lia|]. apply nth_error_len in E. rewrite seq_length in E. lia. }
  assert (b = S i). { pose proof (nth_error_nth _ _ 0%nat E') as P. rewrite seq_nth in P; [lia|]. apply nth_error_len in E'. rewrite seq_length in E'. lia. }
  subst. rewrite Nat2Z.inj_succ. unfold Z.succ. rewrite inject_Z_plus. unfold inject_Z at 2. lra.
Qed.
