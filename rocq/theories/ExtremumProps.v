(** Properties C25 (peaks are exactly the maxima), C26 (selection with separation), C27 (truncation, merit cut). *)
From Verif Require Import Base RangeModel RangeSpec SortLib ExtremumModel ExtremumSpec ExtremumProofs ExtremumSelect ExtremumFind.
Open Scope Q_scope.

(** ** C25 *)
(** When the values have no "stair" plateau, the reported peaks are exactly the local maxima (plateaus by their
    middle sample), once each, in increasing order. *)
Theorem C25_peaks_are_exactly_the_maxima : forall p x y b e Y,
  length x = length y -> values_on y b e Y -> (b + 2 <= e)%nat ->
  ~ stair (fun i => Y i * p_sign p) b e (p_border p) -> (e < length y)%nat ->
  exists idx mx my, FindAllPeaks p x y b e = Ok (mx, my) /\ increasing_idx idx /\
    (forall i, In i idx <-> is_maximum (fun i => Y i * p_sign p) b e (p_border p) i) /\
    length mx = length idx /\ length my = length idx /\
    forall k i, nth_error idx k = Some i -> nth_error mx k = nth_error x i /\ nth_error my k = Some (Some (Y i * p_sign p)).
Proof. exact FindAllPeaks_exact. Qed.
Print Assumptions C25_peaks_are_exactly_the_maxima.

(** for every input, NaN included, nothing outside the window is read or reported *)
Theorem C25_safe_for_every_input : forall p x y b e,
  length x = length y -> (b <= e)%nat -> (e < length y)%nat ->
  match FindAllPeaks p x y b e with
  | Ok (mx, my) => exists idx, (forall i, In i idx -> (b <= i <= e)%nat) /\ length mx = length idx /\ length my = length idx /\
      forall k i, nth_error idx k = Some i -> nth_error mx k = nth_error x i /\
        nth_error my k = nth_error (applySign (p_sign p) y) i
  | Throw er => er = INTERNAL_ERROR
  | UB => False
  end.
Proof. exact FindAllPeaks_safe. Qed.
Print Assumptions C25_safe_for_every_input.

(** the NaN borders are trimmed exactly; fewer than three samples between the first and last valid one is an error *)
Theorem C25_nan_borders_trimmed : forall y b e, (b <= e)%nat -> (e < length y)%nat ->
  match getFirstandLastnonNANElementIndices y b e with
  | Ok (b', e') => (b <= b')%nat /\ (b' + 2 <= e')%nat /\ (e' <= e)%nat /\
      (exists q, nth_error y b' = Some (Some q)) /\ (exists q, nth_error y e' = Some (Some q)) /\
      (forall j v, (b <= j < b' \/ e' < j <= e)%nat -> nth_error y j = Some v -> v = None)
  | Throw er => er = INTERNAL_ERROR /\
      forall i j qi qj, (b <= i)%nat -> (j <= e)%nat -> (i + 2 <= j)%nat ->
        nth_error y i = Some (Some qi) -> nth_error y j = Some (Some qj) -> False
  | UB => False
  end.
Proof. exact trim_spec. Qed.
Print Assumptions C25_nan_borders_trimmed.

Definition qs (l : list Q) : list (option Q) := map Some l.
Definition ex_params sep cut mx := mkParams mx sep cut 1 true (mkRange 0 0).
Definition val (l : list Q) (i : nat) : Q := nth i l 0.

Lemma values_on_qs l e : (e < length l)%nat -> values_on (qs l) 0 e (val l).
Proof.
  intros He i Hi. unfold qs, val. rewrite nth_error_map. destruct (nth_error_lt l i ltac:(lia)) as (v & Hv).
  rewrite Hv. cbn [option_map]. repeat f_equal. symmetry. apply nth_error_nth. exact Hv.
Qed.

(** Without the hypothesis the claim fails: the length of a plateau inside a descent is never reset, so the last sample
    (value 6, the global maximum) is reported as sample 4 (value 3, the global minimum). *)
Theorem C25_descending_plateau_refuted :
  exists y, FindAllPeaks (ex_params 0 0 5) [0;1;2;3;4;5] (qs y) 0 5 = Ok ([0;4], qs [5*1;3*1]) /\
    (forall i, (i <= 5)%nat -> val y 4 <= val y i) /\ is_maximum (val y) 0 5 true 5 /\ val y 4 < val y 5 /\
    ~ is_maximum (val y) 0 5 true 4.
Proof.
  exists [5;4;4;4;3;6]. split; [reflexivity|]. split; [|split; [|split]].
  - intros i Hi. do 6 (destruct i as [|i]; [vm_compute; discriminate|]). lia.
  - exists 5%nat, 5%nat. split; [lia|]. split; [lia|]. split; [lia|]. split.
    { intros j Hj. assert (j = 5%nat) by lia. subst j. reflexivity. }
    split; [right; split; [lia|reflexivity]|]. split; [left; auto|reflexivity].
  - reflexivity.
  - intros (s & t & A & B & C & HP & HR & HF & E).
    assert (Hcase : (s = 4 /\ t = 4)%nat \/ (s = 4 /\ t = 5)%nat \/ (s < 4)%nat).
    { destruct (Nat.le_gt_cases 4 s); [|right; right; lia].
      assert (s = 4 \/ s = 5)%nat as [->| ->] by lia.
      - assert (t = 4 \/ t = 5)%nat as [->| ->] by lia; [left|right; left]; lia.
      - assert (t = 5)%nat by lia. subst. vm_compute in E. discriminate. }
    destruct Hcase as [[-> ->]|[[-> ->]|Hs]].
    + destruct HR as [[? _]|[_ HR]]; [discriminate|]. vm_compute in HR. discriminate.
    + assert (H := HP 5%nat ltac:(lia)). vm_compute in H. discriminate.
    + assert (t > 4 \/ t <= 4)%nat as [H|H] by lia.
      * assert (t = 5)%nat by lia. subst t. assert (H1 := HP 4%nat ltac:(lia)). assert (H2 := HP 5%nat ltac:(lia)).
        assert (H3 : val [5;4;4;4;3;6] 4 == val [5;4;4;4;3;6] 5) by (rewrite H1, H2; reflexivity). vm_compute in H3. discriminate.
      * assert ((t - s + 1) / 2 = 0)%nat by lia. assert (t - s + 1 < 2)%nat.
        { destruct (Nat.lt_ge_cases (t - s + 1) 2); auto. pose proof (Nat.div_le_mono 2 (t - s + 1) 2 ltac:(lia) H1). change (2/2)%nat with 1%nat in H2. lia. }
        lia.
Qed.
Print Assumptions C25_descending_plateau_refuted.

(** the same stale count reports sample 7 twice, and a low plateau at the right border is reported as a peak *)
Theorem C25_peak_reported_once_refuted :
  exists y, let l := qs y in peak_indexes true l l 0 11 = Ok [0; 7; 7]%nat.
Proof. exists [10;5;5;5;5;5;4;6;5;6;6;5]. reflexivity. Qed.
Print Assumptions C25_peak_reported_once_refuted.

Theorem C25_right_border_plateau_refuted :
  exists y, let l := qs y in peak_indexes true l l 0 2 = Ok [0; 2]%nat /\ val y 2 < val y 0 /\ val y 1 == val y 2.
Proof. exists [5;3;3]. split; [reflexivity|]. split; reflexivity. Qed.
Print Assumptions C25_right_border_plateau_refuted.

(** [1;3;3;1;5;4;2;7] : a high plateau, a strict maximum and the right border; no stair *)
Definition ex_y : list Q := [1;3;3;1;5;4;2;7].
Definition ex_x : list Q := [0;1;2;3;4;5;6;7].
Example C25_ex_values : values_on (qs ex_y) 0 7 (val ex_y).
Proof. apply values_on_qs. vm_compute. lia. Qed.
Lemma plateau_pair Y s t : (s < t)%nat -> plateau Y s t -> Y (S s) == Y s.
Proof. intros H HP. apply HP. lia. Qed.
Example C25_ex_no_stair : ~ stair (fun i => val ex_y i * 1) 0 7 true.
Proof.
  intros (s & t & A & B & C & HP & H & HF). pose proof (plateau_pair _ s t B HP) as E.
  destruct H as [[_ H]|[H1 H]]; [discriminate|].
  do 7 (destruct s as [|s]; [first [lia|vm_compute in E; discriminate|vm_compute in H; discriminate]|]). lia.
Qed.
Example C25_ex_run : FindAllPeaks (ex_params 0 0 5) ex_x (qs ex_y) 0 7 = Ok ([1;4;7], qs [3*1;5*1;7*1]).
Proof. reflexivity. Qed.

(** ** C26: with peak separation *)
(** The returned peaks are maxima of the search window with their abscissa and value, best first, at most the requested
    number, pairwise separated; the best maximum is returned; a maximum not returned is either too close to a returned
    one at least as high, or the requested number was reached by peaks at least as high. *)
Theorem C26_selected_peaks : forall srt xsort p x y first b e Y,
  (forall l, sorts_desc l (srt l)) -> sorts xsort ->
  length x = length y -> strictly_increasing x -> (forall v, In v x -> - (1) < v) ->
  window_of p x b e -> (b + 2 <= e)%nat -> values_on y b e Y ->
  ~ stair (fun i => Y i * p_sign p) b e (p_border p) ->
  0 < p_sep p -> p_sep p < 2 -> p_cut p <= 0 -> (1 <= p_max p)%Z -> (p_sign p == 1 \/ p_sign p == - (1)) ->
  ((forall i, ~ is_maximum (fun i => Y i * p_sign p) b e (p_border p) i) ->
     Find srt xsort p x y first = if first then Throw PDF_PEAK_NOT_FOUND else Ok []) /\
  ((exists i, is_maximum (fun i => Y i * p_sign p) b e (p_border p) i) ->
     exists pts K, Find srt xsort p x y first = Ok pts /\ find_result p x Y b e pts K).
Proof. exact Find_spec. Qed.
Print Assumptions C26_selected_peaks.

(** a requested number of zero: the separation check reads an empty list out of bounds *)
Definition idxsort (l : list Q) : list nat := isort (fun i j => Qltb (nth j l 0) (nth i l 0)) (seq 0 (length l)).
Theorem C26_zero_peaks_requested_refuted :
  exists x y, length x = length y /\ Find idxsort qsort (ex_params (1#10) 0 0) x (qs y) true = UB.
Proof. exists [0;1;2;3;4], [1;3;1;5;2]. split; reflexivity. Qed.
Print Assumptions C26_zero_peaks_requested_refuted.

(** with a merit cut the sorted indexes still refer to the uncut list: out of bounds, with or without separation *)
Theorem C27_merit_cut_refuted :
  exists x y, length x = length y /\ Find idxsort qsort (ex_params (1#10) 3 5) x (qs y) true = UB /\
    Find idxsort qsort (ex_params 0 3 5) x (qs y) true = UB.
Proof. exists ex_x, [1;3;1;9;2;8;0;0]. split; [reflexivity|]. split; reflexivity. Qed.
Print Assumptions C27_merit_cut_refuted.

Lemma idxsort_sorts l : sorts_desc l (idxsort l).
Proof.
  split; [apply isort_perm|]. unfold idxsort. set (lt := fun i j => Qltb (nth j l 0) (nth i l 0)).
  assert (H : lesorted lt (isort lt (seq 0 (length l)))).
  { apply isort_sorted.
    - intros u v. unfold lt. destruct (Qltb_spec (nth v l 0) (nth u l 0)); [|discriminate].
      destruct (Qltb_spec (nth u l 0) (nth v l 0)); [lra|reflexivity].
    - intros u v w. unfold lt. destruct (Qltb_spec (nth u l 0) (nth v l 0)); [discriminate|].
      destruct (Qltb_spec (nth v l 0) (nth w l 0)); [discriminate|]. destruct (Qltb_spec (nth u l 0) (nth w l 0)); [lra|reflexivity]. }
  intros a b i j vi vj Hab Hi Hj Hvi Hvj. revert a b Hab Hi Hj. generalize dependent (isort lt (seq 0 (length l))).
  intros L HL. induction HL as [|h t Ht IH Hf]; intros a b Hab Hi Hj; [destruct a; discriminate|].
  destruct b as [|b]; [lia|]. destruct a as [|a]; simpl in Hi, Hj.
  - injection Hi as <-. rewrite Forall_forall in Hf. specialize (Hf j (nth_error_In _ _ Hj)). unfold lt in Hf.
    rewrite (nth_error_nth _ _ _ Hvi), (nth_error_nth _ _ _ Hvj) in Hf. destruct (Qltb_spec vi vj); [discriminate|lra].
  - apply (IH a b); auto. lia.
Qed.

Example C26_ex_hypotheses :
  (forall l, sorts_desc l (idxsort l)) /\ sorts qsort /\ strictly_increasing ex_x /\ (forall v, In v ex_x -> - (1) < v) /\
  window_of (ex_params (1#2) 0 2) ex_x 0 7.
Proof.
  split; [exact idxsort_sorts|]. split; [intro l; split; [apply qsort_perm|apply qsort_increasing]|]. split; [|split].
  - intros i j u v Hij Hu Hv.
    do 8 (destruct j as [|j]; [do 7 (destruct i as [|i]; [try lia; simpl in Hu, Hv; injection Hu as <-; injection Hv as <-; reflexivity|]); lia|]).
    destruct j; discriminate.
  - intros v H. simpl in H. intuition (subst; reflexivity).
  - reflexivity.
Qed.
(** sample 4 is within the separation of sample 7 ((1#2)): it is dropped in favour of it, sample 1 is kept *)
Example C26_ex_run : Find idxsort qsort (ex_params (1#2) 0 2) ex_x (qs ex_y) true
  = Ok [mkPoint 7 (1 * (7*1)); mkPoint 1 (1 * (3*1))].
Proof. reflexivity. Qed.

(** ** C27: without peak separation: the top maxima *)
Theorem C27_top_peaks : forall srt xsort p x y first b e Y,
  (forall l, sorts_desc l (srt l)) ->
  length x = length y -> window_of p x b e -> (b + 2 <= e)%nat -> values_on y b e Y ->
  ~ stair (fun i => Y i * p_sign p) b e (p_border p) ->
  p_sep p <= 0 -> p_cut p <= 0 -> (0 <= p_max p)%Z -> (p_sign p == 1 \/ p_sign p == - (1)) ->
  (exists i, is_maximum (fun i => Y i * p_sign p) b e (p_border p) i) ->
  exists pts K, Find srt xsort p x y first = Ok pts /\ top_result p x Y b e pts K.
Proof. exact Find_nosep_spec. Qed.
Print Assumptions C27_top_peaks.

Theorem C27_truncation : forall p srt mx my, length my = length mx -> sorts_desc my srt ->
  exists pts kept, Truncate p srt mx my = Ok pts /\
    Z.of_nat (length kept) = Z.max 0 (Z.min (p_max p) (Z.of_nat (length mx))) /\
    NoDup kept /\ (forall i, In i kept -> (i < length mx)%nat) /\ length pts = length kept /\
    (forall k i, nth_error kept k = Some i -> exists x y, nth_error mx i = Some x /\ nth_error my i = Some y /\
        nth_error pts k = Some (mkPoint x (p_sign p * y))) /\
    (forall k k' i i' yi yi', (k < k')%nat -> nth_error kept k = Some i -> nth_error kept k' = Some i' ->
        nth_error my i = Some yi -> nth_error my i' = Some yi' -> yi' <= yi) /\
    (forall i j yi yj, In i kept -> ~ In j kept -> nth_error my i = Some yi -> nth_error my j = Some yj -> yj <= yi).
Proof. exact Truncate_spec. Qed.
Print Assumptions C27_truncation.

(** the merit cut itself keeps exactly the peaks within the cut of the best one, in their original order *)
Theorem C27_merit_cut_filter : forall cut srt mx my,
  0 <= cut -> length my = length mx -> (2 <= length mx)%nat -> sorts_desc my srt ->
  exists best kept nx ny, Cut_Threshold cut srt mx my = Ok (nx, ny) /\
    In best my /\ (forall y, In y my -> y <= best) /\ increasing_idx kept /\
    (forall k, In k kept <-> exists y, nth_error my k = Some y /\ best - y <= cut) /\
    vgets mx kept = Ok nx /\ vgets my kept = Ok ny.
Proof. exact Cut_Threshold_spec. Qed.
Print Assumptions C27_merit_cut_filter.

Example C27_ex_run : Find idxsort qsort (ex_params 0 0 2) ex_x (qs ex_y) true
  = Ok [mkPoint 7 (1 * (7*1)); mkPoint 4 (1 * (5*1))].
Proof. reflexivity. Qed.
Example C27_ex_cut : Cut_Threshold 3 (idxsort [3;9;8]) [1;3;5] [3;9;8] = Ok ([3;5], [9;8]).
Proof. reflexivity. Qed.
