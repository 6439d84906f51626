(** Proofs for C25 (safety for every input), C26, C27. *)
From Verif Require Import Base RangeModel RangeSpec RangeProofs SortLib ExtremumModel ExtremumSpec ExtremumProofs.
Open Scope Q_scope.

(** ** In-bounds for every input, NaN included *)
Lemma step_safe a b c i st lo hi : (lo < i)%nat -> (i < hi)%nat -> (cnt_plk st <= i - lo)%nat ->
  (forall x, In x (outs st) -> (lo <= x <= hi)%nat) ->
  exists st', peak_step a b c i st = Ok st' /\ (cnt_plk st' <= S i - lo)%nat /\
    (forall x, In x (outs st') -> (lo <= x <= hi)%nat).
Proof.
  intros Hlo Hhi Hc Ho.
  assert (Hpush : forall x, In x (outs st ++ [i]) -> (lo <= x <= hi)%nat).
  { intros x Hx. apply in_app_or in Hx. destruct Hx as [Hx|[<-|[]]]; auto. lia. }
  unfold peak_step.
  destruct (olt a b && olt c b); [eexists; split; [reflexivity|]; cbn [cnt_plk outs]; split; [lia|exact Hpush]|].
  destruct (olt a b && oeq b c); [eexists; split; [reflexivity|]; cbn [cnt_plk outs]; split; [lia|exact Ho]|].
  destruct (negb (oeq a b)); [eexists; split; [reflexivity|]; split; [lia|exact Ho]|].
  destruct (plank st && oeq a b && olt c b).
  - unfold back_off.
    assert (Hh : (S (cnt_plk st) / 2 <= i - lo)%nat) by (apply Nat.div_le_upper_bound; lia).
    destruct (Nat.leb_spec (S (cnt_plk st) / 2) i); [|lia]. cbn [rbind].
    eexists; split; [reflexivity|]; cbn [cnt_plk outs]; split; [lia|].
    intros x Hx. apply in_app_or in Hx. destruct Hx as [Hx|[<-|[]]]; auto. lia.
  - destruct (oeq a b && olt b c); eexists; (split; [reflexivity|]); cbn [cnt_plk outs]; (split; [lia|exact Ho]).
Qed.

Lemma loop_safe y lo hi : (hi < length y)%nat -> forall m i st, (lo < i)%nat -> (i + m = hi)%nat ->
  (cnt_plk st <= i - lo)%nat -> (forall x, In x (outs st) -> (lo <= x <= hi)%nat) ->
  exists st', peak_loop y m i st = Ok st' /\ (cnt_plk st' <= hi - lo)%nat /\
    (forall x, In x (outs st') -> (lo <= x <= hi)%nat).
Proof.
  intros Hl. induction m as [|m IH]; intros i st Hi Hm Hc Ho; cbn [peak_loop].
  - exists st. split; [reflexivity|]. split; [lia|exact Ho].
  - destruct (vget_in y (i - 1) ltac:(lia)) as (a & ->). destruct (vget_in y i ltac:(lia)) as (b & ->).
    destruct (vget_in y (i + 1) ltac:(lia)) as (c & ->). cbn [rbind].
    destruct (step_safe a b c i st lo hi Hi ltac:(lia) Hc Ho) as (st' & -> & Hc' & Ho'). cbn [rbind].
    apply IH; auto; lia.
Qed.

Lemma applySign_nth sg y i : nth_error (applySign sg y) i =
  match nth_error y i with Some (Some q) => Some (Some (q * sg)) | Some None => Some None | None => None end.
Proof. unfold applySign. rewrite nth_error_map. destruct (nth_error y i) as [[q|]|]; reflexivity. Qed.
Lemma applySign_length sg y : length (applySign sg y) = length y.
Proof. unfold applySign. apply map_length. Qed.

Lemma peak_indexes_safe border y tmpY b e : length tmpY = length y -> (b <= e)%nat -> (e < length y)%nat ->
  match peak_indexes border y tmpY b e with
  | Ok idx => forall i, In i idx -> (b <= i <= e)%nat
  | Throw er => er = INTERNAL_ERROR
  | UB => False
  end.
Proof.
  intros HL Hbe He. unfold peak_indexes. pose proof (trim_spec y b e Hbe He) as HT.
  destruct (getFirstandLastnonNANElementIndices y b e) as [[b' e']|er|]; cbn [rbind]; [|tauto|exact HT].
  destruct HT as (T1 & T2 & T3 & _).
  destruct (vget_in tmpY b' ltac:(lia)) as (v0 & ->). destruct (vget_in tmpY (b' + 1) ltac:(lia)) as (v1 & ->).
  cbn [rbind]. cbv zeta.
  set (st0 := if border && olt v1 v0 then mkPs false 0 [b'] else if border && oeq v0 v1 then mkPs true 1 [] else mkPs false 0 []).
  destruct (loop_safe tmpY b' e' ltac:(lia) (e' - (b' + 1)) (b' + 1) st0 ltac:(lia) ltac:(lia)) as (st & -> & Hc & Ho).
  { unfold st0. destruct (border && olt v1 v0); [|destruct (border && oeq v0 v1)]; cbn [cnt_plk]; lia. }
  { intros x. unfold st0. destruct (border && olt v1 v0); [|destruct (border && oeq v0 v1)]; simpl; intros; intuition lia. }
  cbn [rbind]. destruct (negb border).
  - intros i Hi. specialize (Ho i Hi). lia.
  - destruct (vget_in tmpY (e' - 1) ltac:(lia)) as (u & ->). destruct (vget_in tmpY e' ltac:(lia)) as (w & ->).
    cbn [rbind]. destruct (olt w u).
    + intros i Hi. specialize (Ho i Hi). lia.
    + unfold back_off. set (h := (_ / 2)%nat).
      assert (Hh : (h <= e' - b')%nat) by (apply Nat.div_le_upper_bound; destruct (plank st); lia).
      destruct (Nat.leb_spec h e'); [|lia]. cbn [rbind].
      intros i Hi. apply in_app_or in Hi. destruct Hi as [Hi|[<-|[]]]; [specialize (Ho i Hi)|]; lia.
Qed.

Lemma vgets_ok {A} (l : list A) is : (forall i, In i is -> (i < length l)%nat) ->
  exists v, vgets l is = Ok v /\ length v = length is /\
    forall k i, nth_error is k = Some i -> nth_error v k = nth_error l i.
Proof.
  induction is as [|i r IH]; intro H; cbn [vgets].
  - exists []. split; [reflexivity|]. split; [reflexivity|]. intros k j Hk. destruct k; discriminate.
  - destruct (nth_error_lt l i (H i (or_introl eq_refl))) as (x & Hx).
    destruct IH as (v & Hv & Hl & Hn); [intros; apply H; right; auto|].
    unfold vget. rewrite Hx. cbn [rbind]. rewrite Hv. cbn [rbind]. exists (x :: v). split; [reflexivity|].
    split; [simpl; lia|]. intros k j Hk. destruct k as [|k]; simpl in *; [congruence|auto].
Qed.

(** every input: no out-of-bounds access, and the reported points are samples of the input *)
Theorem FindAllPeaks_safe p x y b e : length x = length y -> (b <= e)%nat -> (e < length y)%nat ->
  match FindAllPeaks p x y b e with
  | Ok (mx, my) => exists idx, (forall i, In i idx -> (b <= i <= e)%nat) /\ length mx = length idx /\ length my = length idx /\
      forall k i, nth_error idx k = Some i -> nth_error mx k = nth_error x i /\
        nth_error my k = nth_error (applySign (p_sign p) y) i
  | Throw er => er = INTERNAL_ERROR
  | UB => False
  end.
Proof.
  intros Hxy Hbe He. unfold FindAllPeaks.
  pose proof (peak_indexes_safe (p_border p) y (applySign (p_sign p) y) b e (applySign_length _ _) Hbe He) as H.
  cbv zeta.
  destruct (peak_indexes (p_border p) y (applySign (p_sign p) y) b e) as [idx|er|]; cbn [rbind]; auto.
  destruct (vgets_ok x idx) as (mx & -> & L1 & N1); [intros i Hi; specialize (H i Hi); lia|]. cbn [rbind].
  destruct (vgets_ok (applySign (p_sign p) y) idx) as (my & -> & L2 & N2);
    [intros i Hi; specialize (H i Hi); rewrite applySign_length; lia|]. cbn [rbind].
  exists idx. repeat (split; [assumption|]). intros k i Hk. auto.
Qed.

Theorem FindAllPeaks_exact p x y b e Y : length x = length y -> values_on y b e Y -> (b + 2 <= e)%nat ->
  ~ stair (fun i => Y i * p_sign p) b e (p_border p) -> (e < length y)%nat ->
  exists idx mx my, FindAllPeaks p x y b e = Ok (mx, my) /\ increasing_idx idx /\
    (forall i, In i idx <-> is_maximum (fun i => Y i * p_sign p) b e (p_border p) i) /\
    length mx = length idx /\ length my = length idx /\
    forall k i, nth_error idx k = Some i -> nth_error mx k = nth_error x i /\ nth_error my k = Some (Some (Y i * p_sign p)).
Proof.
  intros Hxy HY Hbe Hns He.
  assert (HY' : values_on (applySign (p_sign p) y) b e (fun i => Y i * p_sign p)).
  { intros i Hi. rewrite applySign_nth, (HY i Hi). reflexivity. }
  destruct (peak_indexes_exact _ b e _ (p_border p) HY' Hbe Hns y (trim_id y b e Y HY Hbe)) as (idx & Hidx & Hs & Hin).
  assert (Hb : forall i, In i idx -> (b <= i <= e)%nat).
  { intros i Hi. pose proof (peak_indexes_safe (p_border p) y (applySign (p_sign p) y) b e (applySign_length _ _) ltac:(lia) He) as H.
    rewrite Hidx in H. auto. }
  unfold FindAllPeaks. cbv zeta. rewrite Hidx. cbn [rbind].
  destruct (vgets_ok x idx) as (mx & -> & L1 & N1); [intros i Hi; specialize (Hb i Hi); lia|]. cbn [rbind].
  destruct (vgets_ok (applySign (p_sign p) y) idx) as (my & -> & L2 & N2);
    [intros i Hi; specialize (Hb i Hi); rewrite applySign_length; lia|]. cbn [rbind].
  exists idx, mx, my. split; [reflexivity|]. repeat (split; [assumption|]).
  intros k i Hk. split; [auto|]. rewrite (N2 k i Hk). apply HY'. apply Hb. apply (nth_error_In _ _ Hk).
Qed.

(** ** C27: truncation *)
Lemma sorts_desc_bound l perm i : sorts_desc l perm -> In i perm -> (i < length l)%nat.
Proof. intros [H _] Hi. apply (Permutation_in _ H) in Hi. apply in_seq in Hi. lia. Qed.
Lemma sorts_desc_length l perm : sorts_desc l perm -> length perm = length l.
Proof. intros [H _]. apply Permutation_length in H. rewrite seq_length in H. exact H. Qed.
Lemma sorts_desc_nodup l perm : sorts_desc l perm -> NoDup perm.
Proof. intros [H _]. apply (Permutation_NoDup (Permutation_sym H)). apply seq_NoDup. Qed.

Lemma take_points_spec p mx my : length my = length mx -> forall n srt, (n <= length srt)%nat ->
  (forall i, In i srt -> (i < length mx)%nat) ->
  exists pts, take_points p srt mx my n = Ok pts /\ length pts = n /\
    forall k i, (k < n)%nat -> nth_error srt k = Some i ->
      exists x y, nth_error mx i = Some x /\ nth_error my i = Some y /\ nth_error pts k = Some (mkPoint x (p_sign p * y)).
Proof.
  intro HL. induction n as [|n IH]; intros srt Hn Hb; cbn [take_points].
  - exists []. split; [reflexivity|]. split; [reflexivity|]. intros; lia.
  - destruct srt as [|i r]; [simpl in Hn; lia|].
    assert (Hi : (i < length mx)%nat) by (apply Hb; left; reflexivity).
    destruct (nth_error_lt mx i Hi) as (x & Hx). destruct (nth_error_lt my i ltac:(lia)) as (y & Hy).
    destruct (IH r) as (ps & Hps & Hl & Hk); [simpl in Hn; lia|intros; apply Hb; right; auto|].
    unfold vget. rewrite Hx, Hy. cbn [rbind]. rewrite Hps. cbn [rbind]. eexists. split; [reflexivity|].
    split; [simpl; lia|]. intros k j Hkn Hj. destruct k as [|k]; simpl in Hj.
    + injection Hj as <-. exists x, y. auto.
    + apply Hk; auto. lia.
Qed.

(** the kept peaks are the first min(N, size) of the sorted order; every kept one is at least as high as every other *)
Theorem Truncate_spec p srt mx my : length my = length mx -> sorts_desc my srt ->
  exists pts kept, Truncate p srt mx my = Ok pts /\
    Z.of_nat (length kept) = Z.max 0 (Z.min (p_max p) (Z.of_nat (length mx))) /\
    NoDup kept /\ (forall i, In i kept -> (i < length mx)%nat) /\ length pts = length kept /\
    (forall k i, nth_error kept k = Some i -> exists x y, nth_error mx i = Some x /\ nth_error my i = Some y /\
        nth_error pts k = Some (mkPoint x (p_sign p * y))) /\
    (forall k k' i i' yi yi', (k < k')%nat -> nth_error kept k = Some i -> nth_error kept k' = Some i' ->
        nth_error my i = Some yi -> nth_error my i' = Some yi' -> yi' <= yi) /\
    (forall i j yi yj, In i kept -> ~ In j kept -> nth_error my i = Some yi -> nth_error my j = Some yj -> yj <= yi).
Proof.
  intros HL Hs. pose proof (sorts_desc_length _ _ Hs) as Hlen.
  unfold Truncate. set (n := Z.to_nat (Z.min (p_max p) (Z.of_nat (length mx)))).
  assert (Hn : (n <= length srt)%nat) by (unfold n; lia).
  destruct (take_points_spec p mx my HL n srt Hn) as (pts & Hp & Hpl & Hk).
  { intros i Hi. rewrite <- HL. apply (sorts_desc_bound _ _ _ Hs Hi). }
  assert (Hfl : length (firstn n srt) = n) by (apply firstn_length_le; exact Hn).
  assert (Hfn : forall k i, nth_error (firstn n srt) k = Some i -> (k < n)%nat /\ nth_error srt k = Some i).
  { intros k i Hki. pose proof (nth_error_len _ _ _ Hki) as Hkl. rewrite Hfl in Hkl. split; auto.
    rewrite <- Hki. rewrite <- (firstn_skipn n srt) at 1. rewrite nth_error_app1 by lia. reflexivity. }
  exists pts, (firstn n srt). split; [exact Hp|]. split; [rewrite Hfl; unfold n; lia|]. split; [|split; [|split; [|split; [|split]]]].
  - pose proof (sorts_desc_nodup _ _ Hs) as Hnd. rewrite <- (firstn_skipn n srt) in Hnd.
    clear - Hnd. revert Hnd. generalize (firstn n srt) (skipn n srt). intros l1 l2. induction l1; intro H; [constructor|].
    simpl in H. inversion H; subst. constructor; auto. intro Hi. apply H2. apply in_or_app. auto.
  - intros i Hi. rewrite <- HL. apply (sorts_desc_bound _ _ _ Hs). rewrite <- (firstn_skipn n srt). apply in_or_app. auto.
  - lia.
  - intros k i Hki. destruct (Hfn k i Hki). apply Hk; auto.
  - intros k k' i i' yi yi' Hlt Hi Hi' Hyi Hyi'. destruct (Hfn k i Hi), (Hfn k' i' Hi'). destruct Hs as [_ Hs].
    apply (Hs k k' i i'); auto.
  - intros i j yi yj Hi Hj Hyi Hyj.
    apply In_nth_error in Hi. destruct Hi as [k Hki]. destruct (Hfn k i Hki) as [Hkn Hki'].
    assert (Hjin : In j srt).
    { destruct Hs as [Hperm _]. apply (Permutation_in _ (Permutation_sym Hperm)). apply in_seq.
      pose proof (nth_error_len _ _ _ Hyj). lia. }
    apply In_nth_error in Hjin. destruct Hjin as [k' Hk'].
    assert (n <= k')%nat.
    { destruct (Nat.le_gt_cases n k'); auto. exfalso. apply Hj. apply (nth_error_In _ k').
      rewrite <- Hk'. rewrite <- (firstn_skipn n srt) at 2. rewrite nth_error_app1 by lia. reflexivity. }
    destruct Hs as [_ Hs]. apply (Hs k k' i j); auto. lia.
Qed.

(** ** C26: separation *)
(** lra does not look through the division by two *)
Lemma half_eq s : s / 2 == s * (1 # 2). Proof. field. Qed.
Ltac half := repeat rewrite half_eq in *.
Ltac hlra := half; lra.
Ltac hnra := half; nra.
Section Filter.
Variables (p : params) (mx my : list Q).
Hypothesis Hsep0 : 0 < p_sep p.
Hypothesis Hsep2 : p_sep p < 2.
Hypothesis HL : length my = length mx.
Hypothesis Hinc : strictly_increasing mx.
Hypothesis Hpos : forall x, In x mx -> - (1) < x.

Lemma window_iff x y : - (1) < x -> - (1) < y -> ~ x == y ->
  ((wind_low (p_sep p) x <= y <= wind_high (p_sep p) x) <-> ~ separated (p_sep p) x y).
Proof.
  intros Hx Hy Hne. set (s := p_sep p) in *.
  assert (Hh : y <= wind_high s x <-> y * (1 - s / 2) <= x * (1 - s/2) + (x + 1) * s).
  { unfold wind_high. assert (E : (x + (x + 1) * s / (1 - s / 2)) == (x * (1 - s/2) + (x + 1) * s) / (1 - s/2)) by (field; hlra).
    rewrite E; clear E. split; intro H.
    - apply Qmult_le_r with (z := 1 - s/2) in H; [|hlra].
      setoid_replace ((x * (1 - s / 2) + (x + 1) * s) / (1 - s / 2) * (1 - s / 2)) with (x * (1 - s / 2) + (x + 1) * s) in H by (field; hlra).
      exact H.
    - apply Qle_shift_div_l; [hlra|exact H]. }
  assert (Hl : wind_low s x <= y <-> x * (1 + s/2) - (x + 1) * s <= y * (1 + s/2)).
  { unfold wind_low. assert (E : (x - (x + 1) * s / (1 + s / 2)) == (x * (1 + s/2) - (x + 1) * s) / (1 + s/2)) by (field; hlra).
    rewrite E; clear E. split; intro H.
    - apply Qmult_le_r with (z := 1 + s/2) in H; [|hlra].
      setoid_replace ((x * (1 + s / 2) - (x + 1) * s) / (1 + s / 2) * (1 + s / 2)) with (x * (1 + s / 2) - (x + 1) * s) in H by (field; hlra).
      exact H.
    - apply Qle_shift_div_r; [hlra|exact H]. }
  rewrite Hh, Hl. unfold separated.
  destruct (Q_dec x y) as [[C|C]|C]; [| |contradiction].
  - split.
    + intros [_ H] [[_ K]|[K _]]; [|hlra]. hnra.
    + intro H. split; [hnra|]. apply Qnot_lt_le. intro K. apply H. left. split; [exact C|]. hnra.
  - split.
    + intros [H _] [[K _]|[_ K]]; [hlra|]. hnra.
    + intro H. split; [|hnra]. apply Qnot_lt_le. intro K. apply H. right. split; [exact C|]. hnra.
Qed.

Lemma separated_sym s a b : separated s a b -> separated s b a.
Proof. unfold separated. tauto. Qed.

(** tracking flags after keeping the peaks K *)
Definition track_ok (K : list nat) (track : list bool) : Prop :=
  length track = length mx /\
  forall j x, nth_error mx j = Some x ->
    (nth_error track j = Some true <-> forall k xk, In k K -> k <> j -> nth_error mx k = Some xk -> separated (p_sep p) xk x).

Lemma mark_nth lo hi i : forall t j0 j, nth_error (mark_from j0 lo hi i t) j =
  match nth_error t j with
  | Some v => Some (if (Nat.leb lo (j0 + j) && Nat.leb (j0 + j) hi && negb (Nat.eqb (j0 + j) i))%bool then false else v)
  | None => None end.
Proof.
  induction t as [|v r IH]; intros j0 j; [destruct j; reflexivity|]. destruct j as [|j]; cbn [mark_from nth_error].
  - rewrite Nat.add_0_r. reflexivity.
  - rewrite IH. replace (S j0 + j)%nat with (j0 + S j)%nat by lia. reflexivity.
Qed.
Lemma mark_length lo hi i : forall t j0, length (mark_from j0 lo hi i t) = length t.
Proof. induction t; intros; simpl; auto. Qed.

Lemma mx_distinct j k x y : nth_error mx j = Some x -> nth_error mx k = Some y -> j <> k -> ~ x == y.
Proof.
  intros Hj Hk Hne E. destruct (Nat.lt_trichotomy j k) as [C|[C|C]]; [|contradiction|].
  - pose proof (Hinc j k x y C Hj Hk). hlra.
  - pose proof (Hinc k j y x C Hk Hj). hlra.
Qed.

Lemma window_marks i x track K : nth_error mx i = Some x -> track_ok K track ->
  exists track', (match getClosedIntervalIndices (mkRange (wind_low (p_sep p) x) (wind_high (p_sep p) x)) mx with
                    | Ok (lo, hi) => Ok (mark_from 0 lo hi i track) | Throw _ => Ok track | UB => UB end) = Ok track' /\
     track_ok (K ++ [i]) track'.
Proof.
  intros Hx [HT1 HT2].
  assert (Hpx : - (1) < x) by (apply Hpos; apply (nth_error_In _ _ Hx)).
  pose proof (getClosed_spec (mkRange (wind_low (p_sep p) x) (wind_high (p_sep p) x)) mx Hinc) as HC.
  assert (Hself : wind_low (p_sep p) x <= x /\ x <= wind_high (p_sep p) x).
  { unfold wind_low, wind_high. set (s := p_sep p) in *.
    assert (0 <= (x + 1) * s / (1 - s / 2)) by (apply Qle_shift_div_l; [hlra|hnra]).
    assert (0 <= (x + 1) * s / (1 + s / 2)) by (apply Qle_shift_div_l; [hlra|hnra]). hlra. }
  assert (Hwf : well_formed (mkRange (wind_low (p_sep p) x) (wind_high (p_sep p) x))) by (unfold well_formed; simpl; hlra).
  destruct (getClosedIntervalIndices _ mx) as [[lo hi]|er|] eqn:EG.
  - destruct HC as [Hb Hin]. eexists. split; [reflexivity|]. split; [rewrite mark_length; exact HT1|].
    intros j y Hy. rewrite mark_nth. simpl (0 + j)%nat. pose proof (nth_error_len _ _ _ Hy) as Hj.
    destruct (nth_error_lt track j ltac:(lia)) as (v & Hv). rewrite Hv.
    specialize (HT2 j y Hy). rewrite Hv in HT2. specialize (Hin j y Hy). unfold inside in Hin. simpl in Hin.
    assert (Hpy : - (1) < y) by (apply Hpos; apply (nth_error_In _ _ Hy)).
    destruct (Nat.eq_dec j i) as [->|Hji].
    + rewrite Nat.eqb_refl. cbn [negb]. rewrite andb_false_r. rewrite HT2. split.
      * intros H k xk Hk Hne Hxk. apply in_app_or in Hk. destruct Hk as [Hk|[Hk|[]]]; [apply (H k); auto|]. congruence.
      * intros H k xk Hk Hne Hxk. apply (H k); auto. apply in_or_app; auto.
    + destruct (Nat.eqb_spec j i); [contradiction|]. cbn [negb]. rewrite andb_true_r.
      assert (Hw : (Nat.leb lo j && Nat.leb j hi)%bool = true <-> ~ separated (p_sep p) x y).
      { rewrite <- (window_iff x y Hpx Hpy (mx_distinct i j x y Hx Hy (fun E => Hji (eq_sym E)))).
        rewrite Hin. rewrite andb_true_iff, !Nat.leb_le. reflexivity. }
      destruct (Nat.leb lo j && Nat.leb j hi)%bool.
      * split; [discriminate|]. intro H. exfalso. apply (proj1 Hw eq_refl). apply (H i x); auto. apply in_or_app; right; left; auto.
      * rewrite HT2. split.
        -- intros H k xk Hk Hne Hxk. apply in_app_or in Hk. destruct Hk as [Hk|[<-|[]]]; [apply (H k); auto|].
           assert (xk = x) by congruence. subst xk.
           destruct (Qlt_le_dec (x + p_sep p / 2 * (1 + x)) (y - p_sep p / 2 * (1 + y))) as [C|C].
           ++ left. split; [|exact C]. hnra.
           ++ destruct (Qlt_le_dec (y + p_sep p / 2 * (1 + y)) (x - p_sep p / 2 * (1 + x))) as [D|D].
              ** right. split; [|exact D]. hnra.
              ** exfalso. assert (Hf : false = true); [|discriminate]. apply Hw. intros [[_ G]|[_ G]]; hlra.
        -- intros H k xk Hk Hne Hxk. apply (H k); auto. apply in_or_app; auto.
  - exfalso. assert (Hno : mx <> [] /\ (forall x0, In x0 mx -> ~ inside (mkRange (wind_low (p_sep p) x) (wind_high (p_sep p) x)) x0) \/ mx = []).
    { destruct er; try contradiction; try (right; exact HC); left; destruct HC as [HC1 HC2]; exact (conj HC1 (HC2 Hwf)). }
    destruct Hno as [[_ Hno]|Hno].
    + apply (Hno x (nth_error_In _ _ Hx)). unfold inside; simpl. exact Hself.
    + rewrite Hno in Hx. destruct i; discriminate.
  - contradiction.
Qed.

(** what the greedy loop keeps *)
Lemma filter_loop_spec : forall idxs K track nkeep,
  (forall i, In i idxs -> (i < length mx)%nat) -> NoDup idxs -> (forall k, In k K -> ~ In k idxs) ->
  track_ok K track -> nkeep = Z.of_nat (length K) ->
  exists pts kept, filter_loop p mx my idxs track nkeep = Ok pts /\ length pts = length kept /\
    (forall k i, nth_error kept k = Some i -> exists x y, nth_error mx i = Some x /\ nth_error my i = Some y /\
        nth_error pts k = Some (mkPoint x (p_sign p * y))) /\
    (forall i, In i kept -> In i idxs) /\
    (forall k k' i i', (k < k')%nat -> nth_error kept k = Some i -> nth_error kept k' = Some i' ->
        exists a a', (a < a')%nat /\ nth_error idxs a = Some i /\ nth_error idxs a' = Some i') /\
    (forall k i x xk, In i kept -> In k K -> nth_error mx i = Some x -> nth_error mx k = Some xk -> separated (p_sep p) xk x) /\
    (forall i j x y, In i kept -> In j kept -> i <> j -> nth_error mx i = Some x -> nth_error mx j = Some y -> separated (p_sep p) x y) /\
    ((0 <= p_max p)%Z -> (nkeep <= p_max p)%Z -> (nkeep + Z.of_nat (length kept) <= p_max p)%Z) /\
    (forall a j x, nth_error idxs a = Some j -> nth_error mx j = Some x -> ~ In j kept ->
        (exists i xi, nth_error mx i = Some xi /\ ~ separated (p_sep p) xi x /\ i <> j /\
           (In i K \/ (In i kept /\ exists a', (a' < a)%nat /\ nth_error idxs a' = Some i))) \/
        ((nkeep + Z.of_nat (length kept) = p_max p)%Z /\
          forall i, In i kept -> exists a', (a' < a)%nat /\ nth_error idxs a' = Some i)).
Proof.
  induction idxs as [|i r IH]; intros K track nkeep Hb Hnd HK HT Hn; cbn [filter_loop].
  - exists [], []. split; [reflexivity|]. split; [reflexivity|].
    split; [intros k i Hk; destruct k; discriminate|]. split; [intros i []|].
    split; [intros k k' i i' _ Hk; destruct k; discriminate|]. split; [intros k i x xk []|].
    split; [intros i j x y []|]. split; [simpl; lia|]. intros a j x Ha. destruct a; discriminate.
  - destruct (Z.eqb_spec nkeep (p_max p)) as [Hmax|Hmax].
    + exists [], []. split; [reflexivity|]. split; [reflexivity|].
      split; [intros k i' Hk; destruct k; discriminate|]. split; [intros i' []|].
      split; [intros k k' i1 i' _ Hk; destruct k; discriminate|]. split; [intros k i1 x xk []|].
      split; [intros i1 j x y []|]. split; [simpl; lia|]. intros a j x Ha Hx _. right. split; [simpl; lia|intros i' []].
    + inversion Hnd as [|? ? Hni Hnd']; subst.
      assert (Hi : (i < length mx)%nat) by (apply Hb; left; reflexivity).
      destruct (nth_error_lt mx i Hi) as (x & Hx). destruct (nth_error_lt my i ltac:(lia)) as (y & Hy).
      pose proof HT as [HT1 HT2].
      destruct (nth_error_lt track i ltac:(lia)) as (t & Ht). unfold vget. rewrite Ht. cbn [rbind].
      specialize (HT2 i x Hx). rewrite Ht in HT2.
      destruct t; cbn [negb].
      * (* kept *)
        rewrite Hx, Hy. cbn [rbind].
        destruct (window_marks i x track K Hx HT) as (track' & Htr & HT').
        rewrite Htr. cbn [rbind].
        destruct (IH (K ++ [i]) track' (Z.of_nat (length K) + 1)%Z) as (ps & kept & A1 & A2 & A3 & A4 & A5 & A6 & A7 & A8 & A9); auto.
        { intros j Hj. apply Hb. right; auto. }
        { intros k Hk Hkr. apply in_app_or in Hk. destruct Hk as [Hk|[<-|[]]]; [|contradiction]. apply (HK k Hk). right; auto. }
        { rewrite app_length. simpl. lia. }
        rewrite A1. cbn [rbind]. exists (mkPoint x (p_sign p * y) :: ps), (i :: kept).
        split; [reflexivity|]. split; [simpl; lia|]. split; [|split; [|split; [|split; [|split; [|split]]]]].
        -- intros k j Hk. destruct k as [|k]; simpl in Hk; [injection Hk as <-; exists x, y; auto|]. apply A3; auto.
        -- intros j [<-|Hj]; [left; reflexivity|right; auto].
        -- intros k k' j j' Hkk Hj Hj'. destruct k' as [|k']; [lia|]. simpl in Hj'. destruct k as [|k]; simpl in Hj.
           ++ injection Hj as <-. apply nth_error_In in Hj'. apply A4 in Hj'. apply In_nth_error in Hj'. destruct Hj' as [a Ha].
              exists 0%nat, (S a). split; [lia|]. auto.
           ++ destruct (A5 k k' j j' ltac:(lia) Hj Hj') as (a & a' & B1 & B2 & B3). exists (S a), (S a'). split; [lia|]. auto.
        -- intros k j xj xk [<-|Hj] Hk Hxj Hxk.
           ++ assert (xj = x) by congruence. subst. apply (proj1 HT2 eq_refl k xk Hk); auto.
              intro E. subst. apply (HK _ Hk). left; reflexivity.
           ++ apply (A6 k j xj xk); auto. apply in_or_app; auto.
        -- intros j j' xj xj' [<-|Hj] [<-|Hj'] Hne Hxj Hxj'.
           ++ contradiction.
           ++ apply (A6 i j' xj' xj); auto. apply in_or_app; right; left; auto.
           ++ apply separated_sym. apply (A6 i j xj xj'); auto. apply in_or_app; right; left; auto.
           ++ apply (A7 j j' xj xj'); auto.
        -- intros H0 H1. simpl length. specialize (A8 H0). lia.
        -- intros a j xj Ha Hxj Hnk. destruct a as [|a]; simpl in Ha; [injection Ha as <-; exfalso; apply Hnk; left; auto|].
           destruct (A9 a j xj Ha Hxj) as [(k & xk & Hxk & Hns & Hne & [Hk|(Hk & a' & Ha' & Hka')])|(HM & HB)].
           { intro. apply Hnk. right; auto. }
           ++ left. exists k, xk. repeat (split; [assumption|]). apply in_app_or in Hk. destruct Hk as [Hk|[<-|[]]]; auto.
              right. split; [left; auto|]. exists 0%nat. split; [lia|reflexivity].
           ++ left. exists k, xk. repeat (split; [assumption|]). right. split; [right; auto|]. exists (S a'). split; [lia|auto].
           ++ right. split; [simpl length; lia|]. intros k [<-|Hk]; [exists 0%nat; split; [lia|reflexivity]|].
              destruct (HB k Hk) as (a' & B1 & B2). exists (S a'). split; [lia|auto].
      * (* dropped *)
        destruct (IH K track (Z.of_nat (length K))) as (ps & kept & A1 & A2 & A3 & A4 & A5 & A6 & A7 & A8 & A9); auto.
        { intros j Hj. apply Hb. right; auto. }
        { intros k Hk Hkr. apply (HK k Hk). right; auto. }
        rewrite A1. exists ps, kept. split; [reflexivity|]. split; [exact A2|]. split; [exact A3|].
        split; [intros j Hj; right; auto|]. split.
        { intros k k' j j' Hkk Hj Hj'. destruct (A5 k k' j j' Hkk Hj Hj') as (a & a' & B1 & B2 & B3). exists (S a), (S a'). split; [lia|]. auto. }
        split; [exact A6|]. split; [exact A7|]. split; [exact A8|].
        intros a j xj Ha Hxj Hnk. destruct a as [|a]; simpl in Ha.
        -- injection Ha as <-. assert (xj = x) by congruence. subst xj. left.
           (* some kept k is too close, otherwise the flag would be true *)
           assert (Hex : ~ forall k xk, In k K -> k <> i -> nth_error mx k = Some xk -> separated (p_sep p) xk x).
           { intro H. apply HT2 in H. discriminate. }
           assert (Hd : forall l, (forall k, In k l -> In k K) ->
              (exists k xk, In k K /\ k <> i /\ nth_error mx k = Some xk /\ ~ separated (p_sep p) xk x) \/
              (forall k xk, In k l -> k <> i -> nth_error mx k = Some xk -> separated (p_sep p) xk x)).
           { induction l as [|k l IHl]; intros Hl; [right; intros k xk []|].
             destruct IHl as [H|H]; [intros; apply Hl; right; auto|left; exact H|].
             destruct (Nat.eq_dec k i) as [->|Hki].
             - right. intros k' xk' [<-|Hk'] Hne; [contradiction|]. apply H; auto.
             - destruct (nth_error mx k) as [xk|] eqn:Exk.
               + destruct (Qlt_le_dec (xk + p_sep p / 2 * (1 + xk)) (x - p_sep p / 2 * (1 + x))) as [C|C];
                 [|destruct (Qlt_le_dec (x + p_sep p / 2 * (1 + x)) (xk - p_sep p / 2 * (1 + xk))) as [D|D]].
                 * right. intros k' xk' [<-|Hk'] Hne Hxk'; [|apply (H k'); auto]. assert (xk' = xk) by congruence. subst.
                   assert (- (1) < xk) by (apply Hpos; apply (nth_error_In _ _ Exk)).
                   assert (- (1) < x) by (apply Hpos; apply (nth_error_In _ _ Hx)). left. split; [hnra|exact C].
                 * right. intros k' xk' [<-|Hk'] Hne Hxk'; [|apply (H k'); auto]. assert (xk' = xk) by congruence. subst.
                   assert (- (1) < xk) by (apply Hpos; apply (nth_error_In _ _ Exk)).
                   assert (- (1) < x) by (apply Hpos; apply (nth_error_In _ _ Hx)). right. split; [hnra|exact D].
                 * left. exists k, xk. split; [apply Hl; left; auto|]. split; auto. split; auto.
                   intros [[_ G]|[_ G]]; hlra.
               + right. intros k' xk' [<-|Hk'] Hne Hxk'; [congruence|]. apply (H k'); auto. }
           destruct (Hd K (fun k Hk => Hk)) as [(k & xk & Hk & Hne & Hxk & Hs)|H]; [|contradiction].
           exists k, xk. repeat (split; [assumption|]). left. exact Hk.
        -- destruct (A9 a j xj Ha Hxj Hnk) as [(k & xk & Hxk & Hns & Hne & [Hk|(Hk & a' & Ha' & Hka')])|(HM & HB)].
           ++ left. exists k, xk. repeat (split; [assumption|]). auto.
           ++ left. exists k, xk. repeat (split; [assumption|]). right. split; [auto|]. exists (S a'). split; [lia|auto].
           ++ right. split; [exact HM|]. intros k Hk. destruct (HB k Hk) as (a' & B1 & B2). exists (S a'). split; [lia|auto].
Qed.

Definition selection (srt : list nat) (pts : list point) (kept : list nat) : Prop :=
  length pts = length kept /\ NoDup kept /\
  (forall k i, nth_error kept k = Some i -> exists x y, nth_error mx i = Some x /\ nth_error my i = Some y /\
        nth_error pts k = Some (mkPoint x (p_sign p * y))) /\
  (forall k k' i i' yi yi', (k < k')%nat -> nth_error kept k = Some i -> nth_error kept k' = Some i' ->
        nth_error my i = Some yi -> nth_error my i' = Some yi' -> yi' <= yi) /\
  (forall i j x y, In i kept -> In j kept -> i <> j -> nth_error mx i = Some x -> nth_error mx j = Some y -> separated (p_sep p) x y) /\
  (forall j x yj, nth_error mx j = Some x -> nth_error my j = Some yj -> ~ In j kept ->
     (exists i xi yi, In i kept /\ nth_error mx i = Some xi /\ nth_error my i = Some yi /\ yj <= yi /\ ~ separated (p_sep p) xi x) \/
     (Z.of_nat (length kept) = p_max p /\ forall i yi, In i kept -> nth_error my i = Some yi -> yj <= yi)).

Theorem filter_spec srt : sorts_desc my srt ->
  exists pts kept, FilterOutNeighboringPeaksAndTruncate p srt mx my = Ok pts /\ selection srt pts kept /\
    ((1 <= p_max p)%Z -> (Z.of_nat (length kept) <= p_max p)%Z).
Proof.
  intro Hs. pose proof (sorts_desc_length _ _ Hs) as Hlen. pose proof Hs as [Hperm Hdesc].
  unfold FilterOutNeighboringPeaksAndTruncate. destruct (Nat.leb_spec (length mx) 1) as [H1|H1].
  - destruct (take_points_spec p mx my HL (length mx) srt ltac:(lia)) as (pts & Hp & Hpl & Hk).
    { intros i Hi. rewrite <- HL. apply (sorts_desc_bound _ _ _ Hs Hi). }
    exists pts, srt. split; [exact Hp|]. split; [|intros; lia]. split; [lia|]. split; [apply (sorts_desc_nodup _ _ Hs)|].
    split; [intros k i Hki; apply Hk; auto; pose proof (nth_error_len _ _ _ Hki); lia|].
    split; [intros k k' i i' yi yi' Hlt A B C D; apply (Hdesc k k' i i'); auto|]. split.
    + intros i j x y Hi Hj Hne. exfalso. apply (sorts_desc_bound _ _ _ Hs) in Hi. apply (sorts_desc_bound _ _ _ Hs) in Hj. lia.
    + intros j x yj Hx Hyj Hno. exfalso. apply Hno. apply (Permutation_in _ (Permutation_sym Hperm)). apply in_seq.
      pose proof (nth_error_len _ _ _ Hyj). lia.
  - destruct (filter_loop_spec srt [] (repeat true (length mx)) 0) as (pts & kept & A1 & A2 & A3 & A4 & A5 & A6 & A7 & A8 & A9).
    { intros i Hi. rewrite <- HL. apply (sorts_desc_bound _ _ _ Hs Hi). }
    { apply (sorts_desc_nodup _ _ Hs). }
    { intros k []. }
    { split; [apply repeat_length|]. intros j x Hx. pose proof (nth_error_len _ _ _ Hx). split; [intros _ k xk []|intros _].
      rewrite (nth_error_nth' _ true) by (rewrite repeat_length; lia). rewrite nth_repeat. reflexivity. }
    { reflexivity. }
    assert (Hpos_unique : forall a a' i, nth_error srt a = Some i -> nth_error srt a' = Some i -> a = a').
    { intros a a' i Ha Ha'. apply (proj1 (NoDup_nth_error srt) (sorts_desc_nodup _ _ Hs)); [apply (nth_error_len _ _ _ Ha)|congruence]. }
    exists pts, kept. split; [exact A1|]. split; [|intro; apply A8; lia]. split; [exact A2|]. split; [|split; [exact A3|]].
    + apply NoDup_nth_error. intros k k' Hk E.
      destruct (nth_error_lt kept k Hk) as (i & Hi). rewrite Hi in E. symmetry in E.
      destruct (Nat.lt_trichotomy k k') as [C|[C|C]]; auto; exfalso.
      * destruct (A5 k k' i i C Hi E) as (a & a' & B1 & B2 & B3). rewrite (Hpos_unique a a' i B2 B3) in B1. lia.
      * destruct (A5 k' k i i C E Hi) as (a & a' & B1 & B2 & B3). rewrite (Hpos_unique a a' i B2 B3) in B1. lia.
    + split; [|split; [exact A7|]].
      * intros k k' i i' yi yi' Hlt Hi Hi' Hyi Hyi'. destruct (A5 k k' i i' Hlt Hi Hi') as (a & a' & B1 & B2 & B3).
        apply (Hdesc a a' i i'); auto.
      * intros j x yj Hx Hyj Hno.
        assert (Hj : In j srt). { apply (Permutation_in _ (Permutation_sym Hperm)). apply in_seq. pose proof (nth_error_len _ _ _ Hyj). lia. }
        apply In_nth_error in Hj. destruct Hj as [a Ha].
        destruct (A9 a j x Ha Hx Hno) as [(k & xk & Hxk & Hns & Hne & [[]|(Hk & a' & Ha' & Hka')])|(HM & HB)].
        -- left. destruct (nth_error_lt my k) as (yk & Hyk). { rewrite HL. apply (nth_error_len _ _ _ Hxk). }
           exists k, xk, yk. repeat (split; [assumption|]). split; [|exact Hns]. apply (Hdesc a' a k j); auto.
        -- right. split; [simpl in HM; lia|]. intros k yk Hk Hyk. destruct (HB k Hk) as (a' & B1 & B2).
           apply (Hdesc a' a k j); auto.
Qed.

(** the highest peak is kept, first *)
Lemma filter_keeps_best srt pts : sorts_desc my srt -> mx <> [] -> (1 <= p_max p)%Z ->
  FilterOutNeighboringPeaksAndTruncate p srt mx my = Ok pts ->
  exists i x y, nth_error srt 0 = Some i /\ nth_error mx i = Some x /\ nth_error my i = Some y /\
    hd_error pts = Some (mkPoint x (p_sign p * y)) /\ forall j yj, nth_error my j = Some yj -> yj <= y.
Proof.
  intros Hs Hne Hm HF. pose proof (sorts_desc_length _ _ Hs) as Hlen. pose proof Hs as [Hperm Hdesc].
  assert (Hl0 : (0 < length mx)%nat) by (destruct mx; [contradiction|simpl; lia]).
  destruct srt as [|i r]; [simpl in Hlen; lia|].
  assert (Hi : (i < length mx)%nat) by (rewrite <- HL; apply (sorts_desc_bound _ _ _ Hs); left; auto).
  destruct (nth_error_lt mx i Hi) as (x & Hx). destruct (nth_error_lt my i ltac:(lia)) as (y & Hy).
  exists i, x, y. split; [reflexivity|]. split; [exact Hx|]. split; [exact Hy|]. split.
  - unfold FilterOutNeighboringPeaksAndTruncate in HF. destruct (Nat.leb_spec (length mx) 1) as [H1|H1].
    + destruct (length mx) as [|n] eqn:El; [lia|]. cbn [take_points] in HF. unfold vget in HF. rewrite Hx, Hy in HF. cbn [rbind] in HF.
      destruct (take_points p r mx my n); try discriminate. injection HF as <-. reflexivity.
    + cbn [filter_loop] in HF. destruct (Z.eqb_spec 0 (p_max p)); [lia|].
      assert (Ht : vget (repeat true (length mx)) i = Ok true).
      { apply vget_Ok. rewrite (nth_error_nth' _ true) by (rewrite repeat_length; lia). rewrite nth_repeat. reflexivity. }
      rewrite Ht in HF. cbn [rbind negb] in HF. unfold vget in HF. rewrite Hx, Hy in HF. cbn [rbind] in HF.
      destruct (match getClosedIntervalIndices _ mx with Ok (lo, hi) => Ok (mark_from 0 lo hi i (repeat true (length mx))) | Throw _ => Ok (repeat true (length mx)) | UB => UB end); try discriminate.
      cbn [rbind] in HF. destruct (filter_loop p mx my r a (0 + 1)%Z); try discriminate. injection HF as <-. reflexivity.
  - intros j yj Hyj.
    assert (Hj : In j (i :: r)). { apply (Permutation_in _ (Permutation_sym Hperm)). apply in_seq. pose proof (nth_error_len _ _ _ Hyj). lia. }
    apply In_nth_error in Hj. destruct Hj as [a Ha]. destruct a as [|a].
    + simpl in Ha. assert (yj = y) by congruence. subst. hlra.
    + apply (Hdesc 0%nat (S a) i j); auto. lia.
Qed.
End Filter.

Lemma sep_loop_cons sep whole a b l : sep_loop sep whole (a :: b :: l) =
  (let (_, wh) := IntersectWith (mkRange (b - sep / 2 * (1 + b)) (b + sep / 2 * (1 + b))) whole in
   let (_, wl) := IntersectWith (mkRange (a - sep / 2 * (1 + a)) (a + sep / 2 * (1 + a))) whole in
   if Qltb (rbeg wh - rend wl) 0 then Throw INTERNAL_ERROR else sep_loop sep whole (b :: l)).
Proof. reflexivity. Qed.

(** the final check never fires on separated peaks *)
Lemma sep_loop_ok sep whole : 0 < sep -> forall l,
  (forall i a b, nth_error l i = Some a -> nth_error l (S i) = Some b -> a + sep / 2 * (1 + a) < b - sep / 2 * (1 + b)) ->
  sep_loop sep whole l = Ok tt.
Proof.
  intros Hsep. induction l as [|a l IH]; intro H; [reflexivity|]. destruct l as [|b l]; [reflexivity|].
  rewrite sep_loop_cons. pose proof (H 0%nat a b eq_refl eq_refl) as Hab.
  assert (HI : forall r, rbeg r <= rbeg (snd (IntersectWith r whole)) /\ rend (snd (IntersectWith r whole)) <= rend r).
  { intro r. unfold IntersectWith, Intersect. destruct (HasIntersection r whole); cbn [snd rbeg rend]; [|split; apply Qle_refl].
    unfold Qmaxb, Qminb. split; qcase; lra. }
  pose proof (HI (mkRange (b - sep / 2 * (1 + b)) (b + sep / 2 * (1 + b)))) as [H1 _].
  pose proof (HI (mkRange (a - sep / 2 * (1 + a)) (a + sep / 2 * (1 + a)))) as [_ H2].
  destruct (IntersectWith (mkRange (b - sep / 2 * (1 + b)) (b + sep / 2 * (1 + b))) whole) as [b1 wh].
  destruct (IntersectWith (mkRange (a - sep / 2 * (1 + a)) (a + sep / 2 * (1 + a))) whole) as [b2 wl].
  cbn [snd rbeg rend] in *.
  destruct (Qltb_spec (rbeg wh - rend wl) 0); [lra|]. apply IH. intros i. apply (H (S i)).
Qed.


Lemma Permutation_nth_inj {A} (l l' : list A) : Permutation l l' ->
  exists f, (forall i j, f i = f j -> (i < length l)%nat -> (j < length l)%nat -> i = j) /\
    forall i, (i < length l)%nat -> (f i < length l')%nat /\ nth_error l i = nth_error l' (f i).
Proof.
  intro H. apply Permutation_sym in H. apply Permutation_nth_error in H. destruct H as [HL (f & Hinj & Hf)].
  exists f. split.
  - intros i j E _ _. apply Hinj. exact E.
  - intros i Hi. rewrite Hf. split; [|reflexivity].
    destruct (nth_error_lt l i Hi) as (x & Hx). rewrite Hf in Hx. apply (nth_error_len _ _ _ Hx).
Qed.

Lemma assert_ok sep xsort l : 0 < sep -> sorts xsort -> l <> [] ->
  (forall i j x y, i <> j -> nth_error l i = Some x -> nth_error l j = Some y -> separated sep x y) ->
  (forall x, In x l -> - (1) < x) ->
  assertPeakSeparation sep (xsort l) = Ok tt.
Proof.
  intros Hsep Hxs Hne Hpair Hpos. destruct (Hxs l) as [Hp Hi].
  unfold assertPeakSeparation. destruct (xsort l) as [|a t] eqn:E.
  - apply Permutation_sym in Hp. destruct l; [contradiction|]. apply Permutation_sym, Permutation_nil in Hp. discriminate.
  - apply sep_loop_ok; auto. rewrite <- E. intros i x y Hx Hy.
    destruct (Permutation_nth_inj _ _ Hp) as (f & Hinj & Hf). rewrite <- E in Hinj, Hf.
    pose proof (nth_error_len _ _ _ Hx) as Lx. pose proof (nth_error_len _ _ _ Hy) as Ly.
    destruct (Hf i Lx) as [_ Hfi]. destruct (Hf (S i) Ly) as [_ Hfi'].
    rewrite Hx in Hfi. rewrite Hy in Hfi'. symmetry in Hfi, Hfi'.
    assert (f i <> f (S i)) by (intro HE; apply Hinj in HE; auto; lia).
    rewrite <- E in Hi. pose proof (Hi i (S i) x y ltac:(lia) Hx Hy) as Hle.
    destruct (Hpair (f i) (f (S i)) x y H Hfi Hfi') as [[_ G]|[G _]]; [exact G|lra].
Qed.
