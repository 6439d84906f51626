(** Proofs for C26/C27: the whole of CExtremum::Find. *)
From Verif Require Import Base RangeModel RangeSpec RangeProofs SortLib ExtremumModel ExtremumSpec ExtremumProofs ExtremumSelect.
Open Scope Q_scope.

Lemma no_nan_ok l ys : length ys = length l ->
  (forall k v, nth_error l k = Some v -> exists q, v = Some q /\ nth_error ys k = Some q) -> no_nan l = Ok ys.
Proof.
  revert ys. induction l as [|v l IH]; intros ys HL H.
  - destruct ys; [reflexivity|discriminate].
  - destruct ys as [|q ys]; [discriminate|]. destruct (H 0%nat v eq_refl) as (q' & -> & Hq). simpl in Hq. injection Hq as <-.
    cbn [no_nan]. rewrite (IH ys); [reflexivity|simpl in HL; lia|]. intros k w Hk. apply (H (S k) w Hk).
Qed.

Lemma increasing_idx_lt l : increasing_idx l -> forall i j a b, (i < j)%nat -> nth_error l i = Some a -> nth_error l j = Some b -> (a < b)%nat.
Proof.
  unfold increasing_idx. induction l as [|x l IH]; intros Hs i j a b Hij Ha Hb; [destruct i; discriminate|].
  inversion Hs as [|? ? Hs' Hf]; subst. destruct j as [|j]; [lia|]. simpl in Hb. destruct i as [|i]; simpl in Ha.
  - injection Ha as <-. rewrite Forall_forall in Hf. apply Hf. apply (nth_error_In _ _ Hb).
  - apply (IH Hs' i j a b); auto. lia.
Qed.

Theorem Find_spec srt xsort p x y first b e Y :
  (forall l, sorts_desc l (srt l)) -> sorts xsort ->
  length x = length y -> strictly_increasing x -> (forall v, In v x -> - (1) < v) ->
  window_of p x b e -> (b + 2 <= e)%nat -> values_on y b e Y ->
  ~ stair (fun i => Y i * p_sign p) b e (p_border p) ->
  0 < p_sep p -> p_sep p < 2 -> p_cut p <= 0 -> (1 <= p_max p)%Z -> (p_sign p == 1 \/ p_sign p == - (1)) ->
  ((forall i, ~ is_maximum (fun i => Y i * p_sign p) b e (p_border p) i) ->
     Find srt xsort p x y first = if first then Throw PDF_PEAK_NOT_FOUND else Ok []) /\
  ((exists i, is_maximum (fun i => Y i * p_sign p) b e (p_border p) i) ->
     exists pts K, Find srt xsort p x y first = Ok pts /\ find_result p x Y b e pts K).
Proof.
  intros Hsrt Hxs Hxy Hinc Hpos Hw Hbe HY Hns Hsep0 Hsep2 Hcut Hmax Hsign.
  assert (He : (e < length y)%nat) by (apply (nth_error_len _ _ _ (HY e ltac:(lia)))).
  destruct (FindAllPeaks_exact p x y b e Y Hxy HY Hbe Hns He) as (idx & mx & my0 & HF & Hidx & Hin & L1 & L2 & Hn).
  set (S := fun i => Y i * p_sign p) in *.
  assert (Hrange : forall i, In i idx -> (i < length x)%nat).
  { intros i Hi. apply Hin in Hi. destruct Hi as (s & t & A & B & C & _ & _ & _ & ->). lia. }
  unfold Find.
  destruct (Nat.eqb_spec (length x) 0); [lia|]. destruct (Nat.eqb_spec (length x) (length y)); [|lia]. cbn [negb].
  unfold window_of in Hw. rewrite Hw. cbn [rbind]. rewrite HF. cbn [rbind].
  split.
  - intro Hno. assert (idx = []).
    { destruct idx as [|i r]; [reflexivity|]. exfalso. apply (Hno i). apply Hin. left; reflexivity. }
    subst idx. destruct mx; [reflexivity|discriminate].
  - intros [i0 Hi0].
    assert (Hne : mx <> []).
    { apply Hin in Hi0. destruct idx; [destruct Hi0|]. destruct mx; [discriminate|]. discriminate. }
    destruct mx as [|m0 mr] eqn:Emx; [contradiction|]. rewrite <- Emx in *. clear Emx m0 mr.
    set (my := map S idx).
    assert (HLy : length my = length mx) by (unfold my; rewrite map_length; lia).
    assert (Hmy : forall k i, nth_error idx k = Some i -> nth_error my k = Some (S i)).
    { intros k i Hk. unfold my. rewrite nth_error_map, Hk. reflexivity. }
    rewrite (no_nan_ok my0 my).
    2:{ unfold my. rewrite map_length. lia. }
    2:{ intros k v Hk. pose proof (nth_error_len _ _ _ Hk) as Hkl.
        destruct (nth_error_lt idx k ltac:(lia)) as (i & Hi). destruct (Hn k i Hi) as [_ Hv]. rewrite Hk in Hv. injection Hv as ->.
        exists (Y i * p_sign p). split; [reflexivity|]. apply (Hmy k i Hi). }
    cbn [rbind]. cbv zeta.
    destruct (Qltb_spec 0 (p_cut p)) as [Hcu|Hcu]; [lra|]. cbn [andb rbind].
    destruct (Qltb_spec 0 (p_sep p)) as [Hse|Hse]; [|contradiction].
    assert (Hmxn : forall k i, nth_error idx k = Some i -> nth_error mx k = nth_error x i) by (intros k i Hk; apply (Hn k i Hk)).
    assert (Hincm : strictly_increasing mx).
    { intros k k' u v Hkk Hu Hv.
      destruct (nth_error_lt idx k ltac:(rewrite <- L1; apply (nth_error_len _ _ _ Hu))) as (i & Hi).
      destruct (nth_error_lt idx k' ltac:(rewrite <- L1; apply (nth_error_len _ _ _ Hv))) as (j & Hj).
      apply (Hinc i j); [apply (increasing_idx_lt idx Hidx k k'); auto| |].
      - rewrite <- (Hmxn k i Hi). exact Hu.
      - rewrite <- (Hmxn k' j Hj). exact Hv. }
    assert (Hposm : forall v, In v mx -> - (1) < v).
    { intros v Hv. apply In_nth_error in Hv. destruct Hv as [k Hk].
      destruct (nth_error_lt idx k ltac:(rewrite <- L1; apply (nth_error_len _ _ _ Hk))) as (i & Hi).
      rewrite (Hmxn k i Hi) in Hk. apply Hpos. apply (nth_error_In _ _ Hk). }
    destruct (filter_spec p mx my Hsep0 Hsep2 HLy Hincm Hposm (srt my) (Hsrt my)) as (pts & kept & HFil & Hsel & Hcount).
    destruct Hsel as (S1 & S2 & S3 & S4 & S5 & S6).
    destruct (filter_keeps_best p mx my HLy Hincm Hposm (srt my) pts (Hsrt my) Hne Hmax HFil)
      as (ib & xb & yb & B0 & B1 & B2 & B3 & B4).
    assert (Hkept : forall k, In k kept -> exists i, nth_error idx k = Some i).
    { intros k Hk. apply In_nth_error in Hk. destruct Hk as [a Ha]. destruct (S3 a k Ha) as (u & v & Hu & _).
      apply nth_error_lt. rewrite <- L1. apply (nth_error_len _ _ _ Hu). }
    set (K := map (fun k => nth k idx 0%nat) kept).
    assert (HK : forall a k i, nth_error kept a = Some k -> nth_error idx k = Some i -> nth_error K a = Some i).
    { intros a k i Ha Hk. unfold K. rewrite nth_error_map, Ha. cbn [option_map]. f_equal. apply nth_error_nth. exact Hk. }
    assert (HK' : forall a i, nth_error K a = Some i -> exists k, nth_error kept a = Some k /\ nth_error idx k = Some i).
    { intros a i Ha. unfold K in Ha. rewrite nth_error_map in Ha. destruct (nth_error kept a) as [k|] eqn:Ek; [|discriminate].
      cbn [option_map] in Ha. injection Ha as <-. exists k. split; [reflexivity|].
      destruct (Hkept k (nth_error_In _ _ Ek)) as (i & Hi). rewrite Hi. f_equal. symmetry. apply nth_error_nth. exact Hi. }
    assert (HinK : forall i, In i K -> exists k, In k kept /\ nth_error idx k = Some i).
    { intros i Hi. apply In_nth_error in Hi. destruct Hi as [a Ha]. destruct (HK' a i Ha) as (k & K1 & K2).
      exists k. split; auto. apply (nth_error_In _ _ K1). }
    assert (HinK' : forall k i, In k kept -> nth_error idx k = Some i -> In i K).
    { intros k i Hk Hi. apply In_nth_error in Hk. destruct Hk as [a Ha]. apply (nth_error_In _ a). apply (HK a k i Ha Hi). }
    assert (Hidxinj : forall k k' i, nth_error idx k = Some i -> nth_error idx k' = Some i -> k = k').
    { intros k k' i A B. destruct (Nat.lt_trichotomy k k') as [C|[C|C]]; auto; exfalso.
      - pose proof (increasing_idx_lt idx Hidx k k' i i C A B). lia.
      - pose proof (increasing_idx_lt idx Hidx k' k i i C B A). lia. }
    assert (Hptsx : forall a q, nth_error pts a = Some q -> exists k i, nth_error kept a = Some k /\ nth_error idx k = Some i /\ nth_error x i = Some (pX q) /\ pY q = p_sign p * S i).
    { intros a q Hq. destruct (nth_error_lt kept a ltac:(rewrite <- S1; apply (nth_error_len _ _ _ Hq))) as (k & Hk).
      destruct (S3 a k Hk) as (u & v & Hu & Hv & Hp). destruct (Hkept k (nth_error_In _ _ Hk)) as (i & Hi).
      rewrite Hq in Hp. injection Hp as ->. exists k, i. split; [exact Hk|]. split; [exact Hi|]. cbn [pX pY]. split.
      - rewrite <- (Hmxn k i Hi). exact Hu.
      - rewrite (Hmy k i Hi) in Hv. injection Hv as <-. reflexivity. }
    rewrite HFil. cbn [rbind].
    assert (Hassert : assertPeakSeparation (p_sep p) (xsort (map pX pts)) = Ok tt).
    { apply assert_ok; auto.
      - destruct pts; [discriminate|]. discriminate.
      - intros a a' u v Hne' Hu Hv. rewrite nth_error_map in Hu, Hv.
        destruct (nth_error pts a) as [q|] eqn:Eq; [|discriminate]. destruct (nth_error pts a') as [q'|] eqn:Eq'; [|discriminate].
        cbn [option_map] in Hu, Hv. injection Hu as <-. injection Hv as <-.
        destruct (Hptsx a q Eq) as (k & i & A1 & A2 & A3 & _). destruct (Hptsx a' q' Eq') as (k' & i' & A1' & A2' & A3' & _).
        apply (S5 k k').
        + apply (nth_error_In _ _ A1).
        + apply (nth_error_In _ _ A1').
        + intro E. subst k'. apply Hne'. apply (proj1 (NoDup_nth_error kept) S2); [apply (nth_error_len _ _ _ A1)|congruence].
        + rewrite (Hmxn k i A2). exact A3.
        + rewrite (Hmxn k' i' A2'). exact A3'.
      - intros v Hv. apply in_map_iff in Hv. destruct Hv as (q & <- & Hq). apply In_nth_error in Hq. destruct Hq as [a Ha].
        destruct (Hptsx a q Ha) as (k & i & _ & _ & A3 & _). apply Hpos. apply (nth_error_In _ _ A3). }
    rewrite Hassert. cbn [rbind]. exists pts, K. split; [reflexivity|]. unfold find_result. fold S. cbv zeta.
    split; [unfold K; rewrite map_length; exact S1|].
    split.
    { apply NoDup_nth_error. intros a a' Ha E. destruct (nth_error_lt K a Ha) as (i & Hi). rewrite Hi in E. symmetry in E.
      destruct (HK' a i Hi) as (k & K1 & K2). destruct (HK' a' i E) as (k' & K1' & K2').
      rewrite (Hidxinj k k' i K2 K2') in K1.
      apply (proj1 (NoDup_nth_error kept) S2); [apply (nth_error_len _ _ _ K1)|congruence]. }
    split.
    { intros a i Ha. destruct (HK' a i Ha) as (k & K1 & K2). split; [apply Hin; apply (nth_error_In _ _ K2)|].
      destruct (S3 a k K1) as (u & v & Hu & Hv & Hp). exists u, (mkPoint u (p_sign p * v)).
      split; [rewrite <- (Hmxn k i K2); exact Hu|]. split; [exact Hp|]. split; [reflexivity|]. cbn [pY].
      rewrite (Hmy k i K2) in Hv. injection Hv as <-. unfold S. destruct Hsign as [E|E]; rewrite E; ring. }
    split.
    { intros a a' i i' Haa Hi Hi'. destruct (HK' a i Hi) as (k & K1 & K2). destruct (HK' a' i' Hi') as (k' & K1' & K2').
      apply (S4 a a' k k' (S i) (S i')); auto. }
    split.
    { intros i j xi xj Hi Hj Hne' Hxi Hxj. destruct (HinK i Hi) as (k & K1 & K2). destruct (HinK j Hj) as (k' & K1' & K2').
      apply (S5 k k'); auto.
      - intro E. subst. congruence.
      - rewrite (Hmxn k i K2). exact Hxi.
      - rewrite (Hmxn k' j K2'). exact Hxj. }
    split; [unfold K; rewrite map_length; apply Hcount; exact Hmax|].
    split.
    { destruct (nth_error_lt idx ib ltac:(rewrite <- L1; apply (nth_error_len _ _ _ B1))) as (j & Hj).
      assert (Hyb : yb = S j) by (rewrite (Hmy ib j Hj) in B2; congruence).
      destruct pts as [|q0 pr]; [discriminate|].
      destruct (Hptsx 0%nat q0 eq_refl) as (k & i & A1 & A2 & A3 & A4).
      exists i. split.
      - pose proof (HK 0%nat k i A1 A2) as H0. destruct K; [discriminate|]. simpl in *. exact H0.
      - assert (Hq0 : q0 = mkPoint xb (p_sign p * yb)) by (simpl in B3; congruence).
        assert (Hij : S i == S j).
        { rewrite Hq0 in A4. cbn [pY] in A4. rewrite Hyb in A4.
          destruct Hsign as [E|E]; assert (A5 : p_sign p * S j == p_sign p * S i) by (rewrite A4; reflexivity); rewrite E in A5; lra. }
        intros j' Hj'. apply Hin in Hj'. apply In_nth_error in Hj'. destruct Hj' as [k' Hk'].
        assert (H4 : S j' <= S j) by (rewrite <- Hyb; apply (B4 k'); apply (Hmy k' j' Hk')).
        eapply Qle_trans; [exact H4|]. apply Qle_lteq; right. symmetry. exact Hij. }
    intros j xj Hj Hxj Hnk. apply Hin in Hj. apply In_nth_error in Hj. destruct Hj as [k Hk].
    destruct (S6 k xj (S j)) as [(k' & u & v & A1 & A2 & A3 & A4 & A5)|(A1 & A2)].
    + rewrite (Hmxn k j Hk). exact Hxj.
    + apply (Hmy k j Hk).
    + intro Hkk. apply Hnk. apply (HinK' k j Hkk Hk).
    + left. destruct (Hkept k' A1) as (i & Hi). exists i, u. split; [apply (HinK' k' i A1 Hi)|].
      split; [rewrite <- (Hmxn k' i Hi); exact A2|]. split; [|exact A5]. rewrite (Hmy k' i Hi) in A3. injection A3 as <-. exact A4.
    + right. split; [unfold K; rewrite map_length; exact A1|]. intros i Hi. destruct (HinK i Hi) as (k' & K1 & K2).
      apply (A2 k' (S i) K1). apply (Hmy k' i K2).
Qed.

(** merit cut: exactly the peaks within the cut of the best one *)
Lemma cut_filter_spec best cut : forall mx my, length my = length mx ->
  exists kept, (forall k, In k kept <-> exists y, nth_error my k = Some y /\ best - y <= cut) /\ increasing_idx kept /\
    vgets mx kept = Ok (fst (cut_filter best cut mx my)) /\ vgets my kept = Ok (snd (cut_filter best cut mx my)).
Proof.
  induction mx as [|x mx IH]; intros my HL.
  - exists []. destruct my; [|discriminate]. split; [|split; [constructor|split; reflexivity]].
    intro k. split; [intros []|]. intros (y & Hy & _). destruct k; discriminate.
  - destruct my as [|y my]; [discriminate|]. destruct (IH my) as (kept & H1 & H2 & H3 & H4); [simpl in HL; lia|].
    assert (Hsh : forall A (l : list A) (a : A) is v, vgets l is = Ok v -> vgets (a :: l) (map Datatypes.S is) = Ok v).
    { intros A l a. induction is as [|i is IHi]; intros v Hv; [exact Hv|]. cbn [vgets map] in *. unfold vget in *. cbn [nth_error].
      destruct (nth_error l i); [|discriminate]. cbn [rbind] in *. destruct (vgets l is) as [w| |]; try discriminate.
      rewrite (IHi w eq_refl). exact Hv. }
    assert (Hsort : increasing_idx (map Datatypes.S kept)).
    { unfold increasing_idx in *. clear - H2. induction H2; constructor; auto. rewrite Forall_forall in *. intros z Hz.
      apply in_map_iff in Hz. destruct Hz as (w & <- & Hw). specialize (H w Hw). lia. }
    cbn [cut_filter]. destruct (cut_filter best cut mx my) as [a b]. cbn [fst snd] in *.
    destruct (Qle_bool_spec (best - y) cut) as [C|C].
    + exists (0%nat :: map Datatypes.S kept). split; [|split; [|split]].
      * intro k. split.
        -- intros [<-|Hk]; [exists y; auto|]. apply in_map_iff in Hk. destruct Hk as (k' & <- & Hk'). apply H1 in Hk'. exact Hk'.
        -- intros (v & Hv & Hc). destruct k as [|k]; [left; reflexivity|]. right. apply in_map. apply H1. exists v. auto.
      * constructor; [exact Hsort|]. rewrite Forall_forall. intros z Hz. apply in_map_iff in Hz. destruct Hz as (w & <- & _). lia.
      * cbn [vgets]. unfold vget at 1. cbn [nth_error rbind]. rewrite (Hsh _ mx x kept a H3). reflexivity.
      * cbn [vgets]. unfold vget at 1. cbn [nth_error rbind]. rewrite (Hsh _ my y kept b H4). reflexivity.
    + exists (map Datatypes.S kept). split; [|split; [exact Hsort|split; [apply Hsh; exact H3|apply Hsh; exact H4]]].
      intro k. split.
      * intro Hk. apply in_map_iff in Hk. destruct Hk as (k' & <- & Hk'). apply H1 in Hk'. exact Hk'.
      * intros (v & Hv & Hc). destruct k as [|k]; [simpl in Hv; injection Hv as <-; contradiction|].
        apply in_map. apply H1. exists v. auto.
Qed.

Theorem Cut_Threshold_spec cut srt mx my : 0 <= cut -> length my = length mx -> (2 <= length mx)%nat -> sorts_desc my srt ->
  exists best kept nx ny, Cut_Threshold cut srt mx my = Ok (nx, ny) /\
    In best my /\ (forall y, In y my -> y <= best) /\ increasing_idx kept /\
    (forall k, In k kept <-> exists y, nth_error my k = Some y /\ best - y <= cut) /\
    vgets mx kept = Ok nx /\ vgets my kept = Ok ny.
Proof.
  intros Hc HL H2 Hs. pose proof (sorts_desc_length _ _ Hs) as Hlen. pose proof Hs as [Hperm Hdesc].
  destruct srt as [|i0 r]; [simpl in Hlen; lia|].
  assert (Hi0 : (i0 < length my)%nat) by (apply (sorts_desc_bound _ _ _ Hs); left; auto).
  destruct (nth_error_lt my i0 Hi0) as (best & Hb).
  destruct (cut_filter_spec best cut mx my HL) as (kept & K1 & K2 & K3 & K4).
  assert (Hmax : forall y, In y my -> y <= best).
  { intros y Hy. apply In_nth_error in Hy. destruct Hy as [j Hj].
    assert (Hin : In j (i0 :: r)) by (apply (Permutation_in _ (Permutation_sym Hperm)); apply in_seq; pose proof (nth_error_len _ _ _ Hj); lia).
    apply In_nth_error in Hin. destruct Hin as [a Ha]. destruct a as [|a].
    - simpl in Ha. assert (y = best) by congruence. subst. lra.
    - apply (Hdesc 0%nat (Datatypes.S a) i0 j); auto. lia. }
  assert (Hcut : Cut_Threshold cut (i0 :: r) mx my = Ok (fst (cut_filter best cut mx my), snd (cut_filter best cut mx my))).
  { destruct mx as [|m0 [|m1 mr]]; [simpl in H2; lia|simpl in H2; lia|]. unfold Cut_Threshold.
    unfold vget at 1. cbn [nth_error rbind]. unfold vget at 1. rewrite Hb. cbn [rbind].
    destruct (cut_filter best cut (m0 :: m1 :: mr) my) as [nx ny] eqn:E. cbn [fst snd] in *.
    destruct nx as [|n0 nr]; [|reflexivity]. exfalso.
    assert (Hk : In i0 kept) by (apply K1; exists best; split; [exact Hb|lra]).
    destruct kept as [|k kr]; [destruct Hk|]. cbn [vgets] in K3.
    destruct (vget (m0 :: m1 :: mr) k); try discriminate. cbn [rbind] in K3.
    destruct (vgets (m0 :: m1 :: mr) kr); discriminate. }
  exists best, kept, (fst (cut_filter best cut mx my)), (snd (cut_filter best cut mx my)).
  split; [exact Hcut|]. split; [apply (nth_error_In _ _ Hb)|]. split; [exact Hmax|]. split; [exact K2|]. split; [exact K1|]. split; assumption.
Qed.

Theorem Find_nosep_spec srt xsort p x y first b e Y :
  (forall l, sorts_desc l (srt l)) ->
  length x = length y -> window_of p x b e -> (b + 2 <= e)%nat -> values_on y b e Y ->
  ~ stair (fun i => Y i * p_sign p) b e (p_border p) ->
  p_sep p <= 0 -> p_cut p <= 0 -> (0 <= p_max p)%Z -> (p_sign p == 1 \/ p_sign p == - (1)) ->
  (exists i, is_maximum (fun i => Y i * p_sign p) b e (p_border p) i) ->
  exists pts K, Find srt xsort p x y first = Ok pts /\ top_result p x Y b e pts K.
Proof.
  intros Hsrt Hxy Hw Hbe HY Hns Hsep Hcut Hmax Hsign [i0 Hi0].
  assert (He : (e < length y)%nat) by (apply (nth_error_len _ _ _ (HY e ltac:(lia)))).
  destruct (FindAllPeaks_exact p x y b e Y Hxy HY Hbe Hns He) as (idx & mx & my0 & HF & Hidx & Hin & L1 & L2 & Hn).
  set (S := fun i => Y i * p_sign p) in *.
  unfold Find.
  destruct (Nat.eqb_spec (length x) 0); [lia|]. destruct (Nat.eqb_spec (length x) (length y)); [|lia]. cbn [negb].
  unfold window_of in Hw. rewrite Hw. cbn [rbind]. rewrite HF. cbn [rbind].
  assert (Hne : mx <> []).
  { apply Hin in Hi0. destruct idx; [destruct Hi0|]. destruct mx; [discriminate|]. discriminate. }
  destruct mx as [|m0 mr] eqn:Emx; [contradiction|]. rewrite <- Emx in *. clear Emx m0 mr.
  set (my := map S idx).
  assert (HLy : length my = length mx) by (unfold my; rewrite map_length; lia).
  assert (Hmy : forall k i, nth_error idx k = Some i -> nth_error my k = Some (S i)).
  { intros k i Hk. unfold my. rewrite nth_error_map, Hk. reflexivity. }
  rewrite (no_nan_ok my0 my).
  2:{ unfold my. rewrite map_length. lia. }
  2:{ intros k v Hk. pose proof (nth_error_len _ _ _ Hk) as Hkl.
      destruct (nth_error_lt idx k ltac:(lia)) as (i & Hi). destruct (Hn k i Hi) as [_ Hv]. rewrite Hk in Hv. injection Hv as ->.
      exists (Y i * p_sign p). split; [reflexivity|]. apply (Hmy k i Hi). }
  cbn [rbind]. cbv zeta.
  destruct (Qltb_spec 0 (p_cut p)) as [Hcu|Hcu]; [lra|]. cbn [andb rbind].
  destruct (Qltb_spec 0 (p_sep p)) as [Hse|Hse]; [lra|].
  assert (Hmxn : forall k i, nth_error idx k = Some i -> nth_error mx k = nth_error x i) by (intros k i Hk; apply (Hn k i Hk)).
  destruct (Truncate_spec p (srt my) mx my HLy (Hsrt my)) as (pts & kept & HT & T1 & T2 & T3 & T4 & T5 & T6 & T7).
  assert (Hkept : forall k, In k kept -> exists i, nth_error idx k = Some i).
  { intros k Hk. apply nth_error_lt. rewrite <- L1. apply T3. exact Hk. }
  set (K := map (fun k => nth k idx 0%nat) kept).
  assert (HK : forall a k i, nth_error kept a = Some k -> nth_error idx k = Some i -> nth_error K a = Some i).
  { intros a k i Ha Hk. unfold K. rewrite nth_error_map, Ha. cbn [option_map]. f_equal. apply nth_error_nth. exact Hk. }
  assert (HK' : forall a i, nth_error K a = Some i -> exists k, nth_error kept a = Some k /\ nth_error idx k = Some i).
  { intros a i Ha. unfold K in Ha. rewrite nth_error_map in Ha. destruct (nth_error kept a) as [k|] eqn:Ek; [|discriminate].
    cbn [option_map] in Ha. injection Ha as <-. exists k. split; [reflexivity|].
    destruct (Hkept k (nth_error_In _ _ Ek)) as (i & Hi). rewrite Hi. f_equal. symmetry. apply nth_error_nth. exact Hi. }
  assert (Hidxinj : forall k k' i, nth_error idx k = Some i -> nth_error idx k' = Some i -> k = k').
  { intros k k' i A B. destruct (Nat.lt_trichotomy k k') as [C|[C|C]]; auto; exfalso.
    - pose proof (increasing_idx_lt idx Hidx k k' i i C A B). lia.
    - pose proof (increasing_idx_lt idx Hidx k' k i i C B A). lia. }
  rewrite HT. exists pts, K. split; [reflexivity|]. unfold top_result. fold S. cbv zeta.
  split; [unfold K; rewrite map_length; exact T4|].
  split.
  { apply NoDup_nth_error. intros a a' Ha E. destruct (nth_error_lt K a Ha) as (i & Hi). rewrite Hi in E. symmetry in E.
    destruct (HK' a i Hi) as (k & K1 & K2). destruct (HK' a' i E) as (k' & K1' & K2').
    rewrite (Hidxinj k k' i K2 K2') in K1.
    apply (proj1 (NoDup_nth_error kept) T2); [apply (nth_error_len _ _ _ K1)|congruence]. }
  split.
  { intros a i Ha. destruct (HK' a i Ha) as (k & K1 & K2). split; [apply Hin; apply (nth_error_In _ _ K2)|].
    destruct (T5 a k K1) as (u & v & Hu & Hv & Hp). exists u, (mkPoint u (p_sign p * v)).
    split; [rewrite <- (Hmxn k i K2); exact Hu|]. split; [exact Hp|]. split; [reflexivity|]. cbn [pY].
    rewrite (Hmy k i K2) in Hv. injection Hv as <-. unfold S. destruct Hsign as [E|E]; rewrite E; ring. }
  split.
  { intros a a' i i' Haa Hi Hi'. destruct (HK' a i Hi) as (k & K1 & K2). destruct (HK' a' i' Hi') as (k' & K1' & K2').
    apply (T6 a a' k k' (S i) (S i')); auto. }
  split; [unfold K; rewrite map_length; lia|].
  intros j Hj Hnk. apply Hin in Hj. apply In_nth_error in Hj. destruct Hj as [k Hk].
  assert (Hnk' : ~ In k kept).
  { intro Hkk. apply Hnk. apply In_nth_error in Hkk. destruct Hkk as [a Ha]. apply (nth_error_In _ a). apply (HK a k j Ha Hk). }
  split.
  - unfold K. rewrite map_length, T1. destruct (Z.min_spec (p_max p) (Z.of_nat (length mx))) as [[A B]|[A B]]; [lia|].
    exfalso. apply Hnk'.
    assert (Hinc : incl (seq 0 (length mx)) kept).
    { apply NoDup_length_incl; [exact T2|rewrite seq_length; lia|].
      intros z Hz. apply in_seq. specialize (T3 z Hz). lia. }
    apply Hinc. apply in_seq. rewrite L1. pose proof (nth_error_len _ _ _ Hk). lia.
  - intros i Hi. apply In_nth_error in Hi. destruct Hi as [a Ha]. destruct (HK' a i Ha) as (k' & K1 & K2).
    apply (T7 k' k (S i) (S j)); auto. apply (nth_error_In _ _ K1).
Qed.
