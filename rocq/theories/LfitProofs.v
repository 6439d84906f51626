From Verif Require Import Base RBase FftModel FftSpec FftProofs FftProofs2 FftProofs3 LfitModel LfitSpec.
Open Scope R_scope.

(** * least squares *)
Lemma chi2_quad w : forall d t a, length d = length w -> length t = length w ->
  chi2_of w d t a = wdot w d d - 2 * a * wdot w d t + a * a * wdot w t t.
Proof.
  induction w as [|v w IH]; intros [|x d] [|y t] a L1 L2; simpl in *; try lia; try ring.
  rewrite IH by lia. ring.
Qed.
Lemma wdot_nn w : Forall (fun v => 0 <= v) w -> forall t, 0 <= wdot w t t.
Proof.
  induction 1 as [|v w Hv Hw IH]; intros [|y t]; simpl; try lra.
  specialize (IH t). assert (0 <= v * (y * y)) by (apply Rmult_le_pos; [exact Hv|apply Rle_0_sqr]). lra.
Qed.
Lemma sumDtD_wdot d : forall w, length d = length w -> sumDtD d w = wdot w d d.
Proof. induction d as [|x d IH]; intros [|v w] L; simpl in *; try lia; try reflexivity. rewrite IH by lia. ring. Qed.

Lemma sigma_eq x m : 0 < m -> x / m / sqrt (1 / m) = x / sqrt m.
Proof.
  intros M. pose proof (sqrt_lt_R0 m M) as S0. pose proof (sqrt_sqrt m ltac:(lra)) as SS.
  replace (1 / m) with (/ m) by (field; lra). rewrite sqrt_inv. 
  rewrite <- SS at 1. field. lra.
Qed.

Lemma fitShift_spec thr w d t : Forall (fun v => 0 <= v) w -> length d = length w -> length t = length w ->
  fitShift thr (wdot w d d) (wdot w d t) (wdot w t t) =
  (merit thr w d t, amplitude thr w d t,
   (if Reqb (wdot w t t) 0 then 0 else sqrt (1 / wdot w t t)),
   (if Reqb (wdot w t t) 0 then 0 else wdot w d t / sqrt (wdot w t t))).
Proof.
  intros W L1 L2. unfold fitShift, merit, amplitude. rewrite chi2_quad by assumption.
  pose proof (wdot_nn w W t) as P. destruct (Reqb_spec (wdot w t t) 0) as [E|E].
  - f_equal. f_equal. f_equal. ring.
  - rewrite sigma_eq by lra.
    destruct (Rltb _ thr); f_equal; f_equal; f_equal; ring.
Qed.

Lemma merit_optimal thr w d t a : Forall (fun v => 0 <= v) w -> length d = length w -> length t = length w ->
  (wdot w t t = 0 -> wdot w d t = 0) ->
  thr <= wdot w d t / sqrt (wdot w t t) \/ wdot w t t = 0 -> merit thr w d t <= chi2_of w d t a.
Proof.
  intros W L1 L2 Z0 H. unfold merit, amplitude. rewrite !chi2_quad by assumption.
  pose proof (wdot_nn w W t) as P. destruct (Reqb_spec (wdot w t t) 0) as [E|E].
  - rewrite (Z0 E), E. lra.
  - destruct (Rltb_spec (wdot w d t / sqrt (wdot w t t)) thr) as [L|L]; [lra|].
    set (x := wdot w d t) in *. set (m := wdot w t t) in *.
    assert (M : 0 < m) by lra. pose proof (Rle_0_sqr (a - x / m)) as Sq. unfold Rsqr in Sq.
    assert (F : a * a * m - 2 * a * x - (x / m * (x / m) * m - 2 * (x / m) * x) = m * ((a - x / m) * (a - x / m))) by (field; lra).
    assert (0 <= m * ((a - x / m) * (a - x / m))) by (apply Rmult_le_pos; lra). lra.
Qed.

Lemma wdot_null w : Forall (fun v => 0 <= v) w -> forall d t, wdot w t t = 0 -> wdot w d t = 0.
Proof.
  induction 1 as [|v w Hv Hw IH]; intros [|x d] [|y t] E; simpl in *; try reflexivity.
  pose proof (wdot_nn w Hw t) as P. assert (Q : 0 <= v * (y * y)) by (apply Rmult_le_pos; [exact Hv|apply Rle_0_sqr]).
  assert (v * (y * y) = 0) by lra. assert (E' : wdot w t t = 0) by lra. rewrite (IH d t E').
  apply Rmult_integral in H. destruct H as [-> |H]; [ring|]. apply Rsqr_0_uniq in H. subst y. ring.
Qed.
Lemma merit_le_dtd thr w d t : Forall (fun v => 0 <= v) w -> length d = length w -> length t = length w ->
  merit thr w d t <= wdot w d d.
Proof.
  intros W L1 L2. assert (E : wdot w d d = chi2_of w d t 0) by (rewrite chi2_quad by assumption; ring).
  destruct (Rltb_spec (wdot w d t / sqrt (wdot w t t)) thr) as [L|L].
  - unfold merit, amplitude. destruct (Reqb_spec (wdot w t t) 0); [lra|].
    destruct (Rltb_spec (wdot w d t / sqrt (wdot w t t)) thr); lra.
  - rewrite E. apply merit_optimal; auto. apply wdot_null. exact W. left. lra.
Qed.

(** * windows *)
Lemma dot_products d : forall w y, length d = length w -> (length d <= length y)%nat ->
  dot (map (fun dw => fst dw * snd dw) (combine d w)) y = wdot w d (firstn (length d) y).
Proof.
  induction d as [|x d IH]; intros [|v w] [|z y] L1 L2; simpl in *; try lia; try reflexivity.
  rewrite IH by lia. ring.
Qed.
Lemma dot_squares w : forall y, (length w <= length y)%nat ->
  dot w (map (fun x => x * x) y) = wdot w (firstn (length w) y) (firstn (length w) y).
Proof.
  induction w as [|v w IH]; intros [|z y] L; simpl in *; try lia; try reflexivity.
  rewrite IH by lia. ring.
Qed.
Lemma skipn_map {A B} (f : A -> B) k l : skipn k (map f l) = map f (skipn k l).
Proof. revert l; induction k; intros [|x l]; simpl; auto. Qed.
Lemma window_window a n k m (l : list R) : (k + m <= n)%nat -> window k m (window a n l) = window (a + k) m l.
Proof.
  intros L. unfold window. rewrite skipn_firstn_comm, firstn_firstn, Nat.min_l by lia. f_equal.
  clear. revert l. induction a; intros l; [reflexivity|]. destruct l; [rewrite !skipn_nil; reflexivity|]. simpl. apply IHa.
Qed.
Lemma window_length i n (l : list R) : (i + n <= length l)%nat -> length (window i n l) = n.
Proof. intros L. unfold window. rewrite firstn_length, skipn_length. lia. Qed.

(** * the FFT state inside a range *)
Definition goodst (n : nat) (X w : list R) (st : fft) : Prop :=
  exists x0 x1, inv n x0 x1 st /\ (x0 = None \/ x0 = Some X) /\ (x1 = None \/ x1 = Some w).
Lemma goodst_init n j1 j2 X w : goodst n X w (InitFFT n j1 j2).
Proof. exists None, None. repeat split; auto. Qed.
Lemma result_corr n X Y : fits n X Y -> result n X Y (length X) = correlations X Y.
Proof. intros F. unfold result, correlations. apply map_ext_in. intros k K. apply in_seq in K. apply cyclic_correlation; [exact F|lia]. Qed.
Lemma Estimate0 n X w st Y : goodst n X w st -> fits n X Y ->
  exists st', EstimateXtY st X Y 0 = Ok (st', correlations X Y) /\ goodst n X w st'.
Proof.
  intros (x0 & x1 & Hi & H0 & H1) F. destruct (Estimate_spec n x0 x1 st X Y 0 Hi F) as (st' & E & I').
  assert (Ef : eff x0 x1 0 X = X) by (destruct H0 as [-> | ->]; reflexivity).
  rewrite Ef, result_corr in E by exact F. exists st'. split; [exact E|].
  exists (upd0 x0 x1 0 X), (upd1 x0 x1 0 X). split; [exact I'|]. unfold upd0, upd1. rewrite Ef. simpl. auto.
Qed.
Lemma Estimate1 n X w st Y : goodst n X w st -> fits n w Y ->
  exists st', EstimateXtY st w Y 1 = Ok (st', correlations w Y) /\ goodst n X w st'.
Proof.
  intros (x0 & x1 & Hi & H0 & H1) F. destruct (Estimate_spec n x0 x1 st w Y 1 Hi F) as (st' & E & I').
  assert (Ef : eff x0 x1 1 w = w) by (destruct H1 as [-> | ->]; reflexivity).
  rewrite Ef, result_corr in E by exact F. exists st'. split; [exact E|].
  exists (upd0 x0 x1 1 w), (upd1 x0 x1 1 w). split; [exact I'|]. unfold upd0, upd1. rewrite Ef. simpl. auto.
Qed.

Lemma combine_map {A B C} (f : A -> B) (g : A -> C) l : combine (map f l) (map g l) = map (fun x => (f x, g x)) l.
Proof. induction l; simpl; congruence. Qed.

Section Range.
  Context (thr : R) (enISM : bool) (ebmvValue : Z -> R).
  Context (flux : nat -> nat -> R -> option Z -> option Z -> list R).
  Context (kstart kend : nat) (zref : R) (enable : bool) (data w : list R) (dtd : R) (nSpc nsh nPad : nat).
  Notation T m e := (flux kstart kend zref (if enable then Some m else None) (if enISM then Some e else None)).
  Hypothesis HS : (1 <= nSpc)%nat.
  Hypothesis HD : length data = nSpc.
  Hypothesis HW : length w = nSpc.
  Hypothesis HN : (1 <= nsh)%nat.
  Hypothesis HK : (kend + 1 = kstart + (nSpc + nsh - 1))%nat.
  Hypothesis HP : (nSpc + nsh - 1 <= nPad)%nat.
  Hypothesis HT : forall m e, (kend < length (T m e))%nat.

  Definition cell_at (k : nat) (me : Z * Z) : cell :=
    let t := window (kstart + k) nSpc (T (fst me) (snd me)) in
    mkBestCell thr dtd (wdot w data t) (wdot w t t) (if enISM then ebmvValue (snd me) else -1) (if enable then fst me else (-1)%Z).
  Definition cells_of (me : Z * Z) : list cell := map (fun k => cell_at k me) (seq 0 nsh).
  Notation X := (map (fun dw => fst dw * snd dw) (combine data w)).

  Lemma X_len : length X = nSpc.
  Proof. rewrite map_length, combine_length. lia. Qed.

  Lemma ismLoop_ok igm : forall ebs st bests, goodst nPad X w st ->
    exists st', ismLoop thr enISM ebmvValue flux kstart kend zref enable X w dtd st igm ebs bests =
      Ok (st', fold_left (fun b e => improveAll b (cells_of (igm, e))) ebs bests, map (fun e => map c_chi2 (cells_of (igm, e))) ebs)
      /\ goodst nPad X w st'.
  Proof.
    induction ebs as [|e ebs IH]; intros st bests G; [exists st; split; [reflexivity|exact G]|].
    cbn [ismLoop]. unfold crop. pose proof (HT igm e) as Ht.
    destruct (Nat.ltb_spec (length (T igm e)) (kend + 1)) as [C|_]; [lia|]. cbn [rbind].
    replace (firstn (kend + 1 - kstart) (skipn kstart (T igm e))) with (window kstart (nSpc + nsh - 1) (T igm e)).
    2:{ unfold window. f_equal. lia. }
    set (tp := window kstart (nSpc + nsh - 1) (T igm e)).
    assert (Lt : length tp = (nSpc + nsh - 1)%nat) by (apply window_length; lia).
    destruct (Estimate0 nPad X w st tp G) as (st1 & E1 & G1).
    { split; [rewrite X_len|]; lia. }
    rewrite E1. cbn [rbind].
    destruct (Estimate1 nPad X w st1 (map (fun x => x * x) tp) G1) as (st2 & E2 & G2).
    { split; rewrite map_length; lia. }
    rewrite E2. cbn [rbind].
    assert (Es : (length tp - nSpc + 1 = nsh)%nat) by lia.
    assert (C1 : correlations X tp = map (fun k => wdot w data (window (kstart + k) nSpc (T igm e))) (seq 0 nsh)).
    { unfold correlations. rewrite X_len, Es. apply map_ext_in. intros k K. apply in_seq in K. unfold correlation_at.
      rewrite dot_products by (rewrite ?skipn_length; lia). f_equal. rewrite HD.
      fold (window k nSpc tp). apply window_window. lia. }
    assert (C2 : correlations w (map (fun x => x * x) tp) = map (fun k => wdot w (window (kstart + k) nSpc (T igm e)) (window (kstart + k) nSpc (T igm e))) (seq 0 nsh)).
    { unfold correlations. rewrite map_length, HW, Es. apply map_ext_in. intros k K. apply in_seq in K. unfold correlation_at.
      rewrite skipn_map, dot_squares by (rewrite skipn_length; lia). rewrite HW.
      change (firstn nSpc (skipn k tp)) with (window k nSpc (window kstart (nSpc + nsh - 1) (T igm e))). rewrite (window_window kstart (nSpc + nsh - 1) k nSpc) by lia. reflexivity. }
    rewrite C1, C2, !map_length, Nat.eqb_refl. cbn [negb].
    rewrite combine_map, map_map. cbn [fst snd].
    match goal with |- context [improveAll bests ?c] => change c with (cells_of (igm, e)) end.
    destruct (IH st2 (improveAll bests (cells_of (igm, e))) G2) as (st3 & E3 & G3). rewrite E3. cbn [rbind].
    exists st3. split; [|exact G3]. cbn [fold_left map]. reflexivity.
  Qed.

  Lemma igmLoop_ok ebs : forall ms st bests, goodst nPad X w st ->
    igmLoop thr enISM ebmvValue flux kstart kend zref enable X w dtd st ms ebs bests =
      Ok (fold_left (fun b me => improveAll b (cells_of me)) (list_prod ms ebs) bests,
          map (fun m => map (fun e => map c_chi2 (cells_of (m, e))) ebs) ms).
  Proof.
    induction ms as [|m ms IH]; intros st bests G; [reflexivity|].
    cbn [igmLoop]. destruct (ismLoop_ok m ebs st bests G) as (st1 & E1 & G1). rewrite E1. cbn [rbind].
    rewrite (IH st1 _ G1). cbn [rbind list_prod map]. rewrite fold_left_app.
    f_equal. f_equal. f_equal. clear. revert bests. induction ebs; intros b; [reflexivity|]. cbn [fold_left map]. apply IHl || apply IHebs.
  Qed.

  Lemma fold_improve : forall (l : list (Z * Z)) (f : nat -> option cell),
    fold_left (fun b me => improveAll b (cells_of me)) l (map f (seq 0 nsh)) =
    map (fun k => fold_left (fun b me => improve b (cell_at k me)) l (f k)) (seq 0 nsh).
  Proof.
    induction l as [|me l IH]; intros f; [reflexivity|]. cbn [fold_left].
    rewrite <- (IH (fun k => improve (f k) (cell_at k me))). f_equal. unfold cells_of.
    generalize (seq 0 nsh). intros s. induction s; simpl; congruence.
  Qed.
End Range.

Lemma fold_first_best {A} (g : A -> cell) : forall l x before mid,
  (forall y, In y before -> c_chi2 (g x) < c_chi2 (g y)) -> (forall y, In y mid -> c_chi2 (g x) <= c_chi2 (g y)) ->
  exists z, fold_left (fun b y => improve b (g y)) l (Some (g x)) = Some (g z) /\
    first_best (fun y => c_chi2 (g y)) (before ++ x :: mid ++ l) z.
Proof.
  induction l as [|y l IH]; intros x before mid H1 H2.
  - exists x. split; [reflexivity|]. rewrite app_nil_r. exists before, mid. auto.
  - cbn [fold_left improve]. destruct (Rltb_spec (c_chi2 (g y)) (c_chi2 (g x))) as [L|L].
    + destruct (IH y (before ++ x :: mid) []) as (z & E & F).
      * intros u U. apply in_app_or in U. destruct U as [U|[U|U]]; [specialize (H1 u U)|subst u|specialize (H2 u U)]; lra.
      * intros u [].
      * exists z. split; [exact E|]. rewrite <- app_assoc in F. exact F.
    + destruct (IH x before (mid ++ [y])) as (z & E & F); [exact H1| |].
      * intros u U. apply in_app_or in U. destruct U as [U|[U|[]]]; [auto|subst u; lra].
      * exists z. split; [exact E|]. rewrite <- app_assoc in F. exact F.
Qed.
Lemma fold_best {A} (g : A -> cell) l : l <> [] ->
  exists z, fold_left (fun b y => improve b (g y)) l None = Some (g z) /\ first_best (fun y => c_chi2 (g y)) l z.
Proof.
  destruct l as [|x l]; [contradiction|]. intros _. cbn [fold_left improve].
  apply (fold_first_best g l x [] []); intros y [].
Qed.
