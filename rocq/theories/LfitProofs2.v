From Verif Require Import Base RBase FftModel FftSpec FftProofs FftProofs2 FftProofs3 LfitModel LfitSpec LfitProofs.
Open Scope R_scope.

Lemma rev_mapseq {A} (F : nat -> A) n : rev (map F (seq 0 n)) = map (fun i => F (n - 1 - i)%nat) (seq 0 n).
Proof.
  induction n; [reflexivity|].
  assert (E0 : rev (map F (seq 0 (S n))) = F n :: rev (map F (seq 0 n))).
  { rewrite seq_S, map_app, rev_app_distr. reflexivity. }
  rewrite E0, IHn. cbn [seq map]. f_equal; [f_equal; lia|].
  rewrite <- seq_shift, map_map. apply map_ext. intros i. f_equal. lia.
Qed.
Lemma nth_error_mapseq {A} (F : nat -> A) n i : (i < n)%nat -> nth_error (map F (seq 0 n)) i = Some (F i).
Proof. intros L. apply Rnth_map_seq. split; [exact L|]. reflexivity. Qed.

Lemma gridCheck_ok s0 zrev tl kstart B : forall todo t worst, (t + todo <= length zrev)%nat ->
  (kstart + t + todo <= length tl)%nat -> worst <= B ->
  (forall k l z, (t <= k < t + todo)%nat -> nth_error tl (k + kstart) = Some l -> nth_error zrev k = Some z ->
     Rabs (z - (s0 - l) / l) / (1 + (s0 - l) / l) <= B) ->
  exists r, gridCheck s0 zrev tl kstart t todo worst = Ok r /\ r <= B.
Proof.
  induction todo as [|m IH]; intros t worst L1 L2 W H; [exists worst; auto|].
  cbn [gridCheck]. destruct (nth_error tl (t + kstart)) as [l|] eqn:El.
  2:{ apply nth_error_None in El. lia. }
  destruct (nth_error zrev t) as [z|] eqn:Ez. 2:{ apply nth_error_None in Ez. lia. }
  unfold vget. rewrite El, Ez. cbn [rbind]. apply IH; try lia.
  - destruct (Rltb_spec worst (Rabs (z - (s0 - l) / l) / (1 + (s0 - l) / l))); [|exact W].
    apply (H t l z); auto. lia.
  - intros k l' z' K. apply H. lia.
Qed.

Section One.
  Context (thr : R) (enIGM enISM : bool) (ebmvValue : Z -> R).
  Context (flux : nat -> nat -> R -> option Z -> option Z -> list R).

  Lemma FitRangez_ok j1 j2 spcLambda data w tplLambda kstart kend zs MeiksinList EbmvList dtd zref s0 l0 :
    (1 <= length spcLambda)%nat -> length data = length spcLambda -> length w = length spcLambda ->
    Forall (fun v => 0 <= v) w -> dtd = wdot w data data ->
    nth_error zs 0 = Some zref -> nth_error spcLambda 0 = Some s0 -> nth_error tplLambda kstart = Some l0 ->
    (kend + 2 = kstart + length spcLambda + length zs)%nat -> (kend < length tplLambda)%nat ->
    (forall igm ism, length (flux kstart kend zref igm ism) = length tplLambda) ->
    MeiksinList <> [] -> EbmvList <> [] ->
    (forall k l z, (k < length zs)%nat -> nth_error tplLambda (k + kstart) = Some l -> nth_error (rev zs) k = Some z ->
       Rabs (z - (s0 - l) / l) / (1 + (s0 - l) / l) <= 5 / 10000000) ->
    exists bests inter,
      FitRangez thr enIGM enISM ebmvValue flux j1 j2 spcLambda data w tplLambda kstart kend zs MeiksinList EbmvList dtd
        = Ok (bests, inter) /\
      range_fitted thr enIGM enISM ebmvValue w data (flux kstart kend zref) l0 kstart (length zs) MeiksinList EbmvList bests inter.
  Proof.
    intros HS HD HW Wp Ed Ez Es El HK HE HF HM HB HG.
    assert (HN : (1 <= length zs)%nat) by (destruct zs; [discriminate|simpl; lia]).
    unfold FitRangez. rewrite HD, HW, !Nat.eqb_refl. cbn [negb].
    unfold vget at 1. rewrite Ez. cbn [rbind].
    destruct (Nat.ltb_spec (kend + 1 - kstart + 1) (length spcLambda)) as [C|_]; [lia|].
    assert (Ens : (kend + 1 - kstart + 1 - length spcLambda = length zs)%nat) by lia.
    rewrite Ens. unfold vget at 1. rewrite Es. cbn [rbind].
    destruct (gridCheck_ok s0 (rev zs) tplLambda kstart (5 / 10000000) (length zs) 0 0) as (r & Er & Lr);
      [rewrite rev_length; lia|lia|lra| |].
    { intros k l z K. apply HG. lia. }
    rewrite Er. cbn [rbind]. destruct (Rltb_spec (5 / 10000000) r) as [C|_]; [lra|].
    rewrite Nat.eqb_refl. cbn [negb]. unfold vget. rewrite El. cbn [rbind].
    fold (igm_hidden l0 MeiksinList). set (hidden := igm_hidden l0 MeiksinList) in *.
    change (Rltb LYA l0 && (1 <? length MeiksinList)%nat)%bool with hidden.
    set (ms := if hidden then firstn 1 MeiksinList else MeiksinList).
    set (enable := (enIGM && negb hidden)%bool).
    set (nSpc := length spcLambda) in *. set (nsh := length zs) in *.
    assert (HPad : (nSpc + nsh - 1 <= 2 * ((kend + 1 - kstart + 1) / 2))%nat).
    { pose proof (Nat.div_mod (kend + 1 - kstart + 1) 2 ltac:(lia)). pose proof (Nat.mod_upper_bound (kend + 1 - kstart + 1) 2 ltac:(lia)). lia. }
    set (nPad := (2 * ((kend + 1 - kstart + 1) / 2))%nat) in *.
    set (T := fun m e => flux kstart kend zref (if enable then Some m else None) (if enISM then Some e else None)).
    rewrite (igmLoop_ok thr enISM ebmvValue flux kstart kend zref enable data w dtd nSpc nsh nPad
               HS HD HW HN ltac:(lia) HPad ltac:(intros; rewrite HF; lia) EbmvList ms (InitFFT nPad j1 j2)
               (repeat None nsh) (goodst_init nPad j1 j2 _ w)).
    cbn [rbind].
    assert (Erep : repeat (@None cell) nsh = map (fun _ => None) (seq 0 nsh)).
    { clear. generalize 0%nat. induction nsh; intros s; simpl; congruence. }
    rewrite Erep, fold_improve, rev_mapseq.
    set (ca := cell_at thr enISM ebmvValue flux kstart kend zref enable data w dtd nSpc).
    assert (Hcell : forall k me, (k < nsh)%nat ->
      is_fit thr w data (window (kstart + k) nSpc (T (fst me) (snd me))) (if enISM then ebmvValue (snd me) else -1)
             (if enable then fst me else (-1)%Z) (ca k me)).
    { intros k me K. unfold ca, cell_at, mkBestCell. cbv zeta. fold (T (fst me) (snd me)).
      change (flux kstart kend zref (if enable then Some (fst me) else None) (if enISM then Some (snd me) else None)) with (T (fst me) (snd me)).
      rewrite Ed, fitShift_spec; auto.
      - unfold is_fit. cbn. repeat split.
      - lia.
      - rewrite window_length; [lia|]. unfold T. rewrite HF. lia. }
    eexists. eexists. split; [reflexivity|].
    unfold range_fitted. cbv zeta. fold hidden. fold enable. fold ms.
    split; [rewrite map_length, seq_length; reflexivity|].
    split; [unfold intermediate; rewrite map_length, seq_length; reflexivity|].
    intros i Li. assert (Ld : length data = nSpc) by exact HD. rewrite Ld. split.
    - assert (Hne : list_prod ms EbmvList <> []).
      { unfold ms. destruct MeiksinList as [|m0 M]; [contradiction|]. destruct EbmvList as [|e0 E0]; [contradiction|].
        destruct hidden; simpl; discriminate. }
      destruct (fold_best (fun me => ca (nsh - 1 - i)%nat me) (list_prod ms EbmvList) Hne) as ([m e] & Ez' & Fb).
      exists m, e, (ca (nsh - 1 - i)%nat (m, e)). split.
      + rewrite nth_error_mapseq by exact Li. fold ca. rewrite Ez'. reflexivity.
      + split; [|exact (Hcell (nsh - 1 - i)%nat (m, e) ltac:(lia))].
        destruct Fb as (be & af & Eq & H1 & H2). exists be, af. split; [exact Eq|].
        assert (V : forall me, merit thr w data (window (kstart + (nsh - 1 - i)) nSpc (T (fst me) (snd me))) = c_chi2 (ca (nsh - 1 - i)%nat me)).
        { intros me. symmetry. apply (Hcell (nsh - 1 - i)%nat me). lia. }
        unfold T in V. split; intros y Hy; rewrite !V; auto.
    - unfold intermediate. eexists. split; [apply nth_error_mapseq; exact Li|].
      split; [rewrite map_length, seq_length; reflexivity|].
      intros kism e Ke. assert (Lk : (kism < length EbmvList)%nat) by (apply nth_error_Some; congruence).
      eexists. split; [apply nth_error_mapseq; exact Lk|].
      split; [rewrite map_length, seq_length; reflexivity|].
      intros kigm m Km. assert (Lm : (kigm < length MeiksinList)%nat) by (apply nth_error_Some; congruence).
      rewrite nth_error_mapseq by exact Lm. f_equal.
      assert (Ccol : forall g x, nth_error ms g = Some x ->
        nth (nsh - 1 - i) (nth kism (nth g (map (fun m1 => map (fun e1 => map c_chi2 (cells_of thr enISM ebmvValue flux kstart kend zref enable data w dtd nSpc nsh (m1, e1))) EbmvList) ms) []) []) 0
        = merit thr w data (window (kstart + (nsh - 1 - i)) nSpc (T x e))).
      { intros g x Hg.
        rewrite (nth_error_nth _ _ [] (map_nth_error (fun m1 => map (fun e1 => map c_chi2 (cells_of thr enISM ebmvValue flux kstart kend zref enable data w dtd nSpc nsh (m1, e1))) EbmvList) g ms Hg)).
        rewrite (nth_error_nth _ _ [] (map_nth_error (fun e1 => map c_chi2 (cells_of thr enISM ebmvValue flux kstart kend zref enable data w dtd nSpc nsh (x, e1))) kism EbmvList Ke)).
        unfold cells_of. rewrite map_map, nth_mapseq by lia. apply (Hcell (nsh - 1 - i)%nat (x, e)). lia. }
      destruct hidden eqn:Hh.
      + destruct MeiksinList as [|m0 M] eqn:EM; [contradiction|]. rewrite (Ccol 0%nat m0) by reflexivity.
        unfold T, enable. rewrite andb_false_r. reflexivity.
      + rewrite (Ccol kigm m) by exact Km. reflexivity.
  Qed.
End One.
