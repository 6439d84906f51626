(** Proofs for C79: the priors sum to the same, the lost merits, examples. *)
From Coq Require Import String.
From Verif Require Import Base RBase RangeModel RangeSpec RangeProofs ZGridModel ZGridSpec ZGridProofs MeikModel MeikProofs PdfModel LmrModel LmrSpec LmrProofs LmrProofs2 LmrProofs3 LmrProofs4 ChiArrModel ChiArrSpec ChiArrProofs ChiArrProofs2 ChiArrProofs3.
Open Scope Q_scope.

Lemma total_app a b : total (a ++ b) == total a + total b.
Proof. induction a as [|x a IH]; cbn [total app]; [ring|]. rewrite IH. ring. Qed.
Lemma total_const l v : (forall q, In q l -> q == v) -> total l == inject_Z (Z.of_nat (length l)) * v.
Proof.
  induction l as [|x l IH]; intro H; [cbn; ring|]. cbn [total length]. rewrite IH by (intros q Hq; apply H; right; exact Hq).
  rewrite (H x (or_introl eq_refl)), Nat2Z.inj_succ. unfold Z.succ. rewrite inject_Z_plus. change (inject_Z 1) with 1. ring.
Qed.
Lemma total_pointwise t : forall P A, length A = length P ->
  (forall k p, nth_error P k = Some p -> exists q, nth_error A k = Some q /\ q == p * t) -> total A == total P * t.
Proof.
  induction P as [|p P IH]; intros [|a A] L H; try (simpl in L; lia); cbn [total]; [ring|].
  destruct (H 0%nat p eq_refl) as (q & Q1 & Q2). simpl in Q1. injection Q1 as ->. rewrite Q2.
  rewrite (IH A); [ring|simpl in L; lia|]. intros k p' Hp. apply (H (S k) p' Hp).
Qed.
Lemma total_blocks m t : forall P W, length W = (length P * m)%nat ->
  (forall k c p, nth_error P k = Some p -> (c < m)%nat -> exists q, nth_error W (k * m + c) = Some q /\ q == p * t) ->
  total W == inject_Z (Z.of_nat m) * (total P * t).
Proof.
  induction P as [|p P IH]; intros W L H.
  - destruct W; [cbn; ring|simpl in L; lia].
  - cbn [length] in L. rewrite <- (firstn_skipn m W), total_app.
    assert (L1 : length (firstn m W) = m) by (rewrite firstn_length; lia).
    rewrite (total_const (firstn m W) (p * t)).
    + rewrite L1, (IH (skipn m W)); [cbn [total]; ring|rewrite skipn_length; lia|].
      intros k c p' Hp Hc. destruct (H (S k) c p' Hp Hc) as (q & Q1 & Q2). exists q. split; [|exact Q2].
      rewrite <- (firstn_skipn m W) in Q1. rewrite nth_error_app2 in Q1 by (rewrite L1; cbn [Nat.mul]; lia). rewrite L1 in Q1. rewrite <- Q1. f_equal. cbn [Nat.mul]. lia.
    + intros q Hq. destruct (In_nth_error _ _ Hq) as [c Hc]. pose proof (nth_error_len _ _ _ Hc) as Lc. rewrite L1 in Lc.
      destruct (H 0%nat c p eq_refl Lc) as (q' & Q1 & Q2). cbn in Q1.
      assert (E : nth_error W c = Some q) by (rewrite <- (firstn_skipn m W), nth_error_app1 by lia; exact Hc). congruence.
Qed.

Lemma total_positions P A n : (1 <= n)%nat -> length A = (length P * n)%nat ->
  (forall k c p, nth_error P k = Some p -> (c < n)%nat -> exists q, nth_error A (position (length P) n k c) = Some q /\ q == p / inject_Z (Z.of_nat n)) ->
  total A == total P.
Proof.
  intros Hn L H. destruct n as [|m]; [lia|]. set (K := length P) in *. rewrite Nat.mul_succ_r in L.
  assert (LK : length (firstn K A) = K) by (rewrite firstn_length; lia).
  rewrite <- (firstn_skipn K A), total_app.
  set (t := / inject_Z (Z.of_nat (S m))). rewrite (total_pointwise t P (firstn K A)).
  - rewrite (total_blocks m t P (skipn K A)).
    + assert (N : ~ inject_Z (Z.of_nat (S m)) == 0) by (unfold Qeq, inject_Z; cbn [Qnum Qden]; lia). unfold t.
      rewrite Nat2Z.inj_succ in *. unfold Z.succ in *. rewrite inject_Z_plus in *. change (inject_Z 1) with 1 in *. field. exact N.
    + rewrite skipn_length. fold K. lia.
    + intros k c p Hp Hc. destruct (H k (S c) p Hp ltac:(lia)) as (q & Q1 & Q2). exists q. split; [|exact Q2]. cbn [position] in Q1. replace (S m - 1)%nat with m in Q1 by lia.
      rewrite <- (firstn_skipn K A) in Q1. rewrite nth_error_app2 in Q1 by (rewrite LK; lia). rewrite LK in Q1. rewrite <- Q1. f_equal. lia.
  - fold K. exact LK.
  - intros k p Hp. destruct (H k 0%nat p Hp ltac:(lia)) as (q & Q1 & Q2). exists q. split; [|exact Q2]. cbn [position] in Q1.
    rewrite <- (firstn_skipn K A) in Q1. rewrite nth_error_app1 in Q1; [exact Q1|]. rewrite LK. apply nth_error_len in Hp. exact Hp.
Qed.

Section Rest.
Variable rest : nat -> option rline.
Variables (lowest dblmin : R).

Lemma priors_total pc r nT nR rows o cst es : pc = Cbestproba \/ pc = Cmarg ->
  table r nT nR rows -> length (r_z r) = length rows -> length (r_prior r) = nR ->
  ((0 < zo_nha o)%R -> GetEuclidNhaLogZPrior false lowest dblmin [] (map Q2R (r_z r)) (zo_nha o) = Ok es) ->
  forall arr, BuildChisquareArray rest lowest dblmin pc true r o cst = Ok arr -> total (a_prior arr) == total (r_prior r).
Proof.
  intros Hpc T L Lp HE arr Ha.
  destruct (array_spec rest lowest dblmin pc true r nT nR rows o cst es Hpc T L (fun _ => Lp) ltac:(discriminate) HE) as (arr' & E & _ & _ & _ & _ & L3 & H).
  assert (arr' = arr) by congruence. subst arr'. unfold models in *. rewrite map_length, seq_length in *.
  apply (total_positions _ _ (ncont nT)); [unfold ncont; lia|rewrite Lp; exact L3|].
  rewrite Lp. intros k c p Hp Hc. assert (Lk : (k < nR)%nat) by (rewrite <- Lp; eapply nth_error_len; exact Hp).
  destruct (H k (Some k) c) as (_ & H2).
  { rewrite nth_error_map. rewrite (nth_error_nth' _ 0%nat) by (rewrite seq_length; exact Lk). rewrite seq_nth by exact Lk. reflexivity. } { exact Hc. }
  destruct (H2 eq_refl) as (pk & q & K1 & K2 & K3). assert (pk = p) by congruence. subst pk. eauto.
Qed.

(** when the merits of the continua are all the same at a redshift, every continuum gets the merit of the best one *)
Lemma flat_merits pc (tplRatio : bool) r nT nR rows o cst es m : pc = Cbestproba \/ pc = Cmarg ->
  table r nT nR rows -> length (r_z r) = length rows -> (tplRatio = true -> length (r_prior r) = nR) ->
  (tplRatio = false -> forall s, In s (r_sol r) -> known rest s) ->
  ((0 < zo_nha o)%R -> GetEuclidNhaLogZPrior false lowest dblmin [] (map Q2R (r_z r)) (zo_nha o) = Ok es) -> (0 < nT)%nat ->
  forall arr, BuildChisquareArray rest lowest dblmin pc tplRatio r o cst = Ok arr ->
  forall k c iz row row0 x0, (k < length (models tplRatio nR))%nat -> (c < nT)%nat ->
    getChisquareTplContinuumResult r iz = Ok (repeat m nT) -> (iz < length rows)%nat ->
    nth_error (a_chi2 arr) (position (length (models tplRatio nR)) nT k c) = Some row -> nth_error (a_chi2 arr) k = Some row0 ->
    nth_error row0 iz = Some x0 -> exists x, nth_error row iz = Some x /\
      match x, x0 with Some u, Some v => u == v | None, None => True | _, _ => False end.
Proof.
  intros Hpc T L Lp Kn HE Hn arr Ha k c iz row row0 x0 Hk Hc Hm Hi Hrow Hrow0 Hx0.
  destruct (array_spec rest lowest dblmin pc tplRatio r nT nR rows o cst es Hpc T L Lp Kn HE) as (arr' & E & _ & _ & _ & _ & _ & H).
  assert (arr' = arr) by congruence. subst arr'. assert (N : ncont nT = nT) by (unfold ncont; lia). rewrite N in H.
  destruct (nth_error_lt (models tplRatio nR) k Hk) as [kr Hkr]. destruct (nth_error_lt rows iz Hi) as [w Hw].
  assert (Wc : w_cont w = repeat m nT) by (destruct (getters_spec r nT nR rows iz w T L Hw) as (G & _); congruence).
  assert (C0 : forall j, (j < nT)%nat -> nth_error (w_cont w) j = Some m).
  { intros j Hj. rewrite Wc. rewrite (nth_error_nth' _ m) by (rewrite repeat_length; exact Hj). rewrite nth_repeat. reflexivity. }
  assert (G : forall c row, (c < nT)%nat -> nth_error (a_chi2 arr) (position (length (models tplRatio nR)) nT k c) = Some row ->
    exists b x, base_merit kr w b /\ nth_error row iz = Some x /\ match x, b with Some u, Some v => u == v | None, None => True | _, _ => False end).
  { intros c' row' Hc' Hr'. destruct (H k kr c' Hkr Hc') as ((row2 & zp & R1 & _ & _ & _ & R2) & _). assert (row2 = row') by congruence. subst row2.
    destruct (R2 iz w Hw) as (b & v & p & B1 & B2 & _ & _ & _ & B3). exists b, v. split; [exact B1|]. split; [exact B2|].
    specialize (B3 m m (C0 c' Hc') (C0 0%nat Hn)). unfold with_continuum in B3. destruct b as [x|]; [|subst v; exact I].
    destruct B3 as (y & -> & B3). destruct m as [q|]; [apply B3; apply Qle_refl|exact B3]. }
  assert (BM : forall b b', base_merit kr w b -> base_merit kr w b' -> b = b').
  { intros b b' B B'. destruct kr as [j|]; cbn [base_merit] in *; [|congruence]. destruct B as (c1 & p1 & A1 & A2 & A3), B' as (c2 & p2 & D1 & D2 & D3).
    assert (c2 = c1) by congruence. assert (p2 = p1) by congruence. subst c2 p2. destruct c1, p1; congruence. }
  destruct (G c row Hc Hrow) as (b & x & B1 & B2 & B3). destruct (G 0%nat row0 Hn Hrow0) as (b' & x' & B1' & B2' & B3').
  assert (b' = b) by (apply BM; assumption). subst b'. assert (x' = x0) by congruence. subst x'.
  exists x. split; [exact B2|]. destruct x, x0, b; try contradiction; auto. rewrite B3, B3'. reflexivity.
Qed.

(** after two passes that do not copy the merits of the continua *)
Lemma second_pass_flat fitf nT nR z priors cands pc o cst es : (forall n x, shaped nT nR (fitf n x)) -> pc = Cbestproba \/ pc = Cmarg ->
  (0 < nT)%nat -> (0 < nR)%nat ->
  strictly_increasing z -> length priors = nR -> cands <> [] -> spaced z ->
  insertable_all (map snd cands) z -> apart (map snd cands) ->
  (forall Zc s, In (Zc, s) cands -> In Zc z /\ In Zc s) ->
  (forall c y, (length z <= c)%nat -> o_cont (fitf c y) = None) ->
  (forall r, two_passes fitf z nT nR priors cands = Ok r -> (0 < zo_nha o)%R -> GetEuclidNhaLogZPrior false lowest dblmin [] (map Q2R (r_z r)) (zo_nha o) = Ok es) ->
  exists r arr, two_passes fitf z nT nR priors cands = Ok r /\ BuildChisquareArray rest lowest dblmin pc true r o cst = Ok arr /\
    forall k c iz y s, (k < nR)%nat -> (c < nT)%nat -> nth_error (r_z r) iz = Some y -> In s (map snd cands) -> replaced s y ->
      exists row row0 x x0, nth_error (a_chi2 arr) (position nR nT k c) = Some row /\ nth_error (a_chi2 arr) k = Some row0 /\
        nth_error row iz = Some x /\ nth_error row0 iz = Some x0 /\
        match x, x0 with Some u, Some v => u == v | None, None => True | _, _ => False end.
Proof.
  intros HS Hpc HnT HnR H1 H2 H3 H4 H5 H6 H7 HN HE.
  destruct (two_passes_spec fitf nT nR HS z priors cands H1 H2 H3 H4 H5 H6 H7) as (r & grid & rows & E & _ & Zr & Pr & T & Lr & _).
  destruct (merits_lost fitf nT nR HS z priors cands H1 H2 H3 H4 H5 H6 H7 HN) as (r' & E' & G). assert (r' = r) by congruence. subst r'.
  assert (L : length (r_z r) = length rows) by (rewrite Zr; symmetry; exact Lr).
  assert (LP : true = true -> length (r_prior r) = nR) by (intros _; rewrite Pr; exact H2).
  assert (Kn : true = false -> forall s, In s (r_sol r) -> known rest s) by discriminate.
  destruct (array_spec rest lowest dblmin pc true r nT nR rows o cst es Hpc T L LP Kn (HE r E)) as (arr & Ea & _ & _ & La & _ & _ & H).
  exists r, arr. split; [exact E|]. split; [exact Ea|]. intros k c iz y s Hk Hc Hy Hs Rs.
  pose proof (G iz y s Hy Hs Rs) as Gm.
  assert (Hi : (iz < length rows)%nat) by (rewrite <- L; eapply nth_error_len; exact Hy).
  assert (LM : length (models true nR) = nR) by (unfold models; rewrite map_length, seq_length; reflexivity).
  assert (N : ncont nT = nT) by (unfold ncont; lia). rewrite LM, N in H.
  assert (Hkr : nth_error (models true nR) k = Some (Some k)).
  { unfold models. rewrite nth_error_map. rewrite (nth_error_nth' _ 0%nat) by (rewrite seq_length; exact Hk). rewrite seq_nth by exact Hk. reflexivity. }
  destruct (H k (Some k) c Hkr Hc) as ((row & zp & R1 & _) & _). destruct (H k (Some k) 0%nat Hkr HnT) as ((row0 & zp0 & R2 & _ & R3 & _) & _). cbn [position] in R2.
  destruct (nth_error_lt row0 iz ltac:(lia)) as [x0 Hx0].
  destruct (flat_merits pc true r nT nR rows o cst es (Some dbl_max) Hpc T L LP Kn (HE r E) HnT arr Ea k c iz row row0 x0) as (x & Hx & Q); auto.
  { rewrite LM. exact Hk. } { rewrite LM. exact R1. }
  exists row, row0, x, x0. auto 10.
Qed.
End Rest.
(** the merits of the array alone, for an example: the loops with empty priors *)
Definition mapr_rows (r : lmres) : res (list (list flt)) :=
  do rows <- mapr (tplratio_row r) (seq 0 (length (r_rchi2 r)));
  match r_cont r with
  | [] => Ok rows
  | c0 :: cs => do (x, _, _) <- rloop (fun k => rloop (push_model (length (r_z r)) c0 k) cs) (seq 0 (length rows)) (rows, map (fun _ => []) rows, []); Ok x
  end.
