From Verif Require Import Base RBase RangeModel RangeSpec RangeProofs PdfModel PdfSpec PdfProofs.
From Coq Require Import Qreals.
Open Scope R_scope.

(** ** min and max folds *)
Lemma Rminb_cases a b : (Rminb a b = a /\ a <= b) \/ (Rminb a b = b /\ b <= a).
Proof. unfold Rminb. destruct (Rltb_spec b a); [right|left]; split; auto; lra. Qed.
Lemma Rmaxb_cases a b : (Rmaxb a b = a /\ b <= a) \/ (Rmaxb a b = b /\ a <= b).
Proof. unfold Rmaxb. destruct (Rltb_spec a b); [right|left]; split; auto; lra. Qed.
Lemma fold_min : forall l x, is_min (fold_left Rminb l x) (x :: l).
Proof.
  induction l as [|a l IH]; intro x; simpl; [split; [left; reflexivity|intros y [<-|[]]; lra]|].
  destruct (IH (Rminb x a)) as [H1 H2]. pose proof (H2 (Rminb x a) (or_introl eq_refl)) as H3.
  destruct (Rminb_cases x a) as [[E H]|[E H]]; rewrite E in *.
  - split; [destruct H1 as [H1|H1]; [left|right; right]; auto|]. intros y [<-|[<-|Hy]]; [auto|lra|apply H2; right; exact Hy].
  - split; [destruct H1 as [H1|H1]; [right; left|right; right]; auto|]. intros y [<-|[<-|Hy]]; [lra|auto|apply H2; right; exact Hy].
Qed.
Lemma fold_max : forall l x, is_max (fold_left Rmaxb l x) (x :: l).
Proof.
  induction l as [|a l IH]; intro x; simpl; [split; [left; reflexivity|intros y [<-|[]]; lra]|].
  destruct (IH (Rmaxb x a)) as [H1 H2]. pose proof (H2 (Rmaxb x a) (or_introl eq_refl)) as H3.
  destruct (Rmaxb_cases x a) as [[E H]|[E H]]; rewrite E in *.
  - split; [destruct H1 as [H1|H1]; [left|right; right]; auto|]. intros y [<-|[<-|Hy]]; [auto|lra|apply H2; right; exact Hy].
  - split; [destruct H1 as [H1|H1]; [right; left|right; right]; auto|]. intros y [<-|[<-|Hy]]; [lra|auto|apply H2; right; exact Hy].
Qed.

(** ** BestChi2 *)
Lemma min_model_spec : forall best m, length m = length best ->
  exists b', min_model best m = Ok b' /\ length b' = length best /\
    forall k, (k < length best)%nat -> nth k b' 0 = Rminb (nth k best 0) (nth k m 0).
Proof.
  induction best as [|b bs IH]; intros [|x xs] H; try discriminate.
  - exists []. repeat split. intros k Hk. simpl in Hk. lia.
  - injection H as H. destruct (IH xs H) as [t [E [L N]]]. simpl. rewrite E. cbn [rbind].
    eexists; split; [reflexivity|]. split; [simpl; lia|]. intros [|k] Hk; [reflexivity|]. simpl. apply N. simpl in Hk. lia.
Qed.
Lemma min_models_spec : forall ms best, Forall (fun m => length m = length best) ms ->
  exists b', min_models best ms = Ok b' /\ length b' = length best /\
    forall k, (k < length best)%nat -> is_min (nth k b' 0) (nth k best 0 :: at_sample k ms).
Proof.
  induction ms as [|m ms IH]; intros best H.
  - exists best. repeat split; [left; reflexivity|]. simpl. intros x [<-|[]]; lra.
  - inversion H as [|? ? H1 H2]; subst. destruct (min_model_spec best m H1) as [b1 [E1 [L1 N1]]].
    destruct (IH b1) as [b2 [E2 [L2 N2]]]; [rewrite L1; exact H2|]. simpl. rewrite E1. cbn [rbind].
    exists b2. split; [exact E2|]. split; [lia|]. intros k Hk. destruct (N2 k ltac:(lia)) as [I M].
    rewrite (N1 k Hk) in *. simpl.
    destruct (Rminb_cases (nth k best 0) (nth k m 0)) as [[E C]|[E C]]; rewrite E in *.
    + split; [destruct I as [I|I]; [left|right; right]; auto|].
      pose proof (M _ (or_introl eq_refl)). intros x [<-|[<-|Hx]]; [auto|lra|apply M; right; exact Hx].
    + split; [destruct I as [I|I]; [right; left|right; right]; auto|].
      pose proof (M _ (or_introl eq_refl)). intros x [<-|[<-|Hx]]; [lra|auto|apply M; right; exact Hx].
Qed.
Lemma nth_repeat_lt {A} (a d : A) n k : (k < n)%nat -> nth k (repeat a n) d = a.
Proof. revert k; induction n as [|n IH]; intros [|k] H; simpl; auto; try lia. apply IH. lia. Qed.
Lemma posterior_zero : forall m, posterior m (repeat 0 (length m)) = map (fun x => exp (- x / 2)) m.
Proof. induction m as [|a m IH]; [reflexivity|]. simpl. rewrite IH. f_equal. f_equal. lra. Qed.
Lemma in_at_sample k x rows : In x (at_sample k rows) <-> exists m, In m rows /\ x = nth k m 0.
Proof.
  induction rows as [|m t IH]; simpl; [split; [intros []|intros [? [[] _]]]|].
  rewrite IH. split.
  - intros [<-|[m' [H1 H2]]]; [exists m; auto|exists m'; auto].
  - intros [m' [[->|H1] H2]]; [left; auto|right; exists m'; auto].
Qed.

Theorem BestChi2_spec lowest highest c : rows_ok c -> priors_ok c ->
  Forall (fun m => Forall (fun x => x <= highest) m) (cq_chi2 c) ->
  exists mins pdf ev, BestChi2 lowest highest c = Ok (pdf, ev) /\ length mins = length (cq_z c) /\
    (forall k, (k < length (cq_z c))%nat -> is_min (nth k mins 0) (at_sample k (cq_chi2 c))) /\
    length pdf = length (cq_z c) /\ trapz (cq_z c) (map exp pdf) = 1 /\
    (forall k x, nth_error pdf k = Some x -> exp x = exp (- nth k mins 0 / 2) / trapz (cq_z c) (map (fun m => exp (- m / 2)) mins)) /\
    exp ev = exp (cq_cst c) * (trapz (cq_z c) (map (fun m => exp (- m / 2)) mins) / (last (cq_z c) 0 - hd 0 (cq_z c))).
Proof.
  intros HR HP HB. destruct (ComputeAllPdfs_spec lowest c HR HP) as [rs [_ [E _]]].
  pose proof HR as [G [Hne [Hl [Hm Hp]]]]. pose proof G as [H2 Hz].
  unfold BestChi2. rewrite E. cbn [rbind].
  destruct (min_models_spec (cq_chi2 c) (repeat highest (length (cq_z c)))) as [mins [E1 [L1 N1]]].
  { rewrite repeat_length. exact Hm. }
  rewrite repeat_length in *. rewrite E1. cbn [rbind].
  destruct (ComputePdf_spec lowest mins (cq_z c) (cq_cst c) (constantLogZPrior (length (cq_z c))) G L1) as [pdf [ev [E2 [L2 [T2 [N2 V2]]]]]].
  { apply repeat_length. }
  unfold constantLogZPrior in *. assert (PZ : posterior mins (repeat 0 (length (cq_z c))) = map (fun m => exp (- m / 2)) mins) by (rewrite <- L1; apply posterior_zero).
  rewrite PZ in *.
  exists mins, pdf, ev. split; [exact E2|]. split; [exact L1|]. split; [|split; [exact L2|split; [exact T2|split]]].
  - intros k Hk. destruct (N1 k Hk) as [I M]. rewrite nth_repeat_lt in * by exact Hk.
    assert (J : exists m, In m (cq_chi2 c)) by (destruct (cq_chi2 c) as [|m t]; [congruence|exists m; left; reflexivity]).
    split; [|intros x Hx; apply M; right; exact Hx].
    destruct I as [I|I]; [|exact I]. destruct J as [m Hin].
    assert (A : In (nth k m 0) (at_sample k (cq_chi2 c))) by (apply in_at_sample; exists m; auto).
    pose proof (M _ (or_intror A)) as B.
    rewrite Forall_forall in HB, Hm. pose proof (HB m Hin) as C. rewrite Forall_forall in C.
    assert (D : In (nth k m 0) m) by (apply nth_In; rewrite (Hm m Hin); exact Hk). specialize (C _ D).
    replace (nth k mins 0) with (nth k m 0) by lra. exact A.
  - intros k x Hx. assert (Hk : (k < length (cq_z c))%nat) by (rewrite <- L2; apply nth_error_Some; congruence).
    destruct (N2 k (nth k mins 0) 0) as [y [Y1 Y2]].
    { apply nth_error_nth'. lia. } { rewrite (nth_error_nth' _ 0) by (rewrite repeat_length; exact Hk). f_equal. apply nth_repeat_lt; exact Hk. }
    rewrite Hx in Y1. injection Y1 as <-. rewrite Y2. f_equal. f_equal. lra.
  - rewrite V2. f_equal. f_equal. rewrite map_repeat'. destruct (cq_z c) as [|z0 z]; [simpl in H2; lia|].
    rewrite trapz_const by exact Hz. cbn [hd]. destruct z as [|z1 z]; [simpl in H2; lia|]. rewrite exp_0.
    assert (last (z1 :: z) z0 = last (z0 :: z1 :: z) 0) as ->; [|lra].
    cbn [last]. clear. revert z1. induction z as [|u z IH]; intro w; [reflexivity|]. cbn [last]. apply IH.
Qed.

(** ** BestProba *)
Lemma dz_extrema_spec : forall z mn mx, dz_extrema z mn mx = (fold_left Rminb (steps z) mn, fold_left Rmaxb (steps z) mx).
Proof.
  induction z as [|x [|y t] IH]; intros mn mx; [reflexivity|reflexivity|].
  change (dz_extrema (x :: y :: t) mn mx) with (dz_extrema (y :: t) (Rminb mn (y - x)) (Rmaxb mx (y - x))).
  rewrite IH. reflexivity.
Qed.
Lemma steps_pos z : Rstrictly_increasing z -> forall x, In x (steps z) -> 0 < x.
Proof.
  induction z as [|x [|y t] IH]; intros H d Hd; try destruct Hd as [<-|Hd].
  - destruct Hd. - destruct Hd. - pose proof (Rinc_two _ _ _ H). lra.
  - apply IH; [eapply Rinc_tail; eauto|exact Hd].
Qed.
Lemma max_model_nth : forall pdf post k, length pdf = length post -> (k < length post)%nat ->
  nth k (max_model pdf post) 0 = Rmaxb (nth k pdf 0) (nth k post 0).
Proof.
  induction pdf as [|p ps IH]; intros [|v vs] k H Hk; try discriminate; simpl in Hk; [lia|].
  injection H as H. destruct k as [|k]; [reflexivity|]. simpl. apply IH; auto; lia.
Qed.
Lemma max_model_length pdf post : length pdf = length post -> length (max_model pdf post) = length post.
Proof. intro H. unfold max_model. rewrite map_length, combine_length. lia. Qed.
Lemma max_models_spec : forall (rs : list (list R * R)) post, Forall (fun r => length (fst r) = length post) rs ->
  let b := fold_left (fun p q => max_model (fst q) p) rs post in
  length b = length post /\
  forall k, (k < length post)%nat -> is_max (nth k b 0) (nth k post 0 :: at_sample k (map fst rs)).
Proof.
  induction rs as [|r rs IH]; intros post H; simpl.
  - split; [reflexivity|]. intros k Hk. split; [left; reflexivity|]. intros x [<-|[]]; lra.
  - inversion H as [|? ? H1 H2]; subst. pose proof (max_model_length (fst r) post H1) as L1.
    destruct (IH (max_model (fst r) post)) as [L2 N2]; [rewrite L1; exact H2|]. split; [lia|].
    intros k Hk. destruct (N2 k ltac:(lia)) as [I M]. rewrite (max_model_nth _ _ _ H1 Hk) in *.
    destruct (Rmaxb_cases (nth k (fst r) 0) (nth k post 0)) as [[E C]|[E C]]; rewrite E in *.
    + split; [destruct I as [I|I]; [right; left|right; right]; auto|].
      pose proof (M _ (or_introl eq_refl)). intros x [<-|[<-|Hx]]; [lra|auto|apply M; right; exact Hx].
    + split; [destruct I as [I|I]; [left|right; right]; auto|].
      pose proof (M _ (or_introl eq_refl)). intros x [<-|[<-|Hx]]; [auto|lra|apply M; right; exact Hx].
Qed.
Lemma total_scale c l : total (map (fun x => c * x) l) = c * total l.
Proof. induction l as [|a l IH]; simpl; [lra|]. rewrite IH. lra. Qed.

Theorem BestProba_spec lowest highest c smin smax : rows_ok c ->
  is_min smin (steps (cq_z c)) -> is_max smax (steps (cq_z c)) -> smin <= highest -> lowest <= smax ->
  exists rs best, pdf_rows lowest (cq_z c) (cq_cst c) (cq_chi2 c) (cq_zpriors c) rs /\
    length best = length (cq_z c) /\
    (forall k, (k < length (cq_z c))%nat -> is_max (nth k best 0) (lowest :: at_sample k (map fst rs))) /\
    let zstep := (smax + smin) / 2 in
    (5 / 100 * zstep < smax - smin -> BestProba lowest highest c = Throw INTERNAL_ERROR) /\
    (smax - smin <= 5 / 100 * zstep ->
       exists out C, BestProba lowest highest c = Ok out /\ out = map (fun x => x - C) best /\
         total (map exp out) * zstep = 1).
Proof.
  intros HR [Imin Hmin] [Imax Hmax] Hh Hlo. pose proof HR as [G [Hne [Hl [Hm Hp]]]]. pose proof G as [H2 Hz].
  destruct (all_pdfs_spec lowest (cq_z c) (cq_cst c) G _ _ Hl Hm Hp) as [rs [E [RR [L F]]]].
  assert (Hn1 : (1 <= length (cq_chi2 c))%nat) by (destruct (cq_chi2 c); [congruence|simpl; lia]).
  set (post := fold_left (fun p q => max_model (fst q) p) rs (repeat lowest (length (cq_z c)))).
  destruct (max_models_spec rs (repeat lowest (length (cq_z c)))) as [L1 N1].
  { rewrite repeat_length. eapply Forall_impl; [|exact F]. intros r [Hr _]. exact Hr. }
  fold post in L1, N1. rewrite repeat_length in *.
  exists rs, post. split; [exact RR|]. split; [exact L1|]. split.
  { intros k Hk. specialize (N1 k Hk). rewrite nth_repeat_lt in N1 by exact Hk. exact N1. }
  intro zstep.
  assert (EB : BestProba lowest highest c =
    let (mn, mx) := dz_extrema (cq_z c) highest lowest in
    let zstep := (mx + mn) / 2 in
    if (if Reqb zstep 0 then negb (Reqb (mx - mn) 0) else Rltb (5 / 100) (Rabs (mx - mn) / zstep))%bool
    then Throw INTERNAL_ERROR else
    let m := max_from lowest post in
    do l <- rlog (fold_left (fun s x => s + exp (x - m)) post 0);
    do lz <- rlog zstep;
    Ok (map (fun x => x - (m + l + lz)) post)).
  { unfold BestProba, validateChisquareArray. rewrite Hl, Nat.eqb_refl. cbn [negb].
    destruct (Nat.ltb_spec (length (cq_zpriors c)) 1); [lia|]. destruct (Nat.ltb_spec (length (cq_z c)) 1); [lia|].
    cbn [orb rbind]. rewrite E. cbn [rbind]. reflexivity. }
  rewrite dz_extrema_spec in EB.
  assert (E1 : fold_left Rminb (steps (cq_z c)) highest = smin).
  { destruct (fold_min (steps (cq_z c)) highest) as [I M]. pose proof (M smin (or_intror Imin)).
    destruct I as [I|I]; [|pose proof (Hmin _ I); lra]. lra. }
  assert (E2 : fold_left Rmaxb (steps (cq_z c)) lowest = smax).
  { destruct (fold_max (steps (cq_z c)) lowest) as [I M]. pose proof (M smax (or_intror Imax)).
    destruct I as [I|I]; [|pose proof (Hmax _ I); lra]. lra. }
  rewrite E1, E2 in EB. cbv zeta in EB. fold zstep in EB.
  assert (P1 : 0 < smin) by (eapply steps_pos; eauto). assert (P2 : smin <= smax) by (apply Hmax, Imin).
  assert (PS : 0 < zstep) by (unfold zstep; lra).
  destruct (Reqb_spec zstep 0) as [Z0|Z0]; [lra|]. rewrite Rabs_right in EB by lra.
  split; intro Hs.
  - rewrite EB. destruct (Rltb_spec (5 / 100) ((smax - smin) / zstep)) as [T|T]; [reflexivity|]. exfalso. apply T.
    apply (Rmult_lt_reg_r zstep); [exact PS|]. unfold Rdiv at 2. rewrite Rmult_assoc, Rinv_l by lra. lra.
  - destruct (Rltb_spec (5 / 100) ((smax - smin) / zstep)) as [T|T].
    { exfalso. apply (Rmult_lt_compat_r zstep) in T; [|exact PS]. unfold Rdiv at 2 in T. rewrite Rmult_assoc, Rinv_l in T by lra. lra. }
    set (m := max_from lowest post) in *. rewrite fold_exp, Rplus_0_l in EB.
    assert (PT : 0 < total (map exp post)) by (apply total_exp_pos; intro X; rewrite X in L1; simpl in L1; lia).
    pose proof (exp_pos (- m)) as Pm. rewrite rlog_pos in EB by (apply Rmult_lt_0_compat; auto). cbn [rbind] in EB.
    rewrite rlog_pos in EB by exact PS. cbn [rbind] in EB.
    do 2 eexists. split; [exact EB|]. split; [reflexivity|].
    rewrite ln_mult, ln_exp by auto. set (C := m + (- m + ln (total (map exp post))) + ln zstep).
    assert (Mp : map exp (map (fun x => x - C) post) = map (fun x => exp (- C) * x) (map exp post)).
    { rewrite !map_map. apply map_ext. intro x. rewrite <- exp_plus. f_equal. lra. }
    rewrite Mp, total_scale. assert (EC : exp (- C) = / (total (map exp post) * zstep)).
    { unfold C. replace (m + (- m + ln (total (map exp post))) + ln zstep) with (ln (total (map exp post)) + ln zstep) by lra.
      rewrite exp_Ropp, exp_plus, !exp_ln by auto. reflexivity. }
    rewrite EC. field. split; lra.
Qed.

(** ** validity of a density *)
Theorem isPdfValid_spec lowest v z : grid z -> length v = length z ->
  ((forall x y, In x v -> In y v -> x = y) -> isPdfValid lowest v z = Throw FLAT_ZPDF) /\
  ((exists x y, In x v /\ In y v /\ x <> y) ->
     (Rabs (trapz z (map exp v) - 1) <= 1 / 10 -> isPdfValid lowest v z = Ok tt) /\
     (1 / 10 < Rabs (trapz z (map exp v) - 1) -> isPdfValid lowest v z = Throw PDF_NORMALIZATION_FAILED)).
Proof.
  intros G Hv. pose proof G as [H2 _]. unfold isPdfValid. destruct (Nat.ltb_spec (length z) 2); [lia|].
  destruct v as [|a v]; [simpl in Hv; lia|]. unfold min_max.
  destruct (fold_min v a) as [I1 M1]. destruct (fold_max v a) as [I2 M2].
  set (mn := fold_left Rminb v a) in *. set (mx := fold_left Rmaxb v a) in *. split.
  - intro H0. destruct (Reqb_spec mn mx) as [_|N]; [reflexivity|]. exfalso. apply N, H0; auto.
  - intros [x [y [Hx [Hy N]]]]. destruct (Reqb_spec mn mx) as [Q|_].
    { exfalso. apply N. pose proof (M1 x Hx). pose proof (M2 x Hx). pose proof (M1 y Hy). pose proof (M2 y Hy). lra. }
    unfold getSumTrapez. rewrite Hv, Nat.eqb_refl. cbn [negb]. destruct (Nat.ltb_spec (length z) 2); [lia|].
    rewrite (lse_spec lowest (a :: v) z G) by lia. cbn [rbind].
    rewrite exp_ln by (apply trapz_pos; [exact G|rewrite map_length; lia|apply Forall_exp]).
    split; intro B; destruct (Rltb_spec (1 / 10) (Rabs (trapz z (map exp (a :: v)) - 1))); auto; lra.
Qed.

(** ** integral of one candidate *)
Lemma Rinc_map_Q2R l : strictly_increasing l -> Rstrictly_increasing (map Q2R l).
Proof.
  intros H i j x y Hij Hx Hy. rewrite nth_error_map in Hx, Hy.
  destruct (nth_error l i) as [a|] eqn:A; [|discriminate]. destruct (nth_error l j) as [b|] eqn:B; [|discriminate].
  injection Hx as <-. injection Hy as <-. apply Qlt_Rlt. apply (H i j); auto.
Qed.
Lemma nth_error_sub {A} (l : list A) i j k : (i <= j < length l)%nat -> (k <= j - i)%nat -> nth_error (sub l i j) k = nth_error l (i + k).
Proof.
  unfold sub. revert i j k.
  assert (F : forall (l : list A) n k, (k < n)%nat -> nth_error (firstn n l) k = nth_error l k).
  { clear. induction l as [|a l IH]; intros [|n] k H; try lia; simpl; [destruct k; reflexivity|]. destruct k as [|k]; simpl; [reflexivity|]. apply IH. lia. }
  assert (S : forall (l : list A) n k, nth_error (skipn n l) k = nth_error l (n + k)).
  { clear. induction l as [|a l IH]; intros [|n] k; simpl; auto. destruct k; reflexivity. }
  intros i j k H Hk. rewrite F by lia. apply S.
Qed.
Lemma sub_length {A} (l : list A) i j : (i <= j < length l)%nat -> length (sub l i j) = (j - i + 1)%nat.
Proof. intro H. unfold sub. rewrite firstn_length, skipn_length. lia. Qed.
Lemma sub_map {A B} (f : A -> B) l i j : map f (sub l i j) = sub (map f l) i j.
Proof. unfold sub. rewrite skipn_map, firstn_map. reflexivity. Qed.
Lemma sub_increasing z i j : (i <= j < length z)%nat -> Rstrictly_increasing z -> Rstrictly_increasing (sub z i j).
Proof.
  intros H Hz a b x y Hab Hx Hy.
  assert (La : (a < length (sub z i j))%nat) by (apply nth_error_Some; congruence).
  assert (Lb : (b < length (sub z i j))%nat) by (apply nth_error_Some; congruence).
  rewrite sub_length in La, Lb by exact H. rewrite nth_error_sub in Hx, Hy by lia. apply (Hz (i + a)%nat (i + b)%nat); auto; lia.
Qed.
Lemma Forall_sub {A} (P : A -> Prop) l i j : Forall P l -> Forall P (sub l i j).
Proof.
  intro H. apply Forall_forall. intros x Hx. rewrite Forall_forall in H. apply H. unfold sub in Hx.
  assert (In x (skipn i l)) by (rewrite <- (firstn_skipn (j + 1 - i) (skipn i l)); apply in_or_app; left; exact Hx).
  rewrite <- (firstn_skipn i l). apply in_or_app. right. auto.
Qed.
Lemma trapz_firstn : forall n z f, Rstrictly_increasing z -> Forall (fun x => 0 < x) f -> trapz (firstn n z) (firstn n f) <= trapz z f.
Proof.
  induction n as [|n IH]; intros z f Hz Hf; [simpl; apply trapz_nonneg; auto|].
  destruct z as [|x [|y z]].
  - destruct f; simpl; lra.
  - assert (E : forall g, trapz (firstn (S n) [x]) g = 0) by (intro g; cbn [firstn]; rewrite firstn_nil; apply trapz_one).
    rewrite E, trapz_one. lra.
  - destruct f as [|a [|b f]].
    + simpl. destruct n; simpl; lra.
    + cbn [firstn]. rewrite firstn_nil. destruct n; simpl; lra.
    + destruct n as [|n]; [cbn [firstn]; rewrite trapz_one; apply trapz_nonneg; auto|].
      change (firstn (S (S n)) (x :: y :: z)) with (x :: y :: firstn n z).
      change (firstn (S (S n)) (a :: b :: f)) with (a :: b :: firstn n f). rewrite !trapz_cons.
      inversion Hf; subst. specialize (IH (y :: z) (b :: f) (Rinc_tail _ _ Hz)).
      change (firstn (S n) (y :: z)) with (y :: firstn n z) in IH. change (firstn (S n) (b :: f)) with (b :: firstn n f) in IH.
      specialize (IH ltac:(assumption)). lra.
Qed.
Lemma trapz_skipn : forall n z f, Rstrictly_increasing z -> Forall (fun x => 0 < x) f -> trapz (skipn n z) (skipn n f) <= trapz z f.
Proof.
  induction n as [|n IH]; intros z f Hz Hf; [simpl; lra|].
  destruct z as [|x [|y z]].
  - simpl. destruct (skipn n (tl f)), f; simpl; try lra; destruct (skipn n f); lra.
  - simpl. rewrite skipn_nil. destruct f; simpl; [lra|]. destruct (skipn n f); simpl; destruct f; lra.
  - destruct f as [|a [|b f]].
    + cbn [skipn]. destruct (skipn n (y :: z)) as [|u [|w t]]; simpl; lra.
    + cbn [skipn]. rewrite skipn_nil. destruct (skipn n (y :: z)) as [|u [|w t]]; simpl; lra.
    + inversion Hf as [|? ? Ha Hf']; subst. inversion Hf' as [|? ? Hb _]; subst.
      specialize (IH (y :: z) (b :: f) (Rinc_tail _ _ Hz) Hf'). rewrite trapz_cons. cbn [skipn].
      pose proof (Rinc_two _ _ _ Hz). assert (0 <= (a + b) / 2 * (y - x)) by nra. lra.
Qed.
Lemma Rinc_skipn n z : Rstrictly_increasing z -> Rstrictly_increasing (skipn n z).
Proof.
  revert z. induction n as [|n IH]; intros z H; [exact H|]. destruct z as [|a z]; [exact H|]. simpl. apply IH. eapply Rinc_tail; eauto.
Qed.
Lemma Forall_skipn {A} (P : A -> Prop) n l : Forall P l -> Forall P (skipn n l).
Proof. intro H. apply Forall_forall. intros x Hx. rewrite Forall_forall in H. apply H. rewrite <- (firstn_skipn n l). apply in_or_app. right; exact Hx. Qed.
Lemma trapz_sub z f i j : Rstrictly_increasing z -> Forall (fun x => 0 < x) f -> trapz (sub z i j) (sub f i j) <= trapz z f.
Proof.
  intros Hz Hf. unfold sub. eapply Rle_trans; [apply trapz_firstn; [apply Rinc_skipn; exact Hz|apply Forall_skipn; exact Hf]|].
  apply trapz_skipn; auto.
Qed.
Lemma is_sortedQ_inc l : strictly_increasing l -> is_sortedQ l = true.
Proof.
  induction l as [|x [|y t] IH]; intro H; [reflexivity|reflexivity|].
  change (is_sortedQ (x :: y :: t)) with (negb (Qltb y x) && is_sortedQ (y :: t))%bool.
  rewrite IH by (eapply strictly_increasing_tail; eauto).
  assert (x < y)%Q by (apply (H 0%nat 1%nat); simpl; auto). destruct (Qltb_spec y x); [lra|reflexivity].
Qed.

Theorem candidate_integral lowest zgrid logpdf r zc : strictly_increasing zgrid -> length logpdf = length zgrid ->
  (rbeg r < rend r)%Q -> inside r zc ->
  (exists x, In x zgrid /\ (x <= rbeg r)%Q) -> (exists y, In y zgrid /\ (rend r <= y)%Q) ->
  exists i j x y, bracket_below zgrid (rbeg r) i /\ bracket_above zgrid (rend r) j /\ (i < j)%nat /\
    nth_error zgrid i = Some x /\ nth_error zgrid j = Some y /\
    let value := trapz (map Q2R (sub zgrid i j)) (map exp (sub logpdf i j)) in
    getCandidateSumTrapez lowest zgrid logpdf r zc = Ok (Q2R x, Q2R y, value) /\
    0 < value <= trapz (map Q2R zgrid) (map exp logpdf).
Proof.
  intros Hz Hl Hr Hin [xl [Xl1 Xl2]] [yh [Yh1 Yh2]]. unfold getCandidateSumTrapez. rewrite is_sortedQ_inc by exact Hz. cbn [negb].
  rewrite getEnclosing_value_same by exact Hin.
  pose proof (getEnclosing_spec r zgrid Hz ltac:(unfold well_formed; lra)) as S.
  destruct (getEnclosingIntervalIndices r zgrid) as [[i j]|e|]; [|exfalso|contradiction].
  2:{ destruct e; try contradiction.
      - destruct S as [_ S]. apply S. split; [exists xl|exists yh]; auto.
      - subst. destruct Xl1. }
  cbn [rbind]. destruct S as [BB BA]. pose proof BB as [x [Hx [Hx1 _]]]. pose proof BA as [y [Hy [Hy1 _]]].
  assert (Lj : (j < length zgrid)%nat) by (apply nth_error_Some; congruence).
  assert (Li : (i < length zgrid)%nat) by (apply nth_error_Some; congruence).
  assert (Hij : (i < j)%nat).
  { destruct (Nat.lt_trichotomy i j) as [|[->|C]]; [assumption| |].
    - rewrite Hx in Hy. injection Hy as ->. exfalso. lra.
    - pose proof (Hz j i y x C Hy Hx). exfalso. lra. }
  exists i, j, x, y. split; [exact BB|]. split; [exact BA|]. split; [exact Hij|]. split; [exact Hx|]. split; [exact Hy|].
  set (value := trapz (map Q2R (sub zgrid i j)) (map exp (sub logpdf i j))).
  destruct (Nat.leb_spec (length logpdf) j); [lia|].
  assert (Gs : grid (map Q2R (sub zgrid i j))).
  { split; [rewrite map_length, sub_length by lia; lia|]. rewrite sub_map. apply sub_increasing; [rewrite map_length; lia|]. apply Rinc_map_Q2R, Hz. }
  assert (Fr : front (map Q2R (sub zgrid i j)) = Ok (Q2R x)).
  { assert (nth_error (map Q2R (sub zgrid i j)) 0 = Some (Q2R x)) as A.
    { rewrite nth_error_map, nth_error_sub by lia. rewrite Nat.add_0_r, Hx. reflexivity. }
    destruct (map Q2R (sub zgrid i j)); [discriminate|]. simpl in A. injection A as ->. reflexivity. }
  assert (Bk : back (map Q2R (sub zgrid i j)) = Ok (Q2R y)).
  { assert (Ne : map Q2R (sub zgrid i j) <> []) by (intro E; rewrite E in Gs; destruct Gs as [Gs _]; simpl in Gs; lia).
    destruct (back_ok _ Ne) as [b [-> B2]]. rewrite map_length, sub_length, nth_error_map, nth_error_sub in B2 by lia.
    replace (i + (j - i + 1 - 1))%nat with j in B2 by lia. rewrite Hy in B2. injection B2 as <-. reflexivity. }
  rewrite Fr, Bk. cbn [rbind].
  assert (Ls : (length (map Q2R (sub zgrid i j)) <= length (sub logpdf i j))%nat) by (rewrite map_length, !sub_length by lia; lia).
  rewrite (lse_spec lowest _ _ Gs Ls). cbn [rbind]. fold value.
  assert (Pv : 0 < value) by (apply trapz_pos; [exact Gs|rewrite (map_length exp); exact Ls|apply Forall_exp]).
  rewrite exp_ln by exact Pv. split; [reflexivity|]. split; [exact Pv|]. unfold value. rewrite !sub_map.
  apply trapz_sub; [apply Rinc_map_Q2R, Hz|apply Forall_exp].
Qed.

(** ** priors *)
Lemma normalize_spec lowest z l : grid z -> length l = length z ->
  exists out C, NormalizePrior lowest z l = Ok out /\ out = map (fun x => x - C) l /\ trapz z (map exp out) = 1.
Proof.
  intros G Hl. unfold NormalizePrior. rewrite (lse_spec lowest l z G) by lia. cbn [rbind].
  do 2 eexists. split; [reflexivity|]. split; [reflexivity|].
  assert (P : 0 < trapz z (map exp l)) by (apply trapz_pos; [exact G|rewrite map_length; lia|apply Forall_exp]).
  assert (E : map exp (map (fun x => x - ln (trapz z (map exp l))) l) = map (fun x => / trapz z (map exp l) * x) (map exp l)).
  { rewrite !map_map. apply map_ext. intro x. unfold Rminus. rewrite exp_plus, exp_Ropp, exp_ln by exact P. lra. }
  rewrite E, trapz_scale. field. lra.
Qed.
(** what a prior method returns for the raw log prior [l] *)
Lemma normalize_if_spec b lowest z l : grid z -> length l = length z -> exists out, normalize_if b lowest z l = Ok out /\ is_prior b z l out.
Proof.
  intros G Hl. destruct b; simpl.
  - destruct (normalize_spec lowest z l G Hl) as [out [C [E [E2 T]]]]. exists out. split; [exact E|]. split; [exists C; exact E2|exact T].
  - exists l. split; [reflexivity|reflexivity].
Qed.
Lemma constant_prior b lowest z n : grid z -> n = length z ->
  exists out, GetConstantLogZPrior b lowest z n = Ok out /\ is_prior b z (repeat 0 n) out.
Proof. intros G ->. apply normalize_if_spec; [exact G|apply repeat_length]. Qed.
Lemma presence_prior b lowest z (pres : list bool) pen : grid z -> length pres = length z -> 0 < pen ->
  exists out, GetStrongLinePresenceLogZPrior b lowest z pres pen = Ok out /\
    is_prior b z (map (fun p : bool => ln (if p then 1 else pen)) pres) out.
Proof.
  intros G Hl Hp. unfold GetStrongLinePresenceLogZPrior. rewrite rlog_pos by exact Hp. cbn [rbind].
  replace (map (fun p : bool => ln (if p then 1 else pen)) pres) with (map (fun p : bool => if p then 0 else ln pen) pres).
  - apply normalize_if_spec; [exact G|rewrite map_length; exact Hl].
  - apply map_ext. intros []; [symmetry; apply ln_1|reflexivity].
Qed.
Lemma nlines_prior b lowest z (n : list Z) pen : grid z -> length n = length z -> 0 < pen ->
  exists out, GetNLinesSNRAboveCutLogZPrior b lowest z n pen = Ok out /\
    is_prior b z (map (fun k => ln (if Z_le_dec 2 k then 1 else pen)) n) out.
Proof.
  intros G Hl Hp. unfold GetNLinesSNRAboveCutLogZPrior. rewrite rlog_pos by exact Hp. cbn [rbind].
  replace (map (fun k => ln (if Z_le_dec 2 k then 1 else pen)) n) with (map (fun k => if (2 <=? k)%Z then 0 else ln pen) n).
  - apply normalize_if_spec; [exact G|rewrite map_length; exact Hl].
  - apply map_ext. intro k. destruct (Z.leb_spec 2 k); destruct (Z_le_dec 2 k); try lia; [symmetry; apply ln_1|reflexivity].
Qed.
Lemma combine_prior b lowest z p1 p2 : grid z -> length p1 = length z -> length p2 = length z ->
  exists raw out, length raw = length z /\ (forall k x y, nth_error p1 k = Some x -> nth_error p2 k = Some y -> exists r, nth_error raw k = Some r /\ exp r = exp x * exp y) /\
    CombineLogZPrior b lowest z p1 p2 = Ok out /\ is_prior b z raw out.
Proof.
  intros G H1 H2. unfold CombineLogZPrior. rewrite H1, H2, Nat.eqb_refl. cbn [negb].
  set (raw := map (fun q => fst q + snd q) (combine p1 p2)).
  assert (L : length raw = length z) by (unfold raw; rewrite map_length, combine_length; lia).
  destruct (normalize_if_spec b lowest z raw G L) as [out [E P]]. exists raw, out. split; [exact L|]. split; [|auto].
  intros k x y Hx Hy. exists (x + y). split; [|apply exp_plus]. unfold raw. rewrite nth_error_map.
  assert (nth_error (combine p1 p2) k = Some (x, y)) as ->; [|reflexivity].
  clear - Hx Hy. revert p2 k Hx Hy. induction p1 as [|a p1 IH]; intros [|c p2] k Hx Hy; try (destruct k; discriminate).
  destruct k as [|k]; simpl in *; [injection Hx as ->; injection Hy as ->; reflexivity|apply IH; auto].
Qed.
Lemma combine_prior_throws b lowest z p1 p2 : length p1 <> length p2 -> CombineLogZPrior b lowest z p1 p2 = Throw INTERNAL_ERROR.
Proof. intro H. unfold CombineLogZPrior. destruct (Nat.eqb_spec (length p1) (length p2)); [contradiction|reflexivity]. Qed.

Lemma maxP_spec : forall l m, m <= maxP_of m l /\ (forall v, In (Some v) l -> v <= maxP_of m l) /\ (maxP_of m l = m \/ In (Some (maxP_of m l)) l).
Proof.
  induction l as [|o l IH]; intro m; simpl; [split; [lra|split; [intros v []|left; reflexivity]]|].
  destruct o as [w|].
  - destruct (IH (Rmaxb m w)) as [H1 [H2 H3]]. change (maxP_of m (Some w :: l)) with (maxP_of (Rmaxb m w) l).
    destruct (Rmaxb_cases m w) as [[E C]|[E C]]; rewrite E in *.
    + split; [exact H1|]. split; [intros v [Q|Hv]; [injection Q as ->; lra|auto]|]. destruct H3; auto.
    + split; [lra|]. split; [intros v [Q|Hv]; [injection Q as ->; lra|auto]|]. right. destruct H3 as [->|H3]; auto.
  - change (maxP_of m (None :: l)) with (maxP_of m l). destruct (IH m) as [H1 [H2 H3]].
    split; [exact H1|]. split; [intros v [Q|Hv]; [discriminate|auto]|]. destruct H3; auto.
Qed.
Lemma Some_inj {A} (a b : A) : Some a = Some b -> b = a.
Proof. congruence. Qed.
Lemma Rmaxb_Rmax a b : Rmaxb a b = Rmax a b.
Proof. unfold Rmaxb, Rmax. destruct (Rltb_spec a b); destruct (Rle_dec a b); lra. Qed.
(** values between the cut and 0; 0 is reached *)
Lemma nha_prior lowest dblmin z zs a : 0 < a -> 0 < dblmin -> (exists w, In w zs /\ nhaPolynomial w <> 0) ->
  (forall w, In w zs -> forall v, nhaLog dblmin a w = Some v -> lowest <= v) ->
  exists out, GetEuclidNhaLogZPrior false lowest dblmin z zs a = Ok out /\ length out = length zs /\
    Forall (fun x => - ln (10 ^ 12) <= x <= 0) out /\ In 0 out /\
    exists C, forall k w x, nth_error zs k = Some w -> nth_error out k = Some x -> nhaPolynomial w <> 0 ->
      x = Rmax (a * ln (if Rlt_dec (nhaPolynomial w) 0 then dblmin else nhaPolynomial w) - C) (- ln (10 ^ 12)).
Proof.
  intros Ha Hd [w [Hw Nw]] Hlow. unfold GetEuclidNhaLogZPrior, normalize_if. destruct (Rleb_spec a 0); [lra|]. cbv zeta.
  assert (Pc : 0 < ln (10 ^ 12)) by (rewrite <- ln_1; apply ln_increasing; lra).
  set (l := map (nhaLog dblmin a) zs). destruct (maxP_spec l lowest) as [H1 [H2 H3]].
  eexists; split; [reflexivity|]. split; [unfold l; rewrite !map_length; reflexivity|].
  assert (Some_w : exists v, nhaLog dblmin a w = Some v).
  { unfold nhaLog. destruct (Rltb_spec (nhaPolynomial w) 0).
    - destruct (Reqb_spec dblmin 0); [lra|eauto].
    - destruct (Reqb_spec (nhaPolynomial w) 0); [contradiction|eauto]. }
  destruct Some_w as [v Hv]. assert (Iv : In (Some v) l) by (unfold l; rewrite <- Hv; apply in_map; exact Hw).
  assert (Im : In (Some (maxP_of lowest l)) l).
  { destruct H3 as [H3|H3]; [|exact H3]. pose proof (Hlow w Hw v Hv). pose proof (H2 v Iv). rewrite H3 in H0.
    rewrite H3. replace lowest with v by lra. exact Iv. }
  split.
  - apply Forall_forall. intros x Hx. apply in_map_iff in Hx. destruct Hx as [o [<- Ho]]. destruct o as [u|]; [|lra].
    pose proof (H2 u Ho). destruct (Rmaxb_cases (u - maxP_of lowest l) (- ln (10 ^ 12))) as [[-> C]|[-> C]]; lra.
  - split.
    + apply in_map_iff. exists (Some (maxP_of lowest l)). split; [|exact Im].
      unfold Rmaxb. destruct (Rltb_spec (maxP_of lowest l - maxP_of lowest l) (- ln (10 ^ 12))); lra.
    + exists (maxP_of lowest l). intros k u x Hu Hx Nu. rewrite nth_error_map in Hx.
      assert (El : nth_error l k = Some (nhaLog dblmin a u)) by (unfold l; rewrite nth_error_map, Hu; reflexivity).
      rewrite El in Hx. cbn [option_map] in Hx. apply Some_inj in Hx. subst x. unfold nhaLog.
      assert (Er : Rltb (nhaPolynomial u) 0 = if Rlt_dec (nhaPolynomial u) 0 then true else false) by reflexivity. rewrite Er.
      destruct (Rlt_dec (nhaPolynomial u) 0) as [Q|Q].
      * destruct (Reqb_spec dblmin 0); [lra|]. rewrite Rmaxb_Rmax, (Rmult_comm a). reflexivity.
      * destruct (Reqb_spec (nhaPolynomial u) 0); [contradiction|]. rewrite Rmaxb_Rmax, (Rmult_comm a). reflexivity.
Qed.
Lemma nha_prior_throws b lowest dblmin z zs a : a <= 0 -> GetEuclidNhaLogZPrior b lowest dblmin z zs a = Throw INTERNAL_ERROR.
Proof. intro H. unfold GetEuclidNhaLogZPrior. destruct (Rleb_spec a 0); [reflexivity|lra]. Qed.

(** logSumExpTrick commutes with a constant shift *)
Lemma lse_shift lowest v z c : grid z -> (length z <= length v)%nat ->
  exists l, logSumExpTrick lowest v z = Ok l /\ logSumExpTrick lowest (map (fun x => x + c) v) z = Ok (l + c).
Proof.
  intros G Hv. rewrite (lse_spec lowest v z G Hv), (lse_spec lowest (map (fun x => x + c) v) z G) by (rewrite map_length; exact Hv).
  eexists; split; [reflexivity|]. f_equal.
  assert (E : map exp (map (fun x => x + c) v) = map (fun x => exp c * x) (map exp v)).
  { rewrite !map_map. apply map_ext. intro x. rewrite exp_plus. lra. }
  rewrite E, trapz_scale, ln_mult, ln_exp; [lra|apply exp_pos|].
  apply trapz_pos; [exact G|rewrite map_length; exact Hv|apply Forall_exp].
Qed.

(** ** refusals *)
Lemma Marginalize_sizes lowest c : length (cq_chi2 c) <> length (cq_zpriors c) -> Marginalize lowest c = Throw INTERNAL_ERROR.
Proof.
  intro H. unfold Marginalize, ComputeAllPdfs, validateChisquareArray.
  destruct (Nat.eqb_spec (length (cq_chi2 c)) (length (cq_zpriors c))); [contradiction|reflexivity].
Qed.
Lemma Marginalize_bad_priors lowest c : rows_ok c -> cq_mpriors c <> [] -> Forall (fun x => 0 < x) (cq_mpriors c) ->
  (length (cq_mpriors c) <> length (cq_chi2 c) \/ total (cq_mpriors c) < 9 / 10 \/ 11 / 10 < total (cq_mpriors c)) ->
  Marginalize lowest c = Throw INTERNAL_ERROR.
Proof.
  intros [G [Hne [Hl [Hm Hp]]]] Hn Hpos H. destruct G as [H2 _]. unfold Marginalize, ComputeAllPdfs, validateChisquareArray.
  rewrite Hl, Nat.eqb_refl. cbn [negb].
  assert (Hn1 : (1 <= length (cq_chi2 c))%nat) by (destruct (cq_chi2 c); [congruence|simpl; lia]).
  destruct (Nat.ltb_spec (length (cq_zpriors c)) 1); [lia|]. destruct (Nat.ltb_spec (length (cq_z c)) 1); [lia|].
  cbn [orb rbind]. unfold logPriorModel. destruct (cq_mpriors c) as [|a t] eqn:E; [congruence|].
  destruct (Nat.eqb_spec (length (a :: t)) (length (cq_chi2 c))) as [Q|Q]; cbn [negb]; [|reflexivity].
  rewrite (logs_spec _ Hpos). cbn [rbind]. rewrite fold_exp0, Rplus_0_l, map_exp_ln by exact Hpos.
  destruct H as [H|[H|H]]; [contradiction| |].
  - destruct (Rltb_spec (11 / 10) (total (a :: t))); [reflexivity|]. destruct (Rltb_spec (total (a :: t)) (9 / 10)); [reflexivity|contradiction].
  - destruct (Rltb_spec (11 / 10) (total (a :: t))); [reflexivity|contradiction].
Qed.
(** order of the models *)
Lemma is_min_perm k a b x y : (forall m, In m a <-> In m b) -> is_min x (at_sample k a) -> is_min y (at_sample k b) -> x = y.
Proof.
  intros H [I1 M1] [I2 M2]. apply Rle_antisym.
  - apply M1. apply in_at_sample in I2. destruct I2 as [m [Hm ->]]. apply in_at_sample. exists m. split; [apply H; exact Hm|reflexivity].
  - apply M2. apply in_at_sample in I1. destruct I1 as [m [Hm ->]]. apply in_at_sample. exists m. split; [apply H; exact Hm|reflexivity].
Qed.
Lemma BestChi2_order lowest highest c c' : rows_ok c -> priors_ok c -> rows_ok c' -> priors_ok c' ->
  cq_z c' = cq_z c -> cq_cst c' = cq_cst c -> (forall m, In m (cq_chi2 c) <-> In m (cq_chi2 c')) ->
  Forall (fun m => Forall (fun x => x <= highest) m) (cq_chi2 c) ->
  BestChi2 lowest highest c' = BestChi2 lowest highest c.
Proof.
  intros R1 P1 R2 P2 Ez Ec Hin HB.
  assert (HB' : Forall (fun m => Forall (fun x => x <= highest) m) (cq_chi2 c')).
  { apply Forall_forall. intros m Hm. rewrite Forall_forall in HB. apply HB, Hin, Hm. }
  destruct (BestChi2_spec lowest highest c R1 P1 HB) as [mins [pdf [ev [E [L [M [Lp [_ [N V]]]]]]]]].
  destruct (BestChi2_spec lowest highest c' R2 P2 HB') as [mins' [pdf' [ev' [E' [L' [M' [Lp' [_ [N' V']]]]]]]]].
  rewrite Ez in *. rewrite Ec in *.
  assert (Em : mins' = mins).
  { apply nth_ext with (d := 0) (d' := 0); [lia|]. intros k Hk. symmetry. eapply is_min_perm; [exact Hin|apply M; lia|apply M'; lia]. }
  subst mins'. rewrite E, E'. f_equal. f_equal.
  - apply nth_ext with (d := 0) (d' := 0); [lia|]. intros k Hk.
    assert (K1 : (k < length pdf)%nat) by lia. assert (K2 : (k < length pdf')%nat) by lia.
    pose proof (N k _ (nth_error_nth' pdf 0 K1)) as A. pose proof (N' k _ (nth_error_nth' pdf' 0 K2)) as B.
    apply exp_inv. rewrite A, B. reflexivity.
  - apply exp_inv. rewrite V, V'. reflexivity.
Qed.
