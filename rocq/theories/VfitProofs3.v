From Verif Require Import Base RangeModel RangeProofs RangeGridProofs F64 RatSpec RatProofs VfitModel VfitSpec VfitProofs VfitProofs2.
Open Scope Q_scope.

Lemma front_hd (w : list Q) : w <> [] -> front w = Ok (hd 0 w).
Proof. destruct w; [tauto|reflexivity]. Qed.
Lemma back_last (w : list Q) : w <> [] -> back w = Ok (last w 0).
Proof.
  intro H. unfold back. destruct w as [|x t]; [tauto|]. clear H. unfold vget. revert x. induction t as [|y t IH]; intro x; [reflexivity|].
  specialize (IH y). cbn [length] in *. replace (S (S (length t)) - 1)%nat with (S (length t)) by lia. replace (S (length t) - 1)%nat with (length t) in IH by lia.
  cbn [nth_error]. exact IH.
Qed.

Lemma own_fit e s n z idx : keeps e -> (idx < length (s_sol s))%nat ->
  exists l, vset (s_sol s) idx (mkRun (mkS (s_fitter s) (s_noism s) (s_cont s) n) z (s_va s) (s_ve s)) = Ok l /\
    fit e s n z idx = Ok (e_merit e (mkRun (mkS (s_fitter s) (s_noism s) (s_cont s) n) z (s_va s) (s_ve s)), with_sol s l).
Proof.
  intros K L. unfold fit. set (r := mkRun _ _ _ _). destruct (vset_ok (s_sol s) idx r L) as (l & E & _). exists l. split; auto. rewrite E. cbn [rbind].
  destruct (s_fitter s); [rewrite (K r)| |]; unfold r; cbn [r_va r_ve]; destruct s; reflexivity.
Qed.
Lemma first_cont_inject c i s : inject c i s = with_cont s (first_cont c i (s_cont s)).
Proof.
  unfold inject, first_cont. destruct (k_tplfit c); [|destruct s; reflexivity].
  destruct (k_option c) as [|[|[|[|]]]]; reflexivity.
Qed.
Lemma second_cont_inject c o i s : inject2 c o i s = with_cont s (second_cont c o i (s_cont s)).
Proof.
  unfold inject2, second_cont. destruct (k_tplfit c); [|destruct s; reflexivity].
  destruct o as [|[|[|[|]]]]; destruct s; reflexivity.
Qed.

(** ** one candidate *)
Lemma estimate_off e c zs ext i z s : (forall x, In x zs -> ~ x == z) -> estimate_one e c zs ext i z s = Throw INTERNAL_ERROR.
Proof.
  intro H. unfold estimate_one. pose proof (getIndex_spec zs z) as G. destruct (getIndex zs z) as [j|[]|]; try contradiction; [|reflexivity].
  exfalso. destruct G as [(x & N & E) _]. apply (H x); auto. apply (nth_error_In _ _ N).
Qed.
Lemma window_off e c zs ext i n s w idx :
  nth_error ext i = Some w -> w <> [] -> (forall x, In x zs -> ~ x == hd 0 w) \/ (forall x, In x zs -> ~ x == last w 0) ->
  fitVelocity e c zs ext idx i n s = Throw INTERNAL_ERROR.
Proof.
  intros W N H. unfold fitVelocity, vget. rewrite W. cbn [rbind]. rewrite (front_hd _ N), (back_last _ N). cbn [rbind].
  pose proof (getIndex_spec zs (hd 0 w)) as G1. pose proof (getIndex_spec zs (last w 0)) as G2.
  destruct (getIndex zs (hd 0 w)) as [j|[]|]; try contradiction; [|reflexivity]. cbn [rbind].
  destruct (getIndex zs (last w 0)) as [k|[]|]; try contradiction; [|reflexivity]. exfalso.
  destruct G1 as [(x & Nx & Ex) _]. destruct G2 as [(y & Ny & Ey) _].
  destruct H as [H|H]; [apply (H x)|apply (H y)]; auto; [apply (nth_error_In _ _ Nx)|apply (nth_error_In _ _ Ny)].
Qed.

Lemma only_trans A i (l1 l2 l3 : list A) : only_at i l1 l2 -> only_at i l2 l3 -> only_at i l1 l3.
Proof. intros [U1 U2] [V1 V2]. split; [congruence|]. intros j N. rewrite V2, U2; auto. Qed.
Lemma only_refl A i (l : list A) : only_at i l l.
Proof. split; auto. Qed.

Lemma estimate_nofit e c zs ext i z s idx : keeps e -> k_fit c = false -> first_at zs z idx -> (idx < length (s_sol s))%nat ->
  (i < length (s_alv s))%nat -> (i < length (s_elv s))%nat ->
  exists s', estimate_one e c zs ext i z s = Ok s' /\ s_va s' = s_va s /\ s_ve s' = s_ve s /\ s_fitter s' = s_fitter s /\ s_noism s' = s_noism s /\
    s_chi s' = s_chi s /\ only_at idx (s_sol s) (s_sol s') /\
    only_at i (s_alv s) (s_alv s') /\ only_at i (s_elv s) (s_elv s') /\
    nth_error (s_alv s') i = Some (s_va s) /\ nth_error (s_elv s') i = Some (s_ve s).
Proof.
  intros K F Z L La Le. unfold estimate_one. rewrite first_cont_inject, (getIndex_first _ _ _ Z). cbn [rbind].
  destruct (proj1 Z) as (x & Nx & _). unfold vget. rewrite Nx. cbn [rbind].
  set (s1 := with_cont s _). destruct (own_fit e s1 (match k_reest c with ReAlways => 1%nat | _ => 0%nat end) x idx K) as (l & El & ->).
  { exact L. }
  cbn [rbind]. rewrite F. cbn [with_sol s_elv s_alv s_ve s_va].
  destruct (vset_ok (s_elv s1) i (s_ve s1) Le) as (el & Ee & Lee & Nee & Oee). rewrite Ee. cbn [rbind].
  destruct (vset_ok (s_alv s1) i (s_va s1) La) as (al & Ea & Laa & Naa & Oaa). rewrite Ea. cbn [rbind].
  destruct (vset_ok (s_sol s1) idx (mkRun (mkS (s_fitter s1) (s_noism s1) (s_cont s1) (match k_reest c with ReAlways => 1%nat | _ => 0%nat end)) x (s_va s1) (s_ve s1)) L) as (l' & El' & Ll & _ & Ol).
  rewrite El in El'. injection El' as <-.
  eexists. split; [reflexivity|]. cbn. unfold s1 in *. cbn in *. repeat (split; [solve [auto | split; auto]|]). auto.
Qed.

Lemma estimate_fit1 e c zs ext i z s idx w ib ie vsA vsE : keeps e -> k_fit c = true -> first_at zs z idx ->
  length (s_sol s) = length zs -> length (s_chi s) = length zs -> (i < length (s_alv s))%nat -> (i < length (s_elv s))%nat ->
  nth_error ext i = Some w -> bounds zs w ib ie -> velfitlist (k_abs c) = Ok vsA -> velfitlist (k_em c) = Ok vsE ->
  let u := vel_setup c (first_cont c i (s_cont s)) (s_noism s) (reest1 c) in
  let zw := near_samples zs ib ie idx in
  exists s' a0 e0 a1 e1 c0 c1 c2,
    estimate_one e c zs ext i z s = Ok s' /\
    nth_error (s_alv s) i = Some a0 /\ nth_error (s_elv s) i = Some e0 /\
    scanned (fun p => e_merit e (abs_run u (s_ve s) p)) (tests zw vsA) (s_va s) a0 c0 (s_va s') a1 c1 /\
    scanned (fun p => e_merit e (em_run u (s_va s') p)) (tests zw vsE) (s_ve s) e0 c1 (s_ve s') e1 c2 /\
    nth_error (s_alv s') i = Some a1 /\ nth_error (s_elv s') i = Some e1 /\ nth_error (s_chi s) idx = Some c0 /\ nth_error (s_chi s') idx = Some c2 /\
    only_at i (s_alv s) (s_alv s') /\ only_at i (s_elv s) (s_elv s') /\
    only_at idx (s_chi s) (s_chi s') /\ only_at idx (s_sol s) (s_sol s') /\
    s_fitter s' = s_fitter s /\ s_cont s' = first_cont c i (s_cont s) /\ s_noism s' = (if k_tplratio c then false else s_noism s).
Proof.
  intros K F Z Ls Lc La Le W (Wn & Wb & We) VA VE u zw. unfold estimate_one. rewrite first_cont_inject, (getIndex_first _ _ _ Z). cbn [rbind].
  pose proof (first_at_lt _ _ _ Z) as Lz. destruct (proj1 Z) as (x & Nx & _). unfold vget. rewrite Nx. cbn [rbind].
  set (s1 := with_cont s _). fold (reest1 c). destruct (own_fit e s1 (reest1 c) x idx K) as (l & El & ->). { cbn. lia. }
  cbn [rbind]. rewrite F.
  destruct (vset_ok (s_sol s1) idx (mkRun (mkS (s_fitter s1) (s_noism s1) (s_cont s1) (reest1 c)) x (s_va s1) (s_ve s1))) as (l' & El' & Ll & _ & Ol). { cbn; lia. }
  rewrite El in El'. injection El' as <-.
  destruct (nth_error_lt (s_chi s) idx) as (c0 & C0); [lia|]. destruct (nth_error_lt (s_alv s) i) as (a0 & A0); [lia|]. destruct (nth_error_lt (s_elv s) i) as (e0 & E0); [lia|].
  destruct (fitVelocity_spec e c zs ext idx i (reest1 c) (with_sol s1 l) w ib ie vsA vsE a0 e0 c0 (hd 0 w) (last w 0)) as
    (s' & a1 & e1 & c1 & c2 & X1 & X2 & X3 & X4 & X5 & X6 & X7 & X8 & X9 & X10 & X11 & X12 & X13 & _); auto.
  { apply front_hd; auto. } { apply back_last; auto. } { cbn. cbn in Ll. lia. }
  exists s', a0, e0, a1, e1, c0, c1, c2. cbn [with_sol s1 with_cont s_va s_ve s_cont s_noism s_fitter s_chi s_alv s_elv s_sol] in *.
  split; [exact X1|]. split; [exact A0|]. split; [exact E0|]. repeat (split; [assumption|]).
  split; [|auto]. apply (only_trans _ _ _ l); auto. split; auto.
Qed.
