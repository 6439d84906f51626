From Coq Require Import Setoid.
From Verif Require Import Base RangeModel RangeProofs AxisModel AxisProofs CalzModel CalzProofs MeikModel MeikSpec MeikProofs TplModel TplSpec TplProofs TFitModel TFitSpec TFitProofs TFitProofs2 TFitProofs3.
Open Scope Q_scope.

(** ** the best of a sequence *)
Definition item : Type := (fit * Q * Z)%type.
Definition fit_of (x : item) : fit := fst (fst x).
Definition upd (b : option best) (x : item) : option best := if better (fit_of x) b then Some (mkBest (fit_of x) (snd (fst x)) (snd x)) else b.
Definition firstmin (vis : list item) (b : option best) : Prop :=
  match b with
  | None => vis = []
  | Some b => exists i x, nth_error vis i = Some x /\ b = mkBest (fit_of x) (snd (fst x)) (snd x) /\
      forall j y, nth_error vis j = Some y -> f_chi2 (fit_of x) <= f_chi2 (fit_of y) /\ ((j < i)%nat -> f_chi2 (fit_of x) < f_chi2 (fit_of y)) end.
Lemma nth_snoc {A} (l : list A) x j y : nth_error (l ++ [x]) j = Some y -> nth_error l j = Some y \/ (j = length l /\ y = x).
Proof.
  intro H. destruct (Nat.lt_ge_cases j (length l)) as [L|L]; [left; rewrite nth_error_app1 in H; assumption|]. rewrite nth_error_app2 in H by exact L.
  destruct (j - length l)%nat as [|n] eqn:E; cbn in H; [inversion H; right; split; [lia|reflexivity]|destruct n; discriminate].
Qed.
Lemma firstmin_step vis b x : firstmin vis b -> firstmin (vis ++ [x]) (upd b x).
Proof.
  intro H. unfold upd, better. destruct b as [b|].
  - destruct H as (i & w & Hi & -> & M). cbn [b_fit]. pose proof (nth_error_len _ _ _ Hi) as Li. destruct (Qltb_spec (f_chi2 (fit_of x)) (f_chi2 (fit_of w))) as [L|L].
    + exists (length vis), x. split; [rewrite nth_error_app2, Nat.sub_diag by lia; reflexivity|]. split; [reflexivity|]. intros j y Hj. apply nth_snoc in Hj. destruct Hj as [Hj|[-> ->]]; [|split; [apply Qle_refl|lia]].
      destruct (M j y Hj) as [M1 _]. split; [lra|intros _; lra].
    + exists i, w. split; [rewrite nth_error_app1 by exact Li; exact Hi|]. split; [reflexivity|]. intros j y Hj. apply nth_snoc in Hj. destruct Hj as [Hj|[-> ->]]; [exact (M j y Hj)|]. split; [apply Qnot_lt_le; exact L|lia].
  - cbn [firstmin] in *. subst vis. exists O, x. split; [reflexivity|]. split; [reflexivity|]. intros j y Hj. destruct j as [|j]; cbn in Hj; [inversion Hj; subst; split; [apply Qle_refl|lia]|destruct j; discriminate].
Qed.
Lemma firstmin_fold l : forall vis b, firstmin vis b -> firstmin (vis ++ l) (fold_left upd l b).
Proof.
  induction l as [|x l IH]; intros vis b H; [rewrite app_nil_r; exact H|]. cbn [fold_left]. replace (vis ++ x :: l)%list with ((vis ++ [x]) ++ l)%list by (rewrite <- app_assoc; reflexivity). apply IH. apply firstmin_step. exact H.
Qed.

Definition fit_gen (sqrtf : Q -> Q) (thr : Q) (l : list (Q * Q * Q)) (p : prior) (f : fit) : Prop :=
  (active p -> is_fit_prior sqrtf thr l p f) /\ (~ active p -> is_fit sqrtf thr l f).

Section Fit.
  Context (sqrtf : Q -> Q) (thr z : Q) (cal : option calz) (mei : option meik) (on fast dust ext : bool) (priors : list prior) (apply : bool) (EL : list Z) (os0 : list obs).
  Definition kd_of (e : Z) : Z := if dust then e else (-1)%Z.
  Definition dusts : list Z := map kd_of EL.
  Definition ebmv (e : Z) : Q := if dust then match cal with Some c => GetEbmvValue c e | None => 0 end else - (1).
  Definition prior_at (e : Z) (p : prior) : Prop := if apply then zget priors e = Ok p else p = no_prior.
  Definition cellok (kd ki : Z) (p : prior) (f : fit) : Prop :=
    exists ms, Forall2 (is_model z cal mei kd ki) os0 ms /\ 0 < information (all_fitted os0 ms) /\ fit_gen sqrtf thr (all_fitted os0 ms) p f.
  Notation INV kd ki := (Forall2 (inv z cal mei on kd ki) os0).
  Notation OUT n := (Forall2 (outok z cal mei dusts n) os0).

  Lemma all_fitted_cons o os m ms : all_fitted (o :: os) (m :: ms) = (fitted o m ++ all_fitted os ms)%list. Proof. reflexivity. Qed.
  Lemma sum_ok kM kE n kd ki : nth_error dusts kE = Some kd -> (fast = true -> Forall reaches_above os0 /\ (kM <> 0%nat -> (kE < n)%nat)) -> Forall fresh os0 ->
    forall os outs acc c outs', INV kd ki os -> (fast = true -> OUT (if Nat.eqb kM 0 then kE else n) outs) -> (fast = false -> length outs = length os0) ->
    sum_obs fast kM kE os outs acc = Ok (c, outs') ->
    ceq c (cadd acc (csum (all_fitted os0 (map (fun o => t_flux (o_tpl o)) os)))) /\
    (os0 <> [] -> 0 < c_t (csum (all_fitted os0 (map (fun o => t_flux (o_tpl o)) os)))) /\
    (fast = true -> OUT (if Nat.eqb kM 0 then S kE else n) outs') /\ (fast = false -> length outs' = length os0) /\
    ((fast = false \/ kM = O) -> Forall (fun o => errs_ok o (o_ks o) (S (o_ke o) - o_ks o)) os0).
  Proof.
    intros Hkd Hf Fr os. revert Hf Fr. generalize os0. intro os1. intros Hf Fr outs acc c outs' I. revert Hf Fr outs acc c outs'.
    induction I as [|o0 o os1 os I F IH]; intros Hf Fr outs acc c outs' Oo Ol H; cbn [sum_obs] in H.
    - inversion H; subst. split; [cbn [all_fitted map combine flat_map]; csimp; (split; [|split]); ring|]. split; [congruence|]. split; [intros _; constructor|]. split; [reflexivity|constructor].
    - inversion Fr as [|? ? Fo Fos]; subst. destruct outs as [|out outs]; [discriminate|].
      destruct (ComputeCrossProducts fast kM kE out o) as [[c1 out1]| |] eqn:C; try discriminate. cbn [rbind fst snd] in H.
      destruct (sum_obs fast kM kE os outs (cadd acc c1)) as [[c2 outs2]| |] eqn:S; try discriminate. cbn [rbind fst snd] in H. inversion H; subst c outs'. clear H.
      assert (Hc : fast = true -> reaches_above o0 /\ outok z cal mei dusts (if Nat.eqb kM 0 then kE else n) o0 out /\ (kM <> 0%nat -> (kE < n)%nat)).
      { intro Ft. destruct (Hf Ft) as [Ra Kn]. pose proof (Forall_inv Ra) as Ra1. pose proof (Oo Ft) as OF. inversion OF as [|? ? ? ? OF1 OF2]. auto. }
      destruct (cross_ok z cal mei on fast dusts kM kE n kd ki o0 o out c1 out1 Fo I Hkd Hc C) as (A1 & A2 & A3 & A4).
      assert (Hf' : fast = true -> Forall reaches_above os1 /\ (kM <> 0%nat -> (kE < n)%nat)) by (intro Ft; destruct (Hf Ft) as [Ra Kn]; exact (conj (Forall_inv_tail Ra) Kn)).
      assert (Oo' : fast = true -> Forall2 (outok z cal mei dusts (if Nat.eqb kM 0 then kE else n)) os1 outs) by (intro Ft; pose proof (Oo Ft) as OF; inversion OF as [|? ? ? ? OF1 OF2]; assumption).
      assert (Ol' : fast = false -> length outs = length os1) by (intro Ft; specialize (Ol Ft); cbn in Ol; lia).
      destruct (IH Hf' Fos outs (cadd acc c1) c2 outs2 Oo' Ol' S) as (B1 & B2 & B3 & B4 & B5).
      cbn [map]. rewrite all_fitted_cons. pose proof (csum_app (fitted o0 (t_flux (o_tpl o))) (all_fitted os1 (map (fun o => t_flux (o_tpl o)) os))) as Ap.
      pose proof (ct_pos _ _ A1 A2) as P1.
      split; [|split; [|split; [|split]]].
      + destruct Ap as (X1 & X2 & X3), B1 as (Y1 & Y2 & Y3), A1 as (Z1 & Z2 & Z3). unfold ceq. cbn [cadd c_x c_t c_s] in *. rewrite X1, X2, X3, Y1, Y2, Y3, Z1, Z2, Z3. (split; [|split]); ring.
      + intros _. destruct Ap as (_ & X2 & _). rewrite X2. cbn [cadd c_t]. destruct A1 as (_ & Z2 & _). rewrite <- Z2.
        pose proof (information_nonneg (all_fitted os1 (map (fun o => t_flux (o_tpl o)) os))) as Pn. rewrite information_csum in Pn. lra.
      + intro Ft. constructor; [exact (A3 Ft)|exact (B3 Ft)].
      + intro Ft. cbn. rewrite (B4 Ft). reflexivity.
      + intro Ft. constructor; [exact (A4 Ft)|exact (B5 Ft)].
  Qed.

  Lemma amp_gen l c p : ceq c (csum l) -> 0 < c_t (csum l) -> fit_gen sqrtf thr l p (ComputeAmplitudeAndChi2 sqrtf thr c p).
  Proof. intros Hc Hp. assert (N : ~ c_t c == 0) by (destruct Hc as (_ & B & _); rewrite B; lra). split; intro A; [exact (proj1 (Amplitude_prior sqrtf thr l c p Hc N A))|exact (proj1 (Amplitude sqrtf thr l c p Hc N A))]. Qed.
  Lemma models_of kd ki os : INV kd ki os -> Forall2 (is_model z cal mei kd ki) os0 (map (fun o => t_flux (o_tpl o)) os).
  Proof. induction 1 as [|o0 o l l' I F IH]; cbn [map]; constructor; [apply (inv_model z cal mei on); exact I|exact IH]. Qed.

  Lemma ism_ok kM igm (skip : bool) ki : os0 <> [] -> Forall fresh os0 -> (dust = true -> on = true) -> (fast = true -> Forall reaches_above os0) ->
    forall el pre st st' ents kd, EL = (pre ++ el)%list -> (dust = false -> kd = (-1)%Z) -> INV kd ki (s_obs st) ->
    (fast = true -> OUT (if Nat.eqb kM 0 then length pre else length EL) (s_out st)) -> (fast = false -> length (s_out st) = length os0) ->
    ism_loop sqrtf thr fast dust cal priors apply kM igm skip el (length pre) st = Ok (st', ents) ->
    exists fs kd', length fs = length el /\ length ents = length el /\
      (forall i e, nth_error el i = Some e -> exists f p, nth_error fs i = Some f /\ prior_at e p /\ nth_error ents i = Some (f_chi2 f, ebmv e, igm) /\ cellok (kd_of e) ki p f) /\
      s_best st' = fold_left upd (map (fun q => (fst q, ebmv (snd q), if skip then (-1)%Z else igm)) (combine fs el)) (s_best st) /\
      INV kd' ki (s_obs st') /\ (dust = false -> kd' = (-1)%Z) /\ (fast = true -> OUT (length EL) (s_out st')) /\ (fast = false -> length (s_out st') = length os0) /\
      ((fast = false \/ kM = O) -> el <> [] -> Forall (fun o => errs_ok o (o_ks o) (S (o_ke o) - o_ks o)) os0).
  Proof.
    intros Ne Fr Don Ra. induction el as [|e el IH]; intros pre st st' ents kd Eq Dk I Oo Ol H; cbn [ism_loop] in H.
    - inversion H; subst st' ents. exists [], kd. split; [reflexivity|]. split; [reflexivity|]. split; [intros [|i] e Hi; discriminate|]. split; [reflexivity|]. split; [exact I|]. split; [exact Dk|].
      split; [|split; [exact Ol|congruence]]. intro Ft. specialize (Oo Ft). rewrite app_nil_r in Eq. assert (Le : length EL = length pre) by (rewrite Eq; reflexivity). rewrite Le in Oo |- *. destruct (Nat.eqb kM 0); exact Oo.
    - assert (Hkd : nth_error dusts (length pre) = Some (kd_of e)). { unfold dusts. rewrite Eq, map_app, nth_error_app2, map_length, Nat.sub_diag by (rewrite map_length; lia). reflexivity. }
      assert (St : exists os, (if dust then match cal with None => UB | Some c => do q <- each_tpl (fun t => ApplyDustCoeff t e) (s_obs st); Ok (GetEbmvValue c e, fst q) end else Ok (-(1), s_obs st)) = Ok (ebmv e, os) /\ INV (kd_of e) ki os).
      { unfold ebmv, kd_of. destruct dust.
        - destruct cal as [c|]; [|discriminate]. destruct (each_tpl _ (s_obs st)) as [[os b]| |] eqn:Ea; try discriminate. cbn [rbind fst] in *. exists os. split; [reflexivity|]. exact (each_dust z (Some c) mei on e (Don eq_refl) _ _ _ _ _ _ I Ea).
        - rewrite (Dk eq_refl) in I. exists (s_obs st). split; [reflexivity|exact I]. }
      destruct St as (os & Es & Ios). rewrite Es in H. cbn [rbind] in H.
      destruct (if apply then zget priors e else Ok no_prior) as [pr| |] eqn:Ep; try discriminate. cbn [rbind] in H.
      destruct (sum_obs fast kM (length pre) os (s_out st) czero) as [[c outs]| |] eqn:So; try discriminate. cbn [rbind fst snd] in H. cbv zeta in H.
      set (f := ComputeAmplitudeAndChi2 sqrtf thr c pr) in *.
      set (b := if better f (s_best st) then Some (mkBest f (ebmv e) (if skip then (-1)%Z else igm)) else s_best st) in *.
      destruct (ism_loop sqrtf thr fast dust cal priors apply kM igm skip el (S (length pre)) (mkSt os outs b)) as [[st1 ents1]| |] eqn:Il; try discriminate. cbn [rbind fst snd] in H. inversion H; subst st' ents. clear H.
      assert (Lp : (length pre < length EL)%nat) by (rewrite Eq, app_length; cbn; lia).
      assert (Hs : fast = true -> Forall reaches_above os0 /\ (kM <> 0%nat -> (length pre < length EL)%nat)) by (intro Ft; split; [exact (Ra Ft)|intros _; exact Lp]).
      destruct (sum_ok kM (length pre) (length EL) (kd_of e) ki Hkd Hs Fr os (s_out st) czero c outs Ios Oo Ol So) as (S1 & S2 & S3 & S4 & S5).
      assert (Cc : ceq c (csum (all_fitted os0 (map (fun o => t_flux (o_tpl o)) os)))). { eapply ceq_trans; [exact S1|]. csimp. (split; [|split]); ring. }
      assert (Eq' : EL = ((pre ++ [e]) ++ el)%list) by (rewrite <- app_assoc; exact Eq). assert (Lp' : length (pre ++ [e]) = S (length pre)) by (rewrite app_length; cbn; lia).
      assert (Dk' : dust = false -> kd_of e = (-1)%Z) by (intro Df; unfold kd_of; rewrite Df; reflexivity).
      assert (Oo' : fast = true -> OUT (if Nat.eqb kM 0 then length (pre ++ [e]) else length EL) (s_out (mkSt os outs b))) by (intro Ft; cbn [s_out]; rewrite Lp'; exact (S3 Ft)).
      rewrite <- Lp' in Il.
      destruct (IH (pre ++ [e])%list (mkSt os outs b) st1 ents1 (kd_of e) Eq' Dk' Ios Oo' S4 Il) as (fs & kd' & L1 & L2 & Cells & Best & I' & Dk1 & Oo1 & Ol1 & _).
      exists (f :: fs), kd'. split; [cbn; congruence|]. split; [cbn; congruence|]. split; [|split; [|split; [exact I'|split; [exact Dk1|split; [exact Oo1|split; [exact Ol1|intros Hf _; exact (S5 Hf)]]]]]].
      + intros [|i] e' Hi; cbn [nth_error] in *; [|exact (Cells i e' Hi)]. inversion Hi; subst e'. exists f, pr. split; [reflexivity|]. split; [unfold prior_at; destruct apply; [exact Ep|congruence]|]. split; [reflexivity|].
        exists (map (fun o => t_flux (o_tpl o)) os). split; [exact (models_of _ _ _ Ios)|]. split; [rewrite information_csum; exact (S2 Ne)|]. apply amp_gen; [exact Cc|exact (S2 Ne)].
      + rewrite Best. reflexivity.
  Qed.
End Fit.
