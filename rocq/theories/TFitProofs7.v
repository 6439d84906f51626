From Coq Require Import Setoid.
From Verif Require Import Base RangeModel RangeProofs AxisModel AxisProofs CalzModel CalzProofs MeikModel MeikSpec MeikProofs TplModel TplSpec TplProofs TFitModel TFitSpec TFitProofs TFitProofs2 TFitProofs3 TFitProofs4 TFitProofs5 TFitProofs6.
Open Scope Q_scope.

Lemma model_det z cal mei kd ki o m m' : fresh o -> is_model z cal mei kd ki o m -> is_model z cal mei kd ki o m' -> forall k, at_ m k == at_ m' k.
Proof.
  intros (N & _ & _) [L M] [L' M'] k. assert (Lf : length (axis_of o) = length (flux_of o)).
  { unfold NewTpl in N. destruct (Nat.eqb_spec (length (axis_of o)) (length (flux_of o))); [assumption|discriminate]. }
  destruct (Nat.lt_ge_cases k (length (flux_of o))) as [Lk|Lk].
  - destruct (nth_error_lt (flux_of o) k Lk) as [f Hf]. destruct (nth_error_lt (axis_of o) k) as [lam Hl]; [lia|].
    destruct (M k lam f Hl Hf) as (x & d & g & Hx & Hd & Hg & Ex), (M' k lam f Hl Hf) as (x' & d' & g' & Hx' & Hd' & Hg' & Ex').
    rewrite (nth_at _ _ _ Hx), (nth_at _ _ _ Hx'), Ex, Ex', (dust_det _ _ _ _ _ _ eq_refl eq_refl eq_refl eq_refl eq_refl Hd Hd').
    assert (Eg : g = g'); [|rewrite Eg; reflexivity].
    destruct Hg as [(A & B & c & Ec & Ed)|[A ->]], Hg' as [(A' & B' & c' & Ec' & Ed')|[A' ->]]; try reflexivity.
    + congruence.
    + destruct A' as [A'|A']; [contradiction|lia].
    + destruct A as [A|A]; [contradiction|lia].
  - unfold at_. rewrite !nth_overflow by lia. reflexivity.
Qed.
Lemma models_ceq z cal mei kd ki : forall os ms ms', Forall fresh os -> Forall2 (is_model z cal mei kd ki) os ms -> Forall2 (is_model z cal mei kd ki) os ms' -> ceq (csum (all_fitted os ms)) (csum (all_fitted os ms')).
Proof.
  intros os ms ms' Fr F. revert ms'. induction F as [|o m os ms M F IH]; intros ms' F'; inversion F' as [|? m' ? ms1 M' F1]; subst; [apply ceq_refl|]. inversion Fr as [|? ? Fo Fos]; subst.
  rewrite !all_fitted_cons. eapply ceq_trans; [apply csum_app|]. eapply ceq_trans; [|apply ceq_sym; apply csum_app]. apply cadd_ceq; [|apply IH; assumption].
  rewrite !fitted_sub. apply sub_samples_ceq. intros i _. exact (model_det _ _ _ _ _ _ _ _ Fo M M' i).
Qed.
Lemma chi2_cong l l' a : ceq (csum l) (csum l') -> chi2 l a == chi2 l' a.
Proof. intros (A & B & C). rewrite !chi2_expand, A, B, C. reflexivity. Qed.
Lemma chi2_nonneg l a : 0 <= chi2 l a.
Proof. unfold chi2. induction l as [|s l IH]; cbn [map sum fold_right] in *; [lra|]. pose proof (Qsq_nn (residual a s)) as P. unfold sum in IH. lra. Qed.
Lemma not_active_none : ~ active no_prior. Proof. intros [A _]. cbn in A. lra. Qed.

(** with a null threshold and no prior *)
Lemma Best_of_grid sqrtf z begins opt_ext dust cal mei ml el os b cols :
  (forall x, 0 < x -> 0 < sqrtf x) -> os <> [] -> Forall fresh os -> (match mei with Some m => (1 <= mk_fine m)%Z | None => True end) -> Forall2 begins_before begins os -> ((1 < length ml)%nat -> Forall reaches_above os) ->
  BasicFit sqrtf 0 z begins opt_ext dust cal mei [] ml el os = Ok (b, cols) ->
  0 <= f_ampl (b_fit b) /\
  forall kd ki ms a, (if dust then In kd el else kd = (-1)%Z) -> ((opt_ext = true /\ below_lya os -> In ki ml) /\ (~ (opt_ext = true /\ below_lya os) -> ki = (-1)%Z)) ->
    Forall2 (is_model z cal mei kd ki) os ms -> 0 <= a -> f_chi2 (b_fit b) <= chi2 (all_fitted os ms) a.
Proof.
  intros Sq Ne Fr Cv Bg Ra H. destruct (Fit_spec _ _ _ _ _ _ _ _ _ _ _ _ _ _ Ne Fr Cv Bg Ra H) as (eff & Eff & Lc & Tab & Best & _).
  assert (NeE : el <> []) by (intro X; subst el; discriminate).
  destruct Best as (k & m & i & e & p & Hm & He & Pp & Sf & _ & _ & Min).
  assert (NP : forall e' p', prior_of [] cal e' p' -> ~ active p'). { intros e' p' [[[X _] _]|[_ ->]]; [congruence|exact not_active_none]. }
  split.
  - destruct Sf as (ms & _ & Ip & _ & F). exact (proj1 (Positive sqrtf _ _ Sq Ip (F (NP _ _ Pp)))).
  - intros kd ki ms a Hkd [Hki1 Hki2] Ms Ap.
    assert (X : exists i' e', nth_error el i' = Some e' /\ kd = if dust then e' else (-1)%Z).
    { destruct dust; [apply In_nth_error in Hkd; destruct Hkd as [i' Hi]; exists i', kd; auto|]. exists i, e. auto. }
    assert (Y : exists k' m', nth_error ml k' = Some m' /\ ki = if eff then m' else (-1)%Z).
    { destruct eff.
      - assert (I : In ki ml) by (apply Hki1; apply Eff; reflexivity). apply In_nth_error in I. destruct I as [k' Hk]. exists k', ki. auto.
      - exists k, m. split; [exact Hm|]. apply Hki2. intro C. apply Eff in C. discriminate. }
    destruct X as (i' & e' & He' & Ekd), Y as (k' & m' & Hm' & Eki).
    destruct (Tab k' m' Hm') as (col & Hc & _ & Cell). destruct (Cell i' e' He') as (f & p' & v & Hent & _ & Pp' & Sf').
    destruct (Min k' i' col _ _ _ Hc Hent) as [M1 _]. eapply Qle_trans; [exact M1|].
    destruct Sf' as (ms1 & Ms1 & Ip & _ & F). rewrite <- Ekd, <- Eki in Ms1.
    pose proof (proj2 (Positive sqrtf _ _ Sq Ip (F (NP _ _ Pp'))) a Ap) as P. eapply Qle_trans; [exact P|].
    rewrite (chi2_cong _ _ a (models_ceq _ _ _ _ _ _ _ _ Fr Ms1 Ms)). apply Qle_refl.
Qed.
(** a spectrum which is a positive multiple of a model of the grid is fitted exactly *)
Lemma Exact_data sqrtf z begins opt_ext dust cal mei ml el os b cols :
  (forall x, 0 < x -> 0 < sqrtf x) -> os <> [] -> Forall fresh os -> (match mei with Some m => (1 <= mk_fine m)%Z | None => True end) -> Forall2 begins_before begins os -> ((1 < length ml)%nat -> Forall reaches_above os) ->
  BasicFit sqrtf 0 z begins opt_ext dust cal mei [] ml el os = Ok (b, cols) ->
  forall kd ki ms a, (if dust then In kd el else kd = (-1)%Z) -> ((opt_ext = true /\ below_lya os -> In ki ml) /\ (~ (opt_ext = true /\ below_lya os) -> ki = (-1)%Z)) ->
    Forall2 (is_model z cal mei kd ki) os ms -> 0 <= a -> chi2 (all_fitted os ms) a == 0 -> f_chi2 (b_fit b) == 0.
Proof.
  intros Sq Ne Fr Cv Bg Ra H kd ki ms a Hkd Hki Ms Ap E0. destruct (Best_of_grid _ _ _ _ _ _ _ _ _ _ _ _ Sq Ne Fr Cv Bg Ra H) as [_ B]. pose proof (B kd ki ms a Hkd Hki Ms Ap) as Le. rewrite E0 in Le.
  apply Qle_antisym; [exact Le|]. destruct (Fit_spec _ _ _ _ _ _ _ _ _ _ _ _ _ _ Ne Fr Cv Bg Ra H) as (eff & _ & _ & _ & (k & m & i & e & p & _ & _ & Pp & (ms' & _ & _ & _ & F) & _) & _).
  destruct F as (a0 & _ & _ & _ & _ & Ec & _). { destruct Pp as [[[X _] _]|[_ ->]]; [congruence|exact not_active_none]. } rewrite Ec. apply chi2_nonneg.
Qed.

(** ** outcomes *)
Lemma No_dust_values sqrtf thr z begins opt_ext dust cal mei priors ml os : BasicFit sqrtf thr z begins opt_ext dust cal mei priors ml [] os = UB. Proof. reflexivity. Qed.
Lemma Igm_not_in_range sqrtf thr z begins opt_ext cal mei m0 m1 ml e el o os : NewTpl (axis_of o) (flux_of o) = Ok (o_tpl o) -> (forall b, In b begins -> 1216 < b) ->
  BasicFit sqrtf thr z begins opt_ext false cal mei [] (m0 :: m1 :: ml) (e :: el) (o :: os) = Throw INTERNAL_ERROR.
Proof.
  intros Nw Bb. unfold BasicFit. cbv zeta. assert (Er : igmIsInRange begins = false).
  { unfold igmIsInRange. apply not_true_iff_false. intro X. apply existsb_exists in X. destruct X as (b & Ib & Lb). apply Qle_bool_iff in Lb. pose proof (Bb b Ib). unfold lya in Lb. lra. }
  rewrite Er, andb_false_r. cbn [orb rbind length Nat.ltb Nat.leb]. cbn [igm_loop Nat.ltb Nat.leb andb Nat.eqb rbind s_obs s_out s_best ism_loop map sum_obs]. unfold ComputeCrossProducts.
  unfold NewTpl in Nw. destruct (negb _) in Nw; [discriminate|]. inversion Nw as [Et]. try rewrite <- Et. cbn [rbind tpl_igm_end enabled t_no length Nat.eqb negb]. reflexivity.
Qed.
Lemma Prior_without_dust sqrtf thr z begins opt_ext c mei p priors m ml os os1 : Z.of_nat (length (p :: priors)) = cz_n c ->
  (if (opt_ext && igmIsInRange begins)%bool then init_all z (Some c) mei os else Ok os) = Ok os1 -> opt_ext = false \/ (forall b, In b begins -> 1216 < b) ->
  BasicFit sqrtf thr z begins opt_ext false (Some c) mei (p :: priors) (m :: ml) [(-1)%Z] os = UB.
Proof.
  intros Ln Ini Ng. unfold BasicFit. cbv zeta. assert (Er : (opt_ext && igmIsInRange begins)%bool = false).
  { destruct Ng as [->|Bb]; [reflexivity|]. rewrite andb_false_iff. right. unfold igmIsInRange. apply not_true_iff_false. intro X. apply existsb_exists in X. destruct X as (b & Ib & Lb). apply Qle_bool_iff in Lb. pose proof (Bb b Ib). unfold lya in Lb. lra. }
  rewrite Er in *. apply Z.eqb_eq in Ln. rewrite Ln. cbn [orb rbind]. cbn [igm_loop Nat.ltb Nat.leb andb Nat.eqb rbind s_obs s_out s_best ism_loop]. unfold zget. cbn [Z.ltb Z.compare]. reflexivity.
Qed.

(** ** a template used for another fit before: the tables it kept do not matter when both are given, nor when they are those given *)
Definition reused (t t0 : tpl) : Prop := t_axis t = t_axis t0 /\ t_flux t = t_flux t0 /\ t_no t = [].
Lemma Init_reused t t0 ks ke z cal mei : reused t t0 -> NewTpl (t_axis t0) (t_flux t0) = Ok t0 -> (cal <> None /\ mei <> None) \/ (t_cal t = cal /\ t_mei t = mei) ->
  snd (InitIsmIgmConfig t ks ke z cal mei) = Ok tt -> t_zi t = (-1)%Z \/ mei <> None -> InitIsmIgmConfig t ks ke z cal mei = InitIsmIgmConfig t0 ks ke z cal mei.
Proof.
  intros (Ea & Ef & En) Nw Tb Ok1 Zi. unfold NewTpl in Nw. destruct (negb _) in Nw; [discriminate|]. inversion Nw as [Et]. clear Nw. destruct t as [ta tf tn td ti tz tks tke tie tcd tcm tca tme]. cbn [t_axis t_flux t_no t_cal t_mei t_zi] in *. subst ta tf tn. rewrite <- Et in *. cbn [t_axis t_flux] in *.
  assert (E1 : match cal with None => tca | _ => cal end = match cal with None => None | _ => cal end) by (destruct cal; [reflexivity|destruct Tb as [[X _]|[X _]]; [congruence|exact X]]).
  assert (E2 : match mei with None => tme | _ => mei end = match mei with None => None | _ => mei end) by (destruct mei; [reflexivity|destruct Tb as [[_ X]|[_ X]]; [congruence|exact X]]).
  revert Ok1. unfold InitIsmIgmConfig. cbn [with_tables t_cal t_mei t_axis t_flux t_no t_cd t_cm t_zi t_dust t_igm t_ks t_ke t_ie]. rewrite E1, E2.
  destruct cal as [c|], mei as [m|]; cbn [snd]; try discriminate.
  all: destruct ((ks <? 0)%Z || _)%bool; [discriminate|]; destruct ((ke <? 0)%Z || _)%bool; [discriminate|].
  all: try (destruct (getRedshiftIndex m z) as [zi| |]; [|discriminate|discriminate]; destruct (GetIgmEndIndex _ ks ke) as [ie| |]; [|discriminate|discriminate]; destruct (Z.eqb zi (-1) && _)%bool; [discriminate|]; intros _; reflexivity).
  intros _. destruct Zi as [->|X]; [reflexivity|congruence].
Qed.

(** ** the sums are counted twice when all the samples are at or below Lyman alpha *)
Definition rsqrt (q : Q) : Q := let r := Qred q in (Z.sqrt (Qnum r)) # (Pos.sqrt (Qden r)).
Definition exf_mei : meik := mkMeik [2; 3] [mkMC [1000; 100005#100] [[1#4; 1#4]; [1#2; 1#2]]] [mkMC [1000; 100005#100] [[1#4; 1#4]; [1#2; 1#2]]] 1000 2 2 (mkRange 0 10000) true.
Definition exf_tpl (axis flux : list Q) : tpl := mkTpl axis flux [] (-1) (-1) (-1) (-1) (-1) (-1) [] [] None None.
Definition exf_blue : obs := mkObs [2; 4] [1; 1] [1%N; 1%N] 0 1 (exf_tpl [1050; 1100] [8; 16]).
Lemma exf_fresh axis flux y e mask ks ke : strictly_increasing axis -> length axis = length flux -> (ks <= ke < length axis)%nat -> fresh (mkObs y e mask ks ke (exf_tpl axis flux)).
Proof.
  intros I L K. unfold fresh, axis_of, flux_of. cbn [o_tpl exf_tpl t_axis t_flux o_ks o_ke]. split; [unfold NewTpl; rewrite L, Nat.eqb_refl; reflexivity|]. split; [|exact K]. intros i j a b H Ha Hb. apply Qlt_le_weak. exact (I i j a b H Ha Hb).
Qed.
Ltac model_case g := eexists _, 1, g; split; [reflexivity|]; split; [right; split; [right; cbn; lia|reflexivity]|]; split; [left; split; [split; [reflexivity|cbn; lia]|]; split; [cbn; lia|]; eexists; split; [reflexivity|vm_compute; reflexivity]|vm_compute; reflexivity].
Lemma Blue_only : exists b c0 c1, fresh exf_blue /\
  BasicFit rsqrt 0 (5#2) [1050] true false None (Some exf_mei) [] [0; 1]%Z [(-1)%Z] [exf_blue] = Ok (b, [[(c0, - (1), 0%Z)]; [(c1, - (1), 1%Z)]]) /\ c1 == 4 /\
  is_model (5#2) None (Some exf_mei) (-1) 1 exf_blue [4; 8] /\ chi2 (all_fitted [exf_blue] [[4; 8]]) (1#2) == 0.
Proof.
  let v := eval vm_compute in (BasicFit rsqrt 0 (5#2) [1050] true false None (Some exf_mei) [] [0; 1]%Z [(-1)%Z] [exf_blue]) in
    match v with Ok (?b, [[(?c0, _, _)]; [(?c1, _, _)]]) => exists b, c0, c1 end.
  split. { apply exf_fresh; [|reflexivity|cbn; lia]. intros [|[|[|i]]] [|[|[|j]]] a c H Ha Hc; cbn in *; try lia; try discriminate. inversion Ha; inversion Hc; subst. lra. }
  split; [vm_compute; reflexivity|]. split; [vm_compute; reflexivity|]. split; [|vm_compute; reflexivity].
  split; [reflexivity|]. intros [|[|[|k]]] lam f Hl Hf; cbn in Hl, Hf; try discriminate; inversion Hl; inversion Hf; subst.
  - model_case (1#2).
  - model_case (1#2).
Qed.
(** ** the signal to noise ratio is the significance of the amplitude, when it is not negative *)
Lemma sq_lt a b : 0 < a -> a < b -> a * a < b * b.
Proof. intros A L. apply Qlt_trans with (b * a); [apply Qmult_lt_compat_r; assumption|]. rewrite (Qmult_comm b a). apply Qmult_lt_compat_r; [lra|assumption]. Qed.
Lemma sqrt_unique a b : 0 < a -> 0 < b -> a * a == b * b -> a == b.
Proof. intros A B E. destruct (Q_dec a b) as [[L|L]|L]; [exfalso|exfalso|exact L]; [pose proof (sq_lt _ _ A L)|pose proof (sq_lt _ _ B L)]; lra. Qed.
Lemma Snr sqrtf thr c p : 0 < c_t c -> is_sqrt sqrtf (c_t c) -> is_sqrt sqrtf (1 / c_t c) -> ~ active p ->
  exists s, SNRCalculation sqrtf (c_x c) (c_t c) = Some s /\ (0 <= c_x c -> s == f_sig (ComputeAmplitudeAndChi2 sqrtf thr c p)) /\ (c_x c <= 0 -> s == 0).
Proof.
  intros Tp [P1 P2] [R1 R2] Na.
  assert (Si : f_sig (ComputeAmplitudeAndChi2 sqrtf thr c p) == c_x c / c_t c / sqrtf (1 / c_t c)).
  { unfold ComputeAmplitudeAndChi2. assert (Ap : (Qltb 0 (p_asigma p) && Qltb 0 (p_betaA p))%bool = false).
    { apply not_true_iff_false. intro X. apply andb_true_iff in X. destruct X as [X Y]. apply Qltb_true in X. apply Qltb_true in Y. apply Na. split; assumption. }
    rewrite Ap. destruct (Qeq_bool (c_t c) 0) eqn:E; [apply Qeq_bool_iff in E; lra|]. reflexivity. }
  set (x := c_x c) in *. set (T := c_t c) in *. set (r := sqrtf T) in *. set (q := sqrtf (1 / T)) in *.
  assert (Nt : ~ T == 0) by lra. assert (Nr : ~ r == 0) by lra. assert (Nq : ~ q == 0) by lra.
  assert (Iv : q == 1 / r). { apply sqrt_unique; [exact R1|apply Qlt_shift_div_l; lra|]. rewrite R2, <- P2. field. exact Nr. }
  assert (Eq : x / T / q == x / r). { rewrite Iv, <- P2. field. exact Nr. }
  unfold SNRCalculation. destruct (Qle_bool T 0) eqn:E1; [apply Qle_bool_iff in E1; lra|].
  destruct (Qle_bool x 0) eqn:E2; eexists; (split; [reflexivity|]); fold r.
  - apply Qle_bool_iff in E2. split; [|reflexivity]. intro G. assert (Z0 : x == 0) by lra. rewrite Si, Eq, Z0. field. exact Nr.
  - assert (L : 0 < x). { apply Qnot_le_lt. intro G. apply Qle_bool_iff in G. congruence. } split; [|intro; lra]. intros _. rewrite Si, Eq. reflexivity.
Qed.
