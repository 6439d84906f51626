From Verif Require Import Base RangeModel RangeSpec RangeProofs AxisModel AxisSpec AxisProofs CalzModel CalzSpec CalzProofs MeikModel MeikSpec MeikProofs TplModel TplSpec TplProofs.
Open Scope Q_scope.

(** ** the calls return: the index of the dust in the table, the one of the igm in every curve *)
Definition sized (t : tpl) : Prop := length (t_flux t) = length (t_axis t) /\ length (t_no t) = length (t_axis t) /\ length (t_cd t) = length (t_axis t) /\ length (t_cm t) = length (t_axis t) /\
  (0 <= t_ks t < Z.of_nat (length (t_axis t)))%Z /\ (0 <= t_ke t < Z.of_nat (length (t_axis t)))%Z /\ (t_ie t < Z.of_nat (length (t_axis t)))%Z.
Lemma Session_sized axis f0 t0 cs t' : increasing axis -> NewTpl axis f0 = Ok t0 -> Forall convolved cs -> run t0 cs = Ok t' -> enabled t' = true ->
  (forall m, t_mei t' = Some m -> sized t') /\ (t_cal t' <> None -> length (t_flux t') = length (t_axis t') /\ length (t_no t') = length (t_axis t') /\ length (t_cd t') = length (t_axis t') /\ length (t_cm t') = length (t_axis t') /\
     (0 <= t_ks t' < Z.of_nat (length (t_axis t')))%Z /\ (0 <= t_ke t' < Z.of_nat (length (t_axis t')))%Z).
Proof.
  intros I N F R En. pose proof (good_run axis f0 I cs t0 view0 t' (good_new _ _ _ N) F R) as G. fold (seen cs) in G.
  pose proof (g_on _ _ _ _ G) as On. rewrite En in On. symmetry in On. destruct (g_cfg _ _ _ _ G On) as (Ln & Lcd & Lcm & Eks & Eke & Rks & Rke & _). pose proof (g_axis _ _ _ _ G) as Ga. pose proof (g_flux _ _ _ _ G) as Gf. rewrite <- Ga in *.
  split; [|intros _; repeat split; auto; lia]. intros m Em. pose proof (g_mei _ _ _ _ G) as Gm. rewrite Em in Gm. symmetry in Gm. destruct (g_igm _ _ _ _ G On) as [_ Gi]. destruct (Gi m Gm) as (_ & Hie & _).
  destruct (IgmEnd (t_axis t') (v_ks (seen cs)) (v_ke (seen cs)) (t_ie t')) as [Rie _]; auto; try lia. repeat split; auto; lia.
Qed.
Lemma Dust_returns axis f0 t0 cs t' cal k : increasing axis -> NewTpl axis f0 = Ok t0 -> Forall convolved cs -> run t0 cs = Ok t' -> v_on (seen cs) = true -> v_cal (seen cs) = Some cal ->
  (k < cz_n cal)%Z -> (forall lam, In lam axis -> (0 <= k)%Z -> exists d, GetDustCoeff cal k lam = Ok d) -> exists t2, ApplyDustCoeff t' k = (t2, Ok true) /\ run t0 (cs ++ [Dust k]) = Ok t2.
Proof.
  intros I N F R On Ec Hk Tot. pose proof (good_run axis f0 I cs t0 view0 t' (good_new _ _ _ N) F R) as G. fold (seen cs) in G.
  assert (En : enabled t' = true) by (rewrite (g_on _ _ _ _ G); exact On). assert (Ec' : t_cal t' = Some cal) by (rewrite (g_cal _ _ _ _ G); exact Ec).
  destruct (Session_sized axis f0 t0 cs t' I N F R En) as [_ S]. destruct S as (L1 & L2 & L3 & L4 & R1 & R2); [congruence|].
  assert (A : exists t2, ApplyDustCoeff t' k = (t2, Ok true)).
  { unfold ApplyDustCoeff. rewrite En, Ec'. destruct (Z.eqb (t_dust t') k); [eauto|]. cbv zeta. cbn [t_axis t_no t_cm t_ks t_ke t_cd t_flux with_dust].
    match goal with |- context[apply_loop ?c ?b ?x ?y ?z ?p ?n ?u ?w] => destruct (apply_loop_total c b x y z n p u w) as (cs' & fl' & E) end; try (unfold turns; lia).
    - intros lam Hlam. rewrite (g_axis _ _ _ _ G) in Hlam. destruct (Z.ltb_spec (-1) k) as [K|K]; [|eauto]. apply Tot; [exact Hlam|lia].
    - rewrite E. cbn [rbind]. eauto. }
  destruct A as [t2 A]. exists t2. split; [exact A|]. clear -R A. revert t0 R. induction cs as [|c cs IH]; intros t0 R; cbn [run app] in *.
  - inversion R; subst. cbn [step]. rewrite A. reflexivity.
  - destruct (step t0 c) as [t1 [[]| |]]; try discriminate. apply IH. exact R.
Qed.
Lemma Igm_returns axis f0 t0 cs t' mei k : increasing axis -> NewTpl axis f0 = Ok t0 -> Forall convolved cs -> run t0 cs = Ok t' -> v_on (seen cs) = true -> v_mei (seen cs) = Some mei ->
  (forall zi l, (0 <= k)%Z -> (0 <= l < mk_fine mei)%Z -> getRedshiftIndex mei (v_z (seen cs)) = Ok zi -> zi <> (-1)%Z -> exists m, getCorrectionIdx mei zi k l = Ok m) ->
  exists t2 r, ApplyMeiksinCoeff t' k = (t2, Ok r) /\ run t0 (cs ++ [Igm k]) = Ok t2 /\ (r = true <-> exists i lam, in_range (seen cs) i /\ nth_error axis i = Some lam /\ lam <= 1216).
Proof.
  intros I N F R On Em Tot. pose proof (good_run axis f0 I cs t0 view0 t' (good_new _ _ _ N) F R) as G. fold (seen cs) in G.
  assert (En : enabled t' = true) by (rewrite (g_on _ _ _ _ G); exact On). assert (Em' : t_mei t' = Some mei) by (rewrite (g_mei _ _ _ _ G); exact Em).
  destruct (Session_sized axis f0 t0 cs t' I N F R En) as [S _]. destruct (S mei Em') as (L1 & L2 & L3 & L4 & R1 & R2 & R3).
  destruct (g_igm _ _ _ _ G On) as [_ Gi]. destruct (Gi mei Em) as (Hz & Hie & Hzi). pose proof (g_fine _ _ _ _ G mei Em) as Fine.
  assert (A : exists t2 r, ApplyMeiksinCoeff t' k = (t2, Ok r)).
  { unfold ApplyMeiksinCoeff. rewrite En, Em'. destruct (Z.eqb (t_igm t') k); [eauto|]. cbv zeta. cbn [t_axis t_no t_cm t_ks t_ke t_cd t_flux with_igm t_ie t_zi]. destruct (Z.eqb_spec (t_ie t') (-1)) as [W|W]; [eauto|].
    match goal with |- context[apply_loop ?c ?b ?x ?y ?z ?p ?n ?u ?w] => destruct (apply_loop_total c b x y z n p u w) as (cs' & fl' & E) end; try (unfold turns; lia).
    - intros lam Hlam. unfold igm_coef. destruct (Z.ltb_spec (-1) k) as [K|K]; [|eauto]. apply Tot; auto; [lia|]. destruct (Qle_bool (mk_min mei) lam); [|lia]. apply WaveIndex. exact Fine.
    - rewrite E. cbn [rbind]. eauto. }
  destruct A as (t2 & r & A). exists t2, r. split; [exact A|]. split; [|exact (proj2 (good_igm _ _ _ _ _ _ _ I G A))]. clear -R A. revert t0 R. induction cs as [|c cs IH]; intros t0 R; cbn [run app] in *.
  - inversion R; subst. cbn [step]. rewrite A. reflexivity.
  - destruct (step t0 c) as [t1 [[]| |]]; try discriminate. apply IH. exact R.
Qed.

(** ** initialisation *)
Lemma Init_all t z cal mei : InitIsmIgmConfig_all t z cal mei = InitIsmIgmConfig t 0 (Z.of_nat (length (t_axis t)) - 1) z cal mei.
Proof. reflexivity. Qed.
Lemma Init_range t r z cal mei : strictly_increasing (t_axis t) ->
  (exists a b, InitIsmIgmConfig_range t r z cal mei = InitIsmIgmConfig t (Z.of_nat a) (Z.of_nat b) z cal mei /\ (a <= b < length (t_axis t))%nat /\
     forall k lam, nth_error (t_axis t) k = Some lam -> ((a <= k <= b)%nat <-> rbeg r <= lam <= rend r)) \/
  ((exists e, InitIsmIgmConfig_range t r z cal mei = (t, Throw e)) /\ (rbeg r <= rend r -> forall lam, In lam (t_axis t) -> ~ rbeg r <= lam <= rend r)).
Proof.
  intro SI. pose proof (getClosed_spec r (t_axis t) SI) as H. unfold InitIsmIgmConfig_range. destruct (getClosedIntervalIndices r (t_axis t)) as [[a b]|e|].
  - left. exists a, b. destruct H as [H1 H2]. split; [reflexivity|]. split; [exact H1|]. intros k lam Hk. symmetry. exact (H2 k lam Hk).
  - right. split; [eauto|]. intros W lam Hl. destruct e; try contradiction.
    + destruct H as [_ H]. exact (H W lam Hl).
    + destruct H as [_ H]. exact (H W lam Hl).
    + rewrite H in Hl. destruct Hl.
  - contradiction.
Qed.
Lemma Init_reversed t ks ke z cal mei m : (match mei with None => t_mei t | _ => mei end) = Some m -> (0 <= ke)%Z -> (ke + 1 < ks < Z.of_nat (length (t_axis t)))%Z -> (exists zi, getRedshiftIndex m z = Ok zi) ->
  exists t', InitIsmIgmConfig t ks ke z cal mei = (t', UB).
Proof.
  intros Em K0 K1 [zi Z]. unfold InitIsmIgmConfig. cbv zeta. cbn [t_axis t_cal t_mei with_tables t_zi t_flux t_no t_cd t_cm]. rewrite Em.
  assert (G : forall X : tpl * res unit, (match (match cal with None => t_cal t | _ => cal end) with Some _ => X | None => X end) = X) by (intro X; destruct cal; [|destruct (t_cal t)]; reflexivity).
  rewrite G. destruct (Z.ltb_spec ks 0); [lia|]. destruct (Z.leb_spec (Z.of_nat (length (t_axis t))) ks); [lia|]. cbn [orb]. destruct (Z.ltb_spec ke 0); [lia|]. destruct (Z.leb_spec (Z.of_nat (length (t_axis t))) ke); [lia|]. cbn [orb].
  rewrite Z. unfold GetIgmEndIndex. destruct (Z.ltb_spec (ke + 1) ks); [eauto|lia].
Qed.

(** ** exceptions *)
Lemma Dust_bad_index t cal k : enabled t = true -> t_cal t = Some cal -> (0 <= k)%Z -> (cz_n cal <= k)%Z -> t_dust t <> k -> (0 <= t_ks t <= t_ke t)%Z -> (t_ke t < Z.of_nat (length (t_axis t)))%Z ->
  exists t', ApplyDustCoeff t k = (t', Throw INTERNAL_ERROR) /\ GetIsmCoeff t' = Ok k /\ t_flux t' = t_flux t /\ ApplyDustCoeff t' k = (t', Ok true).
Proof.
  intros En Ec K0 Kn Nd Rk Rn. exists (with_dust t k). assert (E2 : enabled (with_dust t k) = true) by exact En.
  split; [|split; [|split; [reflexivity|]]].
  - unfold ApplyDustCoeff. rewrite En, Ec. destruct (Z.eqb_spec (t_dust t) k) as [X|_]; [contradiction|]. cbv zeta. cbn [t_axis t_no t_cm t_ks t_ke t_cd t_flux with_dust].
    unfold turns. replace (Z.to_nat (t_ke t + 1 - t_ks t)) with (S (Z.to_nat (t_ke t - t_ks t))) by lia. cbn [apply_loop]. destruct (nth_error_lt (t_axis t) (Z.to_nat (t_ks t))) as [lam Hl]; [lia|]. unfold vget at 1. rewrite Hl. cbn [rbind].
    destruct (Z.ltb_spec (-1) k); [|lia]. rewrite (Dust_index cal k lam Kn). cbn [rbind]. destruct t; reflexivity.
  - unfold GetIsmCoeff. rewrite E2. reflexivity.
  - unfold ApplyDustCoeff. rewrite E2. cbn [t_cal t_dust with_dust]. rewrite Ec, Z.eqb_refl. reflexivity.
Qed.
Lemma SetAxis_keeps t ax t' r : SetSpectralAxis t ax = (t', r) -> t_flux t' = t_flux t /\ DisableIsmIgm t' = t' /\ enabled t' = false.
Proof. unfold SetSpectralAxis. cbv zeta. destruct (negb _); intro H; inversion H; subst; repeat split. Qed.
Lemma SetFlux_refused t f t' : length f <> length (t_axis t) -> SetFluxAxis t f = (t', Throw INVALID_SPECTRUM) -> t_flux t' = t_flux t /\ DisableIsmIgm t' = t' /\ enabled t' = false.
Proof. intro L. unfold SetFluxAxis. cbv zeta. cbn [t_axis with_no]. destruct (Nat.eqb_spec (length f) (length (t_axis t))); [contradiction|]. cbn [negb]. intro H; inversion H; subst; repeat split. Qed.
Lemma SetFlux_ok t f : length f = length (t_axis t) -> exists t', SetFluxAxis t f = (t', Ok tt) /\ t_flux t' = f /\ t_axis t' = t_axis t /\ enabled t' = false.
Proof. intro L. unfold SetFluxAxis. cbv zeta. cbn [t_axis with_no]. destruct (Nat.eqb_spec (length f) (length (t_axis t))); [|contradiction]. cbn [negb]. eexists. repeat split. Qed.
Lemma BaseAmp_lost t a : enabled t = true -> t_flux (BaseAmplitude t a) = map (fun x => a * x) (t_flux t) /\ t_flux (DisableIsmIgm (BaseAmplitude t a)) = t_flux (DisableIsmIgm t).
Proof. intro E. split; [reflexivity|]. unfold DisableIsmIgm. change (enabled (BaseAmplitude t a)) with (enabled t). rewrite E. reflexivity. Qed.

(** ** the masked copy *)
Lemma Masked_inv t mask t' : MaskedCopy t mask = Ok t' -> t_axis t' = keep_masked mask (t_axis t) /\ t_flux t' = keep_masked mask (t_flux t) /\ length mask = length (t_axis t) /\ length mask = length (t_flux t) /\
  t_dust t' = t_dust t /\ t_igm t' = t_igm t /\ t_zi t' = t_zi t /\ t_ie t' = (-1)%Z /\ t_cal t' = t_cal t /\ t_mei t' = t_mei t /\
  (enabled t' = true -> enabled t = true /\ t_no t' = keep_masked mask (t_no t) /\ t_cd t' = keep_masked mask (t_cd t) /\ t_cm t' = keep_masked mask (t_cm t) /\
     length mask = length (t_no t) /\ length mask = length (t_cd t) /\ length mask = length (t_cm t) /\
     exists lb le a b, nth_error (t_axis t) (Z.to_nat (t_ks t)) = Some lb /\ nth_error (t_axis t) (Z.to_nat (t_ke t)) = Some le /\ (0 <= t_ks t)%Z /\ (0 <= t_ke t)%Z /\
       getClosedIntervalIndices (mkRange lb le) (keep_masked mask (t_axis t)) = Ok (a, b) /\ t_ks t' = Z.of_nat a /\ t_ke t' = Z.of_nat b).
Proof.
  unfold MaskedCopy, maskVector. destruct (Nat.eqb_spec (length mask) (length (t_axis t))) as [La|La]; [|discriminate]. cbn [rbind]. destruct (Nat.eqb_spec (length mask) (length (t_flux t))) as [Lf|Lf]; [|discriminate]. cbn [rbind]. cbv zeta.
  destruct (enabled t) eqn:En; cbn [negb]; [|intro H; inversion H; subst; cbn; repeat split; auto; discriminate].
  unfold zget. destruct (Z.ltb_spec (t_ks t) 0) as [X|K0]; [discriminate|]. unfold vget. destruct (nth_error (t_axis t) (Z.to_nat (t_ks t))) as [lb|] eqn:Eb; [|discriminate]. cbn [rbind].
  destruct (Z.ltb_spec (t_ke t) 0) as [X|K1]; [discriminate|]. destruct (nth_error (t_axis t) (Z.to_nat (t_ke t))) as [le|] eqn:Ee; [|discriminate]. cbn [rbind].
  destruct (getClosedIntervalIndices (mkRange lb le) (keep_masked mask (t_axis t))) as [[a b]|e|] eqn:Ec; [| |discriminate].
  - destruct (Nat.eqb_spec (length mask) (length (t_no t))) as [L1|L1]; [|discriminate]. cbn [rbind]. destruct (Nat.eqb_spec (length mask) (length (t_cd t))) as [L2|L2]; [|discriminate]. cbn [rbind].
    destruct (Nat.eqb_spec (length mask) (length (t_cm t))) as [L3|L3]; [|discriminate]. cbn [rbind]. intro H. inversion H; subst t'. cbn. repeat match goal with |- _ /\ _ => split; [assumption || reflexivity|] end. intros _. repeat match goal with |- _ /\ _ => split; [assumption || reflexivity|] end. exists lb, le, a, b. repeat split; assumption.
  - destruct e; intro H; inversion H; subst; cbn; repeat split; auto; discriminate.
Qed.
Lemma list_ext {A} (l m : list A) : length l = length m -> (forall i x, nth_error l i = Some x -> nth_error m i = Some x) -> l = m.
Proof.
  revert m. induction l as [|x l IH]; intros [|y m] L H; cbn in L; try lia; [reflexivity|]. pose proof (H 0%nat x eq_refl) as E. cbn in E. inversion E; subst. f_equal. apply IH; [lia|]. intros i z Hz. exact (H (S i) z Hz).
Qed.
Lemma strictly_masked mask l : length mask = length l -> strictly_increasing l -> strictly_increasing (keep_masked mask l).
Proof.
  intros L SI i j x y Hij Hx Hy. destruct (keep_masked_positions mask 0 l L) as [H1 H2]. pose proof (nth_error_len _ _ _ Hx) as Li. pose proof (nth_error_len _ _ _ Hy) as Lj. rewrite H1 in Li, Lj.
  destruct (nth_error_lt (positions mask 0) i Li) as [a Ha]. destruct (nth_error_lt (positions mask 0) j Lj) as [b Hb]. rewrite (H2 _ _ Ha), Nat.sub_0_r in Hx. rewrite (H2 _ _ Hb), Nat.sub_0_r in Hy.
  apply (SI a b); auto. eapply positions_incr; [exact Hij|exact Ha|exact Hb].
Qed.
Lemma Masked_dust t mask t' k t2 t2' : strictly_increasing (t_axis t) -> MaskedCopy t mask = Ok t' -> enabled t' = true -> ApplyDustCoeff t k = (t2, Ok true) -> ApplyDustCoeff t' k = (t2', Ok true) ->
  t_flux t2' = keep_masked mask (t_flux t2).
Proof.
  intros SI M En' D D'. destruct (Masked_inv _ _ _ M) as (Ma & Mf & La & Lf & Md & _ & _ & _ & Mc & _ & Mo). destruct (Mo En') as (En & Mn & Mcd & Mcm & Ln & Lcd & Lcm & lb & le & a & b & Hlb & Hle & K0 & K1 & Gc & Eks & Eke). clear Mo.
  unfold ApplyDustCoeff in D, D'. rewrite En in D. rewrite En' in D'. rewrite Mc, Md in D'. destruct (t_cal t) as [cal|]; [|discriminate]. destruct (Z.eqb_spec (t_dust t) k) as [E|E].
  - inversion D; subst t2. inversion D'; subst t2'. exact Mf.
  - cbv zeta in D, D'. cbn [t_axis t_no t_cm t_ks t_ke t_cd t_flux with_dust] in D, D'. rewrite Ma, Mf, Mn, Mcd, Mcm, Eks, Eke in D'.
    destruct (apply_loop _ _ (t_axis t) _ _ _ _ _ _) as [[cd fl] rr] eqn:Al. destruct rr as [[]| |]; inversion D; subst t2; clear D. destruct (apply_loop _ _ (keep_masked mask (t_axis t)) _ _ _ _ _ _) as [[cd' fl'] rr'] eqn:Al'. destruct rr' as [[]| |]; inversion D'; subst t2'; clear D'.
    apply apply_loop_ok in Al, Al'. destruct Al as (_ & L2 & Gi & Go), Al' as (_ & L2' & Gi' & Go'). cbn [t_flux with_flux].
    assert (Lfl : length mask = length fl) by lia. pose proof (getClosed_spec (mkRange lb le) _ (strictly_masked mask (t_axis t) La SI)) as Sp. rewrite Gc in Sp. destruct Sp as [Rab Sp].
    pose proof (keep_masked_positions mask 0 (t_axis t) La) as [P1 P2]. pose proof (keep_masked_positions mask 0 (t_flux t) Lf) as [P3 P4]. pose proof (keep_masked_positions mask 0 (t_no t) Ln) as [P5 P6]. pose proof (keep_masked_positions mask 0 (t_cm t) Lcm) as [P7 P8]. pose proof (keep_masked_positions mask 0 fl Lfl) as [P9 P10].
    apply list_ext; [congruence|]. intros i x Hx. pose proof (nth_error_len _ _ _ Hx) as Li. rewrite L2', P3 in Li. destruct (nth_error_lt (positions mask 0) i Li) as [p Hp]. rewrite (P10 _ _ Hp), Nat.sub_0_r.
    assert (Lp : (p < length (t_axis t))%nat). { apply nth_error_In in Hp. apply positions_in in Hp. destruct Hp as [_ (y & Hy & _)]. apply nth_error_len in Hy. lia. }
    destruct (nth_error_lt (t_axis t) p Lp) as [lam Hlam]. assert (Hlam' : nth_error (keep_masked mask (t_axis t)) i = Some lam) by (rewrite (P2 _ _ Hp), Nat.sub_0_r; exact Hlam).
    pose proof (Sp i lam Hlam') as Spi. unfold inside in Spi. cbn [rbeg rend] in Spi.
    assert (Rg : (Z.to_nat (t_ks t) <= p <= Z.to_nat (t_ke t))%nat <-> lb <= lam <= le).
    { assert (M1 : forall i1 i2 x1 x2, nth_error (t_axis t) i1 = Some x1 -> nth_error (t_axis t) i2 = Some x2 -> ((i1 <= i2)%nat <-> x1 <= x2)).
      { intros i1 i2 x1 x2 H1 H2. destruct (Nat.lt_trichotomy i1 i2) as [C|[C|C]].
        - pose proof (SI _ _ _ _ C H1 H2). split; intro; [lra|lia].
        - subst i2. rewrite H1 in H2. inversion H2; subst. split; intro; [lra|lia].
        - pose proof (SI _ _ _ _ C H2 H1). split; intro; [lia|lra]. }
      pose proof (M1 _ _ _ _ Hlb Hlam). pose proof (M1 _ _ _ _ Hlam Hle). tauto. }
    unfold turns in *. destruct (le_lt_dec a i) as [A|A]; [destruct (le_lt_dec i b) as [B|B]|].
    + destruct (Gi' i) as (lam1 & c1 & f1 & o1 & H1 & H2 & H3 & H4 & H5 & H6); [lia|]. destruct (Gi p) as (lam2 & c2 & f2 & o2 & I1 & I2 & I3 & I4 & I5 & I6); [assert (Z.to_nat (t_ks t) <= p <= Z.to_nat (t_ke t))%nat by tauto; lia|].
      rewrite (P6 _ _ Hp), Nat.sub_0_r in H3. rewrite (P8 _ _ Hp), Nat.sub_0_r in H4. rewrite H6 in Hx. rewrite I6. rewrite <- Hx. rewrite Hlam' in H1. rewrite Hlam in I1. inversion H1; subst lam1. inversion I1; subst lam2. cbv beta in H2, I2. assert (c1 = c2) by congruence. assert (f1 = f2) by congruence. assert (o1 = o2) by congruence. subst. reflexivity.
    + destruct (Go' i) as [_ W]; [lia|]. destruct (Go p) as [_ W']; [intro Y; assert (Y1 : (Z.to_nat (t_ks t) <= p <= Z.to_nat (t_ke t))%nat) by lia; apply Rg in Y1; apply Spi in Y1; lia|]. rewrite W', <- Hx, W, (P4 _ _ Hp), Nat.sub_0_r. reflexivity.
    + destruct (Go' i) as [_ W]; [lia|]. destruct (Go p) as [_ W']; [intro Y; assert (Y1 : (Z.to_nat (t_ks t) <= p <= Z.to_nat (t_ke t))%nat) by lia; apply Rg in Y1; apply Spi in Y1; lia|]. rewrite W', <- Hx, W, (P4 _ _ Hp), Nat.sub_0_r. reflexivity.
Qed.
Lemma Masked_igm t mask t' k m : MaskedCopy t mask = Ok t' -> enabled t' = true -> t_mei t = Some m -> exists t2, ApplyMeiksinCoeff t' k = (t2, Ok false) /\ t_flux t2 = t_flux t'.
Proof.
  intros M En' Em. destruct (Masked_inv _ _ _ M) as (_ & _ & _ & _ & _ & _ & _ & Ei & _ & Mm & _). unfold ApplyMeiksinCoeff. rewrite En', Mm, Em. cbn [t_ie with_igm]. rewrite Ei. cbn [Z.eqb negb]. destruct (Z.eqb (t_igm t') k); eexists; split; reflexivity.
Qed.

(** ** lists of indices *)
Lemma Idx_lists opt fit count : (opt = false -> idx_list opt fit count = Ok [(-1)%Z]) /\ (opt = true -> count = None -> idx_list opt fit count = Throw INTERNAL_ERROR) /\
  (opt = true -> fit <> (-1)%Z -> count <> None -> idx_list opt fit count = Ok [fit]) /\
  (forall n, opt = true -> fit = (-1)%Z -> count = Some (Ok n) -> (0 <= n)%Z -> exists l, idx_list opt fit count = Ok l /\ length l = Z.to_nat n /\ forall i, (i < Z.to_nat n)%nat -> nth_error l i = Some (Z.of_nat i)).
Proof.
  unfold idx_list. repeat split.
  - intros ->. reflexivity.
  - intros -> ->. reflexivity.
  - intros -> F C. destruct count as [c|]; [|contradiction]. cbn [negb]. destruct (Z.eqb_spec fit (-1)); [contradiction|reflexivity].
  - intros n -> -> -> N. cbn [negb rbind Z.eqb]. change ((-1 =? -1)%Z) with true. cbn iota. destruct (Z.ltb_spec n 0); [lia|]. eexists. split; [reflexivity|]. rewrite map_length, seq_length. split; [reflexivity|].
    intros i Hi. erewrite map_nth_error; [reflexivity|]. rewrite nth_error_seq_in by exact Hi. reflexivity.
Qed.

(** ** witnesses *)
Definition ex_pow (x : Q) : Q := if Qeq_bool x 0 then 1 else 1#2.
Definition ex_cal : calz := match MakeCalzetti ex_pow [900; 1900] [1; 1] 0 1 2 with Ok c => c | _ => mkCalz [] 0 0 0 [] 0 0 0 end.
Definition ex_mei : meik := mkMeik [2; 3] [mkMC [1000; 100005#100] [[1#4; 1#4]]] [mkMC [1000; 100005#100] [[1#4; 1#4]]] 1000 2 2 (mkRange 0 10000) true.
Definition ex_axis : list Q := [950; 1100; 1300].
Definition ex_flux : list Q := [8; 16; 32].
Definition ex_t0 : tpl := mkTpl ex_axis ex_flux [] (-1) (-1) (-1) (-1) (-1) (-1) [] [] None None.
Lemma ex_increasing : strictly_increasing ex_axis.
Proof. intros i j x y H Hx Hy. destruct i as [|[|[|i]]], j as [|[|[|j]]]; cbn in Hx, Hy; try lia; inversion Hx; inversion Hy; subst; try lra; try (destruct i; discriminate); destruct j; discriminate. Qed.
Lemma Missing_curve : exists cs t', run ex_t0 (removelast cs) <> UB /\ run_catch ex_t0 cs = Ok t' /\ GetIsmCoeff t' = Ok (-1)%Z /\ GetIgmCoeff t' = Ok (-1)%Z /\
  ApplyDustCoeff t' (-1) = (t', Ok true) /\ v_amp (seen cs) == 1 /\ ~ Forall2 Qeq (t_flux t') ex_flux.
Proof.
  exists [Init 0 2 (5#2) (Some ex_cal) (Some ex_mei); Dust 1; Igm 0; Init 0 2 1 None None].
  let t := eval vm_compute in (run_catch ex_t0 [Init 0 2 (5#2) (Some ex_cal) (Some ex_mei); Dust 1; Igm 0; Init 0 2 1 None None]) in match t with Ok ?t => exists t end.
  split; [vm_compute; discriminate|]. split; [vm_compute; reflexivity|]. split; [reflexivity|]. split; [reflexivity|]. split; [reflexivity|]. split; [reflexivity|].
  intro H. inversion H as [|? ? ? ? H1 H2]; subst. vm_compute in H1. discriminate.
Qed.
Lemma Masked_gap : exists t mask, run ex_t0 [Init 1 1 (5#2) (Some ex_cal) (Some ex_mei)] = Ok t /\ length mask = length (t_axis t) /\ MaskedCopy t mask = Throw CRANGE_NO_INTERSECTION.
Proof.
  let t := eval vm_compute in (run ex_t0 [Init 1 1 (5#2) (Some ex_cal) (Some ex_mei)]) in match t with Ok ?t => exists t end.
  exists [1; 0; 1]. repeat split.
Qed.
Lemma Masked_igm_ex : exists t t', run ex_t0 [Init 0 2 (5#2) (Some ex_cal) (Some ex_mei)] = Ok t /\ MaskedCopy t [1; 1; 1] = Ok t' /\ enabled t' = true /\ t_axis t' = t_axis t /\ t_flux t' = t_flux t /\
  (exists t2, ApplyMeiksinCoeff t 0 = (t2, Ok true) /\ ~ Forall2 Qeq (t_flux t2) (t_flux t)) /\ (exists t2, ApplyMeiksinCoeff t' 0 = (t2, Ok false) /\ t_flux t2 = t_flux t').
Proof.
  let t := eval vm_compute in (run ex_t0 [Init 0 2 (5#2) (Some ex_cal) (Some ex_mei)]) in match t with Ok ?t => exists t; let u := eval vm_compute in (MaskedCopy t [1;1;1]) in match u with Ok ?u => exists u end end.
  split; [vm_compute; reflexivity|]. split; [vm_compute; reflexivity|]. split; [reflexivity|]. split; [reflexivity|]. split; [reflexivity|]. split.
  - match goal with |- exists t2, ?X = _ /\ _ => let v := eval vm_compute in X in match v with (?a, _) => exists a end end. split; [vm_compute; reflexivity|]. intro H. inversion H as [|? ? ? ? H1 H2]; subst. vm_compute in H1. discriminate.
  - match goal with |- exists t2, ?X = _ /\ _ => let v := eval vm_compute in X in match v with (?a, _) => exists a end end. split; vm_compute; reflexivity.
Qed.
Lemma Igm_bad_index : exists t t', run ex_t0 [Init 0 2 (5#2) (Some ex_cal) (Some ex_mei)] = Ok t /\ getIdxCount ex_mei = Ok 1%Z /\ ApplyMeiksinCoeff t 1 = (t', UB).
Proof.
  let t := eval vm_compute in (run ex_t0 [Init 0 2 (5#2) (Some ex_cal) (Some ex_mei)]) in match t with Ok ?t => exists t; let u := eval vm_compute in (ApplyMeiksinCoeff t 1) in match u with (?u, _) => exists u end end.
  repeat split; vm_compute; reflexivity.
Qed.
Lemma Igm_not_convolved : exists curves zbins m t t', NewMeiksin curves zbins = Ok m /\ run ex_t0 [Init 0 2 (5#2) None (Some m)] = Ok t /\ ApplyMeiksinCoeff t 0 = (t', UB).
Proof.
  exists [mkMC [1000; 100005#100] [[1#4; 1#4]]], [2; 3]. let m := eval vm_compute in (NewMeiksin [mkMC [1000; 100005#100] [[1#4; 1#4]]] [2; 3]) in match m with Ok ?m => exists m;
  let t := eval vm_compute in (run ex_t0 [Init 0 2 (5#2) None (Some m)]) in match t with Ok ?t => exists t; let u := eval vm_compute in (ApplyMeiksinCoeff t 0) in match u with (?u, _) => exists u end end end.
  repeat split; vm_compute; reflexivity.
Qed.
