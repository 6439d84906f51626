From Coq Require Import Qabs Lqa Setoid.
From Verif Require Import Base RangeModel RangeProofs AxisModel AxisSpec AxisProofs RebinModel RebinSpec RebinProofs CalzModel MeikModel MeikProofs TplModel TplSpec TplProofs TplProofs2 SvdModel SvdSpec SvdProofs TFitProofs7 TcmbModel TcmbSpec TcmbProofs TcmbProofs2 TcmbProofs3 TcmbProofs4 TcmbProofs5 TcmbProofs6 TcmbProofs7 TcmbProofs8.
Open Scope Q_scope.

(** with one igm index and one dust index the amplitudes are those of the best fit *)
Lemma seen_unique z cal mei ks ke kd ki ax f m m' k : (k < length ax)%nat -> length f = length ax -> seen_through z cal mei ks ke kd ki ax f m -> seen_through z cal mei ks ke kd ki ax f m' -> at_ m k == at_ m' k.
Proof.
  intros Lk Lf Sm Sm'. destruct (nth_error_lt ax k Lk) as [lam Hl]. destruct (nth_error_lt f k ltac:(lia)) as [x Hx].
  destruct (proj2 Sm k lam x Hl Hx) as (y & d & g & Hy & D & G & E). destruct (proj2 Sm' k lam x Hl Hx) as (y' & d' & g' & Hy' & D' & G' & E').
  rewrite (dust_fun _ _ _ _ _ D' D), (igm_fun _ _ _ _ _ G' G) in E'. rewrite (at_err _ _ _ Hy), (at_err _ _ _ Hy'), E, E'. reflexivity.
Qed.
Lemma comb_unique z cal mei ks ke kd ki ax k : (k < length ax)%nat -> forall fs ms ms' a, Forall (fun f => length f = length ax) fs -> Forall2 (seen_through z cal mei ks ke kd ki ax) fs ms -> Forall2 (seen_through z cal mei ks ke kd ki ax) fs ms' -> combination ms a k == combination ms' a k.
Proof.
  intros Lk fs ms ms' a Lf F. revert ms' a Lf. induction F as [|f m fs ms Sm F IH]; intros ms' a Lf F'; inversion F' as [|? m' ? ms1 Sm' F1]; subst; [reflexivity|]. inversion Lf as [|? ? Lf1 Lf2]; subst. destruct a as [|x a]; [reflexivity|]. cbn [combination].
  rewrite (seen_unique _ _ _ _ _ _ _ _ _ _ _ k Lk Lf1 Sm Sm'), (IH ms1 a Lf2 F1). reflexivity.
Qed.
Lemma chi2_unique flux err ms ms' a : forall n k, (forall j, (k <= j < k + n)%nat -> combination ms a j == combination ms' a j) -> chi2 flux err ms a k n == chi2 flux err ms' a k n.
Proof.
  induction n as [|n IH]; intros k H; cbn [chi2]; [reflexivity|]. rewrite (IH (S k)) by (intros j J; apply H; lia).
  assert (E : (at_ flux k - combination ms a k) / at_ err k == (at_ flux k - combination ms' a k) / at_ err k) by (rewrite (H k) by lia; reflexivity). rewrite E. reflexivity.
Qed.
Lemma coherent sqrtf dblmin axis flux err ts lr z thr ext dust cal mei m e r : right_result sqrtf dblmin axis flux err ts lr z thr ext dust cal mei [m] [e] r ->
  exists ax fs ks ke ki ms, rest z axis ax /\ (forall k, usable axis ts lr z k <-> (ks <= k <= ke)%nat) /\ Forall2 (fun s f => interpolated s ax ks ke f) ts fs /\ b_igm (r_best r) = ki /\ ebmv_of cal dust e (b_ebmv (r_best r)) /\
    Forall2 (seen_through z cal mei ks ke (if dust then e else (-1)%Z) ki ax) fs ms /\ best_amplitudes flux err ms ks ke (f_amp (r_last r)) /\ b_chi (r_best r) == chi2 flux err ms (f_amp (r_last r)) ks (S ke - ks).
Proof.
  intros (ax & fs & ks & ke & nf & eff & Re & K & Us & In & Sc & Eff & T & (k & i & g & Fl & Fg & Cg & Sg) & Fr & _). exists ax, fs, ks, ke, (if eff then m else (-1)%Z).
  assert (Z0 : (if (ext && negb eff)%bool then 0 else length [m] - 1)%nat = 0%nat) by (destruct (ext && negb eff)%bool; reflexivity). rewrite Z0 in Fr. cbn [length Nat.sub] in Fr.
  destruct Fr as (m1 & e1 & ms & Hm & He & Sm & (B1 & B2 & _)). cbn in Hm, He. inversion Hm; inversion He; subst m1 e1.
  destruct Fl as (col & Hcol & Hcell & _). destruct Fg as (m2 & e2 & ms2 & Hm2 & He2 & Sm2 & (C1 & C2 & _)).
  assert (k = 0%nat) by (destruct k as [|[|k]]; cbn in Hm2; [reflexivity|discriminate|discriminate]). assert (i = 0%nat) by (destruct i as [|[|i]]; cbn in He2; [reflexivity|discriminate|discriminate]). subst k i. cbn in Hm2, He2. inversion Hm2; inversion He2; subst m2 e2.
  destruct T as [_ T]. destruct (T 0%nat m eq_refl) as (col' & Hcol' & _ & Hc). rewrite Hcol in Hcol'. inversion Hcol'; subst col'. destruct (Hc 0%nat e eq_refl) as (c & v & Hcv & Ev & _). rewrite Hcell in Hcv. assert (V2 : b_ebmv (r_best r) = v) by (clear - Hcv; congruence). assert (V3 : b_igm (r_best r) = if eff then m else (-1)%Z) by (clear - Hcv; congruence). clear Hcv. subst v.
  exists ms. split; [exact Re|]. split; [exact Us|]. split; [exact In|]. split; [exact V3|]. split; [exact Ev|]. split; [exact Sm|]. split; [exact B1|].
  assert (Ff : Forall (fun f => length f = length ax) fs) by (clear - In; induction In as [|s f ts fs Hf]; constructor; [exact (proj1 Hf)|assumption]).
  assert (La : forall k, (ks <= k <= ke)%nat -> (k < length ax)%nat). { intros j J. apply Us in J. destruct J as (w & Hw & _). rewrite <- (F2_len _ _ _ Re). apply nth_error_len in Hw. exact Hw. }
  assert (Un : forall a, chi2 flux err ms a ks (S ke - ks) == chi2 flux err ms2 a ks (S ke - ks)).
  { intros a. apply chi2_unique. intros j J. apply (comb_unique _ _ _ _ _ _ _ _ j (La j ltac:(lia)) fs ms ms2 a Ff Sm Sm2). }
  assert (Lm : length ms = length ms2) by (rewrite <- (F2_len _ _ _ Sm), <- (F2_len _ _ _ Sm2); reflexivity).
  rewrite <- Cg, C2. destruct C1 as [L1 M1], B1 as [L2 M2]. apply Qle_antisym.
  - rewrite (Un (f_amp (r_last r))). apply M1. congruence.
  - rewrite <- (Un (f_amp g)). apply M2. congruence.
Qed.

(** the number of samples *)
Lemma enough sqrtf solve dblmin axis flux err ts lr z thr ext dust mask cal mei ml el r : strictly_increasing axis -> rbeg lr < rend lr -> 0 < 1 + z -> Forall wf_source ts -> overlapping axis ts lr z ->
  BasicFit sqrtf solve dblmin axis flux err ts lr z thr ext dust mask cal mei ml el = Ok r -> (2 <= length ts)%nat /\ exists l, NoDup l /\ length l = length ts /\ forall k, In k l -> usable axis ts lr z k.
Proof.
  intros SA R P W Ov H. destruct (fit_need _ _ _ _ _ _ _ _ _ _ _ _ _ _ _ _ _ _ H) as (ax & fs & cur & ov & ks & ke & Rb & Gc & L). split; [lia|].
  destruct (rebin_ok _ _ _ _ _ _ _ _ _ SA R P W Ov Rb) as (Eax & SI & Us & _). pose proof (getClosed_spec cur ax SI) as G. rewrite Gc in G. destruct G as [Gl Gi].
  exists (seq ks (length ts)). split; [apply seq_NoDup|]. split; [apply seq_length|]. intros k I. apply in_seq in I. assert (La : length ax = length axis) by (rewrite Eax; apply map_length).
  destruct (nth_error_lt axis k ltac:(lia)) as [l Hl]. apply (Us k l Hl). assert (Hx : nth_error ax k = Some (l / (1 + z))) by (rewrite Eax; apply (map_nth_error (fun l => l / (1 + z))); exact Hl). apply (Gi _ _ Hx). lia.
Qed.
Lemma single_fails sqrtf solve dblmin axis flux err s lr z thr ext dust mask cal mei ml el r : BasicFit sqrtf solve dblmin axis flux err [s] lr z thr ext dust mask cal mei ml el <> Ok r.
Proof. intros H. destruct (fit_need _ _ _ _ _ _ _ _ _ _ _ _ _ _ _ _ _ _ H) as (ax & fs & cur & ov & ks & ke & _ & _ & L). cbn in L. lia. Qed.

(** ** cases *)
Definition ex_T1 : source := mkSource [1000; 1100; 1200; 1300] [1; 0; 1; 0] [0; 0; 0; 0].
Definition ex_T2 : source := mkSource [1000; 1100; 1200; 1300] [0; 1; 1; 1] [0; 0; 0; 0].
Definition ex_ax : list Q := [2000; 2200; 2400; 2600].
Definition ex_dust : calz := mkCalz [1; 1; 1; 1] 2 (1 # 10) 0 [1; 1; 1; 1; 1; 1 # 2; 1; 1 # 2] 1000 1400 100.
Definition ex_ones : list Q := [1; 1; 1; 1].
Definition ex_mask : list N := [1; 1; 1; 1]%N.
Definition ex_fit (flux : list Q) (ts : list source) (z : Q) (ext dust : bool) (cal : option calz) (mei : option meik) (ml el : list Z) : res result :=
  BasicFit (fun v => v) gs_full (1 # 1000) ex_ax flux ex_ones ts (mkRange 2000 2600) z (1 # 2) ext dust ex_mask cal mei ml el.
Ltac si := intros i j x y L Hx Hy; do 5 (destruct i as [|i]; [do 5 (destruct j as [|j]; [cbn in Hx, Hy; try lia; try discriminate; inversion Hx; inversion Hy; subst; reflexivity|]); cbn in Hy; destruct j; discriminate|]); cbn in Hx; destruct i; discriminate.
Lemma ex_si : strictly_increasing ex_ax. Proof. si. Qed.
Lemma ex_wf : Forall wf_source [ex_T1; ex_T2].
Proof. constructor; [|constructor; [|constructor]]; (split; [si|split; reflexivity]). Qed.
Lemma ex_covers x : 1000 <= x <= 1300 -> covered [ex_T1; ex_T2] x.
Proof. intros H s [<-|[<-|[]]]; exists 1000, 1300; (split; [reflexivity|split; [reflexivity|exact H]]). Qed.
Lemma ex_overlap : overlapping ex_ax [ex_T1; ex_T2] (mkRange 2000 2600) 1.
Proof. exists 1100, 2000, 2600. split; [reflexivity|]. split; [reflexivity|]. cbn [rbeg rend]. split; [lra|]. split; [lra|]. apply ex_covers. lra. Qed.
Lemma ex_err k : usable ex_ax [ex_T1; ex_T2] (mkRange 2000 2600) 1 k -> ~ at_ ex_ones k == 0.
Proof. intros (l & H & _). destruct k as [|[|[|[|k]]]]; cbn in *; try discriminate. destruct k; discriminate. Qed.
(** the amplitudes returned are not those of the best fit *)
Lemma stale_amplitudes : exists r, ex_fit [1; 1; 2; 1] [ex_T1; ex_T2] 1 false true (Some ex_dust) None [(-1)%Z] [0; 1]%Z = Ok r /\ b_chi (r_best r) == 0 /\ b_ebmv (r_best r) == 0 /\
  Forall2 (seen_through 1 (Some ex_dust) None 0 3 0 (-1) [1000; 1100; 1200; 1300]) [[1; 0; 1; 0]; [0; 1; 1; 1]] [[1; 0; 1; 0]; [0; 1; 1; 1]] /\
  ~ chi2 [1; 1; 2; 1] ex_ones [[1; 0; 1; 0]; [0; 1; 1; 1]] (f_amp (r_last r)) 0 4 == b_chi (r_best r).
Proof.
  let v := eval vm_compute in (ex_fit [1; 1; 2; 1] [ex_T1; ex_T2] 1 false true (Some ex_dust) None [(-1)%Z] [0; 1]%Z) in match v with Ok ?r => exists r end.
  split; [vm_compute; reflexivity|]. split; [reflexivity|]. split; [reflexivity|]. split; [|vm_compute; discriminate].
  assert (S : forall f, length f = 4%nat -> seen_through 1 (Some ex_dust) None 0 3 0 (-1) [1000; 1100; 1200; 1300] f f).
  { intros f Lf. split; [reflexivity|]. intros k lam x Hl Hx. exists x, 1, 1. split; [exact Hx|]. split; [|split; [right; split; [right; cbn; lia|reflexivity]|ring]].
    left. split; [split; [reflexivity|]|split; [cbn; lia|]]. - apply nth_error_len in Hl. cbn [v_ks v_ke length] in *. lia. - exists ex_dust. split; [reflexivity|]. cbn [v_dust]. destruct k as [|[|[|[|k]]]]; cbn in Hl; try (inversion Hl; subst; reflexivity). destruct k; discriminate. }
  constructor; [apply S; reflexivity|constructor; [apply S; reflexivity|constructor]].
Qed.
(** the covariance is that of the flux divided by its scale *)
Lemma stale_covariance : exists r, ex_fit [2; 0; 2; 1] [ex_T1; ex_T2] 1 false false None None [(-1)%Z] [(-1)%Z] = Ok r /\
  (exists m, is_inverse 2 (information ex_ones [[1; 0; 1; 0]; [0; 1; 1; 1]] 0 4) m) /\ ~ is_inverse 2 (information ex_ones [[1; 0; 1; 0]; [0; 1; 1; 1]] 0 4) (entry (f_cov (r_last r))).
Proof.
  let v := eval vm_compute in (ex_fit [2; 0; 2; 1] [ex_T1; ex_T2] 1 false false None None [(-1)%Z] [(-1)%Z]) in match v with Ok ?r => exists r end.
  split; [vm_compute; reflexivity|]. split.
  - exists (entry [[3 # 5; - (1 # 5)]; [- (1 # 5); 2 # 5]]). intros [|[|i]] [|[|j]] Li Lj; try lia; reflexivity.
  - intros H. specialize (H 0%nat 0%nat ltac:(lia) ltac:(lia)). vm_compute in H. discriminate.
Qed.
(** two templates without a common wavelength: the samples of the first are fitted *)
Lemma disjoint : exists r, BasicFit (fun v => v) gs_full (1 # 1000) ex_ax [2; 4; 2; 1] ex_ones [mkSource [1000; 1110] [1; 1] [0; 0]; mkSource [1190; 1300] [1; 1] [0; 0]] (mkRange 2000 2600) 1 (1 # 2) false false ex_mask None None [(-1)%Z] [(-1)%Z] = Ok r /\
  b_chi (r_best r) == 2 /\ forall k, ~ usable ex_ax [mkSource [1000; 1110] [1; 1] [0; 0]; mkSource [1190; 1300] [1; 1] [0; 0]] (mkRange 2000 2600) 1 k.
Proof.
  let v := eval vm_compute in (BasicFit (fun v => v) gs_full (1 # 1000) ex_ax [2; 4; 2; 1] ex_ones [mkSource [1000; 1110] [1; 1] [0; 0]; mkSource [1190; 1300] [1; 1] [0; 0]] (mkRange 2000 2600) 1 (1 # 2) false false ex_mask None None [(-1)%Z] [(-1)%Z]) in match v with Ok ?r => exists r end.
  split; [vm_compute; reflexivity|]. split; [reflexivity|]. intros k (l & _ & _ & C). destruct (C _ (or_introl eq_refl)) as (a & b & _ & Hb & D). destruct (C _ (or_intror (or_introl eq_refl))) as (a' & b' & Ha' & _ & D'). cbn in Hb, Ha'. inversion Hb; inversion Ha'; subst. lra.
Qed.
(** the wavelengths of the model *)
Lemma model_shifted : exists ax' fl, ComputeSpectrumModel ex_ax [ex_T1; ex_T2] 1 0 (-1) [2; 1] (mkRange 2000 2600) (1 # 2) None None = Ok (ax', fl) /\ Forall2 Qeq fl [2; 1; 3; 1] /\ ~ Forall2 Qeq ax' ex_ax.
Proof.
  let v := eval vm_compute in (ComputeSpectrumModel ex_ax [ex_T1; ex_T2] 1 0 (-1) [2; 1] (mkRange 2000 2600) (1 # 2) None None) in match v with Ok (?a, ?f) => exists a, f end.
  split; [vm_compute; reflexivity|]. split; [repeat constructor|]. intros H. inversion H as [|? ? ? ? E _]; subst. vm_compute in E. discriminate.
Qed.
