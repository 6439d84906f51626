From Coq Require Import Qabs Lqa Setoid.
From Verif Require Import Base RangeModel RangeProofs AxisModel AxisSpec AxisProofs RebinModel RebinSpec RebinProofs CalzModel MeikModel MeikProofs TplModel TplSpec TplProofs SvdModel SvdSpec SvdProofs TcmbModel TcmbSpec TcmbProofs TcmbProofs2 TcmbProofs3 TcmbProofs4 TcmbProofs5 TcmbProofs6.
Open Scope Q_scope.

(** the fit succeeds without extinction *)
Lemma clamp_total s r x1 x2 f b : strictly_increasing s -> rbeg r < rend r -> ends s f b -> x1 < x2 -> inside r x1 -> inside r x2 -> f <= x1 -> x2 <= b -> exists c, ClampLambdaRange s r = Ok c.
Proof.
  intros SI R [Hf Hb] Lt I1 I2 L1 L2. assert (Lfb : f < b) by lra.
  assert (L : (2 <= length s)%nat). { pose proof (nth_error_len _ _ _ Hf). destruct (Nat.eq_dec (length s) 1) as [E|]; [|lia]. rewrite E in Hb. cbn [Nat.sub] in Hb. assert (f = b) by congruence. subst. lra. }
  destruct (ClampLambdaRange_ok s r f b L Hf Hb Lfb R) as [A _]. destruct A as (c & E & _); [unfold inside in *; lra|]. exists c. exact E.
Qed.
Section Total.
  Variables (lr spcr : range) (ax : list Q) (thr x1 x2 : Q). Hypothesis SI : strictly_increasing ax. Hypothesis R : rbeg lr < rend lr. Hypothesis Cs : ClampLambdaRange ax lr = Ok spcr.
  Hypothesis Lt : x1 < x2. Hypothesis I1 : inside spcr x1. Hypothesis I2 : inside spcr x2.
  Lemma loop_total : forall ts all ov, Forall wf_source ts -> inside all x1 -> inside all x2 -> (forall x, inside all x -> inside spcr x) -> covered ts x1 -> covered ts x2 -> (forall s, In s ts -> thr <= share_rest ax lr s /\ 0 < share_rest ax lr s) ->
    exists q, rebin_loop lr spcr ax thr ts all ov = Ok q.
  Proof.
    destruct (clamp_inv _ _ _ SI R Cs) as (fa & ba & _ & _ & _ & _ & Hs').
    induction ts as [|s ts IH]; intros all ov W A1 A2 Sub C1 C2 Sh; cbn [rebin_loop]; [eexists; reflexivity|].
    inversion W as [|? ? W1 W2]; subst. apply covered_cons in C1, C2. destruct C1 as [C1 C1'], C2 as [C2 C2'].
    destruct (C1 s (or_introl eq_refl)) as (f & b & Hf & Hb & R1). pose proof (covered_ends s x2 f b C2 (conj Hf Hb)) as R2.
    pose proof (proj1 (proj1 (Hs' x1) I1)) as Il1. pose proof (proj1 (proj1 (Hs' x2) I2)) as Il2.
    destruct (clamp_total (s_X s) lr x1 x2 f b (proj1 W1) R (conj Hf Hb) Lt Il1 Il2 (proj1 R1) (proj2 R2)) as [tr Et]. rewrite Et. cbn [rbind].
    destruct (clamp_inv _ _ _ (proj1 W1) R Et) as (f' & b' & He & _ & _ & _ & Ht). destruct (ends_fun _ _ _ _ _ (conj Hf Hb) He) as [<- <-].
    assert (T1 : inside tr x1) by (apply Ht; split; [exact Il1|lra]). assert (T2 : inside tr x2) by (apply Ht; split; [exact Il2|lra]).
    pose proof (inter_inside tr spcr (mkRange 0 0) x1 T1 I1) as Hi. set (ir := snd (Intersect tr spcr (mkRange 0 0))) in *.
    assert (J1 : inside ir x1) by (apply Hi; tauto). assert (J2 : inside ir x2) by (apply Hi; tauto).
    assert (Ri : range_inside s (rbeg ir) (rend ir)).
    { exists f, b. split; [exact Hf|]. split; [exact Hb|]. assert (B1 : inside ir (rbeg ir)) by (destruct J1; split; lra). assert (B2 : inside ir (rend ir)) by (destruct J1; split; lra). apply Hi in B1, B2. destruct B1 as [B1 _], B2 as [B2 _]. apply Ht in B1, B2. lra. }
    destruct (linear_spec OptNo s (rbeg ir) (rend ir) ax W1 (strictly_increasing_increasing _ SI) Ri) as (cells & Ho & _); [unfold variance_ok; discriminate|]. rewrite Ho. cbn [rbind].
    destruct (one_template lr spcr ax SI R Cs s tr cells x1 W1 Et I1 (fun f b E => covered_ends s x1 f b C1 E) Ho) as (Lc & _ & _ & Hir & _ & Pt).
    destruct (IntersectMaskAndComputeOverlapFraction_axis ax lr (map (fun c => if c_mask c then 1%N else 0%N) cells)) as [o| |] eqn:Eo; [|rewrite (overlap_axis_ok ax lr) in Eo by (rewrite map_length; congruence); discriminate|rewrite (overlap_axis_ok ax lr) in Eo by (rewrite map_length; congruence); discriminate].
    assert (Os : o == share_rest ax lr s). { apply (overlap_share ax lr s cells o Lc); [|exact Eo]. intros k x Hx Ix. destruct (Pt k x Hx Ix) as (c & P1 & P2 & _). exists c. auto. }
    cbn [rbind]. destruct (Sh s (or_introl eq_refl)) as [S1 S2]. destruct (Qltb_spec o thr); [lra|]. destruct (Qle_bool_spec o 0); [lra|]. cbn [orb].
    pose proof (inter_inside all ir all x1 A1 J1) as Ha. change (snd (Intersect all ir all)) with (snd (IntersectWith all ir)) in Ha.
    destruct (IH (snd (IntersectWith all ir)) o W2 (proj2 (Ha x1) (conj A1 J1)) (proj2 (Ha x2) (conj A2 J2)) (fun x Hx => Sub x (proj1 (proj1 (Ha x) Hx))) C1' C2' (fun s' Hi' => Sh s' (or_intror Hi'))) as [[[fs1 all1] ov1] E].
    rewrite E. cbn [rbind]. eexists. reflexivity.
  Qed.
End Total.
Lemma norm_total flux : forall n k m, (k + n <= length flux)%nat -> exists nf, norm_loop flux k n m = Ok nf.
Proof. induction n as [|n IH]; intros k m L; cbn [norm_loop]; [eauto|]. destruct (nth_error_lt flux k ltac:(lia)) as [y Hy]. unfold vget. rewrite Hy. cbn [rbind]. apply IH. lia. Qed.
Lemma mapr_tot {A B} (f : A -> res B) l : (forall a, In a l -> exists b, f a = Ok b) -> exists l', mapr f l = Ok l'.
Proof. induction l as [|a l IH]; intros H; cbn [mapr]; [eauto|]. destruct (H a (or_introl eq_refl)) as [b E]. rewrite E. cbn [rbind]. destruct IH as [l' E']; [intros; apply H; right; assumption|]. rewrite E'. cbn [rbind]. eauto. Qed.
Lemma succeeds sqrtf solve dblmin axis flux err ts lr z thr mask cal mei : strictly_increasing axis -> rbeg lr < rend lr -> 0 < 1 + z -> Forall wf_source ts ->
  length flux = length axis -> length err = length axis -> length mask = length axis ->
  (exists l, NoDup l /\ length l = length ts /\ forall k, In k l -> usable axis ts lr z k) -> (2 <= length ts)%nat -> (forall s, In s ts -> thr <= share axis lr z s) ->
  exists r, BasicFit sqrtf solve dblmin axis flux err ts lr z thr false false mask cal mei [(-1)%Z] [(-1)%Z] = Ok r.
Proof.
  intros SA R P W Lf Le Lm (l & Nd & Ll & Hu) L2 Sh.
  assert (Two : exists k1 k2, (k1 < k2)%nat /\ usable axis ts lr z k1 /\ usable axis ts lr z k2).
  { destruct l as [|a [|b l]]; cbn [length] in Ll; try lia. assert (a <> b) by (inversion Nd; subst; intros ->; apply H1; left; reflexivity). pose proof (Hu a (or_introl eq_refl)). pose proof (Hu b (or_intror (or_introl eq_refl))). destruct (Nat.lt_trichotomy a b) as [Lt|[E|Lt]]; [exists a, b; auto|contradiction|exists b, a; auto]. }
  destruct Two as (k1 & k2 & Lk & (l1 & Hl1 & Rl1 & Cv1) & (l2 & Hl2 & Rl2 & Cv2)). pose proof (SA _ _ _ _ Lk Hl1 Hl2) as Llt.
  assert (Ns : ts <> []) by (intros ->; cbn in L2; lia).
  assert (Dl : forall a b, a < b -> a / (1 + z) < b / (1 + z)) by (intros a b Lab; apply Qmult_lt_compat_r; [apply Qinv_lt_0_compat; exact P|exact Lab]).
  assert (Shp : forall s, In s ts -> 0 < share axis lr z s).
  { intros s Is. unfold share. cbv zeta. set (sel := filter _ axis).
    assert (Is1 : In l1 sel) by (unfold sel; apply filter_In; split; [eapply nth_error_In; exact Hl1|]; apply andb_true_intro; rewrite !Qle_bool_iff; exact Rl1).
    assert (Ic1 : In l1 (filter (fun l => covers s (l / (1 + z))) sel)).
    { apply filter_In. split; [exact Is1|]. destruct (Cv1 s Is) as (f & b & Hf & Hb & D). apply (covers_spec s f b _ (conj Hf Hb)). exact D. }
    destruct sel as [|q sel']; [destruct Is1|]. destruct (filter _ (q :: sel')) as [|p' c']; [destruct Ic1|]. cbn [length].
    assert (Pos : forall n, 0 < inject_Z (Z.of_nat (S n))) by (intros n; unfold Qlt; cbn [Qnum Qden inject_Z]; lia). apply Qmult_lt_0_compat; [apply Pos|apply Qinv_lt_0_compat, Pos]. }
  assert (Ov : overlapping axis ts lr z).
  { pose proof (nth_error_len _ _ _ Hl1) as Lk1. destruct (nth_error_lt axis 0 ltac:(lia)) as [fa Hfa]. destruct (nth_error_lt axis (length axis - 1) ltac:(lia)) as [ba Hba]. exists (l1 / (1 + z)), fa, ba. split; [exact Hfa|]. split; [exact Hba|].
    assert (E : l1 / (1 + z) * (1 + z) == l1) by (field; lra). rewrite E. split; [|auto]. split.
    - destruct (Nat.eq_dec k1 0) as [->|]; [replace fa with l1 by congruence; lra|]. apply Qlt_le_weak. apply (SA 0%nat k1); [lia|exact Hfa|exact Hl1].
    - destruct (Nat.eq_dec k1 (length axis - 1)) as [->|]; [replace ba with l1 by congruence; lra|]. apply Qlt_le_weak. apply (SA k1 (length axis - 1)%nat); [lia|exact Hl1|exact Hba]. }
  assert (Rb : exists ax fs cur ov, RebinTemplate axis ts z lr thr = Ok (ax, fs, cur, ov)).
  { unfold RebinTemplate, ShiftByWaveLength. destruct (Qltb_spec (1 + z) 0); [lra|]. destruct (Qeq_bool_spec (1 + z) 0) as [|_]; [lra|]. cbn [rbind].
    set (ax := map (fun x => x / (1 + z)) axis). set (lr' := mkRange (rbeg lr / (1 + z)) (rend lr / (1 + z))).
    assert (SI : strictly_increasing ax).
    { intros i j x y L Hx Hy. unfold ax in Hx, Hy. rewrite nth_error_map in Hx, Hy. destruct (nth_error axis i) as [a|] eqn:Ea; [|discriminate]. destruct (nth_error axis j) as [b|] eqn:Eb; [|discriminate]. cbn in Hx, Hy. inversion Hx; inversion Hy; subst. apply Dl. apply (SA i j); assumption. }
    assert (R' : rbeg lr' < rend lr') by (apply Dl; exact R). assert (X12 : l1 / (1 + z) < l2 / (1 + z)) by (apply Dl; exact Llt).
    assert (In1 : inside lr' (l1 / (1 + z))) by (unfold inside; cbn [rbeg rend lr']; rewrite !div_le by exact P; exact Rl1). assert (In2 : inside lr' (l2 / (1 + z))) by (unfold inside; cbn [rbeg rend lr']; rewrite !div_le by exact P; exact Rl2).
    assert (X1 : nth_error ax k1 = Some (l1 / (1 + z))) by (apply (map_nth_error (fun x => x / (1 + z))); exact Hl1). assert (X2 : nth_error ax k2 = Some (l2 / (1 + z))) by (apply (map_nth_error (fun x => x / (1 + z))); exact Hl2).
    pose proof (nth_error_len _ _ _ X2) as Lk2. destruct (nth_error_lt ax 0 ltac:(lia)) as [fa Hfa]. destruct (nth_error_lt ax (length ax - 1) ltac:(lia)) as [ba Hba].
    assert (F1 : fa <= l1 / (1 + z)) by (destruct (Nat.eq_dec k1 0) as [->|]; [replace fa with (l1 / (1 + z)) by congruence; lra|]; apply Qlt_le_weak; apply (SI 0%nat k1); [lia|exact Hfa|exact X1]).
    assert (F2 : l2 / (1 + z) <= ba) by (destruct (Nat.eq_dec k2 (length ax - 1)) as [->|]; [replace ba with (l2 / (1 + z)) by congruence; lra|]; apply Qlt_le_weak; apply (SI k2 (length ax - 1)%nat); [lia|exact X2|exact Hba]).
    destruct (clamp_total ax lr' _ _ fa ba SI R' (conj Hfa Hba) X12 In1 In2 F1 F2) as [spcr Cs]. rewrite Cs. cbn [rbind].
    assert (S1 : inside spcr (l1 / (1 + z))) by (apply (spcr_spec lr' spcr ax SI R' Cs); [eapply nth_error_In; exact X1|exact In1]). assert (S2 : inside spcr (l2 / (1 + z))) by (apply (spcr_spec lr' spcr ax SI R' Cs); [eapply nth_error_In; exact X2|exact In2]).
    destruct (loop_total lr' spcr ax thr _ _ SI R' Cs X12 S1 S2 ts spcr 0 W S1 S2 (fun x H => H) Cv1 Cv2) as [[[fs all] ov] E].
    { intros s Is. unfold ax, lr'. rewrite (share_shift axis lr z s P). split; [apply Sh; exact Is|apply Shp; exact Is]. }
    rewrite E. cbn [rbind]. eauto. }
  destruct Rb as (ax & fs & cur & ov & Rb). destruct (rebin_ok _ _ _ _ _ _ _ _ _ SA R P W Ov Rb) as (Eax & SI & Us & Fs & _ & _).
  assert (La : length ax = length axis) by (rewrite Eax; apply map_length).
  assert (Uin : forall k, usable axis ts lr z k -> exists x, nth_error ax k = Some x /\ inside cur x).
  { intros k U. assert (U' := U). destruct U as (w & Hw & _). exists (w / (1 + z)). split; [rewrite Eax; apply (map_nth_error (fun l => l / (1 + z))); exact Hw|]. apply (Us k w Hw). exact U'. }
  assert (Lfs : length fs = length ts).
  { unfold RebinTemplate in Rb. destruct (ShiftByWaveLength _ _ _); try discriminate. cbn [rbind] in Rb. destruct (ClampLambdaRange _ _); try discriminate. cbn [rbind] in Rb. destruct (rebin_loop _ _ _ _ _ _ _) as [[[f1 a1] o1]| |] eqn:E; try discriminate. cbn [rbind] in Rb. inversion Rb; subst. apply rebin_len in E. exact E. }
  pose proof (getClosed_spec cur ax SI) as G. destruct (Uin k1 (ex_intro _ l1 (conj Hl1 (conj Rl1 Cv1)))) as (x1 & Hx1 & Ix1).
  destruct (getClosedIntervalIndices cur ax) as [[ks ke]|er|] eqn:Gc; [|exfalso|destruct G].
  2:{ assert (Wf : RangeSpec.well_formed cur) by (destruct Ix1; unfold RangeSpec.well_formed; lra). destruct er; try contradiction; first [exact (proj2 G Wf x1 (nth_error_In _ _ Hx1) Ix1)|rewrite G in Hx1; destruct k1; discriminate]. }
  destruct G as [Gl Gi].
  assert (Cnt : (length ts <= S ke - ks)%nat).
  { rewrite <- Ll. rewrite <- (seq_length (S ke - ks) ks). apply NoDup_incl_length; [exact Nd|]. intros k Ik. apply in_seq. destruct (Uin k (Hu k Ik)) as (x & Hx & Ix). apply (Gi _ _ Hx) in Ix. lia. }
  assert (U1 : usable axis ts lr z k1) by (exists l1; auto).
  pose proof (Fs k1 k1) as Fk. assert (Flen : forall f, In f fs -> length f = length ax).
  { assert (Q : Forall2 (fun s f => interpolated s ax k1 k1 f) ts fs) by (apply Fk; intros k K; replace k with k1 by lia; exact U1). clear - Q. induction Q as [|s f ts fs Hf Q IHQ]; intros g Ig; [destruct Ig|]. destruct Ig as [<-|Ig]; [exact (proj1 Hf)|apply IHQ; exact Ig]. }
  destruct (mapr_tot (NewTpl ax) fs) as [tp Etp]. { intros f If. unfold NewTpl. rewrite (Flen f If), Nat.eqb_refl. cbn [negb]. eauto. }
  assert (Ltp : length tp = length ts) by (apply mapr_len in Etp; congruence).
  assert (Ftp : forall t, In t tp -> length (t_flux t) = length ax).
  { pose proof (noinit_ok z cal mei false ks ke ax eq_refl fs tp Etp) as F. clear - F Flen. induction F as [|f t fs tp [G _] F IH]; intros q Iq; [destruct Iq|]. destruct Iq as [<-|Iq]; [rewrite (g_flux _ _ _ _ G), <- (g_len0 _ _ _ _ G); reflexivity|apply IH; [intros; apply Flen; right; assumption|exact Iq]]. }
  unfold BasicFit. rewrite Lm, Lf, Nat.eqb_refl. cbn [negb]. rewrite Rb. cbn [rbind]. destruct fs as [|f0 fs0]; [cbn in Lfs; lia|]. rewrite Gc. cbn [rbind]. rewrite Etp. cbn [rbind orb].
  destruct (norm_total flux (S ke - ks) ks dblmin ltac:(lia)) as [nf En]. rewrite En. cbn [rbind igm_loop ism_loop s_tpls s_best s_last].
  assert (Rw : exists rs, rows flux err ks (S ke - ks) nf tp = Ok rs).
  { unfold rows. apply mapr_tot. intros i Ii. apply in_seq in Ii. destruct (nth_error_lt flux i ltac:(lia)) as [y Hy]. destruct (nth_error_lt err i ltac:(lia)) as [e He]. unfold vget at 1 2. rewrite Hy, He. cbn [rbind].
    destruct (mapr_tot (fun t => vget (t_flux t) i) tp) as [r Er]. { intros t It. pose proof (Ftp t It). destruct (nth_error_lt (t_flux t) i ltac:(lia)) as [q Hq]. exists q. unfold vget. rewrite Hq. reflexivity. }
    rewrite Er. cbn [rbind]. eauto. }
  destruct Rw as [rs Ers]. rewrite Ers. cbn [rbind]. assert (Lrs : length rs = (S ke - ks)%nat) by (unfold rows in Ers; apply mapr_len in Ers; rewrite seq_length in Ers; exact Ers).
  unfold fit_one. rewrite Lrs, Ltp. destruct (Nat.ltb_spec (S ke - ks) (length ts)); [lia|]. destruct (solve (length ts) rs) as [[c cov] chi]. destruct (Nat.ltb_spec (length ts) 2); [lia|]. cbn [rbind fst snd s_best s_last keep andb]. eexists. reflexivity.
Qed.
