(** Proofs for C72, second part: which peaks become lines. *)
From Verif Require Import Base SortLib F64 AxisModel AxisSpec AxisProofs MedianModel MedianSpec PeakModel PeakSpec PeakProofs MatchModel DetModel DetSpec DetProofs.
Open Scope Q_scope.

Lemma vget_sample flux k : (0 <= k < Z.of_nat (List.length flux))%Z -> exists f, (if (k <? 0)%Z then UB else vget flux (Z.to_nat k)) = Ok f /\ sample flux k f.
Proof.
  intros H. destruct (Z.ltb_spec k 0) as [L|_]; [lia|]. destruct (vget_in flux (Z.to_nat k) ltac:(lia)) as [f F]. exists f. split; [exact F|]. split; [lia|]. apply vget_Ok. exact F.
Qed.
Lemma sample_inj flux k f g : sample flux k f -> sample flux k g -> f = g.
Proof. intros (_ & A) (_ & B). congruence. Qed.
Definition raw_upto (flux : list Q) (beg k : Z) (st : option (Q * Z)) : Prop :=
  match st with
  | None => (k <= beg)%Z
  | Some (v, c) => (beg <= c < k)%Z /\ sample flux c v /\ forall i f, (beg <= i < k)%Z -> sample flux i f -> f <= v /\ ((i < c)%Z -> f < v)
  end.
Lemma raw_max_spec flux beg : (0 <= beg)%Z -> forall n k st, (beg <= k)%Z -> (k + Z.of_nat n <= Z.of_nat (List.length flux))%Z -> raw_upto flux beg k st ->
  exists st', raw_max flux k n st = Ok st' /\ raw_upto flux beg (k + Z.of_nat n) st'.
Proof.
  intros B0. induction n as [|n IH]; intros k st K L P; cbn [raw_max]; [exists st; split; [reflexivity|]; replace (k + Z.of_nat 0)%Z with k by lia; exact P|].
  destruct (vget_sample flux k ltac:(lia)) as (f & F & SF). rewrite F. cbn [rbind]. replace (k + Z.of_nat (S n))%Z with (k + 1 + Z.of_nat n)%Z by lia. apply IH; [lia|lia|].
  destruct (match st with None => true | Some (v, _) => Qltb v f end) eqn:BT.
  - cbn [raw_upto]. split; [lia|]. split; [exact SF|]. intros i g I0 G. destruct (Z.eq_dec i k) as [->|NE]; [rewrite (sample_inj _ _ _ _ SF G); split; [apply Qle_refl|lia]|].
    destruct st as [(v, c)|]; cbn [raw_upto] in P; [|lia]. apply Qltb_true in BT. destruct P as (_ & _ & P). destruct (P i g ltac:(lia) G) as (Q1 & _). split; [|intros _]; lra.
  - destruct st as [(v, c)|]; [|discriminate]. cbn [raw_upto] in *. destruct P as (P1 & P2 & P3). split; [lia|]. split; [exact P2|]. intros i g I0 G. destruct (Z.eq_dec i k) as [->|NE]; [|apply (P3 i); auto; lia]. rewrite (sample_inj _ _ _ _ G SF). destruct (Qltb_spec v f) as [X|X]; [discriminate|]. split; [lra|lia].
Qed.
Lemma first_maximum_fun flux p c v c' v' : first_maximum flux p c v -> first_maximum flux p c' v' -> c = c' /\ v = v'.
Proof.
  intros (A1 & A2 & A3) (B1 & B2 & B3). destruct (A3 c' v' B1 B2) as (X1 & X2). destruct (B3 c v A1 A2) as (Y1 & Y2).
  assert (E : c = c') by (destruct (Z.lt_trichotomy c c') as [L|[E|L]]; [specialize (Y2 L); lra|exact E|specialize (X2 L); lra]). split; [exact E|]. subst c'. apply (sample_inj flux c); assumption.
Qed.
Lemma far_amp_spec x v : far_amp x v = false <-> (v == 0 /\ x == 0 \/ ~ v == 0 /\ (65 # 100) < x / v < 135 # 100).
Proof.
  unfold far_amp, ratio_of. destruct (Qeq_bool v 0) eqn:E.
  - apply Qeq_bool_iff in E. destruct (Qeq_bool x 0) eqn:EX.
    + apply Qeq_bool_iff in EX. split; auto.
    + split; [destruct (Qltb x 0); discriminate|]. intros [(_ & X)|(X & _)]; [apply Qeq_bool_iff in X; congruence|contradiction].
  - assert (NE : ~ v == 0) by (intros X; apply Qeq_bool_iff in X; congruence). rewrite orb_false_iff. split.
    + intros (A & B). right. split; [exact NE|]. split; apply Qnot_le_lt; intros X; apply Qle_bool_iff in X; congruence.
    + intros [(X & _)|(_ & A & B)]; [contradiction|]. split; apply not_true_is_false; intros X; apply Qle_bool_iff in X; lra.
Qed.
Lemma quality_spec s g p : good_spectrum s -> inside_spectrum s p -> exists st, quality_status s g p = Ok st /\ (st = [] <-> resembles s g p) /\ ~ In Detected st /\ ~ In BelowCut st.
Proof.
  intros (SI & LF & _) ((P0 & P1) & P2). unfold quality_status.
  destruct (raw_max_spec (sp_flux s) (fst p) P0 (Z.to_nat (snd p + 1 - fst p)) (fst p) None ltac:(lia) ltac:(rewrite LF; lia)) as (st & E & R); [cbn; lia|]. rewrite E. cbn [rbind]. replace (fst p + Z.of_nat (Z.to_nat (snd p + 1 - fst p)))%Z with (snd p + 1)%Z in R by lia.
  destruct st as [(v, c)|]; cbn [raw_upto] in R; [|lia]. destruct R as (C & SV & MX).
  assert (FM : first_maximum (sp_flux s) p c v) by (split; [lia|]; split; [exact SV|]; intros i f I0 F; apply MX; [lia|exact F]).
  destruct (vget_in (sp_lam s) (Z.to_nat c) ltac:(lia)) as [l Hl]. rewrite Hl. cbn [rbind]. eexists. split; [reflexivity|]. assert (SL : sample (sp_lam s) c l) by (split; [lia|apply vget_Ok; exact Hl]). split.
  - destruct (far_amp (g_amp g + g_cont g) v) eqn:FA; [|destruct (Qltb_spec 6 (Qabs (g_pos g - l))) as [FP|FP]]; cbn [app].
    + split; [discriminate|]. intros (c' & v' & l' & M & S' & _ & A). destruct (first_maximum_fun _ _ _ _ _ _ FM M) as (<- & <-). apply far_amp_spec in A. congruence.
    + split; [discriminate|]. intros (c' & v' & l' & M & S' & D & A). destruct (first_maximum_fun _ _ _ _ _ _ FM M) as (<- & <-). rewrite (sample_inj _ _ _ _ SL S') in FP. lra.
    + split; [intros _|reflexivity]. exists c, v, l. split; [exact FM|]. split; [exact SL|]. split; [lra|]. apply far_amp_spec. exact FA.
  - destruct (far_amp _ _), (Qltb _ _); cbn; intuition discriminate.
Qed.
Lemma shape_spec c g : (shape_status c g = [] <-> 0 <= g_amp g /\ 0 <= g_width g /\ c_minsize c <= (235 # 100) * g_width g <= c_maxsize c) /\ ~ In Detected (shape_status c g) /\ ~ In BelowCut (shape_status c g).
Proof.
  unfold shape_status, FWHM_FACTOR. destruct (Qltb_spec (g_amp g) 0) as [A|A]; [split; [split; [discriminate|intros (X & _); lra]|split; cbn; intuition discriminate]|].
  destruct (Qltb_spec (g_width g) 0) as [B|B]; [split; [split; [discriminate|intros (_ & X & _); lra]|split; cbn; intuition discriminate]|].
  destruct (Qltb_spec ((235 # 100) * g_width g) (c_minsize c)) as [C|C]; destruct (Qltb_spec (c_maxsize c) ((235 # 100) * g_width g)) as [D|D]; cbn [app]; (split; [split; [first [discriminate|intros _; (split; [lra|split; [lra|split; lra]])]|intros (_ & _ & X & Y); first [reflexivity|lra]]|split; cbn; intuition discriminate]).
Qed.

Lemma detect_peak_spec c s fit j p e : good_spectrum s -> 0 <= c_winsize c -> inside_spectrum s p ->
  exists st l r, detect_peak c s fit j p e = Ok (st, l, r) /\ st <> [] /\ (forall x, l = Some x <-> line_of c s fit j p e x) /\ (forall g, r = Some g <-> retest_of c s fit p e g) /\ (In Detected st <-> l <> None) /\ (In BelowCut st <-> r <> None).
Proof.
  intros GS W IP. unfold detect_peak. destruct (fit e) as [g|] eqn:FE.
  2: { exists [FitFailed], None, None. split; [reflexivity|]. split; [discriminate|]. split; [intros x; split; [discriminate|intros (g & ra & h & d & F & _); congruence]|]. split; [intros x; split; [discriminate|intros (g & ra & h & d & F & _); congruence]|]. split; (split; [intros [X|[]]; discriminate|intros X; congruence]). }
  assert (Q0 : exists st, (match shape_status c g with [] => if c_noQuality c then Ok [] else quality_status s g p | l => Ok l end) = Ok st /\ (st = [] <-> acceptable c s g p) /\ ~ In Detected st /\ ~ In BelowCut st).
  { destruct (shape_spec c g) as (S1 & S2 & S3). destruct (shape_status c g) as [|y t].
    - destruct S1 as (S1 & _). specialize (S1 eq_refl). destruct S1 as (A1 & A2 & A3). destruct (c_noQuality c) eqn:NQ.
      + exists []. split; [reflexivity|]. split; [|auto]. split; [intros _|reflexivity]. split; [exact A1|]. split; [exact A2|]. split; [exact A3|]. left. exact NQ.
      + destruct (quality_spec s g p GS IP) as (st & E & R & D & B). exists st. split; [exact E|]. split; [|auto]. rewrite R. split; [intros X; split; [exact A1|]; split; [exact A2|]; split; [exact A3|]; right; exact X|]. intros (_ & _ & _ & [X|X]); [congruence|exact X].
    - exists (y :: t). split; [reflexivity|]. split; [|auto]. split; [discriminate|]. intros (X1 & X2 & X3 & _). destruct S1 as (_ & S1). apply S1. split; [exact X1|]. split; [exact X2|exact X3]. }
  destruct Q0 as (st & E & A & ND & NB). rewrite E. cbn [rbind]. destruct st as [|y t].
  - destruct A as (A & _). specialize (A eq_refl).
    destruct (Fluxes_ok s (c_winsize c) p [] GS (or_introl eq_refl) W IP) as (ratio & h & d & _ & _ & _ & _ & _ & _ & CF & _); [exists (fst p); destruct IP as (IP & _); split; [lia|left; reflexivity]|]. rewrite CF. cbn [rbind]. destruct (flt ratio (Fin (c_cut c))) eqn:FL.
    + eexists _, _, _. split; [reflexivity|]. split; [discriminate|]. split; [intros x; split; [discriminate|intros (g' & ra & h' & d' & F & _ & C' & L' & _); rewrite CF in C'; congruence]|]. split; [intros x; split; [intros X; inversion X; exists g, ratio, h, d; auto 6|intros (g' & ra & h' & d' & F & _ & C' & L' & ->); congruence]|]. split; [split; [intros [X|[]]; discriminate|congruence]|split; [discriminate|left; reflexivity]].
    + eexists _, _, _. split; [reflexivity|]. split; [discriminate|]. split; [intros x; split; [intros X; inversion X; exists g, ratio, h, d; auto 6|intros (g' & ra & h' & d' & F & _ & C' & L' & ->); rewrite CF in C'; inversion C'; subst; congruence]|]. split; [intros x; split; [discriminate|intros (g' & ra & h' & d' & F & _ & C' & L' & _); rewrite CF in C'; congruence]|]. split; [split; [discriminate|left; reflexivity]|split; [intros [X|[]]; discriminate|congruence]].
  - eexists _, _, _. split; [reflexivity|]. split; [discriminate|]. assert (NA : ~ acceptable c s g p) by (intros X; apply A in X; discriminate). split; [intros x; split; [discriminate|intros (g' & ra & h' & d' & F & A' & _); rewrite FE in F; inversion F; subst; contradiction]|]. split; [intros x; split; [discriminate|intros (g' & ra & h' & d' & F & A' & _); rewrite FE in F; inversion F; subst; contradiction]|]. split; (split; [intros X; contradiction|congruence]).
Qed.
Lemma line_of_peak c s fit j p e x : line_of c s fit j p e x -> l_peak x = j /\ l_retest x = false.
Proof. intros (g & ra & h & d & _ & _ & _ & _ & ->). auto. Qed.

Lemma detect_loop_spec c s fit enl : good_spectrum s -> 0 <= c_winsize c -> forall peaks j, (forall p, In p peaks -> inside_spectrum s p) -> (j + List.length peaks <= List.length enl)%nat ->
  exists sts ls rs, detect_loop c s fit enl j peaks = Ok (sts, ls, rs) /\
    (forall x, In x ls <-> exists i p e, nth_error peaks i = Some p /\ nth_error enl (j + i) = Some e /\ line_of c s fit (j + i) p e x) /\
    StronglySorted (fun a b => (l_peak a < l_peak b)%nat) ls /\
    (forall p g, In (p, g) rs <-> exists i e, nth_error peaks i = Some p /\ nth_error enl (j + i) = Some e /\ retest_of c s fit p e g) /\
    (forall i, (i < List.length peaks)%nat -> exists st, In ((j + i)%nat, st) sts) /\ (forall k st, In (k, st) sts -> (j <= k < j + List.length peaks)%nat) /\
    (forall k, In (k, Detected) sts <-> exists x, In x ls /\ l_peak x = k).
Proof.
  intros GS W. induction peaks as [|p t IH]; intros j IP L; cbn [detect_loop].
  { exists [], [], []. split; [reflexivity|]. split; [intros x; split; [intros []|intros (i & p & e & N & _); destruct i; discriminate]|]. split; [constructor|]. split; [intros p g; split; [intros []|intros (i & e & N & _); destruct i; discriminate]|]. split; [cbn; intros; lia|]. split; [intros k st []|]. intros k. split; [intros []|intros (x & [] & _)]. }
  cbn [List.length] in L. destruct (vget_in enl j ltac:(lia)) as [e E]. rewrite E. cbn [rbind]. apply vget_Ok in E.
  destruct (detect_peak_spec c s fit j p e GS W (IP p (or_introl eq_refl))) as (st & l & r & DP & NE & LO & RO & DE & BC). rewrite DP. cbn [rbind].
  destruct (IH (S j) (fun q H => IP q (or_intror H)) ltac:(lia)) as (sts & ls & rs & DL & H1 & H2 & H3 & H4 & H5 & H6). rewrite DL. cbn [rbind].
  eexists _, _, _. split; [reflexivity|].
  assert (SH : forall x, (In x ls -> (S j <= l_peak x)%nat)). { intros x X. apply H1 in X. destruct X as (i & q & e' & _ & _ & X). apply line_of_peak in X. destruct X. lia. }
  assert (A1 : forall x, In x (match l with Some y => y :: ls | None => ls end) <-> l = Some x \/ In x ls). { intros x. destruct l as [y|]; cbn [In]; [|split; [auto|intros [X|X]; [discriminate|exact X]]]. split; intros [X|X]; auto; left; congruence. }
  split.
  { intros x. rewrite A1, LO, H1. split.
    - intros [X|(i & q & e' & N1 & N2 & X)]; [exists 0%nat, p, e; rewrite Nat.add_0_r; auto|exists (S i), q, e'; replace (j + S i)%nat with (S j + i)%nat by lia; auto].
    - intros ([|i] & q & e' & N1 & N2 & X); [left; rewrite Nat.add_0_r in *; cbn in N1; inversion N1; subst q; rewrite E in N2; inversion N2; subst e'; exact X|right; exists i, q, e'; replace (j + S i)%nat with (S j + i)%nat in * by lia; auto]. }
  split. { destruct l as [y|]; [|exact H2]. constructor; [exact H2|]. apply Forall_forall. intros x X. specialize (SH x X). destruct (line_of_peak _ _ _ _ _ _ _ (proj1 (LO y) eq_refl)). lia. }
  split.
  { intros q g. assert (A2 : In (q, g) (match r with Some y => (p, y) :: rs | None => rs end) <-> (q = p /\ r = Some g) \/ In (q, g) rs). { destruct r as [y|]; cbn [In]; [|split; [auto|intros [(_ & X)|X]; [discriminate|exact X]]]. split; intros [X|X]; auto; left; [inversion X; auto|destruct X as (-> & X); inversion X; reflexivity]. }
    rewrite A2, RO, H3. split.
    - intros [(-> & X)|(i & e' & N1 & N2 & X)]; [exists 0%nat, e; rewrite Nat.add_0_r; auto|exists (S i), e'; replace (j + S i)%nat with (S j + i)%nat by lia; auto].
    - intros ([|i] & e' & N1 & N2 & X); [left; rewrite Nat.add_0_r in *; cbn in N1; inversion N1; subst q; rewrite E in N2; inversion N2; subst e'; auto|right; exists i, e'; replace (j + S i)%nat with (S j + i)%nat in * by lia; auto]. }
  split. { intros i I0. destruct i as [|i]; [|destruct (H4 i ltac:(cbn in I0; lia)) as (st' & X); exists st'; apply in_or_app; right; replace (j + S i)%nat with (S j + i)%nat by lia; exact X]. destruct st as [|y st']; [congruence|]. exists y. rewrite Nat.add_0_r. left. reflexivity. }
  split. { intros k st' X. apply in_app_or in X. cbn [List.length]. destruct X as [X|X]; [apply in_map_iff in X; destruct X as (y & Y & _); inversion Y; lia|apply H5 in X; lia]. }
  intros k. rewrite in_app_iff, H6. split.
  - intros [X|(x & X & K)]; [|exists x; rewrite A1; auto]. apply in_map_iff in X. destruct X as (y & Y & X). inversion Y; subst. apply DE in X. destruct l as [x|]; [|congruence]. exists x. rewrite A1. split; [left; reflexivity|]. destruct (line_of_peak _ _ _ _ _ _ _ (proj1 (LO x) eq_refl)). assumption.
  - intros (x & X & K). rewrite A1 in X. destruct X as [X|X]; [left|right; eauto]. apply in_map_iff. exists Detected. destruct (line_of_peak _ _ _ _ _ _ _ (proj1 (LO x) X)). split; [congruence|]. apply DE. congruence.
Qed.
