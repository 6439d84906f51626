(** Proofs for C72, fourth part: the answer. *)
From Verif Require Import Base SortLib F64 AxisModel AxisSpec AxisProofs MedianModel MedianSpec PeakModel PeakSpec PeakProofs MatchModel MatchProofs MatchProofs2 DetModel DetSpec DetProofs DetProofs2 DetProofs3.
Open Scope Q_scope.

Lemma first_pass c s fit peaks enl : good_detection c s peaks enl -> exists sts ls rs, detect_loop c s fit enl 0 peaks = Ok (sts, ls, rs) /\
    (forall x, In x ls <-> detected c s fit peaks enl x) /\ StronglySorted (fun a b => (l_peak a < l_peak b)%nat) ls /\
    (forall p g, In (p, g) rs <-> exists i e, nth_error peaks i = Some p /\ nth_error enl i = Some e /\ retest_of c s fit p e g) /\
    (forall i, (i < List.length peaks)%nat -> exists st, In (i, st) sts) /\ (forall k st, In (k, st) sts -> (k < List.length peaks)%nat) /\
    (forall k, In (k, Detected) sts <-> exists x, In x ls /\ l_peak x = k).
Proof.
  intros (GS & W & IP & LE). destruct (detect_loop_spec c s fit enl GS W peaks 0 IP ltac:(lia)) as (sts & ls & rs & DL & H1 & H2 & H3 & H4 & H5 & H6). exists sts, ls, rs. split; [exact DL|]. split; [exact H1|]. split; [exact H2|]. split; [exact H3|]. split; [exact H4|]. split; [intros k st X; apply H5 in X; lia|exact H6].
Qed.
Lemma answer c s fit peaks enl sts cat : good_detection c s peaks enl -> Compute c s fit peaks enl = Ok (sts, cat) -> exists ls rs added, detect_loop c s fit enl 0 peaks = Ok (sts, ls, rs) /\
  Permutation cat (ls ++ added) /\ (added = [] -> cat = ls) /\ (added <> [] -> in_order cat) /\
  forall x, In x added -> exists p g l ratio, In (p, g) rs /\ In l ls /\ l_strong l = true /\ beside (sp_lam s) (to_int (c_winsize c)) p l /\ flt (Fin (c_cut c)) ratio = true /\
    exists k, x = mkLine k true (gp_pos g) false (gp_amp g) (gp_width g) ratio (-1) (-1) (-1).
Proof.
  intros GI H. destruct (first_pass c s fit peaks enl GI) as (sts0 & ls & rs & DL & _). unfold Compute in H. rewrite DL in *. cbn [rbind] in H. destruct rs as [|r rs].
  { inversion H; subst. exists cat, [], []. split; [reflexivity|]. split; [rewrite app_nil_r; reflexivity|]. split; [reflexivity|]. split; [congruence|]. intros x []. }
  destruct (Retest s (r :: rs) (filter l_strong ls) (to_int (c_winsize c)) (c_cut c) ls) as [k| |] eqn:R; [|discriminate|discriminate]. cbn [rbind] in H. inversion H; subst. exists ls, (r :: rs). unfold Retest in R. destruct (select _ _ _ _) as [sel| |] eqn:SE; [|discriminate|discriminate]. cbn [rbind] in R. pose proof (select_spec _ _ _ _ _ SE) as SS. destruct sel as [|q sel].
  { inversion R; subst. exists []. split; [reflexivity|]. split; [rewrite app_nil_r; reflexivity|]. split; [reflexivity|]. split; [congruence|]. intros x []. }
  unfold RemoveStrongFromSpectra in R. destruct (exclusions _) as [ex0| |]; [|discriminate|discriminate]. cbn [rbind] in R. destruct (trims _ _ _) as [ex| |]; [|discriminate|discriminate]. cbn [rbind] in R. apply retest_loop_spec in R. destruct R as (added & P & E1 & E2 & IN). exists added. split; [reflexivity|]. split; [exact P|]. split; [exact E1|]. split; [exact E2|]. intros x X. apply IN in X. destruct X as (i & p & g & N & (a & b & ratio & h & d & _ & _ & _ & F & ->)). apply nth_error_In in N. apply SS in N. destruct N as (N & l & L & B). apply filter_In in L. destruct L as (L & LS). exists p, g, l, ratio. split; [exact N|]. split; [exact L|]. split; [exact LS|]. split; [exact B|]. split; [exact F|]. eauto.
Qed.
Lemma filter_all {A} (f : A -> bool) l : (forall x, In x l -> f x = true) -> filter f l = l.
Proof. induction l as [|x t IH]; intros H; [reflexivity|]. cbn [filter]. rewrite (H x (or_introl eq_refl)). f_equal. apply IH. intros y Y. apply H. right. exact Y. Qed.
Lemma filter_none {A} (f : A -> bool) l : (forall x, In x l -> f x = false) -> filter f l = [].
Proof. induction l as [|x t IH]; intros H; [reflexivity|]. cbn [filter]. rewrite (H x (or_introl eq_refl)). apply IH. intros y Y. apply H. right. exact Y. Qed.
Lemma filter_perm {A} (f : A -> bool) a b : Permutation a b -> Permutation (filter f a) (filter f b).
Proof. induction 1; cbn [filter]; [constructor|destruct (f x); [constructor|]; assumption|destruct (f x), (f y); try apply perm_swap; reflexivity|etransitivity; eassumption]. Qed.
Lemma detected_first c s fit peaks enl x : detected c s fit peaks enl x -> l_retest x = false.
Proof. intros (j & p & e & _ & _ & L). apply line_of_peak in L. apply L. Qed.

Lemma Lines c s fit peaks enl sts cat : good_detection c s peaks enl -> Compute c s fit peaks enl = Ok (sts, cat) ->
  exists ls, StronglySorted (fun a b => (l_peak a < l_peak b)%nat) ls /\ (forall x, In x ls <-> detected c s fit peaks enl x) /\ Permutation (filter (fun x => negb (l_retest x)) cat) ls /\
    ((forall x, In x cat -> l_retest x = false) -> cat = ls) /\ ((exists x, In x cat /\ l_retest x = true) -> in_order cat).
Proof.
  intros GI H. destruct (answer c s fit peaks enl sts cat GI H) as (ls & rs & added & DL & P & E1 & E2 & AD). destruct (first_pass c s fit peaks enl GI) as (sts0 & ls0 & rs0 & DL0 & H1 & H2 & _). rewrite DL in DL0. inversion DL0; subst. exists ls0. split; [exact H2|]. split; [exact H1|].
  assert (AT : forall x, In x added -> l_retest x = true) by (intros x X; destruct (AD x X) as (p & g & l & ra & _ & _ & _ & _ & _ & k & ->); reflexivity).
  assert (LT : forall x, In x ls0 -> l_retest x = false) by (intros x X; apply (detected_first c s fit peaks enl), H1, X). split.
  - rewrite (filter_perm _ _ _ P), filter_app. rewrite (filter_all _ ls0) by (intros x X; rewrite LT by exact X; reflexivity). rewrite (filter_none _ added) by (intros x X; rewrite AT by exact X; reflexivity). rewrite app_nil_r. reflexivity.
  - split.
    + intros NR. apply E1. destruct added as [|y t]; [reflexivity|]. exfalso. assert (Y : In y cat) by (apply (Permutation_in y (Permutation_sym P)), in_or_app; right; left; reflexivity). apply NR in Y. rewrite (AT y (or_introl eq_refl)) in Y. discriminate.
    + intros (x & X & T). apply E2. intros ->. rewrite app_nil_r in P. apply (Permutation_in x P) in X. rewrite LT in T by exact X. discriminate.
Qed.
Lemma Status c s fit peaks enl sts cat : good_detection c s peaks enl -> Compute c s fit peaks enl = Ok (sts, cat) ->
  (forall j, (j < List.length peaks)%nat <-> exists st, In (j, st) sts) /\ (forall j, In (j, Detected) sts <-> exists x, detected c s fit peaks enl x /\ l_peak x = j).
Proof.
  intros GI H. destruct (answer c s fit peaks enl sts cat GI H) as (ls & rs & added & DL & _). destruct (first_pass c s fit peaks enl GI) as (sts0 & ls0 & rs0 & DL0 & H1 & _ & _ & H4 & H5 & H6). rewrite DL in DL0. inversion DL0; subst. split.
  - intros j. split; [apply H4|]. intros (st & X). apply (H5 j st X).
  - intros j. rewrite H6. split; intros (x & X & E); exists x; (split; [apply H1; exact X|exact E]).
Qed.
Lemma Retested c s fit peaks enl sts cat x : good_detection c s peaks enl -> Compute c s fit peaks enl = Ok (sts, cat) -> In x cat -> l_retest x = true ->
  exists j p e g ratio h d l, nth_error peaks j = Some p /\ nth_error enl j = Some e /\ fit e = Some g /\ acceptable c s g p /\ ComputeFluxes s (c_winsize c) p [] = Ok (ratio, h, d) /\ flt ratio (Fin (c_cut c)) = true /\
    detected c s fit peaks enl l /\ l_strong l = true /\ beside (sp_lam s) (to_int (c_winsize c)) p l /\ flt (Fin (c_cut c)) (l_cut x) = true /\ l_pos x = g_pos g /\ l_strong x = false /\ l_amp x = g_width g /\ l_width x = g_amp g.
Proof.
  intros GI H X T. destruct (answer c s fit peaks enl sts cat GI H) as (ls & rs & added & DL & P & E1 & E2 & AD). destruct (first_pass c s fit peaks enl GI) as (sts0 & ls0 & rs0 & DL0 & H1 & H2 & H3 & _). rewrite DL in DL0. inversion DL0; subst. apply (Permutation_in x P), in_app_or in X. destruct X as [X|X]; [apply H1, detected_first in X; congruence|].
  destruct (AD x X) as (p & g & l & ra & PG & L & LS & B & F & k & ->). apply H3 in PG. destruct PG as (i & e & N1 & N2 & (g' & ratio & h & d & FE & AC & CF & FL & ->)). exists i, p, e, g', ratio, h, d, l. split; [exact N1|]. split; [exact N2|]. split; [exact FE|]. split; [exact AC|]. split; [exact CF|]. split; [exact FL|]. split; [apply H1; exact L|]. split; [exact LS|]. split; [exact B|]. split; [exact F|]. auto.
Qed.
Lemma reduce_good s mask : flags mask -> List.length mask = List.length (sp_lam s) -> good_spectrum s -> good_spectrum (reduce s mask).
Proof.
  intros F L (SI & LF & LE). split; [|split].
  - cbn [reduce sp_lam]. destruct (maskVector_spec mask (sp_lam s)) as (_ & MV). destruct (MV L) as (o & O1 & O2). unfold maskVector in O1. rewrite L, Nat.eqb_refl in O1. inversion O1; subst o. apply (kept_sorted mask (sp_lam s)); assumption.
  - cbn [reduce sp_lam sp_flux]. rewrite !keep_length by (auto; congruence). reflexivity.
  - cbn [reduce sp_lam sp_err]. destruct LE as [LE|LE]; [left; rewrite LE; destruct mask; reflexivity|right]. rewrite !keep_length by (auto; congruence). reflexivity.
Qed.
Lemma retest_loop_total red winsize cut idx : good_spectrum red -> 0 <= winsize -> forall sel k cat, (forall p g, In (p, g) sel -> exists a b, zvget idx (fst p) = Ok a /\ zvget idx (snd p) = Ok b /\ inside_spectrum red (a, b)) ->
  exists cat', retest_loop red winsize cut idx k sel cat = Ok cat'.
Proof.
  intros GR W. induction sel as [|(p, g) t IH]; intros k cat H; cbn [retest_loop]; [eauto|]. destruct (H p g (or_introl eq_refl)) as (a & b & A & B & IS). rewrite A. cbn [rbind]. rewrite B. cbn [rbind]. destruct (Fluxes_ok red winsize (a, b) [] GR (or_introl eq_refl) W IS) as (ra & h & d & _ & _ & _ & _ & _ & _ & CF & _); [exists a; destruct IS as (IS & _); cbn in *; split; [lia|left; reflexivity]|]. rewrite CF. cbn [rbind]. apply IH. intros q g' Q0. apply (H q g'). right. exact Q0.
Qed.
(** the detection ends normally when no strong line is infinite and the first sample is before the part excluded for each *)
Lemma Total c s fit peaks enl : good_detection c s peaks enl -> (forall x l0, detected c s fit peaks enl x -> l_strong x = true -> nth_error (sp_lam s) 0 = Some l0 -> exists r, l_cut x = Fin r /\ l0 < inject_Z (to_int (l_pos x - (235 # 100) * r))) ->
  exists sts cat, Compute c s fit peaks enl = Ok (sts, cat).
Proof.
  intros GI ST. destruct (first_pass c s fit peaks enl GI) as (sts & ls & rs & DL & H1 & _ & H3 & _). unfold Compute. rewrite DL. cbn [rbind]. destruct rs as [|r0 rs]; [eauto|]. set (rl := r0 :: rs) in *.
  destruct GI as (GS & W & IP & LE).
  assert (RP : forall p g, In (p, g) rl -> inside_spectrum s p) by (intros p g X; apply H3 in X; destruct X as (i & e & N & _); apply nth_error_In in N; apply IP; exact N).
  assert (RB : forall p g, In (p, g) rl -> (0 <= fst p < Z.of_nat (List.length (sp_lam s)))%Z /\ (0 <= snd p < Z.of_nat (List.length (sp_lam s)))%Z) by (intros p g X; specialize (RP p g X); destruct RP as (R1 & R2); lia).
  unfold Retest. destruct (select_total (sp_lam s) (to_int (c_winsize c)) (filter l_strong ls) rl RB) as (sel & SE). rewrite SE. cbn [rbind]. pose proof (select_spec _ _ _ _ _ SE) as SS. destruct sel as [|q0 sel]; [cbn [rbind]; eauto|]. set (sl := q0 :: sel) in *.
  assert (NEL : exists l0 lt, sp_lam s = l0 :: lt). { destruct q0 as (p & g). assert (X : In (p, g) sl) by (left; reflexivity). apply SS in X. destruct X as (X & _). apply RB in X. destruct (sp_lam s); [cbn in X; lia|eauto]. }
  destruct NEL as (l0 & lt & EL). unfold RemoveStrongFromSpectra.
  assert (ST' : forall x, In x (filter l_strong ls) -> exists r, l_cut x = Fin r /\ l0 < inject_Z (to_int (l_pos x - (235 # 100) * r))) by (intros x X; apply filter_In in X; destruct X as (X & L); apply (ST x l0); [apply H1; exact X|exact L|rewrite EL; reflexivity]).
  destruct (exclusions_total (filter l_strong ls)) as (ex0 & EX0); [intros x X; destruct (ST' x X) as (r & R & _); eauto|]. rewrite EX0. cbn [rbind]. destruct (trims_total (sp_lam s) sl ex0) as (ex & EX); [intros p g X; apply SS in X; destruct X as (X & _); apply (RB p g X)|]. rewrite EX. cbn [rbind].
  assert (N0 : excluded ex l0 = false). { apply not_true_is_false. intros X. apply (trims_spec _ _ _ _ EX) in X. destruct X as (X & _). apply excluded_spec in X. destruct X as (e & E & WI). apply (exclusions_spec _ _ EX0) in E. destruct E as (x & r & X & C & ->). destruct (ST' x X) as (r' & C' & LT). rewrite C in C'. inversion C'; subst r'. destruct WI as (WI & _). cbn [fst] in WI. lra. }
  cbv zeta. set (mask := strong_mask (sp_lam s) ex). assert (FM : flags mask) by apply strong_mask_flags. assert (LM : List.length mask = List.length (sp_lam s)) by (unfold mask, strong_mask; apply map_length).
  assert (M0 : exists t, mask = 1 :: t) by (unfold mask, strong_mask; rewrite EL; cbn [map]; rewrite N0; eauto). destruct M0 as (mt & M0).
  assert (GR := reduce_good s mask FM LM GS).
  assert (W' : 0 <= inject_Z (to_int (c_winsize c))). { unfold to_int. destruct (Qltb_spec (c_winsize c) 0) as [L|L]; [lra|]. change 0 with (inject_Z 0). rewrite <- Zle_Qle. apply (Qfloor_resp_le 0). exact W. }
  destruct (retest_loop_total (reduce s mask) (inject_Z (to_int (c_winsize c))) (c_cut c) (reducedindexes mask) GR W' sl 0 ls) as (cat & RC); [|rewrite RC; cbn [rbind]; eauto].
  intros p g X. apply SS in X. destruct X as (X & _). pose proof (RB p g X) as (B1 & B2). destruct (RP p g X) as (R1 & R2).
  assert (IDX : forall z, (0 <= z < Z.of_nat (List.length (sp_lam s)))%Z -> zvget (reducedindexes mask) z = Ok (Z.of_nat (kept_before mask (S (Z.to_nat z))) - 1)%Z).
  { intros z Z0. unfold zvget. destruct (Z.ltb_spec z 0) as [L|_]; [lia|]. apply vget_Ok. rewrite M0 in *. rewrite reducedindexes_nth by lia. reflexivity. }
  exists (Z.of_nat (kept_before mask (S (Z.to_nat (fst p)))) - 1)%Z, (Z.of_nat (kept_before mask (S (Z.to_nat (snd p)))) - 1)%Z. split; [apply IDX; exact B1|]. split; [apply IDX; exact B2|]. unfold inside_spectrum. cbn [fst snd reduce sp_lam].
  rewrite keep_length by (auto; congruence). pose proof (kept_mono mask (S (Z.to_nat (fst p))) (S (Z.to_nat (snd p))) ltac:(lia)). pose proof (kept_mono mask (S (Z.to_nat (snd p))) (List.length mask) ltac:(lia)). assert (1 <= kept_before mask (S (Z.to_nat (fst p))))%nat by (rewrite M0; apply kept_first; reflexivity). lia.
Qed.
