(** C72: the detection of lines in peaks. *)
From Verif Require Import Base SortLib F64 AxisModel AxisSpec MedianModel MedianSpec PeakModel PeakSpec MatchModel DetModel DetSpec DetProofs DetProofs2 DetProofs3 DetProofs4.
Open Scope Q_scope.

(** the ratio of a peak: its first largest flux minus the median of the window, over the noise of the window *)
Theorem C72_fluxes : forall s winsize range mask, good_spectrum s -> good_mask s mask -> 0 <= winsize -> inside_spectrum s range -> (exists i, (fst range <= i <= snd range)%Z /\ counts mask (Z.to_nat i)) ->
  exists ratio height mad m v a b med noise, ComputeFluxes s winsize range mask = Ok (ratio, height, mad) /\
    first_largest (sp_flux s) mask (Z.to_nat (fst range)) (Z.to_nat (snd range)) m v /\ peak_window (sp_lam s) winsize (Z.to_nat (fst range)) (Z.to_nat (snd range)) m a b /\ (a <= m < b)%nat /\
    library_median (picked (sp_flux s) mask a b) med /\ conventional_median (map (fun y => Qabs (y - med)) (picked (sp_flux s) mask a b)) mad /\ noise_of (sp_err s) mask a b mad noise /\
    height = v - med /\ ratio = ratio_of height noise /\ Find (picked (sp_flux s) mask a b) = Ok med.
Proof. exact Fluxes_ok. Qed.
Print Assumptions C72_fluxes.
(** it is an error outside of the spectrum, or without a sample which counts *)
Theorem C72_fluxes_error : forall s winsize range mask, good_spectrum s -> good_mask s mask -> (fst range < 0)%Z \/ (Z.of_nat (List.length (sp_lam s)) <= snd range)%Z \/ (forall i, (fst range <= i <= snd range)%Z -> ~ counts mask (Z.to_nat i)) ->
  ComputeFluxes s winsize range mask = Throw INTERNAL_ERROR.
Proof. exact Fluxes_throw. Qed.
Print Assumptions C72_fluxes_error.
Theorem C72_height : forall s winsize range mask ratio height mad, good_spectrum s -> good_mask s mask -> 0 <= winsize -> inside_spectrum s range -> (exists i, (fst range <= i <= snd range)%Z /\ counts mask (Z.to_nat i)) ->
  ComputeFluxes s winsize range mask = Ok (ratio, height, mad) -> 0 <= height /\ 0 <= mad.
Proof. exact height_nonneg. Qed.
Print Assumptions C72_height.
(** the lines which are not from the retest are exactly those of the peaks with an acceptable fit and a ratio not below the cut, each once;
    without retested lines the catalog is in the order of the peaks, with some it is in order of position *)
Theorem C72_lines : forall c s fit peaks enl sts cat, good_detection c s peaks enl -> Compute c s fit peaks enl = Ok (sts, cat) ->
  exists ls, StronglySorted (fun a b => (l_peak a < l_peak b)%nat) ls /\ (forall x, In x ls <-> detected c s fit peaks enl x) /\ Permutation (filter (fun x => negb (l_retest x)) cat) ls /\
    ((forall x, In x cat -> l_retest x = false) -> cat = ls) /\ ((exists x, In x cat /\ l_retest x = true) -> in_order cat).
Proof. exact Lines. Qed.
Print Assumptions C72_lines.
(** each peak has a status, and only the lines of the first pass the one of success *)
Theorem C72_status : forall c s fit peaks enl sts cat, good_detection c s peaks enl -> Compute c s fit peaks enl = Ok (sts, cat) ->
  (forall j, (j < List.length peaks)%nat <-> exists st, In (j, st) sts) /\ (forall j, In (j, Detected) sts <-> exists x, detected c s fit peaks enl x /\ l_peak x = j).
Proof. exact Status. Qed.
Print Assumptions C72_status.
(** a retested line is the line of a peak with an acceptable fit, below the cut at first, near a strong line, and above the cut then; it is weak, at the fitted position *)
Theorem C72_retested : forall c s fit peaks enl sts cat x, good_detection c s peaks enl -> Compute c s fit peaks enl = Ok (sts, cat) -> In x cat -> l_retest x = true ->
  exists j p e g ratio h d l, nth_error peaks j = Some p /\ nth_error enl j = Some e /\ fit e = Some g /\ acceptable c s g p /\ ComputeFluxes s (c_winsize c) p [] = Ok (ratio, h, d) /\ flt ratio (Fin (c_cut c)) = true /\
    detected c s fit peaks enl l /\ l_strong l = true /\ beside (sp_lam s) (to_int (c_winsize c)) p l /\ flt (Fin (c_cut c)) (l_cut x) = true /\ l_pos x = g_pos g /\ l_strong x = false.
Proof. intros c s fit peaks enl sts cat x G H X T. destruct (Retested c s fit peaks enl sts cat x G H X T) as (j & p & e & g & ra & h & d & l & A). exists j, p, e, g, ra, h, d, l. tauto. Qed.
Print Assumptions C72_retested.
(** what is excluded around a strong line: only samples within 2.35 times its ratio (bounds rounded towards zero), and never strictly inside a retested peak *)
Theorem C72_excluded : forall lam strong sel ex0 ex w, exclusions strong = Ok ex0 -> trims lam sel ex0 = Ok ex -> excluded ex w = true ->
  (exists x r, In x strong /\ l_cut x = Fin r /\ within (to_int (l_pos x - (235 # 100) * r), to_int (l_pos x + (235 # 100) * r)) w) /\
  (forall p g a b, In (p, g) sel -> sample lam (fst p) a -> sample lam (snd p) b -> ~ (inject_Z (to_int a) < w < inject_Z (to_int b))).
Proof.
  intros lam strong sel ex0 ex w E0 E X. destruct (trims_spec _ _ _ _ E w X) as (A & B). split; [|exact B]. apply excluded_spec in A. destruct A as (e & I0 & W). apply (exclusions_spec _ _ E0) in I0. destruct I0 as (x & r & X0 & C & ->). exists x, r. auto.
Qed.
Print Assumptions C72_excluded.
(** the index of a sample in the reduced spectrum, when the first one is kept: a kept sample is found there, and every index is inside *)
Theorem C72_reduced_index : forall (A : Type) m t (v : list A) k mk i, flags (m :: t) -> m = 1 -> List.length v = List.length (m :: t) -> nth_error (m :: t) k = Some mk -> nth_error (reducedindexes (m :: t)) k = Some i ->
  (mk = 1 -> nth_error (keep_masked (m :: t) v) (Z.to_nat i) = nth_error v k) /\ (0 <= i < Z.of_nat (List.length (keep_masked (m :: t) v)))%Z.
Proof. exact @reduced_index. Qed.
Print Assumptions C72_reduced_index.
(** the detection ends normally when the strong lines have a finite ratio and the first sample is before what they exclude *)
Theorem C72_normal_end : forall c s fit peaks enl, good_detection c s peaks enl ->
  (forall x l0, detected c s fit peaks enl x -> l_strong x = true -> nth_error (sp_lam s) 0 = Some l0 -> exists r, l_cut x = Fin r /\ l0 < inject_Z (to_int (l_pos x - (235 # 100) * r))) ->
  exists sts cat, Compute c s fit peaks enl = Ok (sts, cat).
Proof. exact Total. Qed.
Print Assumptions C72_normal_end.

(** * a concrete case: a strong line at 1100, and a peak from 600 to 1000 detected by the retest only *)
Definition grid (n : nat) : list Q := map (fun i => inject_Z (100 * Z.of_nat i)) (seq 0 n).
Definition ex_s : spc := mkSpc (grid 15) [0; 0; 0; 0; 0; 0; 1; 2; 6; 1; 6; 1; 102; 2; 0] [].
Definition ex_c : config := mkConfig 5 2 1000 3 70 true.
Definition ex_fit (e : Z * Z) : option gfit := if (fst e <? 8)%Z then Some (mkFit 3 800 20 0 1 1 1) else Some (mkFit 90 1100 10 0 1 1 1).
Definition ex_peaks : list (Z * Z) := [(6, 10); (11, 13)]%Z.
Lemma grid_increasing n : strictly_increasing (grid n).
Proof.
  intros i j x y L X Y. unfold grid in X, Y. rewrite nth_error_map in X, Y. destruct (nth_error (seq 0 n) i) as [a|] eqn:A; [|discriminate]. destruct (nth_error (seq 0 n) j) as [b|] eqn:B; [|discriminate]. cbn [option_map] in X, Y. assert (EX : x = inject_Z (100 * Z.of_nat a)) by congruence. assert (EY : y = inject_Z (100 * Z.of_nat b)) by congruence. subst x y.
  assert (LI : (i < n)%nat) by (rewrite <- (seq_length n 0); apply nth_error_Some; congruence). assert (LJ : (j < n)%nat) by (rewrite <- (seq_length n 0); apply nth_error_Some; congruence).
  apply (nth_error_nth _ _ 0%nat) in A, B. rewrite seq_nth in A, B by assumption. rewrite <- Zlt_Qlt. lia.
Qed.
Example C72_ex_hypotheses : good_detection ex_c ex_s ex_peaks ex_peaks.
Proof.
  split; [split; [apply grid_increasing|split; [reflexivity|left; reflexivity]]|]. split; [discriminate|]. split; [|cbn; lia]. intros p [<-|[<-|[]]]; unfold inside_spectrum; cbn; lia.
Qed.
Example C72_ex_first : match ComputeFluxes ex_s 1000 (6, 10)%Z [] with Ok (Fin r, h, d) => Qred r = 4 /\ Qred h = 4 /\ Qred d = 1 | _ => False end /\ match ComputeFluxes ex_s 1000 (11, 13)%Z [] with Ok (Fin r, _, _) => Qred r = 100 | _ => False end.
Proof. split; [split; [|split]|]; vm_compute; reflexivity. Qed.
Example C72_ex_mask : match ComputeFluxes ex_s 1000 (6, 10)%Z [1; 1; 1; 1; 1; 1; 1; 1; 1; 1; 0; 1; 1; 1; 1] with Ok (Fin r, h, d) => Qred r = 9 /\ Qred h = 9 # 2 | _ => False end.
Proof. split; vm_compute; reflexivity. Qed.
Example C72_ex_noise : match ComputeFluxes (mkSpc (grid 15) (sp_flux ex_s) (repeat 2 15)) 1000 (6, 10)%Z [] with Ok (Fin r, h, d) => Qred r = 2 /\ Qred d = 1 | _ => False end.
Proof. split; vm_compute; reflexivity. Qed.
Example C72_ex_catalog : match Compute ex_c ex_s ex_fit ex_peaks ex_peaks with
  | Ok (sts, cat) => sts = [(0%nat, BelowCut); (1%nat, Detected)] /\ map l_retest cat = [true; false] /\ map l_strong cat = [false; true] /\ map (fun x => Qred (l_pos x)) cat = [800; 1100] | _ => False end.
Proof. vm_compute. auto. Qed.
Example C72_ex_quality : match Compute (mkConfig 5 2 1000 3 70 false) ex_s (fun e => if (fst e <? 8)%Z then Some (mkFit 6 800 20 0 1 1 1) else Some (mkFit 90 1100 10 0 1 1 1)) ex_peaks ex_peaks with
  | Ok (sts, cat) => sts = [(0%nat, BelowCut); (1%nat, FarPos)] /\ cat = [] | _ => False end.
Proof. vm_compute. auto. Qed.
Example C72_ex_normal_end : forall x l0, detected ex_c ex_s ex_fit ex_peaks ex_peaks x -> l_strong x = true -> nth_error (sp_lam ex_s) 0 = Some l0 -> exists r, l_cut x = Fin r /\ l0 < inject_Z (to_int (l_pos x - (235 # 100) * r)).
Proof.
  intros x l0 (j & p & e & N1 & N2 & (g & ra & h & d & F & _ & C & FL & ->)) S0 L0. destruct j as [|[|j]]; cbn in N1, N2; [inversion N1; inversion N2; subst; exfalso|inversion N1; inversion N2; subst|destruct j; discriminate].
  - vm_compute in C. inversion C; subst. vm_compute in FL. discriminate.
  - vm_compute in C. inversion C; subst. cbn in F. inversion F; subst. cbn in L0. inversion L0; subst. eexists. split; [reflexivity|]. vm_compute. reflexivity.
Qed.

(** ** what does not hold *)
(** a retested line takes the fitted width for its amplitude and the fitted amplitude for its width *)
Theorem C72_swapped_refuted : forall c s fit peaks enl sts cat x, good_detection c s peaks enl -> Compute c s fit peaks enl = Ok (sts, cat) -> In x cat -> l_retest x = true ->
  exists j e g, nth_error enl j = Some e /\ fit e = Some g /\ l_pos x = g_pos g /\ l_amp x = g_width g /\ l_width x = g_amp g.
Proof. intros c s fit peaks enl sts cat x G H X T. destruct (Retested c s fit peaks enl sts cat x G H X T) as (j & p & e & g & ra & h & d & l & A). exists j, e, g. tauto. Qed.
Print Assumptions C72_swapped_refuted.
(** a peak near two strong lines is added twice *)
Theorem C72_once_refuted : exists c s fit peaks sts x a b t, good_detection c s peaks peaks /\ Compute c s fit peaks peaks = Ok (sts, x :: a :: b :: t) /\ l_retest a = true /\ l_retest b = true /\ l_pos a = l_pos b /\ List.length peaks = 3%nat.
Proof.
  exists ex_c, (mkSpc (grid 15) [0; 0; 0; 1; 22; 2; 1; 2; 6; 1; 6; 1; 102; 2; 0] []), (fun e => if (fst e <? 5)%Z then Some (mkFit 20 400 10 0 1 1 1) else ex_fit e), [(3, 5); (6, 10); (11, 13)]%Z. do 5 eexists. split.
  - split; [split; [apply grid_increasing|split; [reflexivity|left; reflexivity]]|]. split; [discriminate|]. split; [|cbn; lia]. intros p [<-|[<-|[<-|[]]]]; unfold inside_spectrum; cbn; lia.
  - split; [vm_compute; reflexivity|]. repeat (split; [reflexivity|]). reflexivity.
Qed.
Print Assumptions C72_once_refuted.
(** what is excluded around a strong line does not depend on its width *)
Theorem C72_exclusion_width_refuted : exists x, l_width x = 10 /\ l_cut x = Fin 100 /\ exclusion x = Ok (865, 1335)%Z.
Proof. exists (mkLine 1 false 1100 true 90 10 (Fin 100) 1 1 1). split; [reflexivity|]. split; [reflexivity|]. vm_compute. reflexivity. Qed.
Print Assumptions C72_exclusion_width_refuted.
(** the last sample of a retested peak can be excluded: without it the peak above is detected *)
Theorem C72_own_sample_refuted : exists lam strong p g ex0 ex w, exclusions strong = Ok ex0 /\ trims lam [(p, g)] ex0 = Ok ex /\ sample lam (snd p) w /\ excluded ex w = true.
Proof.
  exists (grid 15), [mkLine 1 false 1100 true 90 10 (Fin 100) 1 1 1], (6, 10)%Z, (mkGauss 800 3 20). do 3 eexists. split; [vm_compute; reflexivity|]. split; [vm_compute; reflexivity|]. split; [split; [cbn; lia|reflexivity]|]. vm_compute. reflexivity.
Qed.
Print Assumptions C72_own_sample_refuted.
(** when a strong line excludes the first sample, a retest at the end of the spectrum is an error *)
Theorem C72_first_sample_refuted : exists c s fit peaks, good_detection c s peaks peaks /\ Compute c s fit peaks peaks = Throw INTERNAL_ERROR.
Proof.
  exists (mkConfig 5 2 2000 3 70 true), (mkSpc (grid 11) [1; 102; 2; 0; 0; 0; 1; 2; 6; 1; 6] []), (fun e => if (fst e <? 5)%Z then Some (mkFit 90 100 10 0 1 1 1) else ex_fit e), [(0, 2); (6, 10)]%Z. split; [|vm_compute; reflexivity].
  split; [split; [apply grid_increasing|split; [reflexivity|left; reflexivity]]|]. split; [discriminate|]. split; [|cbn; lia]. intros p [<-|[<-|[]]]; unfold inside_spectrum; cbn; lia.
Qed.
Print Assumptions C72_first_sample_refuted.
(** without noise, a null deviation makes an infinite ratio, which becomes an integer in the retest *)
Theorem C72_infinite_refuted : exists c s fit peaks, good_detection c s peaks peaks /\ Compute c s fit peaks peaks = UB.
Proof.
  exists (mkConfig 5 2 2000 3 70 true), (mkSpc (grid 11) [0; 102; 0; 0; 0; 0; 1; 2; 6; 1; 6] []), (fun e => if (fst e <? 5)%Z then Some (mkFit 90 100 10 0 1 1 1) else ex_fit e), [(0, 2); (6, 10)]%Z. split; [|vm_compute; reflexivity].
  split; [split; [apply grid_increasing|split; [reflexivity|left; reflexivity]]|]. split; [discriminate|]. split; [|cbn; lia]. intros p [<-|[<-|[]]]; unfold inside_spectrum; cbn; lia.
Qed.
Print Assumptions C72_infinite_refuted.
(** without noise, a flat peak has no ratio, and is detected whatever the cut *)
Theorem C72_flat_refuted : forall cut, exists s fit peaks sts x, good_detection (mkConfig cut 2 1000 3 70 true) s peaks peaks /\ Compute (mkConfig cut 2 1000 3 70 true) s fit peaks peaks = Ok (sts, [x]) /\ sp_flux s = [7; 7; 7] /\ l_cut x = NaN.
Proof.
  intros cut. exists (mkSpc (grid 3) [7; 7; 7] []), (fun _ => Some (mkFit 3 100 20 0 1 1 1)), [(0, 2)]%Z. do 2 eexists. split.
  - split; [split; [apply grid_increasing|split; [reflexivity|left; reflexivity]]|]. split; [discriminate|]. split; [|cbn; lia]. intros p [<-|[]]; unfold inside_spectrum; cbn; lia.
  - split; [vm_compute; reflexivity|]. split; reflexivity.
Qed.
Print Assumptions C72_flat_refuted.
