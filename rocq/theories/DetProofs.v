(** Proofs for C72, first part: the fluxes of a peak. *)
From Verif Require Import Base F64 AxisModel AxisSpec AxisProofs MedianModel MedianSpec MedianProofs PeakModel PeakSpec PeakProofs DetModel DetSpec.
Open Scope Q_scope.

Section Fluxes.
  Variables flux mask : list Q.
  Definition cb (i : nat) : bool := match nth_error mask i with Some m => negb (Qeq_bool m 0) | None => false end.
  Definition best_upto (beg k : nat) (st : option (Q * nat)) : Prop :=
    match st with
    | None => forall i, (beg <= i < k)%nat -> cb i = false
    | Some (v, m) => (beg <= m < k)%nat /\ nth_error flux m = Some v /\ cb m = true /\ forall i f, (beg <= i < k)%nat -> cb i = true -> nth_error flux i = Some f -> f <= v /\ ((i < m)%nat -> f < v)
    end.
  Lemma max_loop_spec beg : forall n k st, (k + n <= List.length flux)%nat -> (k + n <= List.length mask)%nat -> (beg <= k)%nat -> best_upto beg k st ->
    exists st', max_loop flux mask k n st = Ok st' /\ best_upto beg (k + n) st'.
  Proof.
    induction n as [|n IH]; intros k st LF LM B P; cbn [max_loop]; [exists st; rewrite Nat.add_0_r; auto|].
    destruct (vget_in flux k ltac:(lia)) as [f F]. rewrite F. cbn [rbind]. apply vget_Ok in F.
    destruct (vget_in mask k ltac:(lia)) as [w W]. rewrite W. cbn [rbind]. apply vget_Ok in W.
    assert (C : cb k = negb (Qeq_bool w 0)) by (unfold cb; rewrite W; reflexivity).
    replace (k + S n)%nat with (S k + n)%nat by lia.
    destruct (match st with None => true | Some (v, _) => Qltb v f end) eqn:BT.
    - apply IH; try lia. destruct (Qeq_bool w 0); cbn [negb] in C.
      + destruct st as [(v, m)|]; cbn [best_upto] in *.
        * destruct P as (P1 & P2 & P3 & P4). split; [lia|]. split; [exact P2|]. split; [exact P3|]. intros i g I0 CI G. apply (P4 i); auto. destruct (Nat.eq_dec i k); [subst; congruence|lia].
        * intros i I0. destruct (Nat.eq_dec i k); [subst; exact C|]. apply P. lia.
      + cbn [best_upto]. split; [lia|]. split; [exact F|]. split; [exact C|]. intros i g I0 CI G. destruct (Nat.eq_dec i k) as [->|NE]; [split; [rewrite F in G; inversion G; apply Qle_refl|lia]|].
        destruct st as [(v, m)|]; cbn [best_upto] in P; [|rewrite (P i) in CI by lia; discriminate]. destruct P as (P1 & P2 & P3 & P4). apply Qltb_true in BT. destruct (P4 i g ltac:(lia) CI G) as (Q1 & _). split; [|intros _]; lra.
    - destruct st as [(v, m)|]; [|discriminate]. apply IH; try lia. cbn [best_upto] in *. destruct P as (P1 & P2 & P3 & P4). split; [lia|]. split; [exact P2|]. split; [exact P3|]. intros i g I0 CI G.
      destruct (Nat.eq_dec i k) as [->|NE]; [|apply (P4 i); auto; lia]. rewrite F in G. inversion G; subst g. destruct (Qltb_spec v f) as [L|L]; [discriminate|]. split; [lra|lia].
  Qed.
  Lemma collect_spec (v : list Q) : forall n k, (k + n <= List.length v)%nat -> (k + n <= List.length mask)%nat ->
    collect v mask k n = Ok (flat_map (fun i => match nth_error v i with Some x => if cb i then [x] else [] | None => [] end) (seq k n)).
  Proof.
    induction n as [|n IH]; intros k LF LM; cbn [collect seq flat_map]; [reflexivity|].
    destruct (vget_in v k ltac:(lia)) as [f F]. destruct (vget_in mask k ltac:(lia)) as [w W]. rewrite W. cbn [rbind]. rewrite F. cbn [rbind]. apply vget_Ok in F. apply vget_Ok in W. unfold cb at 1. rewrite W, F. rewrite IH by lia. cbn [rbind]. destruct (Qeq_bool w 0); reflexivity.
  Qed.
  Lemma noise_sum_spec (v : list Q) : forall n k s c, (k + n <= List.length v)%nat -> (k + n <= List.length mask)%nat ->
    exists s', noise_sum v mask k n s c = Ok (s', (c + List.length (flat_map (fun i => match nth_error v i with Some x => if cb i then [x] else [] | None => [] end) (seq k n)))%nat) /\ s' == s + fold_right Qplus 0 (flat_map (fun i => match nth_error v i with Some x => if cb i then [x] else [] | None => [] end) (seq k n)).
  Proof.
    induction n as [|n IH]; intros k s c LF LM; cbn [noise_sum seq flat_map]; [exists s; split; [rewrite Nat.add_0_r; reflexivity|cbn; ring]|].
    destruct (vget_in v k ltac:(lia)) as [f F]. destruct (vget_in mask k ltac:(lia)) as [w W]. rewrite W. cbn [rbind]. rewrite F. cbn [rbind]. apply vget_Ok in F. apply vget_Ok in W. unfold cb at 1 3. rewrite W, F. destruct (Qeq_bool w 0); cbn [negb app].
    - destruct (IH (S k) s c ltac:(lia) ltac:(lia)) as (s' & E & S'). exists s'. split; assumption.
    - destruct (IH (S k) (s + f) (S c) ltac:(lia) ltac:(lia)) as (s' & E & S'). exists s'. rewrite E. cbn [List.length fold_right]. split; [do 2 f_equal; lia|]. rewrite S'. ring.
  Qed.
End Fluxes.
Lemma all_ones_spec err : forall n k, (k + n <= List.length err)%nat -> exists b, all_ones err k n = Ok b /\ (b = true <-> forall i e, (k <= i < k + n)%nat -> nth_error err i = Some e -> e == 1).
Proof.
  induction n as [|n IH]; intros k L; cbn [all_ones]; [exists true; split; [reflexivity|split; [intros _ i e I0; lia|reflexivity]]|].
  destruct (vget_in err k ltac:(lia)) as [e E]. rewrite E. cbn [rbind]. apply vget_Ok in E. destruct (Qeq_bool e 1) eqn:Q1.
  - destruct (IH (S k) ltac:(lia)) as (b & B1 & B2). exists b. split; [exact B1|]. rewrite B2. split; intros H i x I0 X; [|apply (H i); auto; lia]. destruct (Nat.eq_dec i k) as [->|NE]; [rewrite E in X; inversion X; subst; apply Qeq_bool_iff; exact Q1|apply (H i); auto; lia].
  - exists false. split; [reflexivity|]. split; [discriminate|]. intros H. specialize (H k e ltac:(lia) E). apply Qeq_bool_iff in H. congruence.
Qed.
Lemma all_ones_not err : forall n k, (k + n <= List.length err)%nat -> all_ones err k n = Ok false -> exists i e, (k <= i < k + n)%nat /\ nth_error err i = Some e /\ ~ e == 1.
Proof.
  induction n as [|n IH]; intros k L; cbn [all_ones]; [discriminate|].
  destruct (vget_in err k ltac:(lia)) as [e E]. rewrite E. cbn [rbind]. apply vget_Ok in E. destruct (Qeq_bool e 1) eqn:Q1.
  - intros H. destruct (IH (S k) ltac:(lia) H) as (i & x & I0 & X & N). exists i, x. split; [lia|auto].
  - intros _. exists k, e. split; [lia|]. split; [exact E|]. intros H. apply Qeq_bool_iff in H. congruence.
Qed.

(** the mask in use *)
Definition eff (n : nat) (mask : list Q) : list Q := match mask with [] => repeat 1 n | _ => mask end.
Lemma eff_length n mask : mask = [] \/ List.length mask = n -> List.length (eff n mask) = n.
Proof. unfold eff. destruct mask; intros [E|E]; try discriminate; try (apply repeat_length); exact E. Qed.
Lemma eff_cb n mask i : (i < n)%nat -> cb (eff n mask) i = countsb mask i.
Proof.
  intros L. unfold cb, countsb, eff. destruct mask as [|m t]; [|reflexivity]. rewrite (nth_error_repeat 1 L). reflexivity.
Qed.
Lemma countsb_spec mask i : countsb mask i = true <-> counts mask i.
Proof.
  unfold countsb, counts. destruct mask as [|m t]; [split; auto|]. destruct (nth_error (m :: t) i) as [x|].
  - destruct (Qeq_bool x 0) eqn:E; cbn [negb]; split; intros H; try discriminate; auto.
    + destruct H as [H|(y & Y & N)]; [discriminate|]. inversion Y; subst. apply Qeq_bool_iff in E. contradiction.
    + right. exists x. split; [reflexivity|]. intros X. apply Qeq_bool_iff in X. congruence.
  - split; [discriminate|]. intros [H|(y & Y & N)]; discriminate.
Qed.
Lemma picked_eff v n mask a b : (b <= n)%nat -> flat_map (fun i => match nth_error v i with Some x => if cb (eff n mask) i then [x] else [] | None => [] end) (seq a (b - a)) = picked v mask a b.
Proof.
  intros L. unfold picked. rewrite !flat_map_concat_map. f_equal. apply map_ext_in. intros i I0. apply in_seq in I0. rewrite eff_cb by lia. reflexivity.
Qed.
Lemma ratio_num_den a b : ratio_of a b = ratio_of a b. Proof. reflexivity. Qed.
Lemma ratio_ext a a' b b' : a == a' -> b == b' -> feq (ratio_of a b) (ratio_of a' b').
Proof.
  intros A B. unfold ratio_of. destruct (Qeq_bool b 0) eqn:E.
  - apply Qeq_bool_iff in E. replace (Qeq_bool b' 0) with true by (symmetry; apply Qeq_bool_iff; rewrite <- B; exact E).
    destruct (Qeq_bool a 0) eqn:EA.
    + apply Qeq_bool_iff in EA. replace (Qeq_bool a' 0) with true by (symmetry; apply Qeq_bool_iff; rewrite <- A; exact EA). exact Logic.I.
    + destruct (Qeq_bool a' 0) eqn:EA'; [apply Qeq_bool_iff in EA'; rewrite <- A in EA'; apply Qeq_bool_iff in EA'; congruence|]. destruct (Qltb_spec a 0) as [L|L]; destruct (Qltb_spec a' 0) as [L'|L']; cbn; auto; lra.
  - destruct (Qeq_bool b' 0) eqn:E'; [apply Qeq_bool_iff in E'; rewrite <- B in E'; apply Qeq_bool_iff in E'; congruence|]. cbn. rewrite A, B. reflexivity.
Qed.

Lemma window_noise_spec err mask n a b mad : (a <= b <= n)%nat -> (err = [] \/ List.length err = n) -> (mask = [] \/ List.length mask = n) -> (exists i, (a <= i < b)%nat /\ counts mask i) ->
  exists noise, window_noise err (eff n mask) a (b - a) mad = Ok noise /\ noise_of err mask a b mad noise.
Proof.
  intros AB LE LM (i & I0 & CI). unfold window_noise. destruct err as [|e0 et]; [exists mad; split; [reflexivity|left; split; [left; reflexivity|reflexivity]]|]. set (err := e0 :: et) in *. assert (NE : err <> []) by discriminate. assert (LL : List.length err = n) by (destruct LE; [contradiction|assumption]). clearbody err.
  destruct (all_ones_spec err (b - a) a ltac:(lia)) as (o & O1 & O2). rewrite O1. cbn [rbind]. destruct o.
  - exists mad. split; [reflexivity|]. left. split; [right|reflexivity]. intros k e K E. destruct O2 as (O2 & _). apply (O2 eq_refl k); auto. lia.
  - apply all_ones_not in O1; [|lia]. destruct (noise_sum_spec (eff n mask) err (b - a) a 0 0 ltac:(lia) ltac:(rewrite eff_length by auto; lia)) as (s' & S1 & S2). rewrite S1. cbn [rbind]. rewrite picked_eff in S1, S2 |- * by lia. cbn [plus].
    assert (P : exists x l, picked err mask a b = x :: l).
    { destruct (nth_error_lt err i ltac:(lia)) as [x X]. assert (IN : In x (picked err mask a b)). { apply in_flat_map. exists i. split; [apply in_seq; lia|]. rewrite X. apply countsb_spec in CI. rewrite CI. left. reflexivity. } destruct (picked err mask a b) as [|y l]; [destruct IN|]. eauto. }
    destruct P as (x & l & P). assert (M : match List.length (picked err mask a b) with O => s' | S _ => s' / inject_Z (Z.of_nat (List.length (picked err mask a b))) end == mean (picked err mask a b)).
    { unfold mean. rewrite P at 1. cbn [List.length]. rewrite S2. setoid_replace (0 + fold_right Qplus 0 (picked err mask a b)) with (fold_right Qplus 0 (picked err mask a b)) by ring. reflexivity. }
    set (mm := match List.length (picked err mask a b) with O => s' | S _ => s' / inject_Z (Z.of_nat (List.length (picked err mask a b))) end) in *. eexists. split; [reflexivity|]. right. split; [exact NE|]. split.
    + destruct O1 as (k & e & K & E & N). exists k, e. split; [lia|auto].
    + fold mm. destruct (Qltb_spec mad mm) as [L|L]; rewrite <- M; symmetry; [apply Q.max_r|apply Q.max_l]; lra.
Qed.

Lemma first_or_last_ok lam w : strictly_increasing lam -> (0 < List.length lam)%nat -> exists i, GetIndexAtWaveLength lam w = Ok i /\ first_or_last lam w i.
Proof.
  intros H L. destruct (GetIndexAtWaveLength_ok lam w H L) as (i & E & I1 & I2 & I3 & I4). exists i. split; [exact E|]. split; [exact I1|]. split; [exact I2|exact I4].
Qed.
Lemma max_exists flux mask beg last : (exists i, (beg <= i <= last)%nat /\ cb mask i = true) -> best_upto flux mask beg (S last) None -> False.
Proof. intros (i & I0 & C) H. cbn in H. rewrite (H i) in C by lia. discriminate. Qed.

Lemma Fluxes_ok s winsize range mask : good_spectrum s -> good_mask s mask -> 0 <= winsize -> inside_spectrum s range -> (exists i, (fst range <= i <= snd range)%Z /\ counts mask (Z.to_nat i)) ->
  exists ratio height mad m v a b med noise, ComputeFluxes s winsize range mask = Ok (ratio, height, mad) /\
    first_largest (sp_flux s) mask (Z.to_nat (fst range)) (Z.to_nat (snd range)) m v /\ peak_window (sp_lam s) winsize (Z.to_nat (fst range)) (Z.to_nat (snd range)) m a b /\ (a <= m < b)%nat /\
    library_median (picked (sp_flux s) mask a b) med /\ conventional_median (map (fun y => Qabs (y - med)) (picked (sp_flux s) mask a b)) mad /\ noise_of (sp_err s) mask a b mad noise /\
    height = v - med /\ ratio = ratio_of height noise /\ Find (picked (sp_flux s) mask a b) = Ok med.
Proof.
  intros (SI & LF & LE) GM W ((R0 & R1) & R2) (i0 & I0 & C0). unfold good_mask in GM. set (n := List.length (sp_lam s)) in *. unfold ComputeFluxes. rewrite LF. fold n.
  destruct (Z.leb_spec (Z.of_nat n) (snd range)) as [L|_]; [lia|]. destruct (Z.ltb_spec (fst range) 0) as [L|_]; [lia|].
  cbv zeta. change (match mask with [] => repeat 1 n | _ => mask end) with (eff n mask). set (beg := Z.to_nat (fst range)). set (last := Z.to_nat (snd range)).
  assert (BL : (beg <= last < n)%nat) by lia. replace (Z.to_nat (snd range + 1 - fst range)) with (S last - beg)%nat by lia. replace (Z.to_nat (snd range + 1)) with (S last) by lia.
  destruct (max_loop_spec (sp_flux s) (eff n mask) beg (S last - beg) beg None ltac:(lia) ltac:(rewrite eff_length by auto; lia) ltac:(lia)) as (st & ST1 & ST2); [cbn; intros; lia|].
  rewrite ST1. cbn [rbind]. replace (beg + (S last - beg))%nat with (S last) in ST2 by lia.
  destruct st as [(v, m)|]; [|exfalso; refine (max_exists _ _ _ _ _ ST2); exists (Z.to_nat i0); split; [lia|rewrite eff_cb by lia; apply countsb_spec; exact C0]].
  cbn [best_upto] in ST2. destruct ST2 as (M1 & M2 & M3 & M4). rewrite eff_cb in M3 by lia.
  destruct (nth_error_lt (sp_lam s) m ltac:(fold n; lia)) as [l Hl]. unfold vget at 1. rewrite Hl. cbn [rbind].
  destruct (first_or_last_ok (sp_lam s) (l - winsize / 2) SI ltac:(fold n; lia)) as (i & Ei & Fi). rewrite Ei. cbn [rbind].
  destruct (first_or_last_ok (sp_lam s) (l + winsize / 2) SI ltac:(fold n; lia)) as (j & Ej & Fj). rewrite Ej. cbn [rbind].
  assert (WH : 0 <= winsize / 2) by (apply Qle_shift_div_l; [reflexivity|]; lra).
  assert (im : (i <= m)%nat). { destruct (le_lt_dec i m) as [X|X]; [exact X|]. destruct Fi as (_ & Fi & _). specialize (Fi m l X Hl). lra. }
  assert (mj : (m <= j)%nat). { destruct (le_lt_dec m j) as [X|X]; [exact X|]. destruct Fj as (J1 & _ & Fj). destruct (nth_error_lt (sp_lam s) j J1) as [x Hx]. destruct (Fj x Hx) as [Y|Y]; [|fold n in Y; lia]. assert (x < l) by (apply (SI j m); auto). lra. }
  assert (jn : (j < n)%nat) by (destruct Fj; assumption).
  set (a := Nat.max beg i). replace (Nat.min (S last) (Nat.min n (j + 1))) with (S (Nat.min last j)) by lia. set (b := S (Nat.min last j)).
  assert (AB : (a <= m < b)%nat) by lia. assert (BN : (b <= n)%nat) by lia.
  rewrite collect_spec by (rewrite ?eff_length by auto; lia). cbn [rbind]. rewrite picked_eff by lia.
  assert (NE : picked (sp_flux s) mask a b <> []). { assert (IN : In v (picked (sp_flux s) mask a b)) by (apply in_flat_map; exists m; split; [apply in_seq; lia|]; rewrite M2, M3; left; reflexivity). intros E. rewrite E in IN. destruct IN. }
  destruct (Find_library_median _ NE) as (med & Md1 & Md2). rewrite Md1. cbn [rbind]. destruct (XMad_spec (picked (sp_flux s) mask a b) med NE) as (mad & X1 & X2). rewrite X1. cbn [rbind].
  destruct (window_noise_spec (sp_err s) mask n a b mad ltac:(lia) LE GM (ex_intro _ m (conj AB (proj1 (countsb_spec _ _) M3)))) as (noise & N1 & N2). rewrite N1. cbn [rbind].
  exists (ratio_of (v - med) noise), (v - med), mad, m, v, a, b, med, noise. split; [reflexivity|]. split.
  { split; [lia|]. split; [exact M2|]. split; [apply countsb_spec; exact M3|]. intros k f K CK F. apply (M4 k f); [lia|rewrite eff_cb by lia; apply countsb_spec; exact CK|exact F]. }
  split; [exists l, i, j; split; [exact Hl|split; [exact Fi|split; [exact Fj|split; reflexivity]]]|]. split; [exact AB|]. split; [exact Md2|]. split; [exact X2|]. split; [exact N2|]. split; [reflexivity|]. split; [reflexivity|exact Md1].
Qed.
(** the largest flux is not below the median *)
Lemma height_nonneg s winsize range mask ratio height mad : good_spectrum s -> good_mask s mask -> 0 <= winsize -> inside_spectrum s range -> (exists i, (fst range <= i <= snd range)%Z /\ counts mask (Z.to_nat i)) ->
  ComputeFluxes s winsize range mask = Ok (ratio, height, mad) -> 0 <= height /\ 0 <= mad.
Proof.
  intros GS GM W IS EX H. destruct (Fluxes_ok s winsize range mask GS GM W IS EX) as (r & h & d & m & v & a & b & med & noise & E & FL & PW & AB & LM & CM & NO & HH & RR & FF). rewrite E in H. inversion H; subst r h d. clear H. subst height.
  assert (ALL : forall x, In x (picked (sp_flux s) mask a b) -> x <= v).
  { intros x X. apply in_flat_map in X. destruct X as (i & I0 & X). apply in_seq in I0. destruct (nth_error (sp_flux s) i) as [f|] eqn:F; [|destruct X]. destruct (countsb mask i) eqn:C; [|destruct X]. destruct X as [<-|[]]. destruct PW as (l & i1 & j1 & _ & (I1 & _) & (J1 & _) & -> & ->). destruct FL as (_ & _ & _ & FL). apply (FL i f); [lia|apply countsb_spec; exact C|exact F]. }
  split.
  - apply Find_weak_median in FF. destruct FF as (_ & F2). destruct (Qlt_le_dec v med) as [L|L]; [|lra]. exfalso.
    assert (Z0 : count (fun x => Qle_bool med x) (picked (sp_flux s) mask a b) = 0%nat).
    { unfold count. revert ALL. generalize (picked (sp_flux s) mask a b). intros l ALL. induction l as [|x t IH]; [reflexivity|]. cbn [filter]. destruct (Qle_bool med x) eqn:QE; [apply Qle_bool_iff in QE; specialize (ALL x (or_introl eq_refl)); lra|]. apply IH. intros y Y. apply ALL. right. exact Y. }
    rewrite Z0 in F2. assert (LN : In v (picked (sp_flux s) mask a b)) by (apply in_flat_map; exists m; split; [apply in_seq; lia|]; destruct FL as (_ & F & C & _); rewrite F; apply countsb_spec in C; rewrite C; left; reflexivity). destruct (picked (sp_flux s) mask a b); [destruct LN|cbn in F2; lia].
  - assert (NN : forall x, In x (map (fun y => Qabs (y - med)) (picked (sp_flux s) mask a b)) -> 0 <= x) by (intros x X; apply in_map_iff in X; destruct X as (y & <- & _); apply Qabs_nonneg).
    assert (OS : forall l k q, (forall x, In x l -> 0 <= x) -> order_statistic l k q -> 0 <= q) by (intros l k q N ((x & X & E0) & _); rewrite <- E0; apply N; exact X).
    unfold conventional_median in CM. destruct (Nat.odd _); [apply (OS _ _ _ NN CM)|]. destruct CM as (lo & hi & -> & A1 & A2). apply OS in A1, A2; auto. lra.
Qed.
Lemma Fluxes_throw s winsize range mask : good_spectrum s -> good_mask s mask -> (fst range < 0)%Z \/ (Z.of_nat (List.length (sp_lam s)) <= snd range)%Z \/ (forall i, (fst range <= i <= snd range)%Z -> ~ counts mask (Z.to_nat i)) ->
  ComputeFluxes s winsize range mask = Throw INTERNAL_ERROR.
Proof.
  intros (SI & LF & LE) GM H. unfold ComputeFluxes. rewrite LF. set (n := List.length (sp_lam s)) in *. destruct (Z.leb_spec (Z.of_nat n) (snd range)) as [L|L]; [reflexivity|]. destruct (Z.ltb_spec (fst range) 0) as [L'|L']; [reflexivity|].
  assert (NC : forall i, (fst range <= i <= snd range)%Z -> ~ counts mask (Z.to_nat i)) by (destruct H as [H|[H|H]]; [lia|lia|exact H]). cbv zeta.
  change (match mask with [] => repeat 1 n | _ => mask end) with (eff n mask). destruct (Z.le_gt_cases (fst range) (snd range + 1)) as [O|O].
  - destruct (max_loop_spec (sp_flux s) (eff n mask) (Z.to_nat (fst range)) (Z.to_nat (snd range + 1 - fst range)) (Z.to_nat (fst range)) None ltac:(lia) ltac:(rewrite eff_length by exact GM; lia) ltac:(lia)) as (st & ST1 & ST2); [cbn; intros; lia|].
    rewrite ST1. cbn [rbind]. destruct st as [(v, m)|]; [|reflexivity]. exfalso. cbn [best_upto] in ST2. destruct ST2 as (M1 & _ & M3 & _). rewrite eff_cb in M3 by lia. apply countsb_spec in M3. apply (NC (Z.of_nat m)); [lia|]. rewrite Nat2Z.id. exact M3.
  - replace (Z.to_nat (snd range + 1 - fst range)) with 0%nat by lia. reflexivity.
Qed.
