From Verif Require Import Base RangeModel RangeProofs AxisModel AxisProofs CalzModel CalzProofs MeikModel MeikSpec MeikProofs TplModel TplSpec.
Open Scope Q_scope.

(** ** the loop *)
Lemma apply_loop_ok coef comb axis no other : forall n k cs fl cs' fl', apply_loop coef comb axis no other k n cs fl = ((cs', fl'), Ok tt) ->
  length cs' = length cs /\ length fl' = length fl /\
  (forall i, (k <= i < k + n)%nat -> exists lam c f o, nth_error axis i = Some lam /\ coef lam = Ok c /\ nth_error no i = Some f /\ nth_error other i = Some o /\
     nth_error cs' i = Some c /\ nth_error fl' i = Some (comb f c o)) /\
  (forall i, ~ (k <= i < k + n)%nat -> nth_error cs' i = nth_error cs i /\ nth_error fl' i = nth_error fl i).
Proof.
  induction n as [|n IH]; intros k cs fl cs' fl' H; cbn [apply_loop] in H.
  - inversion H; subst. repeat split; auto; intros i Hi; lia.
  - unfold vget in H at 1. destruct (nth_error axis k) as [lam|] eqn:El; [|discriminate]. cbn [rbind] in H. destruct (coef lam) as [c| |] eqn:Ec; [|discriminate|discriminate].
    destruct (vset cs k c) as [cs1| |] eqn:E1; [|discriminate|discriminate]. cbn [rbind] in H. unfold vget in H. destruct (nth_error no k) as [f|] eqn:Ef; [|discriminate]. cbn [rbind] in H.
    destruct (nth_error other k) as [o|] eqn:Eo; [|discriminate]. cbn [rbind] in H. destruct (vset fl k (comb f c o)) as [fl1| |] eqn:E2; [|discriminate|discriminate]. cbn [rbind] in H.
    apply vset_get in E1, E2. destruct E1 as (_ & L1 & G1), E2 as (_ & L2 & G2). destruct (IH _ _ _ _ _ H) as (L3 & L4 & Gi & Go).
    split; [congruence|]. split; [congruence|]. split.
    + intros i Hi. destruct (Nat.eq_dec i k) as [->|Ne]; [|apply Gi; lia]. exists lam, c, f, o. destruct (Go k) as [A B]; [lia|]. rewrite A, B, G1, G2, Nat.eqb_refl. auto 10.
    + intros i Hi. destruct (Go i) as [A B]; [lia|]. rewrite A, B, G1, G2. destruct (Nat.eqb_spec i k); [lia|]. auto.
Qed.
Lemma apply_loop_total coef comb axis no other : forall n k cs fl, (forall lam, In lam axis -> exists c, coef lam = Ok c) -> (k + n <= length axis)%nat -> (k + n <= length no)%nat -> (k + n <= length other)%nat ->
  (k + n <= length cs)%nat -> (k + n <= length fl)%nat -> exists cs' fl', apply_loop coef comb axis no other k n cs fl = ((cs', fl'), Ok tt).
Proof.
  induction n as [|n IH]; intros k cs fl C L1 L2 L3 L4 L5; cbn [apply_loop]; [eauto|].
  destruct (nth_error_lt axis k) as [lam El]; [lia|]. unfold vget at 1. rewrite El. cbn [rbind]. destruct (C lam) as [c Ec]; [eapply nth_error_In; eauto|]. rewrite Ec.
  destruct (vset_ok cs k c) as (cs1 & E1 & Q1 & _); [lia|]. rewrite E1. cbn [rbind]. destruct (nth_error_lt no k) as [f Ef]; [lia|]. destruct (nth_error_lt other k) as [o Eo]; [lia|]. unfold vget. rewrite Ef, Eo. cbn [rbind].
  destruct (vset_ok fl k (comb f c o)) as (fl1 & E2 & Q2 & _); [lia|]. rewrite E2. cbn [rbind]. apply IH; auto; lia.
Qed.

(** ** the last sample of the igm *)
Lemma nth_firstn_skipn {A} (l : list A) a n i x : nth_error (firstn n (skipn a l)) i = Some x <-> (i < n)%nat /\ nth_error l (a + i) = Some x.
Proof.
  revert l n i. induction a as [|a IH]; intros l n i.
  - cbn [skipn Nat.add]. revert l i. induction n as [|n IHn]; intros l i; cbn [firstn]; [destruct i; split; intros H; try discriminate; destruct H; lia|].
    destruct l as [|y l]; [destruct i; cbn; split; intros H; try discriminate; destruct H; discriminate|]. destruct i as [|i]; cbn; [split; [intro; split; [lia|assumption]|intros [_ H]; exact H]|].
    rewrite IHn. split; intros [H1 H2]; split; auto; lia.
  - destruct l as [|y l]; cbn [skipn Nat.add]; [|apply IH]. rewrite firstn_nil. destruct i; cbn; split; intros H; try discriminate; destruct H as [_ H]; [discriminate|]. destruct (a + S i)%nat; discriminate.
Qed.
Lemma increasing_sub l a n : increasing l -> increasing (firstn n (skipn a l)).
Proof.
  intros I i j x y H Hx Hy. apply nth_firstn_skipn in Hx, Hy. destruct Hx as [_ Hx], Hy as [_ Hy]. apply (I (a + i)%nat (a + j)%nat); auto. lia.
Qed.
Lemma IgmEnd axis ks ke ie : increasing axis -> (0 <= ks)%Z -> (ke < Z.of_nat (length axis))%Z -> GetIgmEndIndex axis ks ke = Ok ie ->
  (ie = (-1)%Z \/ (ks <= ie <= ke)%Z) /\ forall k lam, (ks <= Z.of_nat k <= ke)%Z -> nth_error axis k = Some lam -> (lam <= 1216 <-> (Z.of_nat k <= ie)%Z).
Proof.
  intros I K0 Kn H. unfold GetIgmEndIndex in H. destruct (Z.ltb_spec (ke + 1) ks) as [X|X]; [discriminate|]. cbv zeta in H. set (l := firstn (turns ks ke) (skipn (Z.to_nat ks) axis)) in *.
  assert (Il : increasing l) by (apply increasing_sub; exact I). assert (Ll : length l = turns ks ke) by (unfold l, turns; rewrite firstn_length, skipn_length; lia).
  pose proof (upper_bound_le_length l lya) as U. unfold turns in Ll. rewrite Ll in U.
  assert (G : forall k lam, (ks <= Z.of_nat k <= ke)%Z -> nth_error axis k = Some lam -> (lam <= 1216 <-> (k - Z.to_nat ks < upper_bound l lya)%nat)).
  { intros k lam Hk Hlam. assert (Hn : nth_error l (k - Z.to_nat ks) = Some lam).
    { unfold l. apply nth_firstn_skipn. unfold turns. split; [lia|]. replace (Z.to_nat ks + (k - Z.to_nat ks))%nat with k by lia. exact Hlam. }
    split; intro Y.
    - destruct (Nat.lt_ge_cases (k - Z.to_nat ks) (upper_bound l lya)) as [?|W]; [assumption|]. pose proof (upper_bound_from l lya _ _ Il W Hn) as V. unfold lya in V. lra.
    - exact (upper_bound_before l lya _ _ Y Hn). }
  destruct (upper_bound l lya) as [|i] eqn:Eu; inversion H; subst ie; clear H.
  - split; [left; reflexivity|]. intros k lam Hk Hlam. rewrite (G k lam Hk Hlam). lia.
  - split; [right; lia|]. intros k lam Hk Hlam. rewrite (G k lam Hk Hlam). lia.
Qed.

(** ** the invariant *)
Record good (axis f0 : list Q) (t : tpl) (v : view) : Prop := {
  g_axis : t_axis t = axis; g_len0 : length f0 = length axis; g_flux : length (t_flux t) = length axis;
  g_on : enabled t = v_on v; g_cal : t_cal t = v_cal v; g_mei : t_mei t = v_mei v;
  g_fine : forall m, v_mei v = Some m -> (1 <= mk_fine m)%Z;
  g_off : v_on v = false -> forall k f, nth_error f0 k = Some f -> exists x, nth_error (t_flux t) k = Some x /\ x == f * v_amp v;
  g_cfg : v_on v = true -> length (t_no t) = length axis /\ length (t_cd t) = length axis /\ length (t_cm t) = length axis /\
    t_ks t = v_ks v /\ t_ke t = v_ke v /\ (0 <= v_ks v < Z.of_nat (length axis))%Z /\ (0 <= v_ke v < Z.of_nat (length axis))%Z /\ t_dust t = v_dust v /\ t_igm t = v_igm v;
  g_igm : v_on v = true -> (v_mei v = None -> (v_igm v < 0)%Z) /\
    forall m, v_mei v = Some m -> getRedshiftIndex m (v_z v) = Ok (t_zi t) /\ GetIgmEndIndex axis (v_ks v) (v_ke v) = Ok (t_ie t) /\ (t_zi t = (-1)%Z -> t_ie t = (-1)%Z);
  g_dust0 : v_on v = true -> v_cal v = None -> (v_dust v < 0)%Z;
  g_pt : v_on v = true -> forall k lam f, nth_error axis k = Some lam -> nth_error f0 k = Some f ->
    exists n d m x, nth_error (t_no t) k = Some n /\ nth_error (t_cd t) k = Some d /\ nth_error (t_cm t) k = Some m /\ nth_error (t_flux t) k = Some x /\
      n == f * v_amp v /\ x == n * m * d /\ dust_of v k lam d /\ igm_of v k lam m }.

Lemma good_new axis f0 t : NewTpl axis f0 = Ok t -> good axis f0 t view0.
Proof.
  unfold NewTpl. destruct (Nat.eqb_spec (length axis) (length f0)) as [E|E]; cbn [negb]; [|discriminate]. intro H. inversion H; subst t. split; cbn; try congruence; try discriminate.
  - intros _ k f Hf. exists f. split; [exact Hf|ring].
Qed.

Lemma enabled_length t : enabled t = true <-> t_no t <> [].
Proof. unfold enabled. destruct (t_no t); cbn; split; congruence. Qed.

Lemma good_init axis f0 t v ks ke z cal mei t' : increasing axis -> good axis f0 t v -> convolved (Init ks ke z cal mei) -> InitIsmIgmConfig t ks ke z cal mei = (t', Ok tt) -> good axis f0 t' (see v (Init ks ke z cal mei)).
Proof.
  intros I G Cv H. destruct G as [ga gl0 gf gon gcal gmei gfine goff gcfg gigm gd gpt]. unfold InitIsmIgmConfig in H. cbv zeta in H. set (cal' := match cal with None => t_cal t | _ => cal end) in *. set (mei' := match mei with None => t_mei t | _ => mei end) in *.
  cbn [t_axis t_cal t_mei with_tables t_flux t_no t_cd t_cm t_zi] in H.
  assert (Hc : cal' = other cal (v_cal v)) by (unfold cal', other; destruct cal; auto). assert (Hm : mei' = other mei (v_mei v)) by (unfold mei', other; destruct mei; auto).
  assert (Hf : forall m, mei' = Some m -> (1 <= mk_fine m)%Z).
  { intros m E. unfold mei' in E. destruct mei as [m0|]; [inversion E; subst; exact Cv|]. apply gfine. congruence. }
  clearbody cal' mei'. rewrite ga in H. set (n := Z.of_nat (length axis)) in *.
  match type of H with context[match cal' with Some _ => ?X | None => _ end] => assert (E0 : X = (t', Ok tt)) by (destruct cal'; [exact H|destruct mei'; [exact H|discriminate]]) end.
  clear H. rename E0 into H. destruct (Z.ltb_spec ks 0) as [X|K0]; cbn [orb] in H; [discriminate|]. destruct (Z.leb_spec n ks) as [X|K1]; [discriminate|].
  destruct (Z.ltb_spec ke 0) as [X|E0]; cbn [orb] in H; [discriminate|]. destruct (Z.leb_spec n ke) as [X|E1]; [discriminate|].
  assert (Nn : (1 <= length axis)%nat) by lia.
  assert (St : exists zi ie, init_end (mkTpl axis (t_flux t) (t_no t) (-1) (-1) zi ks ke ie (t_cd t) (t_cm t) cal' mei') = (t', Ok tt) /\
                 (forall m, mei' = Some m -> getRedshiftIndex m z = Ok zi /\ GetIgmEndIndex axis ks ke = Ok ie /\ (zi = (-1)%Z -> ie = (-1)%Z))).
  { destruct mei' as [m|]; [|exists (t_zi t), (-1)%Z; split; [exact H|intros m Y; discriminate]].
    destruct (getRedshiftIndex m z) as [zi| |] eqn:Ez; [|discriminate|discriminate]. destruct (GetIgmEndIndex axis ks ke) as [ie| |] eqn:Ei; [|discriminate|discriminate].
    destruct (Z.eqb_spec zi (-1)) as [Z1|Z1]; cbn [andb] in H.
    - destruct (Z.eqb_spec ie (-1)) as [I1|I1]; cbn [negb] in H; [|discriminate]. exists zi, ie. split; [exact H|]. intros m' Y. inversion Y; subst. auto.
    - exists zi, ie. split; [exact H|]. intros m' Y. inversion Y; subst. repeat split; auto. contradiction. }
  clear H. destruct St as (zi & ie & H & Hzi). unfold init_end in H. cbv zeta in H.
  set (t1 := mkTpl axis (t_flux t) (t_no t) (-1) (-1) zi ks ke ie (t_cd t) (t_cm t) cal' mei') in *.
  assert (P : exists fl no, (if enabled t1 then with_flux t1 (t_no t1) else with_no t1 (t_flux t1)) = mkTpl axis fl no (-1) (-1) zi ks ke ie (t_cd t) (t_cm t) cal' mei' /\
     length fl = length axis /\ length no = length axis /\ forall k f, nth_error f0 k = Some f -> exists x, nth_error fl k = Some x /\ nth_error no k = Some x /\ x == f * v_amp v).
  { change (enabled t1) with (enabled t). destruct (enabled t) eqn:En.
    - exists (t_no t), (t_no t). destruct (gcfg (eq_sym gon)) as (Ln & _). repeat split; auto. intros k f Hk. pose proof (nth_error_len _ _ _ Hk) as Lk. destruct (nth_error_lt axis k) as [lam Hlam]; [lia|].
      destruct (gpt (eq_sym gon) k lam f Hlam Hk) as (n0 & d & m & x & Hn & _ & _ & _ & En0 & _). exists n0. auto.
    - exists (t_flux t), (t_flux t). repeat split; auto. intros k f Hk. destruct (goff (eq_sym gon) k f Hk) as (x & Hx & Ex). exists x. auto. }
  destruct P as (fl & no & Ep & Lfl & Lno & Gp). rewrite Ep in H. clear Ep t1. inversion H; subst t'. clear H.
  assert (Rp : forall k, (k < length axis)%nat -> nth_error (repeat 1 (length axis)) k = Some 1).
  { clear. intro k. generalize (length axis). revert k. induction k as [|k IH]; intros [|q] Hk; cbn; try lia; [reflexivity|apply IH; lia]. }
  split; cbn [t_axis t_flux t_no t_dust t_igm t_zi t_ks t_ke t_ie t_cd t_cm t_cal t_mei with_cd with_cm see v_on v_ks v_ke v_z v_cal v_mei v_dust v_igm v_amp]; auto; try discriminate.
  - unfold enabled. cbn [t_no with_cd with_cm]. destruct (Nat.eqb_spec (length no) 0); [lia|reflexivity].
  - intros m E. apply Hf. congruence.
  - intros _. rewrite !repeat_length. repeat split; auto; lia.
  - intros _. split; [lia|]. intros m E. apply Hzi. congruence.
  - intros; lia.
  - intros _ k lam f Hlam Hk. destruct (Gp k f Hk) as (x & Hx & Hnx & Ex). pose proof (nth_error_len _ _ _ Hlam) as Lk. exists x, 1, 1, x. rewrite !Rp by exact Lk. repeat (split; [reflexivity || assumption|]). split; [ring|].
    split; right; (split; [right; reflexivity|reflexivity]).
Qed.

Lemma good_same axis f0 t v w : good axis f0 t v -> w = v -> good axis f0 t w.
Proof. intros G ->. exact G. Qed.

Lemma good_dust axis f0 t v k t' r : good axis f0 t v -> ApplyDustCoeff t k = (t', Ok r) -> good axis f0 t' (see v (Dust k)) /\ r = true.
Proof.
  intros G H. unfold ApplyDustCoeff in H. destruct (enabled t) eqn:En; [|discriminate]. destruct (t_cal t) as [cal|] eqn:Ec; [|discriminate].
  pose proof (g_on _ _ _ _ G) as On. rewrite En in On. symmetry in On. destruct (g_cfg _ _ _ _ G On) as (Ln & Lcd & Lcm & Eks & Eke & Rks & Rke & Ed & Ei).
  destruct (Z.eqb_spec (t_dust t) k) as [E|E].
  { inversion H; subst. split; [|reflexivity]. eapply good_same; [exact G|]. destruct v; cbn in *. congruence. }
  cbv zeta in H. cbn [t_axis t_no t_cm t_ks t_ke t_cd t_flux with_dust] in H.
  destruct (apply_loop _ _ _ _ _ _ _ _ _) as [[cd fl] rr] eqn:Al. inversion H; subst t'. destruct rr as [[]| |]; cbn [rbind] in *; try discriminate. inversion H; subst r. split; [|reflexivity].
  apply apply_loop_ok in Al. destruct Al as (L1 & L2 & Gi & Go). rewrite Eks, Eke in *. unfold turns in *.
  destruct G as [ga gl0 gf gon gcal gmei gfine goff gcfg gigm gd gpt]. split; cbn [t_axis t_flux t_no t_dust t_igm t_zi t_ks t_ke t_ie t_cd t_cm t_cal t_mei with_flux with_cd with_dust see v_on v_ks v_ke v_z v_cal v_mei v_dust v_igm v_amp]; auto; try congruence.
  - intros _. repeat split; auto; try congruence; try lia.
  - intros _ i lam f Hlam Hf. destruct (gpt On i lam f Hlam Hf) as (n & d & m & x & Hn & Hd & Hm & Hx & En0 & Ex & Dd & Dm).
    destruct (le_lt_dec (Z.to_nat (v_ks v)) i) as [A|A]; [destruct (le_lt_dec (Z.to_nat (v_ks v) + Z.to_nat (v_ke v + 1 - v_ks v)) i) as [B|B]|].
    1,3: destruct (Go i) as [Q1 Q2]; [lia|]; exists n, d, m, x; rewrite Q1, Q2; repeat (split; [assumption|]); split;
      [right; split; [left; unfold in_range; cbn; intros [_ Y]; lia|]; destruct Dd as [[[_ Y] _]|[_ Y]]; [lia|exact Y]|
       destruct Dm as [[Y _]|[_ Y]]; [unfold in_range in Y; lia|right; split; [left; unfold in_range; cbn; intros [_ W]; lia|exact Y]]].
    destruct (Gi i) as (lam' & c & f' & o & Hlam' & Hc & Hf' & Ho & Hcs & Hfl); [lia|]. rewrite ga in Hlam'. rewrite Hlam in Hlam'. inversion Hlam'; subst lam'. rewrite Hn in Hf'. inversion Hf'; subst f'. rewrite Hm in Ho. inversion Ho; subst o.
    exists n, c, m, (n * m * c). repeat (split; [assumption || reflexivity|]).
    assert (Ir : in_range v i) by (unfold in_range; split; [exact On|lia]). split.
    + unfold dust_of, in_range in *. cbn. destruct (Z.ltb_spec (-1) k) as [K|K]; [left|right].
      * split; [exact Ir|]. split; [lia|]. exists cal. split; [congruence|exact Hc].
      * split; [right; lia|congruence].
    + unfold igm_of, in_range in *. cbn. exact Dm.
Qed.

Lemma wave_low m lam : (1 <= mk_fine m)%Z -> ~ mk_min m <= lam -> getWaveIndex m lam = 0%Z.
Proof.
  intros F H. unfold getWaveIndex. assert (R : (Qround_away ((lam - mk_min m) / fine_step) <= 0)%Z).
  { set (x := (lam - mk_min m) / fine_step). assert (X : x < 0) by (unfold x; rewrite fine_step_eq; lra). unfold Qround_away. destruct (Qltb_spec x 0) as [Y|Y]; [|lra]. apply ceil_le. change (inject_Z 0) with 0. lra. }
  lia.
Qed.

Lemma good_igm axis f0 t v k t' r : increasing axis -> good axis f0 t v -> ApplyMeiksinCoeff t k = (t', Ok r) ->
  good axis f0 t' (see v (Igm k)) /\ (r = true <-> exists i lam, in_range v i /\ nth_error axis i = Some lam /\ lam <= 1216).
Proof.
  intros I G H. unfold ApplyMeiksinCoeff in H. destruct (enabled t) eqn:En; [|discriminate]. destruct (t_mei t) as [mei|] eqn:Em; [|discriminate].
  pose proof (g_on _ _ _ _ G) as On. rewrite En in On. symmetry in On. destruct (g_cfg _ _ _ _ G On) as (Ln & Lcd & Lcm & Eks & Eke & Rks & Rke & Ed & Ei).
  pose proof (g_mei _ _ _ _ G) as Gm. rewrite Em in Gm. symmetry in Gm. destruct (g_igm _ _ _ _ G On) as [_ Gi0]. destruct (Gi0 mei Gm) as (Hz & Hie & Hzi). clear Gi0.
  destruct (IgmEnd axis (v_ks v) (v_ke v) (t_ie t) I) as [Rie Sie]; [lia|lia|exact Hie|].
  assert (Rt : negb (Z.eqb (t_ie t) (-1)) = true <-> exists i lam, in_range v i /\ nth_error axis i = Some lam /\ lam <= 1216).
  { split.
    - intro Y. destruct (Z.eqb_spec (t_ie t) (-1)) as [W|W]; [discriminate|]. destruct Rie as [W'|Rie]; [contradiction|]. destruct (nth_error_lt axis (Z.to_nat (t_ie t))) as [lam Hlam]; [lia|].
      exists (Z.to_nat (t_ie t)), lam. split; [split; [exact On|lia]|]. split; [exact Hlam|]. assert (Rr : (v_ks v <= Z.of_nat (Z.to_nat (t_ie t)) <= v_ke v)%Z) by lia. apply (Sie _ _ Rr Hlam). lia.
    - intros (i & lam & [_ Ri] & Hlam & Le). apply (Sie i lam Ri Hlam) in Le. destruct (Z.eqb_spec (t_ie t) (-1)) as [W|W]; [lia|reflexivity]. }
  destruct (Z.eqb_spec (t_igm t) k) as [E|E].
  { inversion H; subst. split; [|exact Rt]. eapply good_same; [exact G|]. destruct v; cbn in *. congruence. }
  cbv zeta in H. cbn [t_axis t_no t_cm t_ks t_ke t_cd t_flux with_igm t_ie t_zi] in H.
  pose proof (g_fine _ _ _ _ G mei Gm) as Fine.
  destruct (Z.eqb_spec (t_ie t) (-1)) as [W|W].
  - inversion H; subst t' r. split; [|exact Rt].
    destruct G as [ga gl0 gf gon gcal gmei gfine goff gcfg gigm gd gpt]. split; cbn [t_axis t_flux t_no t_dust t_igm t_zi t_ks t_ke t_ie t_cd t_cm t_cal t_mei with_igm see v_on v_ks v_ke v_z v_cal v_mei v_dust v_igm v_amp]; auto; try congruence.
    + intros _. repeat split; auto; try congruence; lia.
    + intros _. split; [congruence|]. intros m Y. assert (m = mei) by congruence. subst m. auto.
    + intros _ i lam f Hlam Hf. destruct (gpt On i lam f Hlam Hf) as (n & d & m & x & Hn & Hd & Hm & Hx & En0 & Ex & Dd & Dm).
      exists n, d, m, x. repeat (split; [assumption|]). unfold dust_of, igm_of, in_range in *. cbn. try (split; [exact Dd|]).
      destruct (Z_le_dec (v_ks v) (Z.of_nat i)) as [A|A]; [destruct (Z_le_dec (Z.of_nat i) (v_ke v)) as [B|B]|].
      2,3: right; split; [left; lia|]; destruct Dm as [[Y _]|[_ Y]]; [lia|exact Y].
      assert (Gt : 1216 < lam). { destruct (Qlt_le_dec 1216 lam) as [?|L]; [assumption|]. apply (Sie i lam (conj A B) Hlam) in L. lia. }
      assert (m = 1). { destruct Dm as [[_ [_ [m0 [E0 E1]]]]|[_ Y]]; [|exact Y]. rewrite (proj1 (Corr_above m0 (v_z v) (v_igm v) lam Gt)) in E1. congruence. }
      subst m. destruct (Z_le_dec 0 k) as [K|K]; [left|right; split; [right; lia|reflexivity]]. split; [auto|]. split; [exact K|]. exists mei. split; [exact Gm|]. exact (proj1 (Corr_above mei (v_z v) k lam Gt)).
  - destruct Rie as [Y|Rie]; [contradiction|]. cbn [negb] in Rt.
    destruct (apply_loop _ _ _ _ _ _ _ _ _) as [[cm fl] rr] eqn:Al. inversion H; subst t'. destruct rr as [[]| |]; cbn [rbind] in *; try discriminate. inversion H; subst r. split; [|exact Rt].
    apply apply_loop_ok in Al. destruct Al as (L1 & L2 & Gi & Go). rewrite Eks in *. unfold turns in *.
    destruct G as [ga gl0 gf gon gcal gmei gfine goff gcfg gigm gd gpt]. split; cbn [t_axis t_flux t_no t_dust t_igm t_zi t_ks t_ke t_ie t_cd t_cm t_cal t_mei with_flux with_cm with_igm see v_on v_ks v_ke v_z v_cal v_mei v_dust v_igm v_amp]; auto; try congruence.
    + intros _. repeat split; auto; try congruence; lia.
    + intros _. split; [congruence|]. intros m Y. assert (m = mei) by congruence. subst m. auto.
    + intros _ i lam f Hlam Hf. destruct (gpt On i lam f Hlam Hf) as (n & d & m & x & Hn & Hd & Hm & Hx & En0 & Ex & Dd & Dm).
      destruct (Z_le_dec (v_ks v) (Z.of_nat i)) as [A|A]; [destruct (Z_le_dec (Z.of_nat i) (t_ie t)) as [B|B]|].
      * destruct (Gi i) as (lam' & c & f' & o & Hlam' & Hc & Hf' & Ho & Hcs & Hfl); [lia|]. rewrite ga in Hlam'. rewrite Hlam in Hlam'. inversion Hlam'; subst lam'. rewrite Hn in Hf'. inversion Hf'; subst f'. rewrite Hd in Ho. inversion Ho; subst o.
        exists n, d, c, (n * c * d). repeat (split; [assumption || reflexivity|]). unfold dust_of, igm_of, in_range in *. cbn. try (split; [exact Dd|]).
        assert (Rr : (v_ks v <= Z.of_nat i <= v_ke v)%Z) by lia. assert (Hle : lam <= 1216) by (apply (Sie i lam Rr Hlam); exact B).
        unfold igm_coef in Hc. destruct (Z.ltb_spec (-1) k) as [K|K]; [left|right; split; [right; lia|congruence]].
        split; [split; [exact On|lia]|]. split; [lia|]. exists mei. split; [exact Gm|]. unfold getCorrection. rewrite (proj2 (Qltb_false lya lam)) by exact Hle.
        destruct (Z.eqb_spec k (-1)) as [Y|_]; [lia|]. rewrite Hz. cbn [rbind]. destruct (Z.eqb_spec (t_zi t) (-1)) as [Y|_]; [apply Hzi in Y; contradiction|].
        destruct (Qle_bool (mk_min mei) lam) eqn:Ql; [exact Hc|]. rewrite wave_low; [exact Hc|exact Fine|]. intro Y. apply Qle_bool_iff in Y. congruence.
      * destruct (Go i) as [Q1 Q2]; [lia|]. exists n, d, m, x. rewrite Q1, Q2. repeat (split; [assumption|]). unfold dust_of, igm_of, in_range in *. cbn. try (split; [exact Dd|]).
        destruct (Z_le_dec (Z.of_nat i) (v_ke v)) as [C|C].
        -- assert (Gt : 1216 < lam). { destruct (Qlt_le_dec 1216 lam) as [?|L]; [assumption|]. apply (Sie i lam (conj A C) Hlam) in L. lia. }
           assert (m = 1). { destruct Dm as [[_ [_ [m0 [E0 E1]]]]|[_ Y]]; [|exact Y]. rewrite (proj1 (Corr_above m0 (v_z v) (v_igm v) lam Gt)) in E1. congruence. }
           subst m. destruct (Z_le_dec 0 k) as [K|K]; [left|right; split; [right; lia|reflexivity]]. split; [auto|]. split; [exact K|]. exists mei. split; [exact Gm|]. exact (proj1 (Corr_above mei (v_z v) k lam Gt)).
        -- right; split; [left; lia|]; destruct Dm as [[Y _]|[_ Y]]; [lia|exact Y].
      * destruct (Go i) as [Q1 Q2]; [lia|]. exists n, d, m, x. rewrite Q1, Q2. repeat (split; [assumption|]). unfold dust_of, igm_of, in_range in *. cbn. try (split; [exact Dd|]).
        right; split; [left; lia|]; destruct Dm as [[Y _]|[_ Y]]; [lia|exact Y].
Qed.

Lemma good_amp axis f0 t v a : good axis f0 t v -> good axis f0 (ApplyAmplitude t a) (see v (Amp a)).
Proof.
  intros [ga gl0 gf gon gcal gmei gfine goff gcfg gigm gd gpt]. unfold ApplyAmplitude, BaseAmplitude. change (enabled (with_flux t (map (fun x => a * x) (t_flux t)))) with (enabled t).
  destruct (enabled t) eqn:En; split; cbn [t_axis t_flux t_no t_dust t_igm t_zi t_ks t_ke t_ie t_cd t_cm t_cal t_mei with_flux with_no see v_on v_ks v_ke v_z v_cal v_mei v_dust v_igm v_amp]; auto; try (rewrite map_length; assumption); try congruence.
  - unfold enabled in *. cbn [t_no with_no with_flux] in *. rewrite map_length. congruence.
  - intros On i lam f Hlam Hf. destruct (gpt On i lam f Hlam Hf) as (n & d & m & x & Hn & Hd & Hm & Hx & En0 & Ex & Dd & Dm).
    exists (a * n), d, m, (a * x). split; [apply map_nth_error; exact Hn|]. repeat (split; [assumption|]). split; [apply map_nth_error; exact Hx|]. split; [rewrite En0; ring|]. split; [rewrite Ex; ring|]. split; [exact Dd|exact Dm].
  - exact gon || (change (enabled (with_flux t (map (fun x : Q => a * x) (t_flux t)))) with (enabled t); congruence).
  - intros Off k f Hf. destruct (goff Off k f Hf) as (x & Hx & Ex). exists (a * x). split; [apply map_nth_error; exact Hx|]. rewrite Ex. ring.
Qed.

Lemma good_disable axis f0 t v : good axis f0 t v -> good axis f0 (DisableIsmIgm t) (see v Disable).
Proof.
  intros [ga gl0 gf gon gcal gmei gfine goff gcfg gigm gd gpt]. unfold DisableIsmIgm.
  destruct (enabled t) eqn:En; split; cbn [t_axis t_flux t_no t_dust t_igm t_zi t_ks t_ke t_ie t_cd t_cm t_cal t_mei with_flux with_no see v_on v_ks v_ke v_z v_cal v_mei v_dust v_igm v_amp]; auto; try discriminate.
  - destruct (gcfg (eq_sym gon)) as (L & _). exact L.
  - intros _ k f Hf. pose proof (nth_error_len _ _ _ Hf) as Lk. destruct (nth_error_lt axis k) as [lam Hlam]; [lia|].
    destruct (gpt (eq_sym gon) k lam f Hlam Hf) as (n & d & m & x & Hn & _ & _ & _ & En0 & _). exists n. auto.
Qed.

Lemma good_run axis f0 : increasing axis -> forall cs t v t', good axis f0 t v -> Forall convolved cs -> run t cs = Ok t' -> good axis f0 t' (fold_left see cs v).
Proof.
  intro I. induction cs as [|c cs IH]; intros t v t' G F H; cbn [run fold_left] in *; [inversion H; subst; exact G|].
  inversion F as [|? ? Fc Fcs]; subst. destruct (step t c) as [t1 [[]| |]] eqn:E; try discriminate. apply (IH t1 _ t'); auto. clear H IH.
  destruct c as [ks ke z cal mei|k|k|a|]; cbn [step] in E.
  - exact (good_init _ _ _ _ _ _ _ _ _ _ I G Fc E).
  - destruct (ApplyDustCoeff t k) as [t2 r] eqn:D. destruct r as [r| |]; cbn [rbind] in E; inversion E; subst. exact (proj1 (good_dust _ _ _ _ _ _ _ G D)).
  - destruct (ApplyMeiksinCoeff t k) as [t2 r] eqn:D. destruct r as [r| |]; cbn [rbind] in E; inversion E; subst. exact (proj1 (good_igm _ _ _ _ _ _ _ I G D)).
  - inversion E; subst. apply good_amp; exact G.
  - inversion E; subst. apply good_disable; exact G.
Qed.

(** ** the flux after a program *)
Lemma Session axis f0 t0 cs t' : increasing axis -> NewTpl axis f0 = Ok t0 -> Forall convolved cs -> run t0 cs = Ok t' ->
  t_axis t' = axis /\ length (t_flux t') = length f0 /\ enabled t' = v_on (seen cs) /\
  forall k lam f, nth_error axis k = Some lam -> nth_error f0 k = Some f ->
    exists x d m, nth_error (t_flux t') k = Some x /\ dust_of (seen cs) k lam d /\ igm_of (seen cs) k lam m /\ x == f * v_amp (seen cs) * m * d.
Proof.
  intros I N F R. pose proof (good_run axis f0 I cs t0 view0 t' (good_new _ _ _ N) F R) as G. fold (seen cs) in G.
  destruct G as [ga gl0 gf gon gcal gmei gfine goff gcfg gigm gd gpt]. split; [exact ga|]. split; [congruence|]. split; [exact gon|].
  intros k lam f Hlam Hf. destruct (v_on (seen cs)) eqn:On.
  - destruct (gpt eq_refl k lam f Hlam Hf) as (n & d & m & x & Hn & Hd & Hm & Hx & En0 & Ex & Dd & Dm). exists x, d, m. repeat (split; [assumption|]). rewrite Ex, En0. ring.
  - destruct (goff eq_refl k f Hf) as (x & Hx & Ex). exists x, 1, 1. unfold dust_of, igm_of, in_range. rewrite On. split; [exact Hx|].
    split; [right; split; [left; intros [Y _]; discriminate|reflexivity]|]. split; [right; split; [left; intros [Y _]; discriminate|reflexivity]|]. rewrite Ex. ring.
Qed.
Lemma Disabled axis f0 t0 cs t' k lam f : increasing axis -> NewTpl axis f0 = Ok t0 -> Forall convolved cs -> run t0 (cs ++ [Disable]) = Ok t' ->
  nth_error axis k = Some lam -> nth_error f0 k = Some f -> exists x, nth_error (t_flux t') k = Some x /\ x == f * v_amp (seen cs).
Proof.
  intros I N F R Hlam Hf. assert (F2 : Forall convolved (cs ++ [Disable])) by (apply Forall_app; split; [exact F|repeat constructor]).
  destruct (Session axis f0 t0 _ t' I N F2 R) as (_ & _ & _ & G). destruct (G k lam f Hlam Hf) as (x & d & m & Hx & Dd & Dm & Ex). unfold seen in *. rewrite fold_left_app in *. cbn [fold_left] in *. set (v := fold_left see cs view0) in *.
  assert (d = 1). { destruct Dd as [[[Y _] _]|[_ Y]]; [discriminate|exact Y]. } assert (m = 1). { destruct Dm as [[[Y _] _]|[_ Y]]; [discriminate|exact Y]. } subst d m.
  exists x. split; [exact Hx|]. cbn [see v_amp] in Ex. rewrite Ex. ring.
Qed.
