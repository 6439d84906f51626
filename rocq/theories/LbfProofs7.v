(** Offsets, amplitudes, standard deviations, polynomial (C94). *)
From Verif Require Import Base F64 PolyModel LbfModel LbfSpec LbfProofs LbfProofs2 LbfProofs3 LbfProofs4 LbfProofs5 LbfProofs6.
Open Scope Q_scope.

Lemma speed_pos : 0 < speed_of_light.
Proof. reflexivity. Qed.

Lemma map_stretched (g : line -> Q) d ls : (forall l, stretch (g l) == stretch (l_off l) * (1 + d)) ->
  Forall2 (fun o l => stretch o == stretch (l_off l) * (1 + d)) (map g ls) ls.
Proof. intro H. induction ls as [|l ls IH]; cbn; constructor; auto. Qed.

Section Fit.
Context (c : conf) (axis flux cont err : list Q).
Context (outside_of : kind -> line -> Q -> Q -> bool) (profile : kind -> line -> Q -> Q -> Q -> res Q).
Context (svd : list elt -> res ((nat -> option Q * f64) * (Q * Q * Q))).
Context (solver : list (f64 * f64) -> list Q -> list (list Q * Q) -> action).
Context (width : elt -> res Q) (noise : list elt -> nat -> f64) (meanres : elt -> nat -> Q) (root : Q -> Q) (sqrtpi : Q).

Notation fit := (fit c axis flux cont err outside_of profile svd solver width noise meanres root sqrtpi).
Notation refined := (refined c axis flux cont err outside_of profile solver width noise meanres root sqrtpi).
Notation linear := (linear c svd).

Lemma start_offs e : offs (start_velocity c e) = offs e /\ lines (start_velocity c e) = lines e /\ amps (start_velocity c e) = amps e
  /\ kd (start_velocity c e) = kd e /\ limit (start_velocity c e) = limit e.
Proof. unfold start_velocity. destruct (kd e) eqn:K; cbn; rewrite ?K; repeat apply conj; reflexivity. Qed.

(** *** wavelength offsets *)
Theorem offsets fuel xs st r : regular c (map kd st) -> c_off c = true -> bounded_solver solver ->
  (forall e, In e st -> offs e = map l_off (lines e)) -> offMin c <= 0 -> 0 < offMax c ->
  fit fuel xs st = Ok r ->
  exists d, offMin c / speed_of_light <= d /\ d <= offMax c / speed_of_light /\
    forall e, In e r -> stretched d e.
Proof.
  intros R Off B C0 Mn Mx E.
  assert (Sp := speed_pos).
  assert (Z : offMin c / speed_of_light <= 0 /\ 0 <= offMax c / speed_of_light).
  { split; [apply Qle_shift_div_r; [exact Sp|lra]|apply Qle_shift_div_l; [exact Sp|lra]]. }
  assert (Id : forall ls, Forall2 (fun o l => stretch o == stretch (l_off l) * (1 + 0)) (map l_off ls) ls).
  { intro ls. apply map_stretched. intro l. ring. }
  destruct (fit_cases _ _ _ _ _ _ _ _ _ _ _ _ _ _ _ _ _ _ R E) as (lay & El & Nd & [(_ & ->)|(_ & [Li|(st2 & np & nf & g & x & Li & Rf)])]).
  - exists 0. split; [tauto|]. split; [tauto|].
    intros e I. apply in_map_iff in I. destruct I as (e0 & <- & I). unfold stretched.
    destruct (kept_fields _ _ (kept_set e0 (Some 0) PInf)) as (_ & K2 & _ & _ & K5 & _).
    unfold ill. cbv zeta. replace (offs _) with (offs e0) by (destruct (c_poly c); symmetry; exact K5).
    replace (lines _) with (lines e0) by (destruct (c_poly c); symmetry; exact K2). rewrite (C0 _ I). apply Id.
  - exists 0. split; [tauto|]. split; [tauto|]. intros e I.
    destruct (linear_related _ _ _ _ Li) as (q & _ & (Ll & H)). apply In_nth_error in I. destruct I as (i & Ni).
    destruct (H i e Ni) as (e0 & Ne & ->). cbv zeta. assert (I0 := nth_error_In _ _ Ne).
    destruct (kept_fields _ _ (kept_set (start_velocity c e0) (fst (fst q i)) (snd (fst q i)))) as (_ & K2 & _ & _ & K5 & _).
    destruct (start_offs e0) as (S1 & S2 & _). unfold stretched.
    replace (offs _) with (offs e0) by (destruct (c_poly c); symmetry; cbn; rewrite <- S1; exact K5).
    replace (lines _) with (lines e0) by (destruct (c_poly c); symmetry; cbn; rewrite <- S2; exact K2). rewrite (C0 _ I0). apply Id.
  - assert (F := refined_final _ _ _ _ _ _ _ _ _ _ _ _ _ _ _ _ _ _ _ _ _ _ _ _ Li Rf).
    destruct (refined_point _ _ _ _ _ _ _ _ _ _ _ _ _ _ _ _ _ _ _ _ _ _ _ _ R El Li Rf) as
      (t & bs & ga & e0 & rest & peak & -> & Ty & Bs & Lb & Pn & Nf & Pp & Pk & Lg & E2 & Hg & Gx & Px).
    set (b := params c t bs (velA_bound c) (velE_bound c) (off_bound c) (repeat (NInf, PInf) 3)) in *.
    assert (W : within b x \/ x = g). { destruct Px as [(h & D)|(D & _)]; [left; apply (B _ _ _ _ D)|right; exact D]. }
    set (n := (length st + vel_n c (nk t))%nat).
    assert (Io : iOff (canon c (length st) t) = Some n) by (unfold canon; cbn [iOff]; rewrite Off; reflexivity).
    assert (Nb : nth_error b n = Some (off_bound c)).
    { unfold b. apply nth_params_off. rewrite Lb. exact Io. }
    assert (Ng : nth_error g n = Some 0). { rewrite Gx. apply nth_params_off. rewrite Lg. exact Io. }
    destruct F as (_ & F).
    (* the shift *)
    assert (Hd : forall v, nth_error x n = Some v -> offMin c / speed_of_light <= v * norm_offset c /\ v * norm_offset c <= offMax c / speed_of_light).
    { intros v Nv. assert (Pn' : 0 < norm_offset c). { unfold norm_offset. apply Qlt_shift_div_l; [exact Sp|]. lra. }
      destruct W as [W|W].
      - assert (H := F2_nth _ _ _ _ _ _ W Nb Nv). cbn in H. apply scale_bounds; [exact Pn'|apply H|apply H].
      - subst x. assert (v = 0) by congruence. subst v. split; [|].
        + apply (Qle_trans _ 0); [tauto|]. lra.
        + apply (Qle_trans _ 0); [lra|tauto]. }
    destruct (nth_error x n) as [v|] eqn:Nv.
    * exists (v * norm_offset c). split; [apply Hd; reflexivity|]. split; [apply Hd; reflexivity|].
      intros e I. apply In_nth_error in I. destruct I as (i & Ni). destruct (F i e Ni) as (eo & Neo & (_ & _ & _ & Oo & _)).
      destruct (Oo Off) as (d & D1 & D2). rewrite Io in D1. cbn in D1. unfold vget in D1. rewrite Nv in D1. injection D1 as <-.
      unfold stretched. rewrite D2. apply map_stretched. intro l. unfold stretch, shifted. field. unfold speed_of_light. discriminate.
    * exists 0. split; [tauto|]. split; [tauto|].
      intros e I. apply In_nth_error in I. destruct I as (i & Ni). destruct (F i e Ni) as (eo & Neo & (_ & _ & _ & Oo & _)).
      destruct (Oo Off) as (d & D1 & D2). rewrite Io in D1. cbn in D1. unfold vget in D1. rewrite Nv in D1. discriminate.
Qed.

(** *** amplitudes *)
Lemma fitted_nonneg e A n : 0 <= A -> 0 <= n -> 0 <= fitted e A n.
Proof.
  intros HA Hn. unfold fitted. assert (H := Qmult_le_0_compat _ _ HA Hn). destruct (kd e); [exact H|].
  destruct (Qltb_spec 0 (limit e)) as [L|L]; cbn [andb]; [|exact H]. destruct (Qltb_spec (limit e) (A * n)); [lra|exact H].
Qed.

Definition nominal_ok (e : elt) : Prop := Forall (fun l => 0 <= l_nom l) (lines e).
Lemma nominal_at e j l : nominal_ok e -> nth_error (lines e) j = Some l -> 0 <= l_nom l.
Proof. intros H N. unfold nominal_ok in H. rewrite Forall_forall in H. apply H, (nth_error_In _ _ N). Qed.

Lemma from_amp_nonneg e A am : nominal_ok e -> 0 <= A -> from_amp e A am -> forall j v, nth_error am j = Some (Some v) -> 0 <= v.
Proof. intros N HA F j v J. destruct (F j v J) as (l & Nl & ->). apply fitted_nonneg; [exact HA|apply (nominal_at e j l N Nl)]. Qed.

Lemma first_amp ls : forall os am a, (forall j v, nth_error am j = Some (Some v) -> 0 <= v) ->
  Forall (fun l => 0 <= l_nom l) ls ->
  first_value None (fun a n => match a with Some v => Some (v / n) | None => None end) ls os am = Some a -> 0 <= a.
Proof.
  induction ls as [|l ls IH]; intros os am a H N E; [discriminate|]. destruct os as [|o os]; [discriminate|].
  destruct am as [|x am]; [discriminate|]. cbn in E. inversion N; subst.
  destruct (negb o && negb (Qeq_bool (l_nom l) 0)) eqn:C.
  - destruct x as [v|]; [|discriminate]. injection E as <-. assert (0 <= v) by (apply (H 0%nat v eq_refl)).
    apply andb_prop in C. destruct C as (_ & C). apply negb_true_iff in C. assert (X := Qeq_bool_neq _ C).
    apply Qle_shift_div_l; lra.
  - apply (IH os am a); auto. intros j v J. apply (H (S j) v J).
Qed.

(** every amplitude of the linear fit is non-negative (C69) *)
Definition svd_nonneg : Prop := forall es r, svd es = Ok r -> forall i a, fst (fst r i) = Some a -> 0 <= a.

Lemma linear_nonneg st st2 : svd_nonneg -> (forall e, In e st -> nominal_ok e) -> linear st st2 ->
  forall e j v, In e st2 -> nth_error (amps e) j = Some (Some v) -> 0 <= v.
Proof.
  intros Sn No Li e j v I J. destruct (linear_related _ _ _ _ Li) as (q & Eq & (Ll & H)). apply In_nth_error in I. destruct I as (i & Ni).
  destruct (H i e Ni) as (e0 & Ne & Ee). cbv zeta in Ee.
  assert (Am : amps e = amps (set_amplitudes (start_velocity c e0) (fst (fst q i)) (snd (fst q i)))) by (rewrite Ee; destruct (c_poly c); reflexivity).
  rewrite Am in J. destruct (fst (fst q i)) as [A|] eqn:EA; [|destruct (set_none_amps _ _ _ _ J)].
  apply (from_amp_nonneg (start_velocity c e0) A _) with (j := j) (v := v) in J; auto.
  - unfold nominal_ok. rewrite (proj1 (proj2 (start_offs e0))). apply (No _ (nth_error_In _ _ Ne)).
  - apply (Sn _ _ Eq _ _ EA).
  - apply set_from_amp.
Qed.

Lemma amp_bound_ge e lb ub : amp_bound e = Ok (lb, ub) -> lb = Fin 0.
Proof.
  unfold amp_bound. destruct (kd e); [congruence|]. destruct (Qltb 0 (limit e)); [|congruence].
  intro E. apply rbind_inv in E. destruct E as (m & _ & E). congruence.
Qed.

Lemma point_amp fuel xs lay st st2 np nf g x r : regular c (map kd st) -> make_layout c (map kd st) = Ok lay ->
  bounded_solver solver -> svd_nonneg -> (forall e, In e st -> nominal_ok e) ->
  linear st st2 -> refined fuel xs lay st st2 np nf g x r ->
  0 < nf /\ forall i a, (i < length st)%nat -> nth_error x i = Some a -> 0 <= a.
Proof.
  intros R El B Sn No Li Rf.
  destruct (refined_point _ _ _ _ _ _ _ _ _ _ _ _ _ _ _ _ _ _ _ _ _ _ _ _ R El Li Rf) as
      (t & bs & ga & e0 & rest & peak & -> & Ty & Bs & Lb & Pn & Nf & Pp & Pk & Lg & E2 & Hg & Gx & Px).
  split; [exact Pn|]. intros i a Li' Na.
  destruct Px as [(h & D)|(D & _)].
  - assert (W := B _ _ _ _ D). assert (Ni : exists bb, nth_error bs i = Some bb).
    { destruct (nth_error bs i) eqn:X; [eauto|]. apply nth_error_None in X. lia. }
    destruct Ni as (bb & Nb). assert (Nb' := nth_params_amp c t bs (velA_bound c) (velE_bound c) (off_bound c) (repeat (NInf, PInf) 3) i ltac:(lia)).
    rewrite Nb in Nb'. assert (H := F2_nth _ _ _ _ _ _ W Nb' Na).
    destruct (mapi_nth _ _ _ _ Bs i bb Nb) as (e & Ne & Eb). destruct bb as (lb, ub). rewrite (amp_bound_ge _ _ _ Eb) in H. cbn in H. apply H.
  - subst x. rewrite Gx in Na. rewrite nth_params_amp in Na by lia. destruct (Hg i a Na) as (e & a0 & Ne & Ga & ->).
    apply Qmult_le_0_compat; [|lra]. unfold GetElementAmplitude in Ga. destruct (out e); [discriminate|].
    assert (I2 := nth_error_In _ _ Ne).
    apply (first_amp (lines e) (outs e) (amps e) a0); auto.
    + intros j v J. apply (linear_nonneg st st2 Sn No Li e j v I2 J).
    + destruct (linear_lines _ _ _ _ Li) as (_ & Hl). destruct (Hl i e Ne) as (eo & Neo & (_ & _ & Ln)). rewrite Ln.
      apply (No eo (nth_error_In _ _ Neo)).
Qed.

Theorem amplitudes_nonneg fuel xs st r : regular c (map kd st) -> bounded_solver solver -> svd_nonneg ->
  (forall e, In e st -> nominal_ok e) -> fit fuel xs st = Ok r ->
  forall e j v, In e r -> nth_error (amps e) j = Some (Some v) -> 0 <= v.
Proof.
  intros R B Sn No E e j v I J.
  destruct (fit_cases _ _ _ _ _ _ _ _ _ _ _ _ _ _ _ _ _ _ R E) as (lay & El & Nd & [(_ & ->)|(_ & [Li|(st2 & np & nf & g & x & Li & Rf)])]).
  - apply in_map_iff in I. destruct I as (e0 & <- & I). apply (from_amp_nonneg e0 0 (amps (ill c e0))) with (j := j) (v := v); auto; [lra|].
    assert (Am : amps (ill c e0) = amps (set_amplitudes e0 (Some 0) PInf)) by (unfold ill; destruct (c_poly c); reflexivity).
    rewrite Am. apply set_from_amp.
  - apply (linear_nonneg st r Sn No Li e j v I J).
  - destruct (point_amp _ _ _ _ _ _ _ _ _ _ R El B Sn No Li Rf) as (Pn & Px).
    assert (F := refined_final _ _ _ _ _ _ _ _ _ _ _ _ _ _ _ _ _ _ _ _ _ _ _ _ Li Rf).
    apply In_nth_error in I. destruct I as (i & Ni). destruct F as (Fl & F). destruct (F i e Ni) as (eo & Neo & (S0 & (a & Na & Fa) & _)).
    assert (Li' : (i < length st)%nat) by (apply nth_error_Some; congruence).
    apply (from_amp_nonneg eo (a / nf) (amps e)) with (j := j) (v := v); auto.
    + apply (No eo (nth_error_In _ _ Neo)).
    + apply Qle_shift_div_l; [exact Pn|]. rewrite Qmult_0_l. apply (Px i a Li' Na).
Qed.

(** *** the amplitude limit of an absorption element is applied to the flux divided by its largest value *)
Lemma bounds_feasible t st bs : mapi_res (fun _ e => amp_bound e) 0 st = Ok bs -> (forall e, In e st -> nominal_ok e) ->
  0 < maxE c -> minE c <= maxE c -> minA c <= maxA c -> offMin c <= offMax c -> 0 < offMax c ->
  feasible (params c t bs (velA_bound c) (velE_bound c) (off_bound c) (repeat (NInf, PInf) 3)).
Proof.
  intros Bs No M0 M1 M2 O1 O2. assert (Sp := speed_pos).
  assert (Pn' : 0 < norm_offset c). { unfold norm_offset. apply Qlt_shift_div_l; [exact Sp|]. lra. }
  assert (Dv : forall a b m, 0 < m -> a <= b -> a / m <= b / m).
  { intros a b m M L. apply Qle_shift_div_l; [exact M|]. assert (X : a / m * m == a) by (field; lra). rewrite X. exact L. }
  assert (V : forall t, Forall (fun p => exists v, ge_bound (fst p) v /\ le_bound v (snd p)) (vel_block t (velA_bound c) (velE_bound c))).
  { assert (VA : exists v, ge_bound (fst (velA_bound c)) v /\ le_bound v (snd (velA_bound c))).
    { exists (minA c / maxE c). cbn. split; [apply Qle_refl|apply Dv; auto]. }
    assert (VE : exists v, ge_bound (fst (velE_bound c)) v /\ le_bound v (snd (velE_bound c))).
    { exists (minE c / maxE c). cbn. split; [apply Qle_refl|apply Dv; auto]. }
    intros [[|]|]; cbn [vel_block]; repeat constructor; assumption. }
  unfold feasible, params. repeat (rewrite Forall_app; split).
  - apply Forall_forall. intros p I. apply In_nth_error in I. destruct I as (i & Ni).
    destruct (mapi_nth _ _ _ _ Bs i p Ni) as (e & Ne & Eb). exists 0.
    assert (No' := No e (nth_error_In _ _ Ne)). unfold amp_bound in Eb.
    destruct (kd e); [apply Ok_inj in Eb; subst p; cbn; split; [apply Qle_refl|exact Logic.I]|].
    destruct (Qltb_spec 0 (limit e)) as [L|L]; [|apply Ok_inj in Eb; subst p; cbn; split; [apply Qle_refl|exact Logic.I]].
    apply rbind_inv in Eb. destruct Eb as (m & Em & Eb). apply Ok_inj in Eb. subst p. cbn [fst snd].
    split; [apply Qle_refl|]. unfold max_nominal in Em. unfold nominal_ok in No'. destruct (lines e) as [|l ls]; [discriminate|].
    apply Ok_inj in Em. inversion No' as [|? ? N1 _]; subst.
    assert (X : forall ls a, 0 <= a -> 0 <= fold_left (fun m l => Qmaxb m (l_nom l)) ls a).
    { clear. induction ls as [|x ls IH]; intros a A; [exact A|]. cbn. apply IH. unfold Qmaxb. destruct (Qltb_spec a (l_nom x)); lra. }
    specialize (X ls _ N1). set (m := fold_left _ ls _) in *. clearbody m. unfold xdiv.
    destruct (Qeq_bool_spec m 0) as [Z|Z].
    + destruct (Qeq_bool_spec (limit e) 0) as [Y|Y]; [exfalso; lra|]. destruct (Qltb_spec (limit e) 0) as [Y'|Y']; [exfalso; lra|]. exact Logic.I.
    + cbn. apply Qle_shift_div_l; [|lra]. destruct (Qlt_le_dec 0 m); [assumption|]. exfalso. apply Z. lra.
  - destruct (c_vel c); cbn [block]; [apply V|constructor].
  - destruct (c_off c); cbn [block]; [|constructor]. constructor; [|constructor]. unfold off_bound. cbn [fst snd].
    exists (offMin c / speed_of_light / norm_offset c). cbn. split; [apply Qle_refl|]. apply Dv; [exact Pn'|]. apply Dv; [exact Sp|exact O1].
  - destruct (c_poly c); cbn [block]; [|constructor]. repeat constructor; exists 0; cbn; auto.
Qed.

Theorem absorption_scale fuel xs st r P : regular c (map kd st) -> bounded_solver solver -> finishing fuel solver ->
  0 < maxE c -> minE c <= maxE c -> minA c <= maxA c -> offMin c <= offMax c -> 0 < offMax c ->
  svd_nonneg -> (forall e, In e st -> nominal_ok e) ->
  (forall i f, In i xs -> nth_error flux i = Some f -> Qabs f <= P) -> 0 <= P ->
  (needed c (length st) (kinds_count (map kd st)) <= length xs)%nat ->
  fit fuel xs st = Ok r ->
  linear st r \/
  forall i e j v l m, nth_error st i = Some e -> kd e = Ab -> 0 < limit e -> max_nominal e = Ok m -> 0 < m ->
    nth_error (lines e) j = Some l ->
    (exists e', nth_error r i = Some e' /\ nth_error (amps e') j = Some (Some v)) -> v <= limit e * (l_nom l / m) * P.
Proof.
  intros R B Fi M0 M1 M2 O1 O2 Sn No HP P0 Ln E.
  destruct (fit_cases _ _ _ _ _ _ _ _ _ _ _ _ _ _ _ _ _ _ R E) as (lay & El & Nd & [(X & _)|(_ & [Li|(st2 & np & nf & g & x & Li & Rf)])]); [lia|left; exact Li|].
  right. intros i e j v l m Ne K L Mx Mp Nl (e' & Ne' & J).
  assert (F := refined_final _ _ _ _ _ _ _ _ _ _ _ _ _ _ _ _ _ _ _ _ _ _ _ _ Li Rf).
  destruct F as (Fl & F). destruct (F i e' Ne') as (eo & Neo & (S0 & (a & Na & Fa) & _)).
  assert (eo = e) by congruence. subst eo.
  destruct (Fa j v J) as (l' & Nl' & Ev). assert (l' = l) by congruence. subst l'.
  assert (N0 := nominal_at e j l (No e (nth_error_In _ _ Ne)) Nl).
  destruct (refined_point _ _ _ _ _ _ _ _ _ _ _ _ _ _ _ _ _ _ _ _ _ _ _ _ R El Li Rf) as
      (t & bs & ga & e0 & rest & peak & -> & Ty & Bs & Lb & Pn & Nf & Pp & Pk & Lg & E2 & Hg & Gx & Px).
  destruct Px as [(h & D)|(_ & D)]; [|destruct (D (Fi _ (bounds_feasible t st bs Bs No M0 M1 M2 O1 O2)))].
  assert (W := B _ _ _ _ D).
  destruct (mapi_at _ _ _ _ Bs i e Ne) as (bb & Nb & Eb).
  assert (Li' : (i < length st)%nat) by (apply nth_error_Some; congruence).
  assert (Nb' := nth_params_amp c t bs (velA_bound c) (velE_bound c) (off_bound c) (repeat (NInf, PInf) 3) i ltac:(lia)).
  rewrite Nb in Nb'. assert (H := F2_nth _ _ _ _ _ _ W Nb' Na).
  unfold amp_bound in Eb. rewrite K, (proj2 (Qltb_true _ _) L), Mx in Eb. cbn [rbind] in Eb. apply Ok_inj in Eb. subst bb.
  cbn [fst snd xdiv] in H. destruct (Qeq_bool_spec m 0) as [Z|Z]; [exfalso; lra|]. cbn in H. destruct H as (H1 & H2).
  destruct (max_flux_ge _ _ _ _ Pk) as (_ & Hpk). assert (PP : peak <= P) by (apply Hpk; auto).
  assert (Ea : a / nf == a * peak). { rewrite Nf. field. lra. }
  assert (Fv : v <= a / nf * l_nom l). { rewrite Ev. unfold fitted. rewrite K. destruct (Qltb_spec 0 (limit e)); cbn [andb]; [|lra].
    destruct (Qltb_spec (limit e) (a / nf * l_nom l)); lra. }
  apply (Qle_trans _ _ _ Fv). rewrite Ea.
  assert (Q1 : a * peak <= limit e / m * P).
  { apply (Qle_trans _ (limit e / m * peak)); [apply Qmult_le_compat_r; lra|].
    rewrite (Qmult_comm _ peak), (Qmult_comm _ P). apply Qmult_le_compat_r; [exact PP|].
    apply (Qle_trans _ a); lra. }
  apply (Qle_trans _ (limit e / m * P * l_nom l)); [apply Qmult_le_compat_r; lra|].
  assert (X : limit e / m * P * l_nom l == limit e * (l_nom l / m) * P) by (field; lra). rewrite X. lra.
Qed.

(** *** standard deviations *)
Lemma xmul_xdiv s q : ~ q == 0 -> same_value (xdiv (xmul s q) q) s.
Proof.
  intro N. assert (Z : Qeq_bool q 0 = false) by (destruct (Qeq_bool_spec q 0); [contradiction|reflexivity]).
  destruct s as [| | |s]; cbn; rewrite ?Z.
  - exact Logic.I.
  - destruct (Qltb q 0) eqn:E; cbn; rewrite E; exact Logic.I.
  - destruct (Qltb q 0) eqn:E; cbn; rewrite E; exact Logic.I.
  - cbn. field. exact N.
Qed.
Lemma div_stds_nth ls : forall os S j l, nth_error ls j = Some l -> nth_error os j = Some false -> ~ l_nom l == 0 ->
  exists s, nth_error (div_stds (line_stds S ls os) ls) j = Some s /\ same_value s S.
Proof.
  induction ls as [|y ls IH]; intros os S j l Nl No N; [destruct j; discriminate|]. destruct os as [|o os]; [destruct j; discriminate|].
  destruct j as [|j]; cbn in *.
  - injection No as ->. injection Nl as ->. exists (xdiv (xmul S (l_nom l)) (l_nom l)). split; [reflexivity|]. apply xmul_xdiv, N.
  - apply (IH os S j l); auto.
Qed.

Theorem errors fuel xs st r : regular c (map kd st) -> (needed c (length st) (kinds_count (map kd st)) <= length xs)%nat ->
  fit fuel xs st = Ok r -> linear st r \/
  forall i e', nth_error r i = Some e' ->
    (* the elements up to this one are inside the range: one standard deviation for the lines inside *)
    ((forall k e, (k <= i)%nat -> nth_error r k = Some e -> out e = false) ->
      exists S, forall j l, inside e' j -> nth_error (lines e') j = Some l -> ~ l_nom l == 0 ->
        exists s, nth_error (stds e') j = Some s /\ same_value s S) /\
    (* an element at or before this one is outside the range: no standard deviation *)
    ((exists k e, (k <= i)%nat /\ nth_error r k = Some e /\ out e = true) -> Forall (eq NaN) (stds e')).
Proof.
  intros R Ln E.
  destruct (fit_cases _ _ _ _ _ _ _ _ _ _ _ _ _ _ _ _ _ _ R E) as (lay & El & Nd & [(X & _)|(_ & [Li|(st2 & np & nf & g & x & Li & Rf)])]); [lia|left; exact Li|].
  right. intros i e' Ne'.
  destruct (refined_left _ _ _ _ _ _ _ _ _ _ _ _ _ _ _ _ _ _ _ _ _ _ _ _ Li Rf) as (stm & es & H1 & H2 & H3).
  destruct H3 as (L3 & H3). destruct (H3 i e' Ne') as (e4 & Ne4 & Cell).
  (* flags of es and r agree *)
  assert (Fl : forall k e, nth_error r k = Some e -> exists y, nth_error es k = Some y /\ out e = out y).
  { intros k e Nk. destruct (H3 k e Nk) as (y & Ny & Cy). exists y. split; [exact Ny|].
    apply (kept_fields y e), (snr_kept _ _ _ _ _ _ _ _ _ _ _ _ _ Cy). }
  assert (Fl' : forall k y, nth_error es k = Some y -> exists e, nth_error r k = Some e /\ out e = out y).
  { intros k y Ny. destruct (nth_error r k) as [e|] eqn:Nk.
    - destruct (Fl k e Nk) as (y' & Ny' & O). exists e. split; [reflexivity|]. congruence.
    - apply nth_error_None in Nk. assert (k < length es)%nat by (apply nth_error_Some; congruence). lia. }
  destruct H2 as (_ & H2). destruct (H2 i e4 Ne4) as (em & _ & (_ & _ & Sd & _)).
  split.
  - intro In0. destruct Cell as [(_ & a & s & Na & _ & ->)|[(((y & Ny & Oy) & _) & _)|((k & Lk & ((y & Ny & Oy) & _)) & _)]].
    + exists (amp_std noise meanres root sqrtpi es (0 + i) e4 s). intros j l (O & I) Nl N.
      set (S := amp_std noise meanres root sqrtpi es (0 + i) e4 s) in *.
      assert (Kf := kept_fields _ _ (kept_full e4 (a / nf) S)). destruct Kf as (_ & Kl & _ & _ & _ & _ & Ko & Kos & _).
      rewrite Kl in Nl. rewrite Ko in O. rewrite Kos in I. unfold full. cbn [stds with_amps]. unfold set_amplitudes. rewrite O. cbn [stds lines with_amps].
      apply (div_stds_nth (lines e4) (outs e4) S j l Nl I N).
    + exfalso. destruct (Fl' i y Ny) as (z & Nz & Oz). rewrite (In0 i z (Nat.le_refl _) Nz) in Oz. congruence.
    + exfalso. destruct (Fl' k y Ny) as (z & Nz & Oz). rewrite (In0 k z) in Oz; [congruence|lia|exact Nz].
  - intros (k & e & Lk & Nk & Ok). destruct Cell as [(Cn & _)|[(_ & ->)|(_ & ->)]].
    + exfalso. destruct (Fl k e Nk) as (y & Ny & Oy). rewrite (Cn k y Lk Ny) in Oy. congruence.
    + apply set_nan.
    + exact Sd.
Qed.

(** *** the polynomial *)
Theorem same_polynomial fuel xs st r : regular c (map kd st) -> c_poly c = true -> fit fuel xs st = Ok r ->
  exists p, forall e, In e r -> poly e = p.
Proof.
  intros R Po E.
  destruct (fit_cases _ _ _ _ _ _ _ _ _ _ _ _ _ _ _ _ _ _ R E) as (lay & El & Nd & [(_ & ->)|(_ & [Li|(st2 & np & nf & g & x & Li & Rf)])]).
  - exists (0, 0, 0). intros e I. apply in_map_iff in I. destruct I as (e0 & <- & _). unfold ill. rewrite Po. reflexivity.
  - destruct (linear_related _ _ _ _ Li) as (q & _ & (Ll & H)). exists (snd q). intros e I. apply In_nth_error in I. destruct I as (i & Ni).
    destruct (H i e Ni) as (e0 & Ne & ->). cbv zeta. rewrite Po. reflexivity.
  - assert (F := refined_final _ _ _ _ _ _ _ _ _ _ _ _ _ _ _ _ _ _ _ _ _ _ _ _ Li Rf). destruct F as (_ & F).
    exists (match npoly_of np lay x with Ok q => let '(a0, a1, a2) := getCoeffs q in (a0 / nf, a1 / nf, a2 / nf) | _ => (0, 0, 0) end).
    intros e I. apply In_nth_error in I. destruct I as (i & Ni). destruct (F i e Ni) as (eo & Neo & (_ & _ & _ & _ & Pp & _)).
    destruct (Pp Po) as (q & Q1 & Q2). rewrite Q1. exact Q2.
Qed.

(** the polynomial stored is the one of the least squares, in flux units *)
Theorem polynomial_units q nf y b0 b1 b2 : ~ scale q == 0 -> ~ nf == 0 -> getCoeffs q = (b0, b1, b2) ->
  getValue (mkPoly (b0 / nf) (b1 / nf) (b2 / nf)) y * nf == ngetValue q y.
Proof.
  intros S N E. unfold getCoeffs in E. injection E as <- <- <-. unfold getValue, ngetValue. cbn. field. auto.
Qed.

(** *** an exception of the minimiser: the guess is kept *)
Theorem library_failure fuel xs st :
  LbfModel.fit c axis flux cont err outside_of profile svd (fun _ _ _ => Fail) width noise meanres root sqrtpi fuel xs st =
  LbfModel.fit c axis flux cont err outside_of profile svd (fun _ g _ => Done g) width noise meanres root sqrtpi fuel xs st.
Proof.
  unfold LbfModel.fit. destruct (make_layout c (map kd st)) as [lay| |]; try reflexivity. cbn [rbind].
  destruct xs as [|i0 xs]; [reflexivity|]. destruct (Nat.ltb _ _); [reflexivity|].
  destruct (if c_poly c then _ else _) as [np| |]; try reflexivity. cbn [rbind].
  destruct (max_flux _ _ _) as [pk| |]; try reflexivity. cbn [rbind].
  destruct (make_bounds _ _ _) as [b| |]; try reflexivity. cbn [rbind].
  destruct (svd _) as [q| |]; try reflexivity. cbn [rbind].
  destruct (mapi_res _ _ _) as [st2| |]; try reflexivity. cbn [rbind].
  destruct (amp_guess _ _ _) as [gs| |]; try reflexivity. cbn [rbind].
  destruct (flt _ _); [reflexivity|]. destruct (Qeq_bool pk 0); [reflexivity|].
  destruct (data_square _ _ _ _ _) as [s0| |]; try reflexivity. cbn [rbind].
  destruct (make_guess _ _ _ _ _ _) as [g0| |]; try reflexivity. cbn [rbind].
  destruct (defined b) as [bb| |]; try reflexivity. cbn [rbind].
  destruct (defined g0) as [g| |]; try reflexivity. cbn [rbind].
  destruct fuel; reflexivity.
Qed.

(** *** the guess *)
(** a NaN amplitude after the linear fit, or a null one when the flux is null *)
Lemma guess_amp_ok nf es : forall s r, amp_guess nf es s = Ok r -> forall e, In e es -> exists a, GetElementAmplitude e = Some a /\ (nf = None -> ~ a == 0).
Proof.
  induction es as [|e es IH]; intros s r E y I; [destruct I|]. cbn in E.
  destruct (GetElementAmplitude e) as [a|] eqn:G; [|discriminate]. destruct nf as [f|].
  - apply rbind_inv in E. destruct E as (q & E1 & _). destruct I as [<-|I]; [exists a; split; [exact G|discriminate]|]. eapply IH; eauto.
  - destruct (Qeq_bool a 0) eqn:Z; [discriminate|]. apply rbind_inv in E. destruct E as (q & E1 & _).
    destruct I as [<-|I]; [exists a; split; [exact G|]; intros _; apply Qeq_bool_neq, Z|]. eapply IH; eauto.
Qed.

Theorem guess_defined fuel xs st r : regular c (map kd st) -> (needed c (length st) (kinds_count (map kd st)) <= length xs)%nat ->
  fit fuel xs st = Ok r ->
  exists st2, linear st st2 /\ forall e, In e st2 -> exists a, GetElementAmplitude e = Some a /\
    ((forall i f, In i xs -> nth_error flux i = Some f -> f == 0) -> ~ a == 0).
Proof.
  intros R Ln E. assert (E' := E). destruct (fit_cases _ _ _ _ _ _ _ _ _ _ _ _ _ _ _ _ _ _ R E') as (lay & El & Nd & _).
  unfold LbfModel.fit in E. rewrite El in E. cbn [rbind] in E. destruct xs as [|i0 xs0]; [discriminate|]. set (xs := i0 :: xs0) in *.
  destruct (Nat.ltb_spec (length xs) (nddl lay)) as [X|_]; [lia|].
  apply rbind_inv in E. destruct E as (np & Ep & E). apply rbind_inv in E. destruct E as (peak & Epk & E).
  apply rbind_inv in E. destruct E as (b0 & Eb & E). apply rbind_inv in E. destruct E as (q & Eq & E).
  apply rbind_inv in E. destruct E as (st2 & Es & E). exists st2. split; [exists q; auto|].
  apply rbind_inv in E. destruct E as (gs & Eg & _). intros e I.
  destruct (guess_amp_ok _ _ _ _ Eg e I) as (a & Ga & Hz). exists a. split; [exact Ga|]. intro Z. apply Hz.
  destruct (max_flux_ge _ _ _ _ Epk) as (M0 & M1).
  assert (peak <= 0). { apply M1; [lra|]. intros i f Ii Nf. rewrite (Z i f Ii Nf). apply Qle_refl. }
  destruct (Qeq_bool_spec peak 0) as [Y|Y]; [reflexivity|]. exfalso. apply Y. lra.
Qed.

Lemma guess_snr_low f es : 0 < f -> forall s r, flt s (Fin 1) = true ->
  (forall e, In e es -> exists a d, GetElementAmplitude e = Some a /\ GetElementError e = Fin d /\ 0 < d /\ a < d) ->
  amp_guess (Some f) es s = Ok r -> flt (snd r) (Fin 1) = true.
Proof.
  intro Hf. induction es as [|e es IH]; intros s r Hs H E; cbn in E; [injection E as <-; exact Hs|].
  destruct (H e (or_introl eq_refl)) as (a & d & Ga & Gd & Dp & Ad). rewrite Ga in E. apply rbind_inv in E. destruct E as (q & E1 & E2).
  injection E2 as <-. cbn [snd]. refine (IH _ _ _ _ E1).
  - assert (Z1 : flt (qdiv (a * f) (xmul (GetElementError e) f)) (Fin 1) = true).
    { rewrite Gd. unfold xmul, qdiv, xdiv.
      assert (Dz : 0 < d * f) by (apply Qmult_lt_0_compat; auto).
      destruct (Qeq_bool_spec (d * f) 0) as [Z|Z]; [exfalso; lra|]. unfold flt. apply Qltb_true. apply Qlt_shift_div_r; [exact Dz|].
      rewrite Qmult_1_l. apply Qmult_lt_r; auto. }
    destruct (flt s (qdiv (a * f) (xmul (GetElementError e) f))); assumption.
  - intros y I. apply H. right. exact I.
Qed.

Theorem low_snr fuel xs st st2 r : regular c (map kd st) -> (needed c (length st) (kinds_count (map kd st)) <= length xs)%nat ->
  linear st st2 -> (forall e, In e st2 -> exists a d, GetElementAmplitude e = Some a /\ GetElementError e = Fin d /\ 0 < d /\ a < d) ->
  fit fuel xs st = Ok r -> r = st2.
Proof.
  intros R Ln Li H E. destruct (fit_inv _ _ _ _ _ _ _ _ _ _ _ _ _ _ _ _ _ _ E) as (lay & El & _ & Cs).
  destruct (fit_cases _ _ _ _ _ _ _ _ _ _ _ _ _ _ _ _ _ _ R E) as (lay' & El' & Nd & _). assert (lay' = lay) by congruence. subst lay'.
  destruct Cs as [(X & _)|(_ & st2' & Li' & Cs)]; [lia|].
  assert (st2' = st2). { destruct Li as (q & Q1 & Q2), Li' as (q' & Q1' & Q2'). assert (q' = q) by congruence. subst q'. congruence. }
  subst st2'. destruct Cs as [->|(np & nf & g & x & Rf)]; [reflexivity|]. exfalso.
  destruct Rf as (peak & ga & s & b0 & b & g0 & s0 & stm & mo & st3 & Pk & Pz & Nf & Np & Ag & Lt & _).
  assert (Pp : 0 < peak). { destruct (max_flux_ge _ _ _ _ Pk) as (P0 & _). assert (P1 := Qeq_bool_neq _ Pz). lra. }
  assert (Hn : 0 < nf). { rewrite Nf. unfold Qdiv. rewrite Qmult_1_l. apply Qinv_lt_0_compat, Pp. }
  assert (X := guess_snr_low nf st2 Hn NInf (ga, s) eq_refl H Ag). cbn in X. congruence.
Qed.
End Fit.
