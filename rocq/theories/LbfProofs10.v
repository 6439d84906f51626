(** The parameters that the minimiser evaluates are those of the model; the variable of the polynomial (C94). *)
From Verif Require Import Base F64 PolyModel LbfModel LbfSpec LbfProofs LbfProofs2 LbfProofs3 LbfProofs4 LbfProofs5 LbfProofs6 LbfProofs7 LbfProofs9.
Open Scope Q_scope.

Lemma max_flux_is_peak flux xs p : max_flux flux xs 0 = Ok p -> is_peak flux xs p.
Proof.
  assert (G : forall xs m p, max_flux flux xs m = Ok p ->
    m <= p /\ (forall i, In i xs -> exists f, nth_error flux i = Some f /\ Qabs f <= p) /\ (p == m \/ exists i f, In i xs /\ nth_error flux i = Some f /\ p == Qabs f)).
  { clear. induction xs as [|i xs IH]; intros m p E; cbn in E.
    - apply Ok_inj in E. subst. split; [lra|]. split; [contradiction|left; reflexivity].
    - apply rbind_inv in E. destruct E as (f & Ef & E). apply vget_Ok in Ef. destruct (IH _ _ E) as (M & A & B).
      unfold Qmaxb in M, B. destruct (Qltb_spec m (Qabs f)) as [L|L].
      + split; [lra|]. split; [intros k [<-|Ik]; [exists f; auto|apply A, Ik]|]. right.
        destruct B as [B|(k & h & K1 & K2 & K3)]; [exists i, f; split; [left; reflexivity|auto]|exists k, h; split; [right; exact K1|auto]].
      + split; [lra|]. split; [intros k [<-|Ik]; [exists f; split; [exact Ef|lra]|apply A, Ik]|].
        destruct B as [B|(k & h & K1 & K2 & K3)]; [left; exact B|right; exists k, h; split; [right; exact K1|auto]]. }
  intro E. destruct (G xs 0 p E) as (A & B & C). split; [exact A|]. split; [exact B|exact C].
Qed.

Section Unpack.
Context (c : conf) (axis : list Q) (outside_of : kind -> line -> Q -> Q -> bool).

Lemma fitted_amplitude e a n : line_amplitude (kd e) (limit e) a n (fitted e a n).
Proof.
  unfold line_amplitude, fitted. destruct (kd e); [reflexivity|].
  destruct (Qltb_spec 0 (limit e)) as [L|L]; cbn [andb]; [|split; [intro; lra|reflexivity]].
  destruct (Qltb_spec (limit e) (a * n)) as [M|M]; split; intro; try lra; split; intro; lra.
Qed.
Lemma line_amps_at e a ls : forall os j l, nth_error os j = Some false -> nth_error ls j = Some l ->
  nth_error (line_amps e a ls os) j = Some (Some (fitted e a (l_nom l))).
Proof.
  induction ls as [|y ls IH]; intros os j l O L; [destruct j; discriminate|]. destruct os as [|o os]; [destruct j; discriminate|].
  destruct j as [|j]; cbn in *; [injection O as ->; injection L as ->; reflexivity|apply (IH _ _ _ O L)].
Qed.

Lemma split3 (x : list Q) n p0 p1 p2 : length x = (n + 3)%nat ->
  nth_error x (n + 0) = Some p0 -> nth_error x (n + 1) = Some p1 -> nth_error x (n + 2) = Some p2 ->
  exists pre, x = (pre ++ [p0; p1; p2])%list.
Proof.
  intros L N0 N1 N2. exists (firstn n x). rewrite <- (firstn_skipn n x) at 1. f_equal.
  assert (Ls : length (skipn n x) = 3%nat) by (rewrite skipn_length; lia).
  assert (G : forall k, nth_error (skipn n x) k = nth_error x (n + k)).
  { clear. revert x. induction n as [|n IH]; intros x k; [reflexivity|]. destruct x; [destruct k; reflexivity|]. cbn. apply IH. }
  destruct (skipn n x) as [|q0 [|q1 [|q2 [|? ?]]]]; try discriminate.
  assert (H0 := G 0%nat). assert (H1 := G 1%nat). assert (H2 := G 2%nat). cbn in H0, H1, H2. congruence.
Qed.

Theorem unpacked : forall lay np st x st' p, regular c (map kd st) -> make_layout c (map kd st) = Ok lay ->
  length x = nddl lay -> unpack c outside_of lay np st x = Ok (st', p) ->
  length st' = length st /\
  (forall i e e', nth_error st i = Some e -> nth_error st' i = Some e' -> unpacked_elt c (map kd st) x i e e') /\
  (c_poly c = true -> exists pre p0 p1 p2, x = (pre ++ [p0; p1; p2])%list /\
     forall y, ngetValue p y = ngetValue (mkNPoly p0 p1 p2 (x0red np) (scale np)) y) /\
  (c_poly c = false -> p = np).
Proof.
  intros lay np st x st' p R El Lx E. assert (N : map kd st <> []) by (intro Q0; rewrite Q0 in El; discriminate).
  destruct (regular_layout c _ N R) as (t & El' & Ty & Tn). assert (lay = canon c (length (map kd st)) t) by congruence.
  assert (Kc : vel_n c (nk t) = (if c_vel c then kinds_count (map kd st) else 0)%nat).
  { unfold vel_n. destruct (c_vel c) eqn:V; [|reflexivity]. apply (regular_count c (map kd st) t N El' V (Ty eq_refl) (Tn eq_refl)). }
  clear El El'. rewrite map_length in *.
  unfold unpack in E. apply rbind_inv in E. destruct E as (s1 & E1 & E). apply rbind_inv in E. destruct E as (s2 & E2 & E).
  apply rbind_inv in E. destruct E as (s3 & E3 & E). apply rbind_inv in E. destruct E as (q & Eq & E).
  apply Ok_inj in E. assert (st' = map (prepareSupport outside_of) s3) by congruence. assert (p = q) by congruence. subst q st'. clear E.
  assert (H1 : related (fun i e e' => exists a, nth_error x i = Some a /\ e' = set_amplitudes e (Some a) (Fin 0)) st s1).
  { eapply related_weaken; [|apply (related_mapi _ _ _ E1)]. intros i e e' H0. unfold unpack_amp in H0. apply rbind_inv in H0.
    destruct H0 as (a & Ha & H0). apply vget_Ok in Ha. apply Ok_inj in H0. subst e'. exists a. auto. }
  assert (H2 : related (fun i e e' => kd e' = kd e /\ lines e' = lines e /\ offs e' = offs e /\ amps e' = amps e /\
      (c_vel c = true -> exists v, oget x (match kd e with Em => vE lay | Ab => vA lay end) = Ok v /\ velocity e' = v * maxE c) /\
      (c_vel c = false -> velocity e' = velocity e)) s1 s2).
  { destruct (c_vel c).
    - eapply related_weaken; [|apply (related_mapi _ _ _ E2)]. intros i e e' H0. unfold unpack_vel in H0.
      destruct (kd e) eqn:K; apply rbind_inv in H0; destruct H0 as (v & Hv & H0); apply Ok_inj in H0; subst e'; cbn [kd lines offs amps set_velE set_velA velocity];
        (split; [exact K|]; split; [reflexivity|]; split; [reflexivity|]; split; [reflexivity|]; split; [|discriminate]); intros _; exists v;
        (split; [exact Hv|]); unfold velocity, set_velE, set_velA; cbn; rewrite K; reflexivity.
    - apply Ok_inj in E2. subst s2. apply related_refl. intros i e.
      split; [reflexivity|]. split; [reflexivity|]. split; [reflexivity|]. split; [reflexivity|]. split; [discriminate|reflexivity]. }
  assert (H3 : related (fun (i : nat) e e' => kd e' = kd e /\ lines e' = lines e /\ velocity e' = velocity e /\ amps e' = amps e /\
      (c_off c = true -> exists d, oget x (iOff lay) = Ok d /\ stretched (d * (offMax c / speed_of_light)) e') /\
      (c_off c = false -> offs e' = offs e)) s2 s3).
  { destruct (c_off c).
    - apply rbind_inv in E3. destruct E3 as (d & Ed & E3). apply Ok_inj in E3. subst s3.
      eapply related_weaken; [|apply related_map]. intros i e e' ->. split; [reflexivity|]. split; [reflexivity|]. split; [reflexivity|]. split; [reflexivity|].
      split; [|discriminate]. intros _. exists d. split; [exact Ed|]. unfold stretched, shift. cbn [offs lines set_offs].
      apply map_stretched. intro ln. unfold stretch, shifted, norm_offset. field. unfold speed_of_light. discriminate.
    - apply Ok_inj in E3. subst s3. apply related_refl. intros i e. split; [reflexivity|]. split; [reflexivity|]. split; [reflexivity|]. split; [reflexivity|].
      split; [discriminate|reflexivity]. }
  assert (H4 := related_map (prepareSupport outside_of) s3).
  destruct H1 as (L1 & H1). destruct H2 as (L2 & H2). destruct H3 as (L3 & H3). destruct H4 as (L4 & H4).
  assert (Pv : c_vel c = true -> forall e v, In e st -> oget x (match kd e with Em => vE lay | Ab => vA lay end) = Ok v ->
     nth_error x (velocity_at (map kd st) (kd e)) = Some v).
  { intros V e v I O. subst lay. assert (Ty0 := Ty V). specialize (Ty V (kd e) (in_map kd _ _ I)). specialize (Tn V).
    unfold canon, velocity_at in *. cbn [vE vA] in *. rewrite V in O. rewrite map_length.
    destruct t as [k|].
    - destruct Ty as [?|Ty]; [discriminate|]. injection Ty as ->.
      destruct (kd e) eqn:K; cbn [oget] in O; apply vget_Ok in O; [|rewrite Nat.add_0_r; exact O].
      destruct (has Ab (map kd st)) eqn:Hs; [|rewrite Nat.add_0_r; exact O]. exfalso.
      apply has_in in Hs. destruct (Ty0 Ab Hs); congruence.
    - destruct (Tn eq_refl) as (_ & Ia). apply has_in in Ia. rewrite Ia.
      destruct (kd e); cbn [oget] in O; apply vget_Ok in O; rewrite ?Nat.add_0_r, ?Nat.add_1_r; exact O. }
  split; [congruence|]. split; [|split].
  - intros i e e4 Ne N4. destruct (H4 i e4 N4) as (e3 & N3 & ->). destruct (H3 i e3 N3) as (e2 & N2 & (K3 & Ln3 & V3 & A3 & O3 & O3')).
    destruct (H2 i e2 N2) as (e1 & N1 & (K2 & Ln2 & O2 & A2 & V2 & V2')). destruct (H1 i e1 N1) as (e0 & N0 & (a & Na & ->)).
    assert (e0 = e) by congruence. subst e0. clear N0.
    assert (Kp := kept_set e (Some a) (Fin 0)). destruct (kept_fields _ _ Kp) as (K1 & Ln1 & VE1 & VA1 & O1 & _).
    assert (Vl1 : velocity (set_amplitudes e (Some a) (Fin 0)) = velocity e) by (unfold velocity; rewrite K1, VE1, VA1; reflexivity).
    unfold unpacked_elt. unfold prepareSupport, set_out. cbn [kd lines amps offs].
    split; [congruence|]. split; [congruence|]. split; [|split; [|split; [|split]]].
    + exists a. split; [exact Na|]. intros j ln (Oi & Ij) Nl. rewrite A3, A2. unfold set_amplitudes. rewrite Oi. cbn [amps with_amps].
      exists (fitted e a (l_nom ln)). split; [apply line_amps_at; assumption|apply fitted_amplitude].
    + intro V. destruct (V2 V) as (v & Hv & Ev). exists v. split.
      * apply (Pv V e v (nth_error_In _ _ Ne)). rewrite K1 in Hv. exact Hv.
      * change (velocity e3 = v * maxE c). congruence.
    + intro V. change (velocity e3 = velocity e). rewrite V3, (V2' V). exact Vl1.
    + intro O. destruct (O3 O) as (d & Hd & Sd). exists d. split; [|exact Sd].
      subst lay. unfold canon in Hd. cbn [iOff] in Hd. rewrite O in Hd. cbn [oget] in Hd. apply vget_Ok in Hd.
      unfold offset_at. rewrite map_length, <- Kc. exact Hd.
    + intro O. rewrite (O3' O), O2. exact O1.
  - intro P. rewrite P in Eq. unfold npoly_of in Eq. apply rbind_inv in Eq. destruct Eq as (p0 & P0 & Eq). apply rbind_inv in Eq.
    destruct Eq as (p1 & P1 & Eq). apply rbind_inv in Eq. destruct Eq as (p2 & P2 & Eq). apply Ok_inj in Eq. subst p.
    subst lay. unfold ocoeff, canon in P0, P1, P2. cbn [iPoly] in P0, P1, P2. rewrite P in P0, P1, P2. cbn [oget] in P0, P1, P2.
    apply vget_Ok in P0, P1, P2.
    unfold canon, needed in Lx. cbn [nddl] in Lx. rewrite P in Lx.
    destruct (split3 x (length st + vel_n c (nk t) + off_n c)%nat p0 p1 p2) as (pre & Ex).
    + unfold vel_n, off_n in *. lia.
    + exact P0.
    + exact P1.
    + exact P2.
    + exists pre, p0, p1, p2. split; [exact Ex|]. intro y. reflexivity.
  - intro P. rewrite P in Eq. apply Ok_inj in Eq. congruence.
Qed.

(** *** the variable of the polynomial *)
Theorem polynomial_centred : forall i0 rest a b q c0 c1 c2, make_poly axis (i0 :: rest) = Ok q ->
  nth_error axis i0 = Some a -> nth_error axis (last (i0 :: rest) i0) = Some b -> ~ a == b ->
  let p := mkNPoly c0 c1 c2 (x0red q) (scale q) in
  ngetValue p a == c0 - c1 + c2 /\ ngetValue p b == c0 + c1 + c2 /\ ngetValue p ((a + b) / 2) == c0.
Proof.
  intros i0 rest a b q c0 c1 c2 E Na Nb D p. unfold make_poly in E. unfold vget in E. rewrite Na in E. cbn [rbind] in E. rewrite Nb in E.
  cbn [rbind] in E. apply Ok_inj in E. subst q. unfold p, ngetValue, construct. cbn [x0red scale n0 n1 n2].
  assert (Z : ~ b - a == 0) by lra.
  split; [|split]; field; lra.
Qed.
End Unpack.

Section Result.
Context (c : conf) (axis flux cont err : list Q).
Context (outside_of : kind -> line -> Q -> Q -> bool) (profile : kind -> line -> Q -> Q -> Q -> res Q).
Context (svd : list elt -> res ((nat -> option Q * f64) * (Q * Q * Q))).
Context (solver : list (f64 * f64) -> list Q -> list (list Q * Q) -> action).
Context (width : elt -> res Q) (noise : list elt -> nat -> f64) (meanres : elt -> nat -> Q) (root : Q -> Q) (sqrtpi : Q).
Notation fit := (fit c axis flux cont err outside_of profile svd solver width noise meanres root sqrtpi).
Notation linear := (linear c svd).

Theorem result : forall fuel i0 rest st r, regular c (map kd st) ->
  (needed c (length st) (kinds_count (map kd st)) <= length (i0 :: rest))%nat ->
  fit fuel (i0 :: rest) st = Ok r -> linear st r \/
  exists peak g x, 0 < peak /\ is_peak flux (i0 :: rest) peak /\
    (x = g \/ exists b h, solver b g h = Done x) /\
    (exists st2, linear st st2 /\ forall i e, nth_error st2 i = Some e -> exists a v, GetElementAmplitude e = Some a /\ nth_error g i = Some v /\ v * peak == a) /\
    forall i e e', nth_error st i = Some e -> nth_error r i = Some e' ->
      (exists a, nth_error x i = Some a /\
         forall j v, nth_error (amps e') j = Some (Some v) -> exists ln, nth_error (lines e) j = Some ln /\ line_amplitude (kd e) (limit e) (a * peak) (l_nom ln) v) /\
      (c_poly c = true -> forall a b, nth_error axis i0 = Some a -> nth_error axis (last (i0 :: rest) i0) = Some b -> ~ a == b ->
         let n := needed c (length st) (kinds_count (map kd st)) in
         exists p0 p1 p2, nth_error x (n - 3) = Some p0 /\ nth_error x (n - 2) = Some p1 /\ nth_error x (n - 1) = Some p2 /\
         forall y, let u := (2 * y - a - b) / (b - a) in
           let '(b0, b1, b2) := poly e' in getValue (mkPoly b0 b1 b2) y == peak * (p0 + p1 * u + p2 * (u * u))).
Proof.
  intros fuel i0 rest st r R Ls E.
  destruct (fit_cases _ _ _ _ _ _ _ _ _ _ _ _ _ _ _ _ _ _ R E) as (lay & El & Nd & [(L & _)|(_ & [Li|(st2 & np & nf & g & x & Li & Rf)])]);
    [cbn in *; lia|left; exact Li|right].
  assert (F := refined_final _ _ _ _ _ _ _ _ _ _ _ _ _ _ _ _ _ _ _ _ _ _ _ _ Li Rf).
  destruct (refined_point _ _ _ _ _ _ _ _ _ _ _ _ _ _ _ _ _ _ _ _ _ _ _ _ R El Li Rf) as
      (t & bs & ga & e0 & es & peak & Lc & Ty & Bs & Lb & Pn & Nf & Pp & Pk & Lg & E2 & Hg & Gx & Px).
  assert (Np : (if c_poly c then make_poly axis (i0 :: rest) else Ok (mkNPoly 0 0 0 0 0)) = Ok np).
  { destruct Rf as (? & ? & ? & ? & ? & ? & ? & ? & ? & ? & _ & _ & _ & Np & _). exact Np. }
  exists peak, g, x. split; [exact Pp|]. split; [apply max_flux_is_peak; exact Pk|]. split; [|split].
  - destruct Px as [(h & D)|(D & _)]; [right; eexists; exists h; exact D|left; exact D].
  - exists st2. split; [exact Li|]. intros i e Ne.
    assert (Hi : (i < length ga)%nat). { rewrite Lg. destruct (linear_lines _ _ _ _ Li) as (L2 & _). rewrite <- L2. apply nth_error_Some. congruence. }
    destruct (nth_error ga i) as [v|] eqn:Nv; [|apply nth_error_None in Nv; lia].
    destruct (Hg i v Nv) as (e' & a & Ne' & Ga & Ev). assert (e' = e) by congruence. subst e'.
    exists a, v. split; [exact Ga|]. split; [rewrite Gx, nth_params_amp by exact Hi; exact Nv|].
    rewrite Ev, Nf. field. lra.
  - intros i e e' Ne Ne'. destruct F as (_ & F). destruct (F i e' Ne') as (e1 & Ne1 & (Sl & (a & Na & Fa) & _ & _ & Po & _)).
    assert (e1 = e) by congruence. subst e1. split.
    + exists a. split; [exact Na|]. intros j v Nj. destruct (Fa j v Nj) as (ln & Nl & ->). exists ln. split; [exact Nl|].
      assert (H : line_amplitude (kd e) (limit e) (a / nf) (l_nom ln) (fitted e (a / nf) (l_nom ln))) by apply fitted_amplitude.
      assert (Q0 : a / nf == a * peak) by (rewrite Nf; field; lra).
      assert (Q1 : a / nf * l_nom ln == a * peak * l_nom ln) by (rewrite Q0; reflexivity). clear -H Q1. unfold line_amplitude in *.
      destruct (kd e); [rewrite <- Q1; exact H|]. destruct H as (H1 & H2). split.
      * intro L. destruct (H1 L) as (H3 & H4). split; intro M.
        -- rewrite <- Q1. apply H3. lra.
        -- apply H4. lra.
      * intro L. rewrite <- Q1. apply H2. exact L.
    + intros P wa wb Nwa Nwb D n. destruct (Po P) as (q & Hq & Pe).
      rewrite P in Np. unfold make_poly in Np. unfold vget in Np. rewrite Nwa in Np. cbn [rbind] in Np. rewrite Nwb in Np. cbn [rbind] in Np.
      apply Ok_inj in Np. subst np.
      unfold npoly_of in Hq. apply rbind_inv in Hq. destruct Hq as (p0 & P0 & Hq). apply rbind_inv in Hq.
      destruct Hq as (p1 & P1 & Hq). apply rbind_inv in Hq. destruct Hq as (p2 & P2 & Hq). apply Ok_inj in Hq.
      assert (Cn : nddl (canon c (length st) t) = n) by (rewrite <- Lc; exact Nd).
      rewrite Lc in P0, P1, P2. unfold ocoeff, canon in P0, P1, P2. cbn [iPoly] in P0, P1, P2. rewrite P in P0, P1, P2. cbn [oget] in P0, P1, P2.
      apply vget_Ok in P0, P1, P2. unfold canon, needed in Cn. cbn [nddl] in Cn. rewrite P in Cn. fold (vel_n c (nk t)) in Cn. fold (off_n c) in Cn.
      exists p0, p1, p2. split; [rewrite <- P0; f_equal; lia|]. split; [rewrite <- P1; f_equal; lia|]. split; [rewrite <- P2; f_equal; lia|].
      intros y u. rewrite Pe. destruct (getCoeffs q) as [[b0 b1] b2] eqn:G.
      assert (Sq : ~ scale q == 0). { subst q. unfold construct. cbn [scale]. intro Z. apply D. lra. }
      assert (Nz : ~ nf == 0) by lra.
      assert (H := polynomial_units q nf y b0 b1 b2 Sq Nz G).
      assert (V : ngetValue q y == p0 + p1 * u + p2 * (u * u)).
      { subst q. unfold ngetValue, construct, u. cbn [n0 n1 n2 x0red scale]. field. lra. }
      rewrite V in H. rewrite <- H, Nf. field. lra.
Qed.
End Result.
