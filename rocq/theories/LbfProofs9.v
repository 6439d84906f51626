(** No undefined behaviour for a regular group; concrete cases (C94). *)
From Verif Require Import Base F64 PolyModel LbfModel LbfSpec LbfProofs LbfProofs2 LbfProofs3 LbfProofs4 LbfProofs5 LbfProofs6 LbfProofs7 LbfProofs8.
Open Scope Q_scope.

Definition safe {A} (r : res A) : Prop := r <> UB.
Lemma safe_bind {A B} (r : res A) (f : A -> res B) : safe r -> (forall a, r = Ok a -> safe (f a)) -> safe (rbind r f).
Proof. unfold safe. intros H K. destruct r; [apply K; reflexivity|discriminate|congruence]. Qed.
Lemma safe_ok {A} (a : A) : safe (Ok a).
Proof. discriminate. Qed.
Lemma safe_vget {A} (v : list A) i : (i < length v)%nat -> safe (vget v i).
Proof. unfold vget, safe. intro L. destruct (nth_error v i) eqn:N; [discriminate|]. apply nth_error_None in N. lia. Qed.
Lemma safe_mapi {A B} (f : nat -> A -> res B) l : forall i,
  (forall j a, nth_error l j = Some a -> safe (f (i + j)%nat a)) -> safe (mapi_res f i l).
Proof.
  induction l as [|a l IH]; intros i H; [apply safe_ok|]. cbn [mapi_res]. apply safe_bind.
  - specialize (H 0%nat a eq_refl). rewrite Nat.add_0_r in H. exact H.
  - intros b _. apply safe_bind; [|intros r _; apply safe_ok]. apply IH. intros j x N.
    replace (S i + j)%nat with (i + S j)%nat by lia. apply (H (S j) x N).
Qed.
Lemma nth_lt {A} (l : list A) i a : nth_error l i = Some a -> (i < length l)%nat.
Proof. intro N. apply nth_error_Some. congruence. Qed.

Section Fit.
Context (c : conf) (axis flux cont err : list Q).
Context (outside_of : kind -> line -> Q -> Q -> bool) (profile : kind -> line -> Q -> Q -> Q -> res Q).
Context (svd : list elt -> res ((nat -> option Q * f64) * (Q * Q * Q))).
Context (solver : list (f64 * f64) -> list Q -> list (list Q * Q) -> action).
Context (width : elt -> res Q) (noise : list elt -> nat -> f64) (meanres : elt -> nat -> Q) (root : Q -> Q) (sqrtpi : Q).

Notation fit := (fit c axis flux cont err outside_of profile svd solver width noise meanres root sqrtpi).
Notation prepareSupport := (prepareSupport outside_of).
Notation evaluate := (evaluate c axis flux cont err outside_of profile).
Notation minimize := (minimize c axis flux cont err outside_of profile solver).
Notation snr_loop := (snr_loop width noise meanres root sqrtpi).

(** the samples are inside the arrays *)
Definition inside_arrays (xs : list nat) : Prop := forall i, In i xs -> (i < length axis)%nat /\ (i < length flux)%nat /\ (i < length cont)%nat /\ (i < length err)%nat.

Hypothesis Hprof : forall k l v o y, profile k l v o y <> UB.
Hypothesis Hwidth : forall e, width e <> UB.
Hypothesis Hsvd : forall st, svd st <> UB.
Hypothesis Hsize : sized_solver solver.

Lemma safe_lines k v x cx ls : forall os ou am acc, safe (model_lines profile k v x cx ls os ou am acc).
Proof.
  induction ls as [|l ls IH]; intros [|o os] [|b ou] [|a am] acc; try apply safe_ok. cbn [LbfModel.model_lines].
  destruct b; [apply IH|]. destruct a as [a|]; [|apply IH]. destruct (Qltb a 0); [apply IH|].
  apply safe_bind; [apply Hprof|]. intros p _. apply IH.
Qed.
Lemma safe_sum x cx st : forall acc, safe (sum_elts profile st x cx acc).
Proof.
  induction st as [|e st IH]; intro acc; [apply safe_ok|]. cbn [LbfModel.sum_elts]. apply safe_bind.
  - unfold getModelAtLambda. destruct (out e); [apply safe_ok|apply safe_lines].
  - intros m _. apply IH.
Qed.
Lemma safe_square nf st p xs : inside_arrays xs -> forall acc, safe (least_square c axis flux cont err profile nf st p xs acc).
Proof.
  induction xs as [|i xs IH]; intros H acc; [apply safe_ok|]. cbn [LbfModel.least_square].
  destruct (H i (or_introl eq_refl)) as (H1 & H2 & H3 & H4).
  apply safe_bind; [apply safe_vget, H1|intros xi _]. apply safe_bind; [apply safe_vget, H2|intros fl _].
  apply safe_bind; [apply safe_vget, H4|intros er _]. apply safe_bind; [apply safe_vget, H3|intros cx _]. cbv zeta.
  apply safe_bind; [apply safe_sum|intros f _]. apply IH. intros j J. apply H. right. exact J.
Qed.
Lemma safe_data nf xs : inside_arrays xs -> forall acc, safe (data_square flux err nf xs acc).
Proof.
  induction xs as [|i xs IH]; intros H acc; [apply safe_ok|]. cbn [data_square].
  destruct (H i (or_introl eq_refl)) as (H1 & H2 & H3 & H4).
  apply safe_bind; [apply safe_vget, H2|intros fl _]. apply safe_bind; [apply safe_vget, H4|intros er _]. cbv zeta.
  apply IH. intros j J. apply H. right. exact J.
Qed.
Lemma safe_max xs : inside_arrays xs -> forall m, safe (max_flux flux xs m).
Proof.
  induction xs as [|i xs IH]; intros H m; [apply safe_ok|]. cbn [max_flux]. apply safe_bind.
  - apply safe_vget. apply (H i (or_introl eq_refl)).
  - intros f _. apply IH. intros j J. apply H. right. exact J.
Qed.

Section Sized.
Context (m : nat) (t : option kind).
Notation lay := (canon c m t).
(** the velocity of every kind present has a position *)
Definition kinds_ok (st : list elt) : Prop := length st = m /\ (c_vel c = true -> forall e, In e st -> t = None \/ t = Some (kd e)).
Lemma kinds_ok_lines a b : related (fun _ => same_lines) a b -> kinds_ok a -> kinds_ok b.
Proof.
  intros (L & H) (K1 & K2). split; [congruence|]. intros V e' I. apply In_nth_error in I. destruct I as (i & N).
  destruct (H i e' N) as (e & Ne & Q & _). rewrite Q. apply (K2 V e). apply (nth_error_In _ _ Ne).
Qed.
Lemma pos_vE x : length x = nddl lay -> c_vel c = true -> t = None \/ t = Some Em -> safe (oget x (vE lay)).
Proof.
  intros L V H. unfold canon in *. cbn [nddl vE] in *. unfold needed in L. rewrite V in *. destruct H as [-> | ->]; cbn [oget nk] in *; apply safe_vget; lia.
Qed.
Lemma pos_vA x : length x = nddl lay -> c_vel c = true -> t = None \/ t = Some Ab -> safe (oget x (vA lay)).
Proof.
  intros L V H. unfold canon in *. cbn [nddl vA] in *. unfold needed in L. rewrite V in *. destruct H as [-> | ->]; cbn [oget nk] in *; apply safe_vget; lia.
Qed.
Lemma pos_off x : length x = nddl lay -> c_off c = true -> safe (oget x (iOff lay)).
Proof.
  intros L V. unfold canon in *. cbn [nddl iOff] in *. unfold needed in L. rewrite V in *. cbn [oget]. apply safe_vget. unfold vel_n.
  destruct (c_vel c); lia.
Qed.
Lemma pos_poly np x : length x = nddl lay -> c_poly c = true -> safe (npoly_of np lay x).
Proof.
  intros L V. unfold npoly_of, ocoeff, canon in *. cbn [nddl iPoly] in *. unfold needed in L. rewrite V in *. cbn [oget].
  assert (B : forall k, (k <= 2)%nat -> safe (vget x (m + vel_n c (nk t) + off_n c + k)%nat)).
  { intros k K. apply safe_vget. unfold vel_n, off_n. destruct (c_vel c), (c_off c); lia. }
  apply safe_bind; [apply B; lia|intros p0 _]. apply safe_bind; [apply B; lia|intros p1 _]. apply safe_bind; [apply B; lia|intros p2 _].
  apply safe_ok.
Qed.
Lemma pos_amp (x : list Q) i : length x = nddl lay -> (i < m)%nat -> safe (vget x i).
Proof. intros L H. apply safe_vget. rewrite L. unfold canon, needed. cbn [nddl]. lia. Qed.

Lemma safe_unpack np st x : length x = nddl lay -> kinds_ok st -> safe (unpack c outside_of lay np st x).
Proof.
  intros L K. unfold unpack. apply safe_bind.
  { apply safe_mapi. intros j e N. unfold unpack_amp. apply safe_bind; [|intros; apply safe_ok]. apply pos_amp; [exact L|].
    destruct K as (K & _). rewrite <- K. apply (nth_lt _ _ _ N). }
  intros s1 E1. assert (K1 : kinds_ok s1).
  { apply (kinds_ok_lines st); [|exact K]. apply (sl_step _ _ _ (related_mapi _ _ _ E1)). intros i e e' H. unfold unpack_amp in H.
    apply rbind_inv in H. destruct H as (a & _ & H). apply Ok_inj in H. subst e'. apply sl_amps. }
  apply safe_bind.
  { destruct (c_vel c) eqn:V; [|apply safe_ok]. apply safe_mapi. intros j e N. unfold unpack_vel.
    destruct K1 as (_ & K2). specialize (K2 V e (nth_error_In _ _ N)).
    destruct (kd e) eqn:Kd; (apply safe_bind; [|intros; apply safe_ok]).
    - apply pos_vE; auto.
    - apply pos_vA; auto. }
  intros s2 E2. apply safe_bind.
  { destruct (c_off c) eqn:O; [|apply safe_ok]. apply safe_bind; [apply pos_off; auto|intros; apply safe_ok]. }
  intros s3 E3. apply safe_bind.
  { destruct (c_poly c) eqn:P; [apply pos_poly; auto|apply safe_ok]. }
  intros; apply safe_ok.
Qed.
Lemma safe_evaluate np nf s0 xs st x : length x = nddl lay -> kinds_ok st -> inside_arrays xs -> safe (evaluate lay np nf s0 xs st x).
Proof.
  intros L K H. unfold LbfModel.evaluate. apply safe_bind; [apply safe_unpack; auto|]. intros (s, p) _.
  apply safe_bind; [apply safe_square, H|intros; apply safe_ok].
Qed.
Lemma safe_minimize n np nf s0 xs b g : length g = nddl lay -> inside_arrays xs -> forall h st, kinds_ok st ->
  safe (minimize n lay np nf s0 xs b g h st) /\ forall r, minimize n lay np nf s0 xs b g h st = Ok r ->
  kinds_ok (fst r) /\ forall x, snd r = Some x -> length x = nddl lay.
Proof.
  intros Lg H. induction n as [|n IH]; intros h st K; cbn [LbfModel.minimize].
  - destruct (solver b g h) as [x|x|] eqn:Sv; (split; [apply safe_ok|]); intros r E; apply Ok_inj in E; subst r; cbn [fst snd]; (split; [exact K|]);
      intros y Y; try discriminate. apply Some_inj in Y. subst y. rewrite <- Lg. apply (Hsize b g h). auto.
  - destruct (solver b g h) as [x|x|] eqn:Sv.
    + assert (Lx : length x = nddl lay) by (rewrite <- Lg; apply (Hsize b g h); auto).
      split.
      * apply safe_bind; [apply safe_evaluate; auto|]. intros (s, v) E. apply IH.
        apply (kinds_ok_lines st); [|exact K]. apply (evaluate_lines _ _ _ _ _ _ _ _ _ _ _ _ _ _ _ _ E).
      * intros r E. apply rbind_inv in E. destruct E as ((s, v) & E1 & E). apply (IH (h ++ [(x, v)])%list s); [|exact E].
        apply (kinds_ok_lines st); [|exact K]. apply (evaluate_lines _ _ _ _ _ _ _ _ _ _ _ _ _ _ _ _ E1).
    + split; [apply safe_ok|]. intros r E. apply Ok_inj in E. subst r. cbn [fst snd]. split; [exact K|].
      intros y Y. apply Some_inj in Y. subst y. rewrite <- Lg. apply (Hsize b g h). auto.
    + split; [apply safe_ok|]. intros r E. apply Ok_inj in E. subst r. cbn [fst snd]. split; [exact K|]. discriminate.
Qed.
Lemma safe_store np nf st x : length x = nddl lay -> kinds_ok st -> safe (store c lay np nf st x).
Proof.
  intros L K. unfold store. apply safe_bind.
  { apply safe_mapi. intros j e N. unfold store_amp. apply safe_bind; [|intros; apply safe_ok]. apply pos_amp; [exact L|].
    destruct K as (K & _). rewrite <- K. apply (nth_lt _ _ _ N). }
  intros s1 E1. apply safe_bind.
  { destruct (c_vel c) eqn:V; [|apply safe_ok]. unfold store_vel. assert (X : ltype lay = t) by (unfold canon; cbn [ltype]; rewrite V; reflexivity).
    rewrite X. destruct t as [[|]|] eqn:T; rewrite <- T in *.
    - apply safe_bind; [apply pos_vE; auto|intros; apply safe_ok].
    - apply safe_bind; [apply pos_vA; auto|intros; apply safe_ok].
    - apply safe_bind; [apply pos_vA; auto|intros; apply safe_bind; [apply pos_vE; auto|intros; apply safe_ok]]. }
  intros s2 E2. apply safe_bind.
  { destruct (c_off c) eqn:O; [|apply safe_ok]. apply safe_bind; [apply pos_off; auto|intros; apply safe_ok]. }
  intros s3 E3. destruct (c_poly c) eqn:P; [|apply safe_ok]. apply safe_bind; [apply pos_poly; auto|].
  intros q _. destruct (getCoeffs q) as [[a0 a1] a2]. apply safe_ok.
Qed.
Lemma safe_snr st0 nf x : length x = nddl lay -> forall es i, (i + length es <= m)%nat -> safe (snr_loop st0 nf x i es).
Proof.
  intro L. induction es as [|e es IH]; intros i H; [apply safe_ok|]. cbn [LbfModel.snr_loop]. cbn [length] in H.
  apply safe_bind; [apply pos_amp; [exact L|lia]|intros a _]. destruct (out e); [apply safe_ok|].
  apply safe_bind; [apply Hwidth|intros s _]. cbv zeta. apply safe_bind; [apply IH; lia|intros; apply safe_ok].
Qed.
End Sized.

Lemma safe_guess nf es : forall s, safe (amp_guess nf es s).
Proof.
  induction es as [|e es IH]; intro s; [apply safe_ok|]. cbn [amp_guess]. destruct (GetElementAmplitude e); [|discriminate].
  destruct nf; [|destruct (Qeq_bool q 0); [discriminate|]]; cbv zeta; (apply safe_bind; [apply IH|intros; apply safe_ok]).
Qed.

Theorem no_ub fuel xs st : regular c (map kd st) -> inside_arrays xs -> (forall e, In e st -> lines e <> []) -> fit fuel xs st <> UB.
Proof.
  intros R X W. change (safe (fit fuel xs st)). destruct st as [|e0 rest] eqn:Est; [discriminate|]. rewrite <- Est in *.
  assert (N : map kd st <> []) by (rewrite Est; discriminate).
  destruct (regular_layout c _ N R) as (t & El & Kt & _). rewrite map_length in El. set (m := length st) in *.
  unfold LbfModel.fit. rewrite El. cbn [rbind]. destruct xs as [|i0 xs0] eqn:Exs; [discriminate|]. rewrite <- Exs in *.
  destruct (Nat.ltb (length xs) (nddl (canon c m t))); [apply safe_ok|].
  assert (K : kinds_ok m t st). { split; [reflexivity|]. intros V e I. apply (Kt V). apply in_map, I. }
  apply safe_bind.
  { destruct (c_poly c); [|apply safe_ok]. unfold make_poly. rewrite Exs. rewrite <- Exs. apply safe_bind.
    - apply safe_vget. apply (X i0). rewrite Exs. left; reflexivity.
    - intros a _. apply safe_bind; [|intros; apply safe_ok]. apply safe_vget. apply (X (last xs i0)).
      clear -Exs. rewrite Exs. clear. revert i0. induction xs0 as [|a l IH]; intro i0; [left; reflexivity|].
      change (last (i0 :: a :: l) i0) with (last (a :: l) i0). right.
      assert (forall d d', last (a :: l) d = last (a :: l) d') as Q.
      { clear. revert a. induction l as [|b l IH]; intros a d d'; [reflexivity|]. change (last (b :: l) d = last (b :: l) d'). apply IH. }
      rewrite (Q i0 a). apply IH. }
  intros np _. apply safe_bind; [apply safe_max, X|]. intros peak Epk.
  apply safe_bind.
  { destruct (mapi_total (fun _ e => amp_bound e) st 0) as (bs & Eb).
    - intros j e Ne. cbv beta. unfold amp_bound. destruct (kd e); [eexists; reflexivity|]. destruct (Qltb 0 (limit e)); [|eexists; reflexivity].
      unfold max_nominal. assert (We := W e (nth_error_In _ _ Ne)). destruct (lines e) as [|l ls]; [congruence|]. cbn [rbind]. eexists; reflexivity.
    - fold m. unfold m. rewrite (bounds_regular c t st bs Eb). apply safe_ok. }
  intros b0 Eb. apply safe_bind; [apply Hsvd|]. intros r _. cbv zeta.
  apply safe_bind; [apply safe_mapi; intros; apply safe_ok|]. intros st2 Es2.
  assert (L2 : related (fun _ => same_lines) st st2).
  { apply (sl_chain _ (map (start_velocity c) st)).
    - apply sl_map. intro e. unfold start_velocity. destruct (kd e) eqn:Q; repeat split; cbn; congruence.
    - apply (sl_step _ _ _ (related_mapi _ _ _ Es2)). intros i e e' H. unfold apply_svd in H. apply Ok_inj in H. subst e'.
      destruct (c_poly c); [|apply sl_amps]. apply sl_trans with (set_amplitudes e (fst (fst r i)) (snd (fst r i))); [apply sl_amps|repeat split]. }
  assert (K2 := kinds_ok_lines m t _ _ L2 K).
  apply safe_bind; [apply safe_guess|]. intros (ga, s) Eg. cbn [fst snd].
  destruct (flt s (Fin 1)) eqn:Fl; [apply safe_ok|].
  destruct (Qeq_bool peak 0) eqn:Pk. { exfalso. apply null_guess in Eg. cbn in Eg. subst s. discriminate Fl. }
  set (nf := 1 / peak) in *. apply safe_bind; [apply safe_data, X|]. intros s0 _.
  assert (Lga : length ga = length st2).
  { destruct (amp_guess_list _ _ _ _ _ Eg) as (L & _). exact L. }
  destruct st2 as [|e2 rest2] eqn:E2. { exfalso. destruct L2 as (L & _). rewrite Est in L. discriminate. } rewrite <- E2 in *.
  assert (Lm : length st2 = m) by apply K2.
  rewrite <- Lm. rewrite (guess_regular c t st2 np nf ga e2 rest2 E2 Lga). cbn [rbind].
  assert (Eb' : exists bs, b0 = map Some bs).
  { destruct (make_bounds c (canon c m t) st) eqn:Mb; try discriminate. apply Ok_inj in Eb. subst a. unfold make_bounds in Mb.
    assert (Mb' := Mb). apply rbind_inv in Mb'. destruct Mb' as (bs & B1 & _). fold (make_bounds c (canon c m t) st) in Mb.
    unfold m in Mb. rewrite (bounds_regular c t st bs B1) in Mb. apply Ok_inj in Mb. eexists. symmetry. exact Mb. }
  destruct Eb' as (bs & ->). rewrite !defined_all. cbn [rbind]. cbv zeta.
  set (g := params c t ga _ _ _ _).
  assert (Lg : length g = nddl (canon c m t)). { unfold g. rewrite params_len by reflexivity. rewrite Lga, Lm. reflexivity. }
  rewrite Lm. clearbody g. destruct (safe_minimize m t fuel np nf s0 xs bs g Lg X [] st2 K2) as (M1 & M2).
  apply safe_bind; [exact M1|]. intros mm Em. destruct (M2 mm Em) as (M3 & M4).
  set (x := match snd mm with Some x => x | None => g end).
  assert (Lx : length x = nddl (canon c m t)). { unfold x. destruct (snd mm) as [y|] eqn:Y; [apply M4; reflexivity|exact Lg]. }
  apply safe_bind.
  { apply (safe_store m t); auto. }
  intros st3 E3. apply (safe_snr m t); [exact Lx|]. rewrite map_length.
  unfold store in E3. apply rbind_inv in E3. destruct E3 as (t1 & T1 & E3). apply mapi_len in T1.
  apply rbind_inv in E3. destruct E3 as (t2 & T2 & E3). apply rbind_inv in E3. destruct E3 as (t3 & T3 & E3).
  assert (Q2 : length t2 = length t1). { destruct (c_vel c); [|apply Ok_inj in T2; congruence]. unfold store_vel in T2.
    destruct (ltype _) as [[|]|]; apply rbind_inv in T2; destruct T2 as (u & _ & T2); [| |apply rbind_inv in T2; destruct T2 as (u2 & _ & T2)]; apply Ok_inj in T2; subst t2; apply map_length. }
  assert (Q3 : length t3 = length t2). { destruct (c_off c); [|apply Ok_inj in T3; congruence]. apply rbind_inv in T3. destruct T3 as (u & _ & T3). apply Ok_inj in T3. subst t3. apply map_length. }
  assert (Q4 : length st3 = length t3). { destruct (c_poly c); [|apply Ok_inj in E3; congruence]. apply rbind_inv in E3. destruct E3 as (u & _ & E3). destruct (getCoeffs u) as [[a0 a1] a2]. apply Ok_inj in E3. subst st3. apply map_length. }
  destruct M3 as (Q & _). lia.
Qed.
End Fit.
