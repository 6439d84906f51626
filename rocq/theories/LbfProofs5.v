(** Velocities, offsets, amplitudes, standard deviations of the fitted group (C94). *)
From Verif Require Import Base F64 PolyModel LbfModel LbfSpec LbfProofs LbfProofs2 LbfProofs3 LbfProofs4.
Open Scope Q_scope.

Section Fit.
Context (c : conf) (axis flux cont err : list Q).
Context (outside_of : kind -> line -> Q -> Q -> bool) (profile : kind -> line -> Q -> Q -> Q -> res Q).
Context (svd : list elt -> res ((nat -> option Q * f64) * (Q * Q * Q))).
Context (solver : list (f64 * f64) -> list Q -> list (list Q * Q) -> action).
Context (width : elt -> res Q) (noise : list elt -> nat -> f64) (meanres : elt -> nat -> Q) (root : Q -> Q) (sqrtpi : Q).

Notation fit := (fit c axis flux cont err outside_of profile svd solver width noise meanres root sqrtpi).
Notation prepareSupport := (prepareSupport outside_of).
Notation minimize := (minimize c axis flux cont err outside_of profile solver).
Notation snr_loop := (snr_loop width noise meanres root sqrtpi).
Notation refined := (refined c axis flux cont err outside_of profile solver width noise meanres root sqrtpi).
Notation linear := (linear c svd).
Notation left_by := (left_by c outside_of).

(** ** the linear fit *)
Lemma linear_related st st2 : linear st st2 -> exists r, svd (map (start_velocity c) st) = Ok r /\
  related (fun i e e' => e' = (let e1 := set_amplitudes (start_velocity c e) (fst (fst r i)) (snd (fst r i)) in if c_poly c then set_poly e1 (snd r) else e1)) st st2.
Proof.
  intros (r & Er & E). exists r. split; [exact Er|].
  eapply related_trans; [|apply related_map|apply (related_mapi _ _ _ E)].
  intros i a b d -> H. unfold apply_svd in H. apply Ok_inj in H. subst d. reflexivity.
Qed.
Lemma linear_lines st st2 : linear st st2 -> related (fun _ => same_lines) st st2.
Proof.
  intro L. destruct (linear_related _ _ L) as (r & _ & H). eapply sl_step; [exact H|].
  intros i e e' ->. cbv zeta. assert (same_lines e (set_amplitudes (start_velocity c e) (fst (fst r i)) (snd (fst r i)))).
  { apply (sl_trans _ (start_velocity c e)); [unfold start_velocity; destruct (kd e) eqn:K; repeat split; exact K|apply sl_amps]. }
  destruct (c_poly c); [|exact H0]. exact H0.
Qed.

(** ** the precise fit *)
Lemma refined_left fuel xs lay st st2 np nf g x r : linear st st2 -> refined fuel xs lay st st2 np nf g x r ->
  exists stm es, related (fun _ => same_lines) st stm /\ related (left_by lay np nf x) stm es /\
    related (snr_cell width noise meanres root sqrtpi es es nf x 0) es r.
Proof.
  intros Li (peak & ga & s & b0 & b & g0 & s0 & stm & mo & st3 & _ & _ & _ & _ & _ & _ & _ & _ & _ & _ & _ & Em & _ & Es & Er).
  assert (H1 := proj1 (minimize_lines _ _ _ _ _ _ _ _ _ _ _ _ _ _ _ _ _ _ _ _ Em)).
  exists stm, (map prepareSupport st3). split; [|split].
  - eapply sl_chain; [apply linear_lines, Li|exact H1].
  - apply store_left, Es.
  - apply snr_cells. exact Er.
Qed.

(** what is known of each element at the end *)
Definition final (lay : layout) (np : npolynom) (nf : Q) (x : list Q) (i : nat) (e e' : elt) : Prop :=
  same_lines e e' /\
  (exists a, nth_error x i = Some a /\ from_amp e (a / nf) (amps e')) /\
  (c_vel c = true -> vel_of c lay x e') /\
  (c_off c = true -> exists d, oget x (iOff lay) = Ok d /\ offs e' = map (fun l => shifted l (d * norm_offset c)) (lines e')) /\
  (c_poly c = true -> exists q, npoly_of np lay x = Ok q /\
     poly e' = (let '(a0, a1, a2) := getCoeffs q in (a0 / nf, a1 / nf, a2 / nf))) /\
  outs e' = line_outs outside_of (kd e') (velocity e') (lines e') (offs e') /\ out e' = forallb (fun b => b) (outs e').

Lemma from_amp_lines e e' A am : same_lines e e' -> from_amp e' A am -> from_amp e A am.
Proof.
  intros (K & L & N) H j v J. destruct (H j v J) as (l & Nl & V). exists l. rewrite N in Nl. split; [exact Nl|].
  rewrite V. apply fitted_same; auto.
Qed.

Lemma cell_amps es nf x j e e' a A : nth_error x j = Some a -> A = a / nf -> snr_cell width noise meanres root sqrtpi es es nf x 0 j e e' ->
  from_amp e A (amps e) -> from_amp e A (amps e').
Proof.
  intros Nx -> [(_ & a' & s & Na & _ & ->)|[(_ & ->)|(_ & ->)]] F.
  - rewrite full_amps. cbn in Na. assert (a' = a) by congruence. subst a'. apply set_from_amp.
  - intros k v N. destruct (set_none_amps _ _ _ _ N).
  - exact F.
Qed.

Lemma refined_final fuel xs lay st st2 np nf g x r : linear st st2 -> refined fuel xs lay st st2 np nf g x r ->
  related (final lay np nf x) st r.
Proof.
  intros Li Rf. destruct (refined_left _ _ _ _ _ _ _ _ _ _ Li Rf) as (stm & es & H1 & H2 & H3).
  assert (H : related (fun i e e' => exists e4, (exists em, same_lines e em /\ left_by lay np nf x i em e4) /\
              snr_cell width noise meanres root sqrtpi es es nf x 0 i e4 e') st r).
  { eapply related_trans with (R1 := fun i e e4 => exists em, same_lines e em /\ left_by lay np nf x i em e4); [|
      eapply related_trans; [|exact H1|exact H2]|exact H3].
    - intros i a b d A B. exists b. auto.
    - intros i a b d A B. exists b. auto. }
  eapply related_weaken; [|exact H]. intros i e e' (e4 & (em & S0 & (S & A & D & V & O & P & U & W)) & Cell).
  assert (Kp := snr_kept _ _ _ _ _ _ _ _ _ _ _ _ _ Cell).
  assert (S4 : same_lines e e4) by (apply (sl_trans _ em); auto).
  assert (S' : same_lines e e'). { apply (sl_trans _ e4); [exact S4|]. rewrite Kp. repeat split. }
  split; [exact S'|]. split; [|split; [|split; [|split; [|split]]]].
  - destruct A as (a & Na & F). exists a. split; [exact Na|]. apply (from_amp_lines e e4); [exact S4|].
    apply (cell_amps es nf x i e4 e' a); auto. apply (from_amp_lines e4 em); [|exact F].
    destruct S as (K1 & L1 & N1). repeat split; congruence.
  - intro C. specialize (V C). rewrite Kp. exact V.
  - intro C. destruct (O C) as (d & D1 & D2). exists d. split; [exact D1|]. rewrite Kp. exact D2.
  - intro C. destruct (P C) as (q & Q1 & Q2). exists q. split; [exact Q1|]. rewrite Kp. exact Q2.
  - rewrite Kp. exact U.
  - rewrite Kp. exact W.
Qed.

(** ** the point kept *)
Lemma F2_nth {A B} (R : A -> B -> Prop) l : forall l' i a b, Forall2 R l l' -> nth_error l i = Some a -> nth_error l' i = Some b -> R a b.
Proof.
  induction l as [|x l IH]; intros l' i a b F Na Nb; [destruct i; discriminate|].
  inversion F; subst. destruct i as [|i]; cbn in *; [congruence|]. eapply IH; eauto.
Qed.

Lemma nth_params_amp {A} t (am : list A) va ve o p i : (i < length am)%nat -> nth_error (params c t am va ve o p) i = nth_error am i.
Proof. intro H. unfold params. apply nth_error_app1, H. Qed.
Lemma nth_params_vA {A} t (am : list A) va ve o p n : vA (canon c (length am) t) = Some n -> nth_error (params c t am va ve o p) n = Some va.
Proof.
  unfold canon, params. cbn [vA]. destruct (c_vel c); [|discriminate]. cbn [block].
  destruct t as [[|]|]; try discriminate; intro H; injection H as <-; rewrite nth_error_app2 by lia; rewrite Nat.sub_diag; reflexivity.
Qed.
Lemma nth_params_vE {A} t (am : list A) va ve o p n : vE (canon c (length am) t) = Some n -> nth_error (params c t am va ve o p) n = Some ve.
Proof.
  unfold canon, params. cbn [vE]. destruct (c_vel c); [|discriminate]. cbn [block].
  destruct t as [[|]|]; try discriminate; intro H; injection H as <-; rewrite nth_error_app2 by lia.
  - rewrite Nat.sub_diag; reflexivity.
  - replace (S (length am) - length am)%nat with 1%nat by lia. reflexivity.
Qed.
Lemma nth_params_off {A} t (am : list A) va ve o p n : iOff (canon c (length am) t) = Some n -> nth_error (params c t am va ve o p) n = Some o.
Proof.
  unfold canon, params. cbn [iOff]. destruct (c_off c); [|discriminate]. cbn [block]. intro H. injection H as <-.
  rewrite nth_error_app2 by lia. replace (length am + vel_n c (nk t) - length am)%nat with (vel_n c (nk t)) by lia.
  rewrite nth_error_app2 by (rewrite vel_len; lia). rewrite vel_len, Nat.sub_diag. reflexivity.
Qed.

(** the amplitude guess *)
Lemma amp_guess_list nf es : forall s ga s', amp_guess (Some nf) es s = Ok (ga, s') ->
  length ga = length es /\ forall i v, nth_error ga i = Some v -> exists e a, nth_error es i = Some e /\ GetElementAmplitude e = Some a /\ v = a * nf.
Proof.
  induction es as [|e es IH]; intros s ga s' E; cbn in E.
  - injection E as <- <-. split; [reflexivity|]. intros [|i] v N; discriminate.
  - destruct (GetElementAmplitude e) as [a|] eqn:G; try discriminate. apply rbind_inv in E. destruct E as ((ga1, s1) & E1 & E).
    cbn [fst snd] in E. injection E as <- <-. destruct (IH _ _ _ E1) as (L & H). split; [cbn; lia|].
    intros [|i] v N; cbn in N.
    + injection N as <-. exists e, a. auto.
    + apply (H i v N).
Qed.

Lemma max_flux_ge xs : forall m p, max_flux flux xs m = Ok p -> m <= p /\ forall M, m <= M -> (forall i f, In i xs -> nth_error flux i = Some f -> Qabs f <= M) -> p <= M.
Proof.
  induction xs as [|i xs IH]; intros m p E; cbn in E.
  - injection E as <-. split; [lra|]. auto.
  - apply rbind_inv in E. destruct E as (f & Ef & E). apply vget_Ok in Ef. destruct (IH _ _ E) as (H1 & H2).
    unfold Qmaxb in *. destruct (Qltb_spec m (Qabs f)) as [L|L]; (split; [lra|]); intros M HM H; apply H2.
    + apply (H i f); [left; reflexivity|exact Ef].
    + intros j f' I. apply H. right. exact I.
    + exact HM.
    + intros j f' I. apply H. right. exact I.
Qed.
Lemma Qeq_bool_neq x : Qeq_bool x 0 = false -> ~ x == 0.
Proof. intros H E. apply Qeq_bool_iff in E. congruence. Qed.

(** In a regular group the point kept is within the bounds, or is the guess. *)
Lemma refined_point fuel xs lay st st2 np nf g x r : regular c (map kd st) -> make_layout c (map kd st) = Ok lay ->
  linear st st2 -> refined fuel xs lay st st2 np nf g x r ->
  exists t bs ga e0 rest peak, lay = canon c (length st) t /\
    (c_vel c = true -> forall e, In e st -> t = None \/ t = Some (kd e)) /\
    mapi_res (fun _ e => amp_bound e) 0 st = Ok bs /\ length bs = length st /\
    0 < nf /\ nf = 1 / peak /\ 0 < peak /\ max_flux flux xs 0 = Ok peak /\
    length ga = length st /\ st2 = e0 :: rest /\
    (forall i v, nth_error ga i = Some v -> exists e a, nth_error st2 i = Some e /\ GetElementAmplitude e = Some a /\ v = a * nf) /\
    g = params c t ga (iniA c / maxE c) (iniE c / maxE c) 0
     (let q := setCoeffs np (fst (fst (poly e0)) * nf) (snd (fst (poly e0)) * nf) (snd (poly e0) * nf) in [n0 q; n1 q; n2 q]) /\
    ((exists h, solver (params c t bs (velA_bound c) (velE_bound c) (off_bound c) (repeat (NInf, PInf) 3)) g h = Done x) \/
     (x = g /\ ~ finishing_at fuel solver (params c t bs (velA_bound c) (velE_bound c) (off_bound c) (repeat (NInf, PInf) 3)))).
Proof.
  intros R El Li Rf. assert (N : map kd st <> []) by (intro Q; rewrite Q in El; discriminate).
  destruct (regular_layout c _ N R) as (t & El' & Ty & _). rewrite map_length in *. assert (lay = canon c (length st) t) by congruence. subst lay.
  assert (H2 := linear_lines _ _ Li).
  destruct Rf as (peak & ga & s & b0 & b & g0 & s0 & stm & mo & st3 & Pk & Pz & Nf & Np & Ag & Lt & Ds & Mb & Db & Mg & Dg & Em & Ex & Es & Er).
  destruct (amp_guess_list _ _ _ _ _ Ag) as (Lg & Hg). assert (L2 := proj1 H2).
  destruct st2 as [|e0 rest]. { destruct st; [exfalso; apply N; reflexivity|discriminate]. }
  unfold make_bounds in Mb. assert (Mb' := Mb). apply rbind_inv in Mb'. destruct Mb' as (bs & Bs & _).
  fold (make_bounds c (canon c (length st) t) st) in Mb. rewrite (bounds_regular c t st bs Bs) in Mb. injection Mb as <-.
  rewrite defined_all in Db. injection Db as <-.
  rewrite <- L2 in Mg. rewrite (guess_regular c t (e0 :: rest) np nf ga e0 rest eq_refl Lg) in Mg. injection Mg as <-.
  rewrite defined_all in Dg. injection Dg as <-.
  assert (Pp : 0 < peak). { destruct (max_flux_ge _ _ _ Pk) as (P0 & _). assert (P1 := Qeq_bool_neq _ Pz). lra. }
  exists t, bs, ga, e0, rest, peak. split; [reflexivity|]. split.
  { intros C e I. apply (Ty C). apply in_map, I. }
  split; [exact Bs|]. split; [apply (mapi_len _ _ _ _ Bs)|]. split. { rewrite Nf. unfold Qdiv. rewrite Qmult_1_l. apply Qinv_lt_0_compat, Pp. }
  split; [exact Nf|]. split; [exact Pp|]. split; [exact Pk|]. split; [congruence|]. split; [reflexivity|]. split; [exact Hg|].
  split; [reflexivity|].
  destruct mo as [y|].
  - subst x. left. destruct (minimize_lines _ _ _ _ _ _ _ _ _ _ _ _ _ _ _ _ _ _ _ _ Em) as (_ & H). apply (H y eq_refl).
  - right. split; [exact Ex|]. intro F. clear -Em F. revert Em.
    match goal with |- minimize ?n0 ?l0 ?p0 ?f0 ?s0 ?x0 ?b0 ?g0 ?h0 ?st0 = _ -> _ =>
      assert (HH : forall k hh sa sb, (k + length hh = fuel)%nat -> minimize k l0 p0 f0 s0 x0 b0 g0 hh sa = Ok (sb, None) -> False); [|
      intro Em; apply (HH fuel [] st0 stm); [cbn; lia|exact Em]] end.
    induction k as [|k IH]; intros hh sa sb L E; cbn [LbfModel.minimize] in E.
    + match type of E with context [solver ?b0 ?g0 hh] => assert (FF : solver b0 g0 hh <> Fail /\ (length hh = fuel -> exists x, solver b0 g0 hh = Done x)) by exact (F g0 hh); destruct FF as (F1 & F2); destruct (F2 L) as (y & Y); rewrite Y in E; discriminate end.
    + match type of E with context [solver ?b0 ?g0 hh] => assert (FF : solver b0 g0 hh <> Fail /\ (length hh = fuel -> exists x, solver b0 g0 hh = Done x)) by exact (F g0 hh); destruct FF as (F1 & F2); destruct (solver b0 g0 hh) as [y|y|] eqn:So end; [|discriminate|congruence].
      apply rbind_inv in E. destruct E as ((s1 & v) & E1 & E). refine (IH _ _ _ _ E). rewrite app_length. cbn. lia.
Qed.
End Fit.
