(** What the precise fit leaves in each element (C94). *)
From Verif Require Import Base F64 PolyModel LbfModel LbfSpec LbfProofs LbfProofs2 LbfProofs3.
Open Scope Q_scope.

Lemma Some_inj {A} (a b : A) : Some a = Some b -> a = b.
Proof. congruence. Qed.

Section Fit.
Context (c : conf) (axis flux cont err : list Q).
Context (outside_of : kind -> line -> Q -> Q -> bool) (profile : kind -> line -> Q -> Q -> Q -> res Q).
Context (svd : list elt -> res ((nat -> option Q * f64) * (Q * Q * Q))).
Context (solver : list (f64 * f64) -> list Q -> list (list Q * Q) -> action).
Context (width : elt -> res Q) (noise : list elt -> nat -> f64) (meanres : elt -> nat -> Q) (root : Q -> Q) (sqrtpi : Q).

Notation fit := (fit c axis flux cont err outside_of profile svd solver width noise meanres root sqrtpi).
Notation prepareSupport := (prepareSupport outside_of).
Notation evaluate := (evaluate c axis flux cont err outside_of profile).
Notation minimize := (minimize c axis flux cont err outside_of profile solver).
Notation snr_loop := (snr_loop width noise meanres root sqrtpi).
Notation refined := (refined c axis flux cont err outside_of profile solver width noise meanres root sqrtpi).
Notation linear := (linear c svd).

Lemma sl_step R st st' : related R st st' -> (forall i e e', R i e e' -> same_lines e e') -> related (fun _ => same_lines) st st'.
Proof. intros H W. eapply related_weaken; [|exact H]. intros i e e' Q. eapply W, Q. Qed.
Lemma sl_chain a b d : related (fun _ => same_lines) a b -> related (fun _ => same_lines) b d -> related (fun _ => same_lines) a d.
Proof. intros H1 H2. eapply related_trans; [|exact H1|exact H2]. intros i x y z. apply sl_trans. Qed.
Lemma sl_map f st : (forall e, same_lines e (f e)) -> related (fun _ => same_lines) st (map f st).
Proof. intro H. apply (sl_step _ _ _ (related_map f st)). intros i e e' ->. apply H. Qed.
Lemma sl_same st : related (fun _ => same_lines) st st.
Proof. apply related_refl. intros; apply sl_refl. Qed.

Lemma unpack_lines lay np st x st' p : unpack c outside_of lay np st x = Ok (st', p) -> related (fun _ => same_lines) st st'.
Proof.
  unfold unpack. intro E. apply rbind_inv in E. destruct E as (s1 & E1 & E). apply rbind_inv in E. destruct E as (s2 & E2 & E).
  apply rbind_inv in E. destruct E as (s3 & E3 & E). apply rbind_inv in E. destruct E as (q & _ & E). injection E as <- <-.
  assert (H1 : related (fun _ => same_lines) st s1).
  { apply (sl_step _ _ _ (related_mapi _ _ _ E1)). intros i e e' H. unfold unpack_amp in H. apply rbind_inv in H.
    destruct H as (a & _ & H). apply Ok_inj in H. subst e'. apply sl_amps. }
  assert (H2 : related (fun _ => same_lines) s1 s2).
  { destruct (c_vel c); [|injection E2 as <-; apply sl_same].
    apply (sl_step _ _ _ (related_mapi _ _ _ E2)). intros i e e' H. unfold unpack_vel in H.
    destruct (kd e) eqn:K; apply rbind_inv in H; destruct H as (a & _ & H); injection H as <-; repeat split; exact K. }
  assert (H3 : related (fun _ => same_lines) s2 s3).
  { destruct (c_off c); [|injection E3 as <-; apply sl_same]. apply rbind_inv in E3. destruct E3 as (d & _ & E3). injection E3 as <-.
    apply sl_map. intro e. repeat split. }
  apply (sl_chain _ s1); [exact H1|]. apply (sl_chain _ s2); [exact H2|]. apply (sl_chain _ s3); [exact H3|].
  apply sl_map. intro e. repeat split.
Qed.

Lemma evaluate_lines lay np nf s0 xs st x st' v : evaluate lay np nf s0 xs st x = Ok (st', v) -> related (fun _ => same_lines) st st'.
Proof.
  unfold LbfModel.evaluate. intro E. apply rbind_inv in E. destruct E as ((s1, p) & E1 & E).
  apply rbind_inv in E. destruct E as (w & _ & E). injection E as <- _. apply (unpack_lines _ _ _ _ _ _ E1).
Qed.

Lemma minimize_lines n lay np nf s0 xs b g : forall h st st' mo, minimize n lay np nf s0 xs b g h st = Ok (st', mo) ->
  related (fun _ => same_lines) st st' /\ (forall x, mo = Some x -> exists h', solver b g h' = Done x).
Proof.
  induction n as [|n IH]; intros h st st' mo E; cbn [LbfModel.minimize] in E.
  - destruct (solver b g h) as [y|y|] eqn:S; injection E as <- <-; (split; [apply sl_same|]); intros x H; try discriminate.
    injection H as <-. exists h. exact S.
  - destruct (solver b g h) as [y|y|] eqn:S.
    + apply rbind_inv in E. destruct E as ((s1, v) & E1 & E). destruct (IH _ _ _ _ E) as (H1 & H2).
      split; [|exact H2]. apply (sl_chain _ s1); [apply (evaluate_lines _ _ _ _ _ _ _ _ _ E1)|exact H1].
    + injection E as <- <-. split; [apply sl_same|]. intros x H. injection H as <-. exists h. exact S.
    + injection E as <- <-. split; [apply sl_same|]. discriminate.
Qed.

(** amplitudes of an element *)
Lemma line_amps_nth e A ls : forall os j v, nth_error (line_amps e A ls os) j = Some (Some v) ->
  exists l, nth_error ls j = Some l /\ nth_error os j = Some false /\ v = fitted e A (l_nom l).
Proof.
  induction ls as [|l ls IH]; intros os j v N; [destruct j; discriminate|]. destruct os as [|o os]; [destruct j; discriminate|].
  destruct j as [|j]; cbn in N.
  - destruct o; [discriminate|]. injection N as <-. exists l. auto.
  - apply (IH _ _ _ N).
Qed.
Lemma map_none_nth (ls : list line) j v : nth_error (map (fun _ => @None Q) ls) j = Some (Some v) -> False.
Proof. rewrite nth_error_map. destruct (nth_error ls j); discriminate. Qed.

(** the amplitudes that are not NaN come from the amplitude [A] of the element *)
Definition from_amp (e : elt) (A : Q) (am : list (option Q)) : Prop :=
  forall j v, nth_error am j = Some (Some v) -> exists l, nth_error (lines e) j = Some l /\ v = fitted e A (l_nom l).
Lemma set_from_amp e A S : from_amp e A (amps (set_amplitudes e (Some A) S)).
Proof.
  intros j v N. unfold set_amplitudes in N. destruct (out e); cbn in N; [destruct (map_none_nth _ _ _ N)|].
  destruct (line_amps_nth _ _ _ _ _ _ N) as (l & Nl & _ & V). exists l. auto.
Qed.
Lemma fitted_same e e' A n : kd e' = kd e -> limit e' = limit e -> fitted e' A n = fitted e A n.
Proof. intros K L. unfold fitted. rewrite K, L. reflexivity. Qed.

Lemma map_nan {A} (l : list A) : Forall (eq NaN) (map (fun _ => NaN) l).
Proof. induction l; constructor; auto. Qed.
Lemma line_stds_nan ls : forall os, Forall (eq NaN) (line_stds NaN ls os).
Proof. induction ls as [|l ls IH]; intros [|[|] os]; cbn; try constructor; auto. Qed.
Lemma set_nan e A : Forall (eq NaN) (stds (set_amplitudes e A NaN)).
Proof. unfold set_amplitudes. destruct A; [destruct (out e)|]; cbn; [apply map_nan|apply line_stds_nan|apply map_nan]. Qed.

(** what the loop on the signal to noise ratios changes *)
Definition full (e : elt) (A : Q) (S : f64) : elt :=
  let e1 := set_amplitudes e (Some A) S in with_amps e1 (amps e1) (div_stds (stds e1) (lines e1)).
Definition first_out (es : list elt) (j : nat) : Prop := (exists e, nth_error es j = Some e /\ out e = true) /\
  forall k e, (k < j)%nat -> nth_error es k = Some e -> out e = false.
Definition no_out_upto (es : list elt) (j : nat) : Prop := forall k e, (k <= j)%nat -> nth_error es k = Some e -> out e = false.

Definition snr_cell (st0 es : list elt) (nf : Q) (x : list Q) (i j : nat) (e e' : elt) : Prop :=
  no_out_upto es j /\ (exists a sigma, nth_error x (i + j) = Some a /\ width e = Ok sigma /\
                         e' = full e (a / nf) (amp_std noise meanres root sqrtpi st0 (i + j) e sigma)) \/
  first_out es j /\ e' = set_amplitudes e None NaN \/
  (exists k, (k < j)%nat /\ first_out es k) /\ e' = e.

Lemma no_out_cons e es j : out e = false -> no_out_upto es j -> no_out_upto (e :: es) (S j).
Proof. intros O H [|k] y L N; cbn in N; [congruence|]. apply (H k y); [lia|exact N]. Qed.
Lemma first_out_cons e es j : out e = false -> first_out es j -> first_out (e :: es) (S j).
Proof. intros O (X & H). split; [exact X|]. intros [|k] y L N; cbn in N; [congruence|]. apply (H k y); [lia|exact N]. Qed.

Lemma snr_cells st0 nf x : forall es i r, snr_loop st0 nf x i es = Ok r ->
  related (fun j e e' => snr_cell st0 es nf x i j e e') es r.
Proof.
  induction es as [|e es IH]; intros i r E; cbn [LbfModel.snr_loop] in E.
  - injection E as <-. split; [reflexivity|]. intros [|j] e' N; discriminate.
  - apply rbind_inv in E. destruct E as (a & Ea & E). apply vget_Ok in Ea. destruct (out e) eqn:O.
    + apply Ok_inj in E. subst r. split; [reflexivity|]. intros [|j] e' N; cbn in N.
      * apply Some_inj in N. subst e'. exists e. split; [reflexivity|]. right. left. split; [|reflexivity].
        split; [exists e; auto|]. intros k y L _. lia.
      * exists e'. split; [exact N|]. right. right. split; [|reflexivity]. exists 0%nat. split; [lia|].
        split; [exists e; auto|]. intros k y L _. lia.
    + apply rbind_inv in E. destruct E as (sigma & Es & E). apply rbind_inv in E. destruct E as (q & Eq & E).
      apply Ok_inj in E. subst r. destruct (IH _ _ Eq) as (L & H). split; [cbn; rewrite L; reflexivity|].
      intros [|j] e' N; cbn [nth_error] in N.
      * apply Some_inj in N. subst e'. exists e. split; [reflexivity|]. left.
        split. { intros [|k] y Lk Ny; [|lia]. cbn in Ny. congruence. }
        exists a, sigma. rewrite Nat.add_0_r. auto.
      * destruct (H j e' N) as (y & Ny & C). exists y. split; [exact Ny|].
        destruct C as [(C1 & b & s & C2 & C3 & C4)|[(C1 & C2)|((k & Lk & C1) & C2)]].
        -- left. split; [apply no_out_cons; auto|]. exists b, s. rewrite <- Nat.add_succ_comm. auto.
        -- right. left. split; [apply first_out_cons; auto|exact C2].
        -- right. right. split; [|exact C2]. exists (S k). split; [lia|]. apply first_out_cons; auto.
Qed.

(** the fields of an element other than the amplitudes *)
Definition kept (e e' : elt) : Prop := e' = with_amps e (amps e') (stds e').
Lemma kept_refl e : kept e e.
Proof. destruct e; reflexivity. Qed.
Lemma kept_set e A S : kept e (set_amplitudes e A S).
Proof. unfold kept, set_amplitudes. destruct A; [destruct (out e)|]; reflexivity. Qed.
Lemma kept_full e A S : kept e (full e A S).
Proof. unfold full, kept, set_amplitudes. destruct (out e); reflexivity. Qed.
Lemma full_amps e A S : amps (full e A S) = amps (set_amplitudes e (Some A) S).
Proof. reflexivity. Qed.
Lemma set_none_amps e S j v : nth_error (amps (set_amplitudes e None S)) j = Some (Some v) -> False.
Proof. apply map_none_nth. Qed.

Lemma snr_kept st0 nf x es i j e e' : snr_cell st0 es nf x i j e e' -> kept e e'.
Proof.
  intros [(_ & a & s & _ & _ & ->)|[(_ & ->)|(_ & ->)]]; [apply kept_full|apply kept_set|apply kept_refl].
Qed.

(** what the precise fit leaves, in terms of the point kept *)
Definition vel_of (lay : layout) (x : list Q) (e : elt) : Prop :=
  match ltype lay with
  | None => match kd e with Ab => exists a, oget x (vA lay) = Ok a /\ velA e = a * maxE c
                          | Em => exists a, oget x (vE lay) = Ok a /\ velE e = a * maxE c end
  | Some Ab => exists a, oget x (vA lay) = Ok a /\ velA e = a * maxE c
  | Some Em => exists a, oget x (vE lay) = Ok a /\ velE e = a * maxE c
  end.
Definition left_by (lay : layout) (np : npolynom) (nf : Q) (x : list Q) (i : nat) (e e' : elt) : Prop :=
  same_lines e e' /\
  (exists a, nth_error x i = Some a /\ from_amp e (a / nf) (amps e')) /\ Forall (eq NaN) (stds e') /\
  (c_vel c = true -> vel_of lay x e') /\
  (c_off c = true -> exists d, oget x (iOff lay) = Ok d /\ offs e' = map (fun l => shifted l (d * norm_offset c)) (lines e')) /\
  (c_poly c = true -> exists q, npoly_of np lay x = Ok q /\
     poly e' = (let '(a0, a1, a2) := getCoeffs q in (a0 / nf, a1 / nf, a2 / nf))) /\
  outs e' = line_outs outside_of (kd e') (velocity e') (lines e') (offs e') /\ out e' = forallb (fun b => b) (outs e').

Lemma store_left lay np nf x st st3 : store c lay np nf st x = Ok st3 ->
  related (left_by lay np nf x) st (map prepareSupport st3).
Proof.
  unfold store. intro E. apply rbind_inv in E. destruct E as (s1 & E1 & E). apply rbind_inv in E. destruct E as (s2 & E2 & E).
  apply rbind_inv in E. destruct E as (s3 & E3 & E).
  assert (H1 : related (fun i e e' => exists a, nth_error x i = Some a /\ e' = set_amplitudes e (Some (a / nf)) NaN) st s1).
  { eapply related_weaken; [|apply (related_mapi _ _ _ E1)]. intros i e e' H. unfold store_amp in H. apply rbind_inv in H.
    destruct H as (a & Ha & H). apply vget_Ok in Ha. apply Ok_inj in H. subst e'. exists a. auto. }
  assert (H2 : related (fun _ e e' => same_lines e e' /\ (amps e' = amps e /\ stds e' = stds e) /\ (c_vel c = true -> vel_of lay x e')) s1 s2).
  { destruct (c_vel c).
    - unfold store_vel in E2. unfold vel_of. destruct (ltype lay) as [[|]|].
      + apply rbind_inv in E2. destruct E2 as (v & Ev & E2). apply Ok_inj in E2. subst s2.
        eapply related_weaken; [|apply related_map]. intros i e e' ->. split; [repeat split|]. split; [split; reflexivity|]. intros _. exists v. auto.
      + apply rbind_inv in E2. destruct E2 as (v & Ev & E2). apply Ok_inj in E2. subst s2.
        eapply related_weaken; [|apply related_map]. intros i e e' ->. split; [repeat split|]. split; [split; reflexivity|]. intros _. exists v. auto.
      + apply rbind_inv in E2. destruct E2 as (v & Ev & E2). apply rbind_inv in E2. destruct E2 as (w & Ew & E2).
        apply Ok_inj in E2. subst s2.
        eapply related_weaken; [|apply related_map]. intros i e e' ->. destruct (kd e) eqn:K.
        * split; [repeat split; exact K|]. split; [split; reflexivity|]. intros _. cbn. rewrite K. exists w. auto.
        * split; [repeat split; exact K|]. split; [split; reflexivity|]. intros _. cbn. rewrite K. exists v. auto.
    - injection E2 as <-. apply related_refl. intros i e. split; [apply sl_refl|]. split; [split; reflexivity|discriminate]. }
  assert (H3 : related (fun _ e e' => same_lines e e' /\ (amps e' = amps e /\ stds e' = stds e) /\ (vel_of lay x e -> vel_of lay x e') /\
      (c_off c = true -> exists d, oget x (iOff lay) = Ok d /\ offs e' = map (fun l => shifted l (d * norm_offset c)) (lines e'))) s2 s3).
  { destruct (c_off c).
    - apply rbind_inv in E3. destruct E3 as (d & Ed & E3). apply Ok_inj in E3. subst s3.
      eapply related_weaken; [|apply related_map]. intros i e e' ->. split; [repeat split|]. split; [split; reflexivity|]. split; [auto|].
      intros _. exists d. split; [exact Ed|reflexivity].
    - injection E3 as <-. apply related_refl. intros i e. split; [apply sl_refl|]. split; [split; reflexivity|]. split; [auto|discriminate]. }
  assert (H4 : related (fun _ e e' => same_lines e e' /\ (amps e' = amps e /\ stds e' = stds e) /\ offs e' = offs e /\ (vel_of lay x e -> vel_of lay x e') /\
      (c_poly c = true -> exists q, npoly_of np lay x = Ok q /\
        poly e' = (let '(a0, a1, a2) := getCoeffs q in (a0 / nf, a1 / nf, a2 / nf)))) s3 st3).
  { destruct (c_poly c).
    - apply rbind_inv in E. destruct E as (q & Eq & E). destruct (getCoeffs q) as [[a0 a1] a2] eqn:G. apply Ok_inj in E. subst st3.
      eapply related_weaken; [|apply related_map]. intros i e e' ->. split; [repeat split|]. split; [split; reflexivity|]. split; [reflexivity|].
      split; [auto|]. intros _. exists q. rewrite G. split; [exact Eq|reflexivity].
    - injection E as <-. apply related_refl. intros i e. split; [apply sl_refl|]. split; [split; reflexivity|]. split; [reflexivity|]. split; [auto|discriminate]. }
  assert (H5 := related_map prepareSupport st3).
  assert (H12 : related (fun i e e' => same_lines e e' /\ ((exists a, nth_error x i = Some a /\ from_amp e (a / nf) (amps e')) /\ Forall (eq NaN) (stds e')) /\
     (c_vel c = true -> vel_of lay x e')) st s2).
  { eapply related_trans; [|exact H1|exact H2]. intros i a b d (v & Nv & ->) (S & (A & D) & V); split; [eapply sl_trans; [apply sl_amps|exact S]|]; split; [|exact V]; split;
           [exists v; split; [exact Nv|]; rewrite A; apply set_from_amp|rewrite D; apply set_nan]. }
  assert (H34 : related (fun (i : nat) e e' => same_lines e e' /\ (amps e' = amps e /\ stds e' = stds e) /\ (vel_of lay x e -> vel_of lay x e') /\
      (c_off c = true -> exists d, oget x (iOff lay) = Ok d /\ offs e' = map (fun l => shifted l (d * norm_offset c)) (lines e')) /\
      (c_poly c = true -> exists q, npoly_of np lay x = Ok q /\
        poly e' = (let '(a0, a1, a2) := getCoeffs q in (a0 / nf, a1 / nf, a2 / nf)))) s2 st3).
  { eapply related_trans; [|exact H3|exact H4]. intros i a b d (S & A & V & O) (S' & A' & O' & V' & P); split; [eapply sl_trans; eauto|]; split; [destruct A, A'; split; congruence|];
           split; [auto|]; split; [|exact P]; intro C; destruct (O C) as (w & W1 & W2); exists w; split; [exact W1|];
           destruct S' as (_ & _ & L'); rewrite O', L'; exact W2. }
  assert (H14 : related (fun i e e' => same_lines e e' /\ ((exists a, nth_error x i = Some a /\ from_amp e (a / nf) (amps e')) /\ Forall (eq NaN) (stds e')) /\
     (c_vel c = true -> vel_of lay x e') /\
     (c_off c = true -> exists d, oget x (iOff lay) = Ok d /\ offs e' = map (fun l => shifted l (d * norm_offset c)) (lines e')) /\
      (c_poly c = true -> exists q, npoly_of np lay x = Ok q /\
        poly e' = (let '(a0, a1, a2) := getCoeffs q in (a0 / nf, a1 / nf, a2 / nf)))) st st3).
  { eapply related_trans; [|exact H12|exact H34]. intros i a b d (S & A & V) (S' & A' & V' & OP); split; [eapply sl_trans; eauto|];
           split; [destruct A as ((v & Nv & F) & D), A' as (A' & D'); split; [exists v; split; [exact Nv|]; rewrite A'; exact F|rewrite D'; exact D]|];
           split; [auto|exact OP]. }
  eapply related_trans; [|exact H14|exact H5].
  intros i a b d (S & (A & D) & V & O & P) ->. split; [exact S|]. split; [exact A|]. split; [exact D|]. split; [exact V|]. split; [exact O|].
  split; [exact P|]. split; reflexivity.
Qed.
End Fit.
