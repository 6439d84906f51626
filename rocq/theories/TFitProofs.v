From Coq Require Import Setoid.
From Verif Require Import Base RangeModel RangeProofs AxisModel AxisProofs CalzModel CalzProofs MeikModel MeikSpec MeikProofs TplModel TplSpec TplProofs TFitModel TFitSpec.
Open Scope Q_scope.

(** ** sums *)
Definition ceq (a b : cross) : Prop := c_x a == c_x b /\ c_t a == c_t b /\ c_s a == c_s b.
Lemma ceq_refl a : ceq a a. Proof. (split; [|split]); reflexivity. Qed.
Lemma ceq_trans a b c : ceq a b -> ceq b c -> ceq a c. Proof. unfold ceq. intros (A & B & C) (D & E & F). rewrite A, B, C. auto. Qed.
Lemma ceq_sym a b : ceq a b -> ceq b a. Proof. unfold ceq. intros (A & B & C). rewrite A, B, C. (split; [|split]); reflexivity. Qed.
Lemma cadd_ceq a b c d : ceq a b -> ceq c d -> ceq (cadd a c) (cadd b d).
Proof. unfold ceq, cadd; cbn [c_x c_t c_s]. intros (A & B & C) (D & E & F). rewrite A, B, C, D, E, F. (split; [|split]); reflexivity. Qed.
Definition term (s : Q * Q * Q) : cross := let '(y, t, e) := s in let w := 1 / (e * e) in mkCross (y * t * w) (t * t * w) (y * y * w).
Fixpoint csum (l : list (Q * Q * Q)) : cross := match l with [] => czero | s :: l => cadd (term s) (csum l) end.
Ltac csimp := unfold ceq in *; cbn [c_x c_t c_s term csum cadd czero app] in *.
Lemma csum_app l1 l2 : ceq (csum (l1 ++ l2)%list) (cadd (csum l1) (csum l2)).
Proof.
  induction l1 as [|s l1 IH]; cbn [app csum]; [csimp; (split; [|split]); ring|].
  eapply ceq_trans; [apply cadd_ceq; [apply ceq_refl|exact IH]|]. csimp. (split; [|split]); ring.
Qed.
Lemma chi2_expand l a : chi2 l a == c_s (csum l) + c_t (csum l) * a * a - 2 * a * c_x (csum l).
Proof.
  induction l as [|[[y t] e] l IH]; [cbn; ring|].
  change (chi2 ((y, t, e) :: l) a) with (residual a (y, t, e) * residual a (y, t, e) + chi2 l a). rewrite IH.
  change (csum ((y, t, e) :: l)) with (cadd (term (y, t, e)) (csum l)). cbn [cadd c_s c_t c_x term residual].
  destruct (Qeq_dec e 0) as [E|E].
  - assert (I : / e == 0) by (rewrite E; reflexivity). assert (W : 1 / (e * e) == 0) by (unfold Qdiv; rewrite Qinv_mult_distr, I; ring). unfold Qdiv at 1 2. rewrite W, I. ring.
  - field. exact E.
Qed.
Lemma information_csum l : information l == c_t (csum l).
Proof.
  induction l as [|[[y t] e] l IH]; [reflexivity|]. change (information ((y, t, e) :: l)) with ((t / e) * (t / e) + information l). rewrite IH. cbn [csum term cadd c_t].
  destruct (Qeq_dec e 0) as [E|E].
  - assert (I : / e == 0) by (rewrite E; reflexivity). assert (W : 1 / (e * e) == 0) by (unfold Qdiv; rewrite Qinv_mult_distr, I; ring). rewrite W. unfold Qdiv. rewrite I. ring.
  - field. exact E.
Qed.
Lemma Qsq_nn (x : Q) : 0 <= x * x.
Proof. destruct (Qlt_le_dec x 0) as [H|H]; [setoid_replace (x * x) with ((- x) * (- x)) by ring|]; apply Qmult_le_0_compat; lra. Qed.
Lemma information_nonneg l : 0 <= information l.
Proof. induction l as [|[[y t] e] l IH]; [apply Qle_refl|]. change (information ((y, t, e) :: l)) with ((t / e) * (t / e) + information l). pose proof (Qsq_nn (t / e)). lra. Qed.

(** ** the loop *)
Definition sub_samples (o : obs) (m : list Q) (j n : nat) := flat_map (sample o m) (seq j n).
Lemma sub_samples_split o m j a b : sub_samples o m j (a + b) = (sub_samples o m j a ++ sub_samples o m (j + a) b)%list.
Proof. unfold sub_samples. rewrite seq_app, flat_map_app. reflexivity. Qed.
Lemma at_nth l i x : nth_error l i = Some x -> at_ l i = x.
Proof. intro H. unfold at_. exact (nth_error_nth _ _ _ H). Qed.
Definition errs_ok (o : obs) (j n : nat) : Prop := forall i w, (j <= i < j + n)%nat -> nth_error (o_mask o) i = Some w -> w <> 0%N -> ~ at_ (o_e o) i == 0.
Lemma loop_sum o m fast kigm : forall n j acc saved acc' saved', cross_loop (o_y o) (o_e o) m (o_mask o) fast kigm j n acc saved = Ok (acc', saved') ->
  ceq acc' (cadd acc (csum (sub_samples o m j n))) /\ errs_ok o j n /\ (forall i, (j <= i < j + n)%nat -> nth_error (o_mask o) i <> None).
Proof.
  induction n as [|n IH]; intros j acc saved acc' saved' H; cbn [cross_loop] in H.
  - inversion H; subst. split; [unfold sub_samples; cbn [seq flat_map]; csimp; (split; [|split]); ring|]. split; [intros i w Hi; lia|intros i Hi; lia].
  - unfold vget at 1 in H. destruct (nth_error (o_mask o) j) as [w|] eqn:Ew; [|discriminate]. cbn [rbind] in H.
    assert (Sp : sub_samples o m j (S n) = (sample o m j ++ sub_samples o m (S j) n)%list) by reflexivity.
    destruct (N.eqb_spec w 0) as [W|W].
    + destruct (IH _ _ _ _ _ H) as (A & B & C). split; [|split].
      * rewrite Sp. unfold sample at 1. rewrite Ew. destruct (N.eqb_spec w 0) as [_|Y]; [exact A|contradiction].
      * intros i w' Hi Hw' Nw. destruct (Nat.eq_dec i j) as [->|Ne]; [congruence|]. apply (B i w'); auto. lia.
      * intros i Hi. destruct (Nat.eq_dec i j) as [->|Ne]; [congruence|]. apply C. lia.
    + unfold vget in H. destruct (nth_error (o_e o) j) as [ej|] eqn:Ee; [|discriminate]. cbn [rbind] in H. destruct (nth_error (o_y o) j) as [yj|] eqn:Ey; [|discriminate]. cbn [rbind] in H.
      destruct (nth_error m j) as [tj|] eqn:Et; [|discriminate]. cbn [rbind] in H. destruct (Qeq_bool ej 0) eqn:E0; [discriminate|]. cbv zeta in H. apply IH in H. destruct H as (A & B & C). split; [|split].
      * rewrite Sp. unfold sample at 1. rewrite Ew. destruct (N.eqb_spec w 0) as [Y|_]; [contradiction|]. rewrite (at_nth _ _ _ Ee), (at_nth _ _ _ Ey), (at_nth _ _ _ Et). cbn [app csum].
        eapply ceq_trans; [exact A|]. csimp. (split; [|split]); ring.
      * intros i w' Hi Hw' Nw. destruct (Nat.eq_dec i j) as [->|Ne]; [rewrite (at_nth _ _ _ Ee); apply Qeq_bool_neq; exact E0|]. apply (B i w'); auto. lia.
      * intros i Hi. destruct (Nat.eq_dec i j) as [->|Ne]; [congruence|]. apply C. lia.
Qed.
Lemma loop_keeps o m fast kigm : forall n j acc s acc' saved', cross_loop (o_y o) (o_e o) m (o_mask o) fast kigm j n acc (Some s) = Ok (acc', saved') -> saved' = Some s.
Proof.
  induction n as [|n IH]; intros j acc s acc' saved' H; cbn [cross_loop] in H; [inversion H; reflexivity|].
  unfold vget at 1 in H. destruct (nth_error (o_mask o) j) as [w|]; [|discriminate]. cbn [rbind] in H. destruct (N.eqb w 0); [exact (IH _ _ _ _ _ H)|].
  unfold vget in H. destruct (nth_error (o_e o) j); [|discriminate]. cbn [rbind] in H. destruct (nth_error (o_y o) j); [|discriminate]. cbn [rbind] in H. destruct (nth_error m j); [|discriminate]. cbn [rbind] in H.
  destruct (Qeq_bool _ 0); [discriminate|]. exact (IH _ _ _ _ _ H).
Qed.
(** the sums saved: those of the samples before the first one above the igm *)
Lemma loop_saved o m kigm : forall n j acc acc' saved', cross_loop (o_y o) (o_e o) m (o_mask o) true kigm j n acc None = Ok (acc', saved') ->
  match saved' with
  | None => (Z.of_nat (j + n) <= kigm + 1)%Z \/ n = O
  | Some s => exists i0, (j <= i0 < j + n)%nat /\ (kigm < Z.of_nat i0)%Z /\ (i0 = j \/ (Z.of_nat i0 <= kigm + 1)%Z) /\ ceq s (cadd acc (csum (sub_samples o m j (i0 - j)))) end.
Proof.
  induction n as [|n IH]; intros j acc acc' saved' H; cbn [cross_loop] in H.
  - inversion H; subst. right; reflexivity.
  - cbn [andb] in H. destruct (Z.ltb_spec kigm (Z.of_nat j)) as [L|L].
    + assert (E : saved' = Some acc).
      { unfold vget at 1 in H. destruct (nth_error (o_mask o) j) as [w|]; [|discriminate]. cbn [rbind] in H. destruct (N.eqb w 0); [exact (loop_keeps _ _ _ _ _ _ _ _ _ _ H)|].
        unfold vget in H. destruct (nth_error (o_e o) j); [|discriminate]. cbn [rbind] in H. destruct (nth_error (o_y o) j); [|discriminate]. cbn [rbind] in H. destruct (nth_error m j); [|discriminate]. cbn [rbind] in H.
        destruct (Qeq_bool _ 0); [discriminate|]. exact (loop_keeps _ _ _ _ _ _ _ _ _ _ H). }
      subst saved'. exists j. split; [lia|]. split; [exact L|]. split; [left; reflexivity|]. rewrite Nat.sub_diag. unfold sub_samples; cbn [seq flat_map]. csimp. (split; [|split]); ring.
    + assert (St : exists acc1, ceq acc1 (cadd acc (csum (sample o m j))) /\ cross_loop (o_y o) (o_e o) m (o_mask o) true kigm (S j) n acc1 None = Ok (acc', saved')).
      { unfold vget at 1 in H. unfold sample. destruct (nth_error (o_mask o) j) as [w|] eqn:Ew; [|discriminate]. cbn [rbind] in H. destruct (N.eqb w 0).
        { exists acc. split; [csimp; (split; [|split]); ring|exact H]. }
        unfold vget in H. destruct (nth_error (o_e o) j) as [ej|] eqn:Ee; [|discriminate]. cbn [rbind] in H. destruct (nth_error (o_y o) j) as [yj|] eqn:Ey; [|discriminate]. cbn [rbind] in H. destruct (nth_error m j) as [tj|] eqn:Et; [|discriminate]. cbn [rbind] in H.
        destruct (Qeq_bool _ 0); [discriminate|]. cbv zeta in H. eexists. split; [|exact H]. rewrite (at_nth _ _ _ Ee), (at_nth _ _ _ Ey), (at_nth _ _ _ Et). csimp. (split; [|split]); ring. }
      destruct St as (acc1 & Ea & H1). specialize (IH _ _ _ _ H1). destruct saved' as [s|].
      * destruct IH as (i0 & R & K & D & E). exists i0. split; [lia|]. split; [exact K|]. split; [right; lia|].
        replace (i0 - j)%nat with (1 + (i0 - S j))%nat by lia. rewrite sub_samples_split. replace (j + 1)%nat with (S j) by lia.
        eapply ceq_trans; [exact E|]. eapply ceq_trans; [apply cadd_ceq; [exact Ea|apply ceq_refl]|]. unfold sub_samples at 2. cbn [seq flat_map]. rewrite app_nil_r.
        pose proof (csum_app (sample o m j) (sub_samples o m (S j) (i0 - S j))) as (A & B & C). csimp. rewrite A, B, C. (split; [|split]); ring.
      * left. destruct IH as [?|?]; lia.
Qed.

Lemma sample_ceq o m m' j : at_ m j == at_ m' j -> ceq (csum (sample o m j)) (csum (sample o m' j)).
Proof. intro H. unfold sample. destruct (nth_error (o_mask o) j) as [w|]; [|apply ceq_refl]. destruct (N.eqb w 0); [apply ceq_refl|]. csimp. rewrite H. (split; [|split]); reflexivity. Qed.
Lemma sub_samples_ceq o m m' : forall n j, (forall i, (j <= i < j + n)%nat -> at_ m i == at_ m' i) -> ceq (csum (sub_samples o m j n)) (csum (sub_samples o m' j n)).
Proof.
  induction n as [|n IH]; intros j H; [apply ceq_refl|]. change (sub_samples o m j (S n)) with (sample o m j ++ sub_samples o m (S j) n)%list. change (sub_samples o m' j (S n)) with (sample o m' j ++ sub_samples o m' (S j) n)%list.
  eapply ceq_trans; [apply csum_app|]. eapply ceq_trans; [|apply ceq_sym; apply csum_app]. apply cadd_ceq; [apply sample_ceq; apply H; lia|apply IH; intros i Hi; apply H; lia].
Qed.
Lemma fitted_sub o m : fitted o m = sub_samples o m (o_ks o) (S (o_ke o) - o_ks o). Proof. reflexivity. Qed.
