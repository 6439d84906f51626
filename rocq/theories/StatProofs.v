(** C92: the window of the sums, the masks and the sums. *)
From Verif Require Import Base RangeModel RangeSpec RangeProofs AxisModel AxisProofs EfitModel F64 RatProofs2 VfitProofs2 StatModel StatSpec.
Open Scope Q_scope.

Lemma at_nth l j : (j < length l)%nat -> nth_error l j = Some (at_ l j).
Proof. intro H. unfold at_. apply nth_error_nth'. exact H. Qed.
Lemma vget_at l j : (j < length l)%nat -> vget l j = Ok (at_ l j).
Proof. intro H. unfold vget. rewrite at_nth; auto. Qed.

Lemma filter_ext_seq (f g : nat -> bool) n : (forall k, (k < n)%nat -> f k = g k) -> filter f (seq 0 n) = filter g (seq 0 n).
Proof. intro H. apply filter_ext_in. intros a Ha. apply in_seq in Ha. apply H. lia. Qed.

Lemma filter_window f lo hi n : (forall k, (k < n)%nat -> f k = (Nat.leb lo k && Nat.ltb k hi)%bool) -> (hi <= n)%nat ->
  filter f (seq 0 n) = seq lo (hi - lo).
Proof.
  intros Hf Hn. rewrite (filter_ext_seq _ (fun k => Nat.leb lo k && Nat.ltb k hi)%bool _ Hf).
  destruct hi as [|h].
  - rewrite (filter_ext_seq _ (fun _ => false)).
    + clear. assert (forall s n, filter (fun _ : nat => false) (seq s n) = []) by (intros s n'; revert s; induction n'; intro s; cbn; auto). rewrite H. reflexivity.
    + intros k _. destruct (Nat.leb lo k); reflexivity.
  - apply filter_seq; [|lia]. intro k. reflexivity.
Qed.

(** the window is exactly the counted samples *)
Lemma window_spec o : usable o ->
  exists a b, GetIndexAtWaveLength (s_axis o) (rbeg (s_range o)) = Ok a /\ GetIndexAtWaveLength (s_axis o) (rend (s_range o)) = Ok b /\
    (a < length (s_axis o))%nat /\ (b < length (s_axis o))%nat /\ counted o = seq a (b - a) /\
    (ordered (s_range o) -> (a <= b)%nat).
Proof.
  intros (Hs & Hn & _).
  destruct (GetIndexAtWaveLength_ok (s_axis o) (rbeg (s_range o)) Hs Hn) as (a & Ea & La & A1 & A2 & A3).
  destruct (GetIndexAtWaveLength_ok (s_axis o) (rend (s_range o)) Hs Hn) as (b & Eb & Lb & B1 & B2 & B3).
  exists a, b. repeat (split; [solve [auto]|]).
  split.
  - unfold counted. apply filter_window; [|lia]. intros k Hk.
    pose proof (at_nth _ _ Hk) as Nk. set (x := at_ (s_axis o) k) in *. clearbody x.
    destruct (Nat.leb_spec a k) as [L|L]; destruct (Nat.ltb_spec k b) as [L2|L2]; cbn [andb].
    + assert (H1 : rbeg (s_range o) <= x) by (apply (A2 k x); auto; lia).
      assert (H2 : x < rend (s_range o)) by (apply (B1 k x); auto).
      rewrite (proj2 (Qle_bool_true _ _) H1), (proj2 (Qltb_true _ _) H2). cbn [andb]. apply Nat.ltb_lt. lia.
    + destruct (Nat.ltb_spec (S k) (length (s_axis o))) as [L3|L3]; [|rewrite andb_false_r; reflexivity].
      assert (H1 : rend (s_range o) <= x) by (apply (B2 k x); auto; lia).
      rewrite (proj2 (Qltb_false _ _) H1), andb_false_r. reflexivity.
    + assert (H1 : x < rbeg (s_range o)) by (apply (A1 k x); auto). rewrite (proj2 (Qle_bool_false _ _) H1). reflexivity.
    + assert (H1 : x < rbeg (s_range o)) by (apply (A1 k x); auto). rewrite (proj2 (Qle_bool_false _ _) H1). reflexivity.
  - intro O. unfold ordered in O. destruct (Nat.le_gt_cases a b) as [|G]; auto. exfalso.
    pose proof (at_nth (s_axis o) b ltac:(lia)) as Nb.
    pose proof (A1 b _ G Nb). pose proof (B2 b _ ltac:(lia) ltac:(lia) Nb). lra.
Qed.

Lemma window_loop_spec {A} (f : A -> nat -> res A) o acc : usable o -> window_loop f o acc = rfold f (counted o) acc.
Proof.
  intro U. destruct (window_spec o U) as (a & b & Ea & Eb & _ & _ & C & _).
  unfold window_loop. rewrite Ea, Eb. cbn [rbind]. rewrite C. reflexivity.
Qed.

Lemma counted_in o j : In j (counted o) -> (S j < length (s_axis o))%nat /\ rbeg (s_range o) <= at_ (s_axis o) j < rend (s_range o).
Proof.
  unfold counted. rewrite filter_In, in_seq. intros (_ & H). apply andb_true_iff in H. destruct H as (H & L).
  apply andb_true_iff in H. destruct H as (H1 & H2).
  apply Qle_bool_true in H1. apply Qltb_true in H2. apply Nat.ltb_lt in L. repeat split; auto.
Qed.

Lemma rfold_total {A} (f : Q -> A -> res Q) (g : A -> Q) l : forall acc,
  (forall a b, In a l -> exists r, f b a = Ok r /\ r == b + g a) ->
  exists r, rfold f l acc = Ok r /\ r == acc + total g l.
Proof.
  induction l as [|a t IH]; intros acc H.
  - exists acc. split; [reflexivity|]. cbn. lra.
  - destruct (H a acc (or_introl eq_refl)) as (b & Eb & Qb). cbn [rfold]. rewrite Eb. cbn [rbind].
    destruct (IH b) as (r & Er & Qr); [intros a' b' Ha; apply H; right; auto|].
    exists r. split; auto. cbn [total]. rewrite Qr, Qb. lra.
Qed.

Lemma total_ext {A} (f g : A -> Q) l : (forall a, In a l -> f a == g a) -> total f l == total g l.
Proof.
  induction l as [|a t IH]; intro H; cbn [total]; [reflexivity|].
  rewrite (H a (or_introl eq_refl)), IH; [reflexivity|]. intros b Hb. apply H. right; auto.
Qed.
Lemma total_add {A} (f g : A -> Q) l : total (fun a => f a + g a) l == total f l + total g l.
Proof. induction l as [|a t IH]; cbn [total]; [lra|]. rewrite IH. lra. Qed.
Lemma total_mul {A} (f : A -> Q) c l : total (fun a => c * f a) l == c * total f l.
Proof. induction l as [|a t IH]; cbn [total]; [lra|]. rewrite IH. ring. Qed.

Lemma err_nz o j : usable o -> (j < length (s_axis o))%nat -> ~ at_ (s_err o) j == 0.
Proof.
  intros (_ & _ & _ & _ & L & _ & _ & H) Hj. apply H. unfold at_. apply nth_In. lia.
Qed.

Lemma add_w_ok x o j acc v : usable o -> (j < length (s_axis o))%nat -> v j == x ->
  exists r, add_w x (at_ (s_err o) j) acc = Ok r /\ r == acc + chi o v j.
Proof.
  intros U Hj Hv. unfold add_w. pose proof (err_nz o j U Hj) as N.
  destruct (Qeq_bool_spec (at_ (s_err o) j) 0) as [E|E]; [contradiction|].
  eexists. split; [reflexivity|]. unfold chi, sq. rewrite Hv. reflexivity.
Qed.

(** the sums over the spectra *)
Lemma over_loop (f : spc -> Q -> nat -> res Q) (g : spc -> nat -> Q) os :
  (forall o, In o os -> usable o) ->
  (forall o j b, In o os -> In j (counted o) -> exists r, f o b j = Ok r /\ r == b + g o j) ->
  exists r, rfold (fun acc o => window_loop (f o) o acc) os 0 = Ok r /\ r == over os g.
Proof.
  intros U H.
  destruct (rfold_total (fun acc o => window_loop (f o) o acc) (fun o => total (g o) (counted o)) os 0) as (r & Er & Qr).
  - intros o b Ho. rewrite window_loop_spec; auto. apply rfold_total. intros j b' Hj. apply H; auto.
  - exists r. split; auto. rewrite Qr. unfold over. lra.
Qed.

Ltac lens U := let H := fresh in pose proof U as H; unfold usable in H; destruct H as (_ & _ & ? & ? & ? & ? & ? & _).

Lemma continuum_merit os comp c : (forall o, In o os -> usable o) ->
  exists v, getLeastSquareContinuumMerit os comp c = Ok v /\
    v == over os (fun o => chi o (fun j => at_ (s_raw o) j - at_ (s_cont o) j)) + (if isTpl comp then c_lp c else 0).
Proof.
  intro U. unfold getLeastSquareContinuumMerit.
  destruct (over_loop cont_step (fun o => chi o (fun j => at_ (s_raw o) j - at_ (s_cont o) j)) os U) as (r & Er & Qr).
  - intros o j b Ho Hj. apply counted_in in Hj. destruct Hj as (Hj & _). lens (U o Ho).
    unfold cont_step. rewrite !vget_at by lia. cbn [rbind]. apply add_w_ok; auto; try lia. reflexivity.
  - rewrite Er. cbn [rbind]. eexists. split; [reflexivity|]. destruct (isTpl comp); rewrite Qr; lra.
Qed.

Lemma dtd_spec os nc : (forall o, In o os -> usable o) ->
  exists v, EstimateDTransposeD os nc = Ok v /\
    v == over os (fun o => chi o (fun j => at_ (if nc then s_noc o else s_raw o) j)).
Proof.
  intro U. apply over_loop; auto. intros o j b Ho Hj. apply counted_in in Hj. destruct Hj as (Hj & _). lens (U o Ho).
  unfold dtd_step. rewrite !vget_at by (destruct nc; lia). cbn [rbind]. apply add_w_ok; auto; try lia. reflexivity.
Qed.
Lemma mtm_spec os : (forall o, In o os -> usable o) ->
  exists v, EstimateMTransposeM os = Ok v /\ v == over os (fun o => chi o (fun j => at_ (s_model o) j)).
Proof.
  intro U. apply over_loop; auto. intros o j b Ho Hj. apply counted_in in Hj. destruct Hj as (Hj & _). lens (U o Ho).
  unfold mtm_step. rewrite !vget_at by lia. cbn [rbind]. apply add_w_ok; auto; try lia. reflexivity.
Qed.

Lemma nsamples os : (forall o, In o os -> usable o /\ ordered (s_range o)) -> computeSpcNSamples os = Ok (count_of os counted).
Proof.
  intro U. unfold computeSpcNSamples.
  assert (G : forall l n, (forall o, In o l -> usable o /\ ordered (s_range o)) ->
    rfold (fun n o => do imin <- GetIndexAtWaveLength (s_axis o) (rbeg (s_range o));
      do imax <- GetIndexAtWaveLength (s_axis o) (rend (s_range o));
      Ok (n + Z.abs_nat (Z.of_nat imax - Z.of_nat imin))%nat) l n = Ok (n + count_of l counted)%nat).
  { clear. induction l as [|o t IH]; intros n U; cbn [rfold count_of fold_right]; [rewrite Nat.add_0_r; reflexivity|].
    destruct (U o (or_introl eq_refl)) as (Uo & Oo).
    destruct (window_spec o Uo) as (a & b & Ea & Eb & _ & _ & C & H). specialize (H Oo).
    rewrite Ea, Eb. cbn [rbind]. rewrite IH by (intros x Hx; apply U; right; auto).
    apply f_equal. rewrite C, seq_length. unfold count_of. lia. }
  rewrite G; auto.
Qed.

(** mask and standard deviation *)
Lemma mask_spec o : sup_ok o ->
  exists m, getOutsideLinesMask o = Ok m /\ length m = length (s_axis o) /\
    forall j, (j < length (s_axis o))%nat -> nth_error m j = Some (negb (existsb (Nat.eqb j) (s_sup o))).
Proof.
  intro S0. unfold getOutsideLinesMask, sup_ok in *.
  assert (G : forall l m, (forall j, In j l -> (j < length m)%nat) ->
    exists m', rfold (fun m i => vset m i false) l m = Ok m' /\ length m' = length m /\
      forall j, (j < length m)%nat -> nth_error m' j = if existsb (Nat.eqb j) l then Some false else nth_error m j).
  { clear. induction l as [|i t IH]; intros m H; cbn [rfold].
    - exists m. repeat split; auto.
    - destruct (vset_ok m i false (H i (or_introl eq_refl))) as (m1 & E1 & L1 & N1 & O1). rewrite E1. cbn [rbind].
      destruct (IH m1) as (m2 & E2 & L2 & N2); [intros j Hj; rewrite L1; apply H; right; auto|].
      exists m2. repeat split; auto; [congruence|]. intros j Hj. rewrite N2 by lia. cbn [existsb].
      destruct (Nat.eqb_spec j i) as [E|E].
      + subst. destruct (existsb _ t); auto.
      + cbn [orb]. destruct (existsb _ t); auto. }
  destruct (G (s_sup o) (repeat true (length (s_axis o)))) as (m & E & L & N).
  - intros j Hj. rewrite repeat_length. auto.
  - rewrite repeat_length in *. exists m. repeat split; auto. intros j Hj. rewrite N; auto.
    destruct (existsb _ _); [reflexivity|]. cbn [negb].
    rewrite nth_error_nth' with (d := true) by (rewrite repeat_length; auto). f_equal. apply nth_repeat.
Qed.

Lemma std_spec sqrtf o t which : usable o -> sup_ok o -> (which = 1 \/ which = 2)%Z ->
  (out_of_lines o = [] -> getOutsideLinesSTD sqrtf (o :: t) which = Ok None) /\
  (out_of_lines o <> [] -> exists q, getOutsideLinesSTD sqrtf (o :: t) which = Ok (Some (sqrtf q)) /\
     q == total (fun j => sq (at_ (if (which =? 1)%Z then s_noc o else s_err o) j)) (out_of_lines o) / inject_Z (Z.of_nat (length (out_of_lines o)))).
Proof.
  intros U S0 W. unfold getOutsideLinesSTD.
  replace (negb (which =? 1)%Z && negb (which =? 2)%Z) with false by (destruct W; subst; reflexivity).
  destruct (mask_spec o S0) as (m & Em & Lm & Nm). rewrite Em. cbn [rbind]. rewrite window_loop_spec; auto.
  set (v := if (which =? 1)%Z then s_noc o else s_err o).
  assert (Lv : length v = length (s_axis o)). { lens U. unfold v. destruct (which =? 1)%Z; auto. }
  assert (G : forall l a n, (forall j, In j l -> (j < length (s_axis o))%nat) ->
    exists q, rfold (std_step m v) l (a, n) = Ok (q, n + length (filter (fun j => negb (existsb (Nat.eqb j) (s_sup o))) l))%nat /\
      q == a + total (fun j => sq (at_ v j)) (filter (fun j => negb (existsb (Nat.eqb j) (s_sup o))) l)).
  { induction l as [|j l IH]; intros a n H.
    - exists a. cbn. rewrite Nat.add_0_r. split; [reflexivity|lra].
    - cbn [rfold filter]. assert (Ej : vget m j = Ok (negb (existsb (Nat.eqb j) (s_sup o)))).
      { apply vget_Ok. apply Nm. apply H; left; auto. }
      unfold std_step at 1. rewrite Ej. cbn [rbind]. destruct (negb (existsb (Nat.eqb j) (s_sup o))).
      + rewrite vget_at by (rewrite Lv; apply H; left; auto). cbn [rbind fst snd].
        destruct (IH (a + at_ v j * at_ v j) (S n)) as (q & E & Qq); [intros; apply H; right; auto|].
        exists q. rewrite E. cbn [length total]. split; [f_equal; f_equal; lia|]. rewrite Qq. unfold sq. lra.
      + cbn [rbind]. apply IH. intros; apply H; right; auto. }
  destruct (G (counted o) 0 0%nat) as (q & E & Qq). { intros j Hj. apply counted_in in Hj. lia. }
  rewrite E. cbn [rbind fst snd plus]. fold (out_of_lines o) in *.
  split; intro D.
  - rewrite D. reflexivity.
  - destruct (length (out_of_lines o)) as [|n] eqn:El; [destruct (out_of_lines o); [congruence|discriminate]|].
    eexists. split; [reflexivity|]. unfold Qdiv. rewrite Qq. rewrite Qplus_0_l. reflexivity.
Qed.

Lemma std_argument sqrtf os which : which <> 1%Z -> which <> 2%Z -> getOutsideLinesSTD sqrtf os which = Throw INTERNAL_ERROR.
Proof.
  intros A B. unfold getOutsideLinesSTD. apply Z.eqb_neq in A, B. rewrite A, B. reflexivity.
Qed.
