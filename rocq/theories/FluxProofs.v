(** Proofs for C21 and C22. *)
From Verif Require Import Base F64 SortLib MedianModel MedianSpec MedianProofs FluxModel FluxSpec.
Open Scope Q_scope.

(** ** C21 *)
Lemma map_nth_seq (v : list Q) : forall n a, (a + n <= length v)%nat ->
  map (fun j => nth j v 0) (seq a n) = firstn n (skipn a v).
Proof.
  induction n as [|n IH]; intros a H; [reflexivity|].
  cbn [seq map]. rewrite IH; [|lia].
  assert (E : skipn a v = nth a v 0 :: skipn (S a) v).
  { clear IH. revert a H. induction v as [|x v IHv]; intros a H; simpl in H; [lia|].
    destruct a; [reflexivity|]. cbn [skipn nth]. apply IHv. lia. }
  rewrite E. reflexivity.
Qed.
Lemma filter_seq_interval a b N : (a <= b + 1)%Z -> (0 <= a)%Z -> (b < Z.of_nat N)%Z ->
  filter (fun j => (a <=? Z.of_nat j)%Z && (Z.of_nat j <=? b)%Z)%bool (seq 0 N) = seq (Z.to_nat a) (Z.to_nat (b + 1 - a)).
Proof.
  intros H1 H2 H3.
  replace N with (Z.to_nat a + (Z.to_nat (b + 1 - a) + (N - Z.to_nat (b + 1))))%nat by lia.
  rewrite !seq_app, !filter_app.
  assert (F0 : forall l, (forall j, In j l -> ((a <=? Z.of_nat j)%Z && (Z.of_nat j <=? b)%Z)%bool = false) ->
     filter (fun j => (a <=? Z.of_nat j)%Z && (Z.of_nat j <=? b)%Z)%bool l = []).
  { induction l as [|x l IH]; intro H; auto. cbn [filter]. rewrite (H x); [|left; auto]. apply IH. intros; apply H; right; auto. }
  assert (F1 : forall l, (forall j, In j l -> ((a <=? Z.of_nat j)%Z && (Z.of_nat j <=? b)%Z)%bool = true) ->
     filter (fun j => (a <=? Z.of_nat j)%Z && (Z.of_nat j <=? b)%Z)%bool l = l).
  { induction l as [|x l IH]; intro H; auto. cbn [filter]. rewrite (H x); [|left; auto]. f_equal. apply IH. intros; apply H; right; auto. }
  rewrite (F0 (seq 0 (Z.to_nat a))). 2:{ intros j Hj. apply in_seq in Hj. destruct (Z.leb_spec a (Z.of_nat j)); [lia|reflexivity]. }
  rewrite (F1 (seq (0 + Z.to_nat a) (Z.to_nat (b + 1 - a)))).
  2:{ intros j Hj. apply in_seq in Hj. destruct (Z.leb_spec a (Z.of_nat j)); [|lia]. destruct (Z.leb_spec (Z.of_nat j) b); [reflexivity|lia]. }
  rewrite (F0 (seq (0 + Z.to_nat a + Z.to_nat (b + 1 - a)) _)).
  2:{ intros j Hj. apply in_seq in Hj. destruct (Z.leb_spec (Z.of_nat j) b); [lia|]. apply andb_false_r. }
  rewrite app_nil_r. reflexivity.
Qed.

Lemma window_neighbours v i k : (0 <= k)%Z -> (i < length v)%nat -> window v i k = Ok (neighbours v i k).
Proof.
  intros Hk Hi. unfold window.
  set (left := Z.max 0 (Z.of_nat i - k)). set (right := Z.min (Z.of_nat (length v) - 1) (Z.of_nat i + k)).
  destruct (Z.ltb_spec (right + 1) left) as [H|H]; [lia|].
  f_equal. unfold neighbours. rewrite <- (map_nth_seq v); [|lia]. f_equal.
  rewrite <- (filter_seq_interval left right (length v)); try lia.
  apply filter_ext_in. intros j Hj. apply in_seq in Hj. subst left right.
  destruct (Z.leb_spec (Z.abs (Z.of_nat j - Z.of_nat i)) k); destruct (Z.leb_spec (Z.max 0 (Z.of_nat i - k)) (Z.of_nat j)); destruct (Z.leb_spec (Z.of_nat j) (Z.min (Z.of_nat (length v) - 1) (Z.of_nat i + k))); try reflexivity; lia.
Qed.
Lemma neighbours_self v i k : (0 <= k)%Z -> (i < length v)%nat -> In (nth i v 0) (neighbours v i k).
Proof.
  intros Hk Hi. unfold neighbours. apply (in_map (fun j => nth j v 0)). apply filter_In. split.
  - apply in_seq. lia.
  - apply Z.leb_le. lia.
Qed.
Lemma neighbours_in v i k x : In x (neighbours v i k) -> In x v.
Proof.
  unfold neighbours. intro H. apply in_map_iff in H. destruct H as (j & <- & Hj). apply filter_In in Hj.
  destruct Hj as [Hj _]. apply in_seq in Hj. apply nth_In. lia.
Qed.

Lemma smooth_loop_ok stat v k : (0 <= k)%Z -> (forall w, w <> [] -> exists x, stat w = Ok x) ->
  forall n i, (i + n <= length v)%nat ->
  exists out, smooth_loop stat v k i n = Ok out /\ length out = n /\
    forall j, (j < n)%nat -> exists x, nth_error out j = Some x /\ stat (neighbours v (i + j) k) = Ok x.
Proof.
  intros Hk Hst. induction n as [|n IH]; intros i H.
  - exists []. repeat split. intros; lia.
  - cbn [smooth_loop]. rewrite window_neighbours; [|lia|lia]. cbn [rbind].
    destruct (Hst (neighbours v i k)) as [x Hx].
    { intro E. pose proof (neighbours_self v i k Hk ltac:(lia)) as S. rewrite E in S. inversion S. }
    rewrite Hx. cbn [rbind]. destruct (IH (S i)) as (out & E & L & N); [lia|]. rewrite E. cbn [rbind].
    exists (x :: out). split; [reflexivity|]. split; [simpl; lia|].
    intros [|j] Hj.
    + exists x. split; [reflexivity|]. rewrite Nat.add_0_r. exact Hx.
    + destruct (N j) as (y & Hy & Sy); [lia|]. exists y. split; [exact Hy|].
      replace (i + S j)%nat with (S i + j)%nat by lia. exact Sy.
Qed.

Lemma smooth_spec stat v k : (forall w, w <> [] -> exists x, stat w = Ok x) -> (0 <= k)%Z ->
  ((k = 0 \/ Z.of_nat (length v) <= k)%Z -> smooth stat v k = Ok (false, v)) /\
  ((0 < k < Z.of_nat (length v))%Z -> exists out, smooth stat v k = Ok (true, out) /\ length out = length v /\
     forall i, (i < length v)%nat -> exists x, nth_error out i = Some x /\ stat (neighbours v i k) = Ok x).
Proof.
  intros Hst Hk. unfold smooth. split; intro H.
  - destruct (Z.eqb_spec k 0); [reflexivity|]. destruct (Z.ltb_spec (Z.of_nat (length v)) (k + 1)); [reflexivity|lia].
  - destruct (Z.eqb_spec k 0); [lia|]. destruct (Z.ltb_spec (Z.of_nat (length v)) (k + 1)); [lia|].
    destruct (smooth_loop_ok stat v k Hk Hst (length v) 0) as (out & E & L & N); [lia|].
    rewrite E. cbn [rbind]. exists out. repeat split; auto.
Qed.
Lemma Find_total w : w <> [] -> exists x, Find w = Ok x.
Proof. intro H. destruct (Find_spec w H) as (m & E & _). eauto. Qed.
Lemma Mean_total w : w <> [] -> exists x, MeanFind w = Ok x.
Proof. intro H. destruct w; [contradiction|]. eexists; reflexivity. Qed.

Lemma median_smooth_spec v k : (0 <= k)%Z ->
  ((k = 0 \/ Z.of_nat (length v) <= k)%Z -> ApplyMedianSmooth v k = Ok (false, v)) /\
  ((0 < k < Z.of_nat (length v))%Z -> exists out, ApplyMedianSmooth v k = Ok (true, out) /\ length out = length v /\
     forall i, (i < length v)%nat -> exists x, nth_error out i = Some x /\ Find (neighbours v i k) = Ok x /\
        weak_median (neighbours v i k) x).
Proof.
  intro Hk. destruct (smooth_spec Find v k Find_total Hk) as [A B]. split; [exact A|].
  intro H. destruct (B H) as (out & E & L & N). exists out. repeat split; auto.
  intros i Hi. destruct (N i Hi) as (x & Hx & Fx). exists x. repeat split; auto; apply (Find_weak_median _ _ Fx).
Qed.
Lemma mean_smooth_spec v k : (0 <= k)%Z ->
  ((k = 0 \/ Z.of_nat (length v) <= k)%Z -> ApplyMeanSmooth v k = Ok (false, v)) /\
  ((0 < k < Z.of_nat (length v))%Z -> exists out, ApplyMeanSmooth v k = Ok (true, out) /\ length out = length v /\
     forall i, (i < length v)%nat -> exists x, nth_error out i = Some x /\
        x * inject_Z (Z.of_nat (length (neighbours v i k))) == qsum (neighbours v i k) /\
        forall lo hi, (forall y, In y v -> lo <= y /\ y <= hi) -> lo <= x /\ x <= hi).
Proof.
  intro Hk. destruct (smooth_spec MeanFind v k Mean_total Hk) as [A B]. split; [exact A|].
  intro H. destruct (B H) as (out & E & L & N). exists out. repeat split; auto.
  intros i Hi. destruct (N i Hi) as (x & Hx & Fx). exists x.
  assert (NE : neighbours v i k <> []).
  { intro Z0. pose proof (neighbours_self v i k ltac:(lia) Hi) as S. rewrite Z0 in S. inversion S. }
  split; [exact Hx|]. split.
  - destruct (neighbours v i k) as [|a t] eqn:En; [contradiction|]. rewrite <- En in *.
    unfold MeanFind in Fx. rewrite En in Fx. rewrite <- En in Fx. inversion Fx; subst x.
    field. intro Z0. change 0 with (inject_Z 0) in Z0. rewrite inject_Z_injective in Z0. rewrite En in Z0. simpl in Z0. lia.
  - intros lo hi Hb. destruct (MeanFind_bounds (neighbours v i k) lo hi NE) as (m & Em & B1 & B2 & _).
    { intros y Hy. apply Hb. eapply neighbours_in; eauto. }
    rewrite Fx in Em. inversion Em; subst. auto.
Qed.
Lemma smooth_negative stat v k : (k < 0)%Z -> (0 < length v)%nat -> smooth stat v k = UB.
Proof.
  intros Hk Hv. unfold smooth. destruct (Z.eqb_spec k 0); [lia|].
  destruct (Z.ltb_spec (Z.of_nat (length v)) (k + 1)); [lia|].
  destruct (length v) as [|nn] eqn:E; [lia|]. cbn [smooth_loop]. unfold window. rewrite E.
  destruct (Z.ltb_spec (Z.min (Z.of_nat (S nn) - 1) (Z.of_nat 0 + k) + 1) (Z.max 0 (Z.of_nat 0 - k))); [reflexivity|lia].
Qed.

(** ** C22 *)
Lemma noise_valid_iff x : noise_valid x = true <-> valid_noise x.
Proof.
  unfold noise_valid, valid_noise. destruct x as [| | |m]; try (split; [discriminate|intros (q & H & _); discriminate]).
  destruct (Qltb_spec m DBL_MIN) as [H|H]; cbn.
  - split; [discriminate|]. intros (q & E & H1 & _). inversion E; subst. lra.
  - destruct (Qltb_spec DBL_MAX (1 / (m * m))) as [K|K]; cbn.
    + split; [discriminate|]. intros (q & E & _ & H1). inversion E; subst. lra.
    + split; auto. intros _. exists m. repeat split; lra.
Qed.
Lemma flux_valid_iff x : flux_valid x = true <-> valid_flux x.
Proof.
  unfold flux_valid, valid_flux. destruct x as [| | |m]; simpl; split; intro H; try discriminate; try (destruct H; discriminate); eauto.
Qed.
Lemma sample_valid_ok fl no i : (i < length fl)%nat -> (i < length no)%nat ->
  exists b, sample_valid fl no i = Ok b /\ (b = true <-> valid_at fl no i).
Proof.
  intros H1 H2. unfold sample_valid, checkNoise, checkFlux, vget. rewrite !nth_error_map.
  destruct (nth_error_lt fl i H1) as [f Hf]. destruct (nth_error_lt no i H2) as [e He].
  rewrite Hf, He. cbn. exists (noise_valid e && flux_valid f)%bool. split; [reflexivity|].
  rewrite andb_true_iff, noise_valid_iff, flux_valid_iff. split.
  - intros [A B]. exists f, e. auto.
  - intros (f' & e' & A & B & C & D). rewrite Hf in A. rewrite He in B. inversion A; inversion B; subst. auto.
Qed.

(** invariant of the first loop *)
Definition seen (a b : nat) (i : nat) : Prop := (a <= i < b)%nat.
Definition scan_inv (fl no : list f64) (a b : nat) (st : Q * Q) : Prop :=
  ((forall i, seen a b i -> ~ valid_at fl no i) /\ st = (- DBL_MAX, DBL_MAX)) \/
  ((exists i e, seen a b i /\ valid_at fl no i /\ nth_error no i = Some (Fin e) /\ e == fst st) /\
   (exists i f, seen a b i /\ valid_at fl no i /\ nth_error fl i = Some (Fin f) /\ Qabs f == snd st) /\
   (forall i e, seen a b i -> valid_at fl no i -> nth_error no i = Some (Fin e) -> e <= fst st) /\
   (forall i f, seen a b i -> valid_at fl no i -> nth_error fl i = Some (Fin f) -> snd st <= Qabs f)).

Lemma valid_noise_bounds e : valid_noise (Fin e) -> DBL_MIN <= e.
Proof. intros (q & E & H & _). inversion E; subst; auto. Qed.

Lemma scan_valid_ok fl no : representable fl -> representable no -> forall n a i st,
  (i + n <= length fl)%nat -> (i + n <= length no)%nat -> (a <= i)%nat -> scan_inv fl no a i st ->
  exists st', scan_valid fl no i n st = Ok st' /\ scan_inv fl no a (i + n) st'.
Proof.
  intros Rf Rn. induction n as [|n IH]; intros a i st Hf Hn Ha Inv.
  - exists st. rewrite Nat.add_0_r. split; auto.
  - cbn [scan_valid]. destruct (sample_valid_ok fl no i) as (b & Eb & Hb); [lia|lia|].
    rewrite Eb. cbn [rbind]. replace (i + S n)%nat with (S i + n)%nat by lia.
    destruct b; cbn [negb].
    + assert (V : valid_at fl no i) by (apply Hb; auto).
      destruct V as (f0 & e0 & Ef & Ee & (f & ->) & Ve). pose proof Ve as (e & -> & He1 & He2).
      unfold vget. rewrite Ee, Ef. cbn [rbind].
      assert (V : valid_at fl no i) by (apply Hb; auto).
      assert (Bf : Qabs f <= DBL_MAX) by (apply Rf; eapply nth_error_In; eauto).
      pose proof DBL_MAX_pos. pose proof DBL_MIN_pos.
      apply IH; try lia. right. cbn [fst snd].
      destruct Inv as [[Nv ->]|(I1 & I2 & I3 & I4)]; cbn [fst snd].
      * assert (M1 : Qmaxb (- DBL_MAX) e = e) by (unfold Qmaxb; destruct (Qltb_spec (- DBL_MAX) e); [auto|lra]).
        rewrite M1.
        assert (M2 : Qminb (Qabs f) (Qabs DBL_MAX) == Qabs f).
        { unfold Qminb. assert (Qabs DBL_MAX == DBL_MAX) by (apply Qabs_pos; lra).
          destruct (Qltb_spec (Qabs DBL_MAX) (Qabs f)); lra. }
        split. { exists i, e. repeat split; auto; try lia; reflexivity. }
        split. { exists i, f. repeat split; auto; try lia. symmetry; exact M2. }
        split.
        { intros j e' Hj Vj Ej. destruct (Nat.eq_dec j i) as [->|]; [rewrite Ee in Ej; inversion Ej; subst; lra|].
          exfalso. apply (Nv j); auto. unfold seen in *. lia. }
        { intros j f' Hj Vj Fj. destruct (Nat.eq_dec j i) as [->|]; [rewrite Ef in Fj; inversion Fj; subst; lra|].
          exfalso. apply (Nv j); auto. unfold seen in *. lia. }
      * destruct st as [mx mn]. cbn [fst snd] in *.
        assert (Pm : Qabs mn == mn).
        { destruct I2 as (j & f' & _ & _ & _ & E). apply Qabs_pos. rewrite <- E. apply Qabs_nonneg. }
        split.
        { unfold Qmaxb. destruct (Qltb_spec mx e).
          - exists i, e. repeat split; auto; try lia; reflexivity.
          - destruct I1 as (j & e' & S1 & S2 & S3 & S4). exists j, e'. repeat split; auto; unfold seen in *; lia. }
        split.
        { unfold Qminb. destruct (Qltb_spec (Qabs mn) (Qabs f)).
          - destruct I2 as (j & f' & S1 & S2 & S3 & S4). exists j, f'. repeat split; auto; try (unfold seen in *; lia). lra.
          - exists i, f. repeat split; auto; try lia; reflexivity. }
        split.
        { intros j e' Hj Vj Ej. destruct (Nat.eq_dec j i) as [->|Hne].
          - rewrite Ee in Ej; inversion Ej; subst. unfold Qmaxb. destruct (Qltb_spec mx e'); lra.
          - assert (e' <= mx) by (apply (I3 j); auto; unfold seen in *; lia).
            unfold Qmaxb. destruct (Qltb_spec mx e); lra. }
        { intros j f' Hj Vj Fj. destruct (Nat.eq_dec j i) as [->|Hne].
          - rewrite Ef in Fj; inversion Fj; subst. unfold Qminb. destruct (Qltb_spec (Qabs mn) (Qabs f')); lra.
          - assert (mn <= Qabs f') by (apply (I4 j); auto; unfold seen in *; lia).
            unfold Qminb. destruct (Qltb_spec (Qabs mn) (Qabs f)); lra. }
    + assert (NV : ~ valid_at fl no i) by (intro V; apply Hb in V; discriminate).
      apply IH; try lia.
      destruct Inv as [[Nv ->]|(I1 & I2 & I3 & I4)].
      * left. split; auto. intros j Hj. destruct (Nat.eq_dec j i) as [->|]; auto. apply Nv. unfold seen in *; lia.
      * right. split. { destruct I1 as (j & e' & S1 & S2 & S3 & S4). exists j, e'. repeat split; auto; unfold seen in *; lia. }
        split. { destruct I2 as (j & e' & S1 & S2 & S3 & S4). exists j, e'. repeat split; auto; unfold seen in *; lia. }
        split; intros j x Hj Vj Ej; destruct (Nat.eq_dec j i) as [->|]; try contradiction.
        -- apply (I3 j); auto; unfold seen in *; lia.
        -- apply (I4 j); auto; unfold seen in *; lia.
Qed.

Lemma correct_loop_ok fl0 no0 nv fv : forall n i fl no c,
  length fl = length fl0 -> length no = length no0 ->
  (i + n <= length fl0)%nat -> (i + n <= length no0)%nat ->
  exists fl' no' c', correct_loop fl0 no0 nv fv i n (fl, no, c) = Ok (fl', no', c') /\
    length fl' = length fl /\ length no' = length no /\
    (forall j, (seen i (i + n) j -> ~ valid_at fl0 no0 j -> nth_error fl' j = Some fv /\ nth_error no' j = Some nv)) /\
    (forall j, ~ (seen i (i + n) j /\ ~ valid_at fl0 no0 j) -> nth_error fl' j = nth_error fl j /\ nth_error no' j = nth_error no j) /\
    exists bad, NoDup bad /\ (forall j, In j bad <-> seen i (i + n) j /\ ~ valid_at fl0 no0 j) /\ c' = (c + length bad)%nat.
Proof.
  induction n as [|n IH]; intros i fl no c Lf Ln Hf Hn.
  - exists fl, no, c. cbn [correct_loop]. repeat split; auto; try (unfold seen in *; lia).
    exists []. split; [constructor|]. split; [|simpl; lia]. intro j. unfold seen. split; [intros []|intros [? _]; lia].
  - cbn [correct_loop]. destruct (sample_valid_ok fl0 no0 i) as (b & Eb & Hb); [lia|lia|].
    rewrite Eb. cbn [rbind]. destruct b.
    + assert (V : valid_at fl0 no0 i) by (apply Hb; auto).
      destruct (IH (S i) fl no c) as (fl' & no' & c' & E & L1 & L2 & A & B & bad & ND & M & C); auto; try lia.
      exists fl', no', c'. split; [exact E|]. split; [auto|]. split; [auto|]. split; [|split].
      * intros j Hj NV. apply A; auto. unfold seen in *. destruct (Nat.eq_dec j i); [subst; contradiction|lia].
      * intros j Hj. apply B. intros [Hs NV]. apply Hj. split; auto. unfold seen in *; lia.
      * exists bad. split; [exact ND|]. split; [|exact C]. intro j. rewrite M. unfold seen. split; intros [K1 K2]; split; auto; try lia.
        destruct (Nat.eq_dec j i); [subst; contradiction|lia].
    + assert (NV : ~ valid_at fl0 no0 i) by (intro V; apply Hb in V; discriminate).
      destruct (vset_ok no i nv) as (no1 & E1 & L1 & N1 & O1); [lia|]. rewrite E1. cbn [rbind].
      destruct (vset_ok fl i fv) as (fl1 & E2 & L2 & N2 & O2); [lia|]. rewrite E2. cbn [rbind].
      destruct (IH (S i) fl1 no1 (S c)) as (fl' & no' & c' & E & L3 & L4 & A & B & bad & ND & M & C); auto; try lia; try congruence.
      exists fl', no', c'. split; [exact E|]. split; [congruence|]. split; [congruence|]. split; [|split].
      * intros j Hj NVj. destruct (Nat.eq_dec j i) as [->|Hne].
        -- destruct (B i) as [B1 B2]; [unfold seen; lia|]. rewrite B1, B2. auto.
        -- apply A; auto. unfold seen in *. lia.
      * intros j Hj. assert (Hne : j <> i). { intros ->. apply Hj. split; auto. unfold seen; lia. }
        destruct (B j) as [B1 B2]. { intros [Hs NVj]. apply Hj. split; auto. unfold seen in *; lia. }
        rewrite B1, B2, O1, O2; auto.
      * exists (i :: bad). split. { constructor; auto. rewrite M. unfold seen. lia. }
        split; [|simpl; lia]. intro j. simpl. rewrite M. unfold seen. split.
        -- intros [->|[K1 K2]]; split; auto; lia.
        -- intros [K1 K2]. destruct (Nat.eq_dec j i); [left; auto|right; split; auto; lia].
Qed.

Lemma zone_seen iMin iMax i : (0 <= iMin)%Z ->
  in_zone iMin iMax i <-> seen (Z.to_nat iMin) (Z.to_nat iMin + Z.to_nat (iMax - iMin)) i.
Proof. unfold in_zone, seen. lia. Qed.

Lemma correct_spec fl no iMin iMax coeff : representable fl -> representable no ->
  length no = length fl -> (0 <= iMin)%Z -> (iMax <= Z.of_nat (length fl))%Z -> (iMin <= iMax)%Z ->
  (* no usable sample: nothing valid, or only fluxes of the largest magnitude *)
  ((forall i f, in_zone iMin iMax i -> valid_at fl no i -> nth_error fl i = Some (Fin f) -> Qabs f == DBL_MAX) ->
     correctFluxAndNoiseAxis fl no iMin iMax coeff = Throw SPECTRUM_CORRECTION_ERROR) /\
  (forall i f, in_zone iMin iMax i -> valid_at fl no i -> nth_error fl i = Some (Fin f) -> ~ Qabs f == DBL_MAX ->
     exists fl' no' n mx mn, correctFluxAndNoiseAxis fl no iMin iMax coeff = Ok (negb (Nat.eqb n 0), fl', no', n) /\
       length fl' = length fl /\ length no' = length no /\
       largest_noise fl no iMin iMax mx /\ smallest_flux fl no iMin iMax mn /\
       (forall j, in_zone iMin iMax j -> ~ valid_at fl no j ->
          nth_error no' j = Some (fmul mx coeff) /\ nth_error fl' j = Some (fdiv mn coeff)) /\
       (forall j, ~ (in_zone iMin iMax j /\ ~ valid_at fl no j) ->
          nth_error fl' j = nth_error fl j /\ nth_error no' j = nth_error no j) /\
       exists bad, NoDup bad /\ (forall j, In j bad <-> in_zone iMin iMax j /\ ~ valid_at fl no j) /\ n = length bad).
Proof.
  intros Rf Rn Ll H0 H1 H2. unfold correctFluxAndNoiseAxis.
  assert (G : ((iMin <? 0)%Z && (iMin <? iMax)%Z)%bool = false) by (destruct (Z.ltb_spec iMin 0); [lia|reflexivity]).
  rewrite G.
  set (a := Z.to_nat iMin). set (n := Z.to_nat (iMax - iMin)).
  destruct (scan_valid_ok fl no Rf Rn n a a (- DBL_MAX, DBL_MAX)) as (st & Est & Inv); try lia.
  { left. split; auto. intros i Hi. unfold seen in Hi. lia. }
  rewrite Est. cbn [rbind]. destruct st as [mx mn].
  assert (ZS : forall i, in_zone iMin iMax i <-> seen a (a + n) i) by (intro i; apply zone_seen; auto).
  pose proof DBL_MAX_pos as PM. pose proof DBL_MIN_pos as Pm.
  split.
  - intro Hall. destruct Inv as [[Nv E]|(I1 & I2 & I3 & I4)].
    + inversion E; subst. destruct (Qeq_bool_spec DBL_MAX DBL_MAX); [reflexivity|]. exfalso. apply n0. reflexivity.
    + destruct I2 as (i & f & S1 & S2 & S3 & S4). cbn [snd] in S4.
      assert (Qabs f == DBL_MAX) by (eapply Hall; eauto; apply ZS; auto).
      destruct (Qeq_bool_spec mn DBL_MAX); [reflexivity|]. exfalso. apply n0. lra.
  - intros i f Hz V Hf Hne. destruct Inv as [[Nv E]|(I1 & I2 & I3 & I4)].
    { exfalso. apply (Nv i); auto. apply ZS; auto. }
    cbn [fst snd] in *.
    assert (Hmn : mn < DBL_MAX).
    { assert (mn <= Qabs f) by (apply (I4 i); auto; apply ZS; auto).
      assert (Qabs f <= DBL_MAX) by (apply Rf; eapply nth_error_In; eauto).
      assert (Qabs f < DBL_MAX). { destruct (Qlt_le_dec (Qabs f) DBL_MAX); auto. exfalso. apply Hne. lra. } lra. }
    destruct (Qeq_bool_spec mn DBL_MAX); [lra|].
    assert (Hmx : DBL_MIN <= mx).
    { destruct I1 as (j & e & S1 & S2 & S3 & S4). destruct S2 as (f' & e' & A & B & C & D). rewrite S3 in B. inversion B; subst e'.
      apply valid_noise_bounds in D. lra. }
    destruct (Qeq_bool_spec mx (- DBL_MAX)); [lra|].
    destruct (correct_loop_ok fl no (fmul mx coeff) (fdiv mn coeff) n a fl no 0) as (fl' & no' & c' & E & L1 & L2 & A & B & bad & ND & M & C); try lia; auto.
    rewrite E. cbn [rbind]. exists fl', no', c', mx, mn.
    split; [reflexivity|]. split; [auto|]. split; [auto|]. split; [|split; [|split; [|split]]].
    + split.
      * destruct I1 as (j & e & S1 & S2 & S3 & S4). exists j. split; [apply ZS; auto|]. split; auto. exists e; auto.
      * intros j e Hj. apply I3. apply ZS; auto.
    + split.
      * destruct I2 as (j & e & S1 & S2 & S3 & S4). exists j. split; [apply ZS; auto|]. split; auto. exists e; auto.
      * intros j e Hj. apply I4. apply ZS; auto.
    + intros j Hj NV. apply ZS in Hj. destruct (A j Hj NV). auto.
    + intros j Hj. apply B. rewrite <- ZS. exact Hj.
    + exists bad. split; [exact ND|]. split; [|exact C]. intro j. rewrite M, ZS. tauto.
Qed.

(** with a coefficient of at least 1 that does not overflow the noise, everything is valid afterwards *)
Lemma inv_sq_mono a b : 0 < a -> a <= b -> 1 / (b * b) <= 1 / (a * a).
Proof.
  intros Ha Hab. apply Qle_shift_div_l; [nra|].
  setoid_replace (1 / (b * b) * (a * a)) with ((a * a) / (b * b)) by (field; nra).
  apply Qle_shift_div_r; nra.
Qed.
Lemma correct_valid_after fl no iMin iMax coeff b fl' no' n mx : representable fl -> representable no ->
  length no = length fl -> (0 <= iMin)%Z -> (iMax <= Z.of_nat (length fl))%Z -> (iMin <= iMax)%Z ->
  correctFluxAndNoiseAxis fl no iMin iMax coeff = Ok (b, fl', no', n) ->
  1 <= coeff -> largest_noise fl no iMin iMax mx -> mx * coeff <= DBL_MAX ->
  forall i, in_zone iMin iMax i -> valid_at fl' no' i.
Proof.
  intros Rf Rn Ll H0 H1 H2 E Hc Hmx Hov i Hi.
  destruct (correct_spec fl no iMin iMax coeff Rf Rn Ll H0 H1 H2) as [S1 S2].
  destruct Hmx as [(k & Zk & Vk & e & Ek & Eq) Hmax].
  assert (Huse : exists j f, in_zone iMin iMax j /\ valid_at fl no j /\ nth_error fl j = Some (Fin f) /\ ~ Qabs f == DBL_MAX).
  { destruct Vk as (f & e2 & A & B & (q & ->) & D).
    destruct (Qlt_le_dec (Qabs q) DBL_MAX) as [L|L].
    - exists k, q. repeat split; auto; try (apply Zk). { exists (Fin q), e2. split; [auto|split; [auto|split; [exists q; auto|auto]]]. } lra.
    - (* another one must exist, since the call did not throw *)
      destruct (List.existsb (fun j => match nth_error fl j, nth_error no j with
          | Some (Fin f), Some ee => (noise_valid ee && Qltb (Qabs f) DBL_MAX)%bool | _, _ => false end)
          (seq (Z.to_nat iMin) (Z.to_nat (iMax - iMin)))) eqn:X.
      + apply existsb_exists in X. destruct X as (j & Hj & P). apply in_seq in Hj.
        destruct (nth_error fl j) as [[| | |f]|] eqn:Fj; try discriminate.
        destruct (nth_error no j) as [ee|] eqn:Nj; try discriminate.
        apply andb_true_iff in P. destruct P as [P1 P2]. apply noise_valid_iff in P1. apply Qltb_true in P2.
        exists j, f. split; [unfold in_zone; lia|]. split. { exists (Fin f), ee. split; [auto|split; [auto|split; [exists f; auto|auto]]]. }
        split; auto. lra.
      + exfalso. rewrite S1 in E; [discriminate|].
        intros j f Hj (f2 & e3 & A2 & B2 & C2 & D2) Fj.
        destruct (Qlt_le_dec (Qabs f) DBL_MAX) as [L2|L2].
        * exfalso. assert (X2 : existsb (fun j => match nth_error fl j, nth_error no j with
            | Some (Fin f), Some ee => (noise_valid ee && Qltb (Qabs f) DBL_MAX)%bool | _, _ => false end)
            (seq (Z.to_nat iMin) (Z.to_nat (iMax - iMin))) = true).
          { apply existsb_exists. exists j. split; [apply in_seq; unfold in_zone in Hj; lia|].
            rewrite Fj, B2. apply andb_true_iff. split; [apply noise_valid_iff; auto|apply Qltb_true; auto]. }
          congruence.
        * assert (Qabs f <= DBL_MAX) by (apply Rf; eapply nth_error_In; eauto). lra. }
  destruct Huse as (j & f & Zj & Vj & Fj & Nj).
  destruct (S2 j f Zj Vj Fj Nj) as (fl2 & no2 & n2 & mx2 & mn & E2 & L1 & L2 & LN & SF & A & B & _).
  rewrite E in E2. inversion E2; subst fl2 no2 n2.
  destruct LN as [(k2 & Zk2 & Vk2 & e2 & Ek2 & Eq2) Hmax2].
  assert (Emx : mx2 == mx).
  { assert (e <= mx2) by (exact (Hmax2 k e Zk Vk Ek)). assert (e2 <= mx) by (exact (Hmax k2 e2 Zk2 Vk2 Ek2)). lra. }
  assert (He : valid_noise (Fin e)). { destruct Vk as (u & w & P1 & P2 & P3 & P4). rewrite Ek in P2. inversion P2; subst. auto. }
  destruct He as (q & Eq3 & Hq1 & Hq2). inversion Eq3; subst q. pose proof DBL_MIN_pos. pose proof DBL_MAX_pos.
  assert (V : valid_at fl no i \/ ~ valid_at fl no i).
  { unfold in_zone in Hi. destruct (sample_valid_ok fl no i) as (bb & _ & Hbb); [lia|lia|].
    destruct bb; [left; apply Hbb; auto|right; intro V; apply Hbb in V; discriminate]. }
  destruct V as [V|V].
  - destruct (B i) as [B1 B2]; [tauto|]. destruct V as (u & w & P1 & P2 & P3 & P4). exists u, w. rewrite B1, B2. auto.
  - destruct (A i Hi V) as [A1 A2]. exists (fdiv mn coeff), (fmul mx2 coeff). repeat split; auto.
    + destruct SF as [(k3 & Zk3 & Vk3 & f3 & Fk3 & Eqf) _].
      assert (Qabs f3 <= DBL_MAX) by (apply Rf; eapply nth_error_In; eauto).
      unfold fdiv. destruct (Qeq_bool_spec coeff 0); [lra|]. exists (mn / coeff). apply of_Q_fin.
      pose proof (Qabs_nonneg f3).
      assert (P : 0 <= mn / coeff) by (apply Qle_shift_div_l; lra).
      rewrite Qabs_pos; auto. apply Qle_shift_div_r; nra.
    + exists (mx2 * coeff). split.
      * unfold fmul. apply of_Q_fin. rewrite Qabs_pos; [rewrite Emx; auto|]. nra.
      * assert (e <= mx2 * coeff) by nra. split; [lra|].
        eapply Qle_trans; [apply (inv_sq_mono e); lra|exact Hq2].
Qed.

(** ** element-wise operations *)
Lemma Subtract_spec v o : (length o <> length v -> Subtract v o = Throw INTERNAL_ERROR) /\
  (length o = length v -> exists r, Subtract v o = Ok r /\ length r = length v /\
     forall i x y, nth_error v i = Some x -> nth_error o i = Some y -> nth_error r i = Some (x - y)).
Proof.
  unfold Subtract. destruct (Nat.eqb_spec (length o) (length v)) as [E|E]; split; intro H; try congruence.
  eexists; split; [reflexivity|]. split; [rewrite map_length, combine_length; lia|].
  intros i x y Hx Hy. rewrite nth_error_map.
  assert (C : nth_error (combine v o) i = Some (x, y)).
  { clear E H. revert o i Hx Hy. induction v as [|a v IH]; intros [|b o] [|i] Hx Hy; simpl in *; try discriminate.
    - inversion Hx; inversion Hy; subst; auto.
    - apply IH; auto. }
  rewrite C. reflexivity.
Qed.

Lemma max_abs_from_spec l : forall best, 
  (exists x, (x = best \/ In x l) /\ x = max_abs_from best l) /\
  (Qabs best <= Qabs (max_abs_from best l)) /\ (forall x, In x l -> Qabs x <= Qabs (max_abs_from best l)).
Proof.
  induction l as [|a l IH]; intro best; cbn [max_abs_from].
  - repeat split; [exists best; auto|lra|intros x []].
  - destruct (Qltb_spec (Qabs best) (Qabs a)) as [H|H].
    + destruct (IH a) as ((x & Hx & Ex) & B & C). repeat split.
      * exists x. split; auto. right. destruct Hx; [left; auto|right; auto].
      * lra.
      * intros y [<-|Hy]; auto.
    + destruct (IH best) as ((x & Hx & Ex) & B & C). repeat split.
      * exists x. split; auto. destruct Hx; [left; auto|right; right; auto].
      * lra.
      * intros y [<-|Hy]; auto. lra.
Qed.
Lemma nth_error_firstn {A} n (l : list A) i : (i < n)%nat -> nth_error (firstn n l) i = nth_error l i.
Proof. revert n i; induction l as [|a l IH]; intros [|n] [|i] H; simpl; auto; try lia. apply IH; lia. Qed.
Lemma nth_error_skipn {A} n (l : list A) i : nth_error (skipn n l) i = nth_error l (n + i).
Proof. revert n; induction l as [|a l IH]; intros [|n]; simpl; auto. destruct i; reflexivity. Qed.
Lemma computeMaxAbsValue_spec v imin imax : (imin <= imax < length v)%nat ->
  exists m, computeMaxAbsValue v imin imax = Ok m /\
   (exists i x, (imin <= i <= imax)%nat /\ nth_error v i = Some x /\ m = Qabs x) /\
   (forall i x, (imin <= i <= imax)%nat -> nth_error v i = Some x -> Qabs x <= m).
Proof.
  intro H. unfold computeMaxAbsValue.
  destruct (Nat.ltb_spec imax (length v)); [|lia]. destruct (Nat.leb_spec imin (S imax)); [|lia]. cbn [andb].
  set (w := firstn (S imax - imin) (skipn imin v)).
  assert (W : forall i, (i < S imax - imin)%nat -> nth_error w i = nth_error v (imin + i)).
  { intros i Hi. unfold w. rewrite nth_error_firstn; auto. apply nth_error_skipn. }
  assert (Lw : length w = (S imax - imin)%nat) by (unfold w; rewrite firstn_length, skipn_length; lia).
  destruct w as [|x t]; [cbn [length] in Lw; lia|].
  destruct (max_abs_from_spec t x) as ((y & Hy & Ey) & B & C).
  eexists; split; [reflexivity|]. split.
  - assert (In y (x :: t)) by (destruct Hy; [left|right]; auto).
    apply In_nth_error in H2. destruct H2 as [k Hk].
    assert (k < S imax - imin)%nat by (apply nth_error_len in Hk; lia).
    exists (imin + k)%nat, y. split; [lia|]. split; [rewrite <- W; auto|]. congruence.
  - intros i z Hi Hz. replace i with (imin + (i - imin))%nat in Hz by lia. rewrite <- W in Hz; [|lia].
    apply nth_error_In in Hz. destruct Hz as [<-|Hz]; auto.
Qed.

Lemma setError_spec (current other : list Q) :
  setError current other = if Nat.eq_dec (length other) (length current) then Ok other else Throw INTERNAL_ERROR.
Proof. unfold setError. destruct (Nat.eqb_spec (length other) (length current)); destruct (Nat.eq_dec (length other) (length current)); congruence. Qed.
