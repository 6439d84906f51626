From Verif Require TplProofs2.
From Verif Require Import Base RBase FftModel FftSpec FftProofs.
Open Scope R_scope.

Lemma nth_mapseq {A} (f : nat -> A) n k d : (k < n)%nat -> nth k (map f (seq 0 n)) d = f k.
Proof.
  intros K. rewrite (nth_indep _ d (f 0%nat)) by (rewrite map_length, seq_length; exact K).
  rewrite map_nth, seq_nth by exact K. reflexivity.
Qed.

Definition convAt (n : nat) (a b : list R) (t : nat) : R :=
  rsum n (fun i => nth i a 0 * nth (wrap n t i) b 0).

Lemma sin_half n t : (0 < n)%nat -> Nat.even n = true -> sin (angle n (n / 2) t) = 0.
Proof.
  intros N E. destruct (even_odd n) as [[_ [q Q]]|[E' _]]; [|congruence].
  assert (H2 : (n / 2 = q)%nat) by (symmetry; apply (Nat.div_unique n 2 q 0); lia).
  rewrite H2. unfold angle. assert (N0 : INR n <> 0) by (apply not_0_INR; lia).
  assert (Q0 : INR n = 2 * INR q) by (rewrite Q, mult_INR; simpl; lra).
  replace (2 * PI * INR q * INR t / INR n) with (INR t * PI).
  2:{ rewrite Q0. field. lra. }
  clear. induction t.
  - simpl. rewrite Rmult_0_l. apply sin_0.
  - rewrite S_INR, Rmult_plus_distr_r, Rmult_1_l, neg_sin, IHt. lra.
Qed.

Lemma c2r_conv n a b h t : (t < n)%nat ->
  (forall k, (k <= n / 2)%nat -> nth k h (0, 0) = cmul (dft n b k) (dft n a k)) ->
  nth t (c2r n h) 0 = INR n * convAt n a b t.
Proof.
  intros T H. unfold c2r. rewrite nth_mapseq by exact T.
  assert (N : (0 < n)%nat) by lia.
  unfold convAt. rewrite <- sum_terms by exact T. rewrite <- fold_terms by exact N. f_equal; [f_equal|].
  - rewrite H by lia. rewrite <- term_prod. cbv zeta.
    replace (angle n 0 t) with 0. 2:{ unfold angle. simpl. unfold Rdiv. ring. }
    rewrite cos_0, sin_0. ring.
  - apply rsum_ext. intros j J. rewrite H.
    + rewrite <- term_prod. reflexivity.
    + assert ((n - 1) / 2 <= n / 2 /\ 2 * ((n - 1) / 2) <= n - 1)%nat.
      { split; [apply Nat.div_le_mono; lia|apply Nat.mul_div_le; lia]. }
      assert (2 * (S j) <= n)%nat by lia. apply Nat.div_le_lower_bound; lia.
  - destruct (Nat.even n) eqn:E; [|reflexivity]. rewrite H by lia. rewrite <- term_prod. cbv zeta.
    rewrite sin_half by auto. ring.
Qed.

Lemma padTpl_nth n Y i : (i < n)%nat -> nth i (padTpl n Y) 0 = nth i Y 0.
Proof.
  intros L. unfold padTpl. rewrite nth_mapseq by exact L.
  destruct (Nat.ltb_spec i (length Y)); [reflexivity|]. rewrite nth_overflow by lia. reflexivity.
Qed.
Lemma padSpc_nth n X i : (length X <= n)%nat -> (i < n)%nat -> nth i (padSpc n X) 0 = nth (n - 1 - i) X 0.
Proof.
  intros LX L. unfold padSpc. rewrite nth_mapseq by exact L.
  destruct (Nat.ltb_spec i (n - length X)) as [A|A].
  - rewrite nth_overflow by lia. reflexivity.
  - f_equal. lia.
Qed.

Lemma dot_rsum X : forall f, dot X (map f (seq 0 (length X))) = rsum (length X) (fun j => nth j X 0 * f j).
Proof.
  induction X as [|x X IH]; intros f; [reflexivity|].
  cbn [length seq map dot]. rewrite <- seq_shift, map_map, IH.
  change (S (length X)) with (1 + length X)%nat. rewrite (rsum_split 1). cbn [rsum]. simpl nth at 2.
  rewrite Rplus_0_l. f_equal.
Qed.

Lemma conv_cyclic n X Y k t : (0 < n)%nat -> (length X <= n)%nat ->
  (t < n)%nat -> ((t + 1) mod n = k mod n)%nat ->
  convAt n (padSpc n X) (padTpl n Y) t = cyclic_at n X Y k.
Proof.
  intros N LX T TK. unfold convAt, cyclic_at. rewrite dot_rsum.
  rewrite rsum_rev.
  rewrite (rsum_len n (length X + (n - length X))) by lia. rewrite rsum_split.
  rewrite (rsum_zero (n - length X)).
  2:{ intros j J. rewrite padSpc_nth by lia. rewrite nth_overflow by lia. ring. }
  rewrite Rplus_0_r. replace (length X + (n - length X))%nat with n by lia.
  apply rsum_ext. intros j J. rewrite padSpc_nth by lia.
  replace (n - 1 - (n - 1 - j))%nat with j by lia. f_equal.
  assert (W : wrap n t (n - 1 - j) = ((j + k) mod n)%nat).
  { unfold wrap. replace (t + n - (n - 1 - j))%nat with (j + (t + 1))%nat by lia.
    rewrite Nat.add_mod, TK, <- Nat.add_mod by lia. reflexivity. }
  rewrite W. apply padTpl_nth. apply Nat.mod_upper_bound. lia.
Qed.

(** [b] is the transform of the padded spectrum vector, where it is read *)
Definition is_fft (n : nat) (X : list R) (b : list complex) : Prop :=
  (length X <= n)%nat /\ forall k, (k <= n / 2)%nat -> (k < n)%nat -> nth k b (0, 0) = dft n (padSpc n X) k.
Definition slot_ok n (x : option (list R)) (b : option (list complex)) : Prop :=
  match x, b with None, None => True | Some X, Some b => is_fft n X b | _, _ => False end.
Definition inv n x0 x1 (st : fft) : Prop :=
  nPadded st = n /\ slot_ok n x0 (fluxOverErr2 st) /\ slot_ok n x1 (oneOverErr2 st).

Definition known0 (x0 x1 : option (list R)) (slot : Z) : option (list R) :=
  if (slot =? 0)%Z then x0 else if (slot =? 1)%Z then x1 else None.
Definition eff x0 x1 slot X := match known0 x0 x1 slot with Some X' => X' | None => X end.
Definition upd0 (x0 x1 : option (list R)) (slot : Z) (X : list R) : option (list R) :=
  if (slot =? 0)%Z then Some (eff x0 x1 slot X) else x0.
Definition upd1 (x0 x1 : option (list R)) (slot : Z) (X : list R) : option (list R) :=
  if (slot =? 1)%Z then Some (eff x0 x1 slot X) else x1.

Lemma r2c_fft n X old : (length X <= n)%nat -> is_fft n X (r2c n (padSpc n X) old).
Proof.
  intros L. split; [exact L|]. intros k K K'. unfold r2c. rewrite nth_mapseq by exact K'.
  destruct (Nat.leb_spec k (n / 2)); [reflexivity|lia].
Qed.

Lemma spcFFT_inv n x0 x1 st X slot : inv n x0 x1 st -> (length X <= n)%nat ->
  is_fft n (eff x0 x1 slot X) (outSpc (spcFFT st X slot)) /\
  inv n (upd0 x0 x1 slot X) (upd1 x0 x1 slot X) (spcFFT st X slot).
Proof.
  intros (E & H0 & H1) L. unfold spcFFT, upd0, upd1, eff, known0. rewrite E.
  pose proof (r2c_fft n X (outSpc st) L) as F.
  destruct (Z.eqb_spec slot 0) as [-> |N0]; [|destruct (Z.eqb_spec slot 1) as [-> |N1]].
  - destruct x0 as [X0|], (fluxOverErr2 st) as [b|]; simpl in *; try contradiction; repeat split; simpl; auto;
      try apply H0; try apply F.
  - destruct x1 as [X0|], (oneOverErr2 st) as [b|]; simpl in *; try contradiction; repeat split; simpl; auto;
      try apply H1; try apply F.
  - simpl. repeat split; simpl; auto; apply F.
Qed.

Definition result n X' (Y : list R) (nX : nat) : list R := map (cyclic_at n X' Y) (seq 0 (length Y - nX + 1)).

Lemma Estimate_spec n x0 x1 st X Y slot : inv n x0 x1 st -> fits n X Y ->
  exists st', EstimateXtY st X Y slot = Ok (st', result n (eff x0 x1 slot X) Y (length X)) /\
    inv n (upd0 x0 x1 slot X) (upd1 x0 x1 slot X) st'.
Proof.
  intros Hi [[L1 L2] L3]. pose proof (spcFFT_inv n x0 x1 st X slot Hi ltac:(lia)) as [F I'].
  pose proof Hi as (E & _ & _). unfold EstimateXtY. rewrite E.
  destruct (Nat.ltb_spec n (length X)) as [C|_]; [lia|]. rewrite andb_false_r.
  destruct (Nat.ltb_spec n (length Y)) as [C|_]; [lia|].
  destruct (Nat.ltb_spec (length Y + 1) (length X)) as [C|_]; [lia|].
  destruct (Nat.eqb_spec (length Y + 1) (length X)) as [C|_]; [lia|].
  exists (mkfft n (outSpc (spcFFT st X slot)) (r2c n (padTpl n Y) (outTpl (spcFFT st X slot)))
            (fluxOverErr2 (spcFFT st X slot)) (oneOverErr2 (spcFFT st X slot))). split.
  2:{ destruct I' as (A & B & C). split; [reflexivity|]. split; [exact B|exact C]. }
  f_equal. f_equal.
  set (ot := r2c n (padTpl n Y) (outTpl (spcFFT st X slot))).
  set (os := outSpc (spcFFT st X slot)) in *. set (X' := eff x0 x1 slot X) in *.
  set (h := map (fun k => cmul (nth k ot (0, 0)) (nth k os (0, 0))) (seq 0 n)).
  assert (N : (0 < n)%nat) by lia.
  assert (N0 : INR n <> 0) by (apply not_0_INR; lia).
  assert (V : forall t k, (t < n)%nat -> ((t + 1) mod n = k mod n)%nat -> nth t (c2r n h) 0 / INR n = cyclic_at n X' Y k).
  { intros t k T K. rewrite (c2r_conv n (padSpc n X') (padTpl n Y) h t T).
    - rewrite <- (conv_cyclic n X' Y k t N (proj1 F) T K). field. exact N0.
    - intros j J. assert (J' : (j < n)%nat). { apply (Nat.le_lt_trans _ _ _ J). apply Nat.div_lt; lia. }
      unfold h. rewrite nth_mapseq by exact J'. f_equal; [|apply F; auto].
      unfold ot, r2c. rewrite nth_mapseq by exact J'. destruct (Nat.leb_spec j (n / 2)); [reflexivity|lia]. }
  unfold result. replace (length Y - length X + 1)%nat with (S (length Y - length X)) by lia. cbn [seq map].
  replace (S (length Y - length X) - 1)%nat with (length Y - length X)%nat by lia. f_equal.
  - apply V; [lia|]. replace (n - 1 + 1)%nat with n by lia. rewrite Nat.mod_same, Nat.mod_0_l by lia. reflexivity.
  - apply map_ext_in. intros k K. apply in_seq in K. apply V; [lia|]. f_equal. lia.
Qed.

(** the slots filled by the calls made so far *)
Definition slots (earlier : list (list R * list R * Z)) (s : Z) : option (list R) :=
  match find (fun c => (snd c =? s)%Z) earlier with Some c => Some (fst (fst c)) | None => None end.
Lemma find_snoc {A} (f : A -> bool) l x : find f (l ++ [x]) = match find f l with Some y => Some y | None => if f x then Some x else None end.
Proof. induction l as [|a l IH]; simpl; [reflexivity|]. destruct (f a); auto. Qed.
Lemma eff_source e X slot : eff (slots e 0) (slots e 1) slot X = source e X slot.
Proof.
  unfold eff, known0, source, kept_slot, slots.
  destruct (Z.eqb_spec slot 0) as [-> |]; simpl.
  - destruct (find _ e); reflexivity.
  - destruct (Z.eqb_spec slot 1) as [-> |]; simpl; [destruct (find _ e); reflexivity|reflexivity].
Qed.
Lemma upd0_snoc e X Y slot : upd0 (slots e 0) (slots e 1) slot X = slots (e ++ [(X, Y, slot)]) 0.
Proof.
  unfold upd0, eff, known0, slots. rewrite find_snoc. cbn [snd].
  destruct (Z.eqb_spec slot 0) as [-> |N]; destruct (find _ e); reflexivity.
Qed.
Lemma upd1_snoc e X Y slot : upd1 (slots e 0) (slots e 1) slot X = slots (e ++ [(X, Y, slot)]) 1.
Proof.
  unfold upd1, eff, known0, slots. rewrite find_snoc. cbn [snd].
  destruct (Z.eqb_spec slot 1) as [-> |N].
  - simpl (1 =? 0)%Z. cbv iota. destruct (find (fun c => (snd c =? 1)%Z) e); reflexivity.
  - destruct (find (fun c => (snd c =? 1)%Z) e); reflexivity.
Qed.

Lemma calls_gen n : forall l e st, inv n (slots e 0) (slots e 1) st ->
  (forall X Y slot, In (X, Y, slot) l -> fits n X Y) ->
  exists rs, calls st l = Ok rs /\ length rs = length l /\
    forall i X Y slot, nth_error l i = Some (X, Y, slot) ->
      nth_error rs i = Some (result n (source (e ++ firstn i l) X slot) Y (length X)).
Proof.
  induction l as [|[[X Y] slot] l IH]; intros e st Hi F.
  - exists []. repeat split. intros i X Y slot N. destruct i; discriminate.
  - destruct (Estimate_spec n _ _ st X Y slot Hi (F X Y slot (or_introl eq_refl))) as (st' & R1 & I').
    rewrite (upd0_snoc e X Y), (upd1_snoc e X Y) in I'.
    destruct (IH _ _ I') as (rs & R2 & LR & N2).
    { intros X' Y' s' I0. apply (F X' Y' s'). right. exact I0. }
    cbn [calls]. rewrite R1. cbn [rbind]. rewrite R2. cbn [rbind].
    eexists. split; [reflexivity|]. split; [simpl; congruence|].
    intros i X' Y' s' N. destruct i as [|i].
    + simpl in N. injection N as <- <- <-. cbn [firstn nth_error]. rewrite app_nil_r, eff_source. reflexivity.
    + change (nth_error l i = Some (X', Y', s')) in N. apply N2 in N. cbn [firstn nth_error].
      rewrite <- app_assoc in N. exact N.
Qed.

Lemma calls_values n j1 j2 l :
  (forall X Y slot, In (X, Y, slot) l -> fits n X Y) ->
  exists rs, calls (InitFFT n j1 j2) l = Ok rs /\ length rs = length l /\
    forall i X Y slot, nth_error l i = Some (X, Y, slot) ->
      nth_error rs i = Some (map (cyclic_at n (source (firstn i l) X slot) Y) (seq 0 (length Y - length X + 1))).
Proof.
  intros F. apply (calls_gen n l [] (InitFFT n j1 j2)); [|exact F]. repeat split.
Qed.

(** without wrap-around the cyclic sum is the correlation *)
Lemma skip_cons (Y : list R) : forall k y r, skipn k Y = y :: r -> nth k Y 0 = y /\ skipn (S k) Y = r.
Proof.
  induction Y as [|a Y IH]; intros [|k] y r E; try discriminate.
  - cbn [skipn] in E. injection E as -> ->. split; reflexivity.
  - cbn [skipn] in E. apply IH in E. exact E.
Qed.
Lemma dot_skip X : forall Y k n, (length X + k <= length Y)%nat -> (length Y <= n)%nat ->
  dot X (map (fun j => nth ((j + k) mod n) Y 0) (seq 0 (length X))) = dot X (skipn k Y).
Proof.
  induction X as [|x X IH]; intros Y k n L N; [reflexivity|]. cbn [length] in L.
  destruct (skipn k Y) as [|y r] eqn:E.
  { apply (f_equal (@length R)) in E. rewrite skipn_length in E. simpl in E. lia. }
  destruct (skip_cons Y k y r E) as [K E'].
  cbn [length seq map dot]. rewrite Nat.add_0_l, Nat.mod_small, K by lia. f_equal.
  rewrite <- seq_shift, map_map, <- E', <- (IH Y (S k) n) by lia. f_equal. apply map_ext. intros j.
  f_equal. f_equal. lia.
Qed.
Lemma cyclic_correlation n X Y k : fits n X Y -> (k < length Y - length X + 1)%nat -> cyclic_at n X Y k = correlation_at X Y k.
Proof. intros [[L1 L2] L3] K. apply dot_skip; lia. Qed.

Lemma consistent_source l i X Y slot : consistent l -> nth_error l i = Some (X, Y, slot) ->
  source (firstn i l) X slot = X.
Proof.
  intros C N. unfold source. destruct (kept_slot slot) eqn:K; [|reflexivity].
  destruct (find _ (firstn i l)) as [[[X' Y'] s']|] eqn:Fd; [|reflexivity].
  apply find_some in Fd. destruct Fd as [I1 E]. apply Z.eqb_eq in E. simpl in E. subst s'.
  simpl. apply (C X' Y' X Y slot K); [|apply (nth_error_In _ _ N)].
  clear - I1. revert i I1. induction l; intros [|i] I1; simpl in *; try contradiction. destruct I1; [left|right]; eauto.
Qed.

Lemma calls_correlations n j1 j2 l : consistent l ->
  (forall X Y slot, In (X, Y, slot) l -> fits n X Y) ->
  calls (InitFFT n j1 j2) l = Ok (map (fun c => correlations (fst (fst c)) (snd (fst c))) l).
Proof.
  intros C F. destruct (calls_values n j1 j2 l F) as (rs & R & L & N). rewrite R. f_equal.
  apply TplProofs2.list_ext; [rewrite map_length; exact L|]. intros i x Nx.
  destruct (nth_error l i) as [[[X Y] slot]|] eqn:E.
  - rewrite (N _ _ _ _ E) in Nx. injection Nx as <-. rewrite (map_nth_error _ _ _ E). f_equal. cbn [fst snd].
    rewrite (consistent_source l i X Y slot C E). unfold correlations. apply map_ext_in.
    intros k K. apply in_seq in K. symmetry. apply cyclic_correlation; [|lia]. apply (F X Y slot). apply (nth_error_In _ _ E).
  - exfalso. apply nth_error_None in E. assert (i < length rs)%nat by (apply nth_error_Some; congruence). lia.
Qed.
