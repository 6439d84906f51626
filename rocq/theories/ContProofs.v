From Verif Require Import Base MedianModel MedianSpec MedianProofs ContModel ContSpec.
Open Scope Q_scope.

(** ** lists *)
Lemma slice_length {A} (y : list A) a b : (a <= b)%nat -> (b <= length y)%nat -> length (slice y a b) = (b - a)%nat.
Proof. intros H1 H2. unfold slice. rewrite firstn_length, skipn_length. lia. Qed.
Lemma nth_error_skipn {A} (y : list A) a i : nth_error (skipn a y) i = nth_error y (a + i).
Proof. revert y i; induction a as [|a IH]; intros [|x y] i; cbn [skipn plus nth_error]; try reflexivity; [destruct i; reflexivity|apply IH]. Qed.
Lemma nth_error_firstn {A} (y : list A) n i : (i < n)%nat -> nth_error (firstn n y) i = nth_error y i.
Proof. revert y i; induction n as [|n IH]; intros [|x y] [|i] H; cbn; try reflexivity; try lia. apply IH. lia. Qed.
Lemma nth_error_slice {A} (y : list A) a b i : (i < b - a)%nat -> nth_error (slice y a b) i = nth_error y (a + i).
Proof. intro H. unfold slice. rewrite nth_error_firstn by exact H. apply nth_error_skipn. Qed.
Lemma in_slice {A} (y : list A) a b x : In x (slice y a b) -> exists j, (a <= j < b)%nat /\ nth_error y j = Some x.
Proof.
  intro H. apply In_nth_error in H. destruct H as [i Hi]. assert (L : (i < length (slice y a b))%nat) by (apply nth_error_Some; congruence).
  unfold slice in L. rewrite firstn_length in L. rewrite nth_error_slice in Hi by lia. exists (a + i)%nat. split; [lia|exact Hi].
Qed.
Lemma mapM_ok {A B} (f : A -> res B) (P : A -> B -> Prop) l : (forall x, In x l -> exists y, f x = Ok y /\ P x y) -> exists r, mapM f l = Ok r /\ Forall2 P l r.
Proof.
  induction l as [|x l IH]; intro H; [exists []; split; [reflexivity|constructor]|]. destruct (H x (or_introl eq_refl)) as [y [E Py]]. destruct IH as [r [Er Fr]]; [intros; apply H; right; assumption|].
  exists (y :: r). cbn [mapM]. rewrite E. cbn [rbind]. rewrite Er. split; [reflexivity|constructor; assumption].
Qed.
Lemma Forall2_seq_nth {B} (P : nat -> B -> Prop) n : forall s (l : list B), Forall2 P (seq s n) l -> length l = n /\ forall i v, nth_error l i = Some v -> P (s + i)%nat v.
Proof.
  induction n as [|n IH]; intros s l F; inversion F; subst; [split; [reflexivity|intros [|i] v; discriminate]|].
  destruct (IH _ _ H3) as [L N]. split; [cbn [length]; lia|]. intros [|i] v E; cbn [nth_error] in E; [injection E as <-; rewrite Nat.add_0_r; assumption|].
  replace (s + S i)%nat with (S s + i)%nat by lia. apply N. exact E.
Qed.
(** ** one smoothing *)
Definition radius (n : nat) : nat := Nat.div n 2.
Lemma half_rest n : (2 * Nat.div n 2 <= n /\ n - 2 * Nat.div n 2 <= 1)%nat.
Proof. pose proof (Nat.div_mod n 2 ltac:(lia)). pose proof (Nat.mod_upper_bound n 2 ltac:(lia)). lia. Qed.
Lemma window_length y n i : (i < length y)%nat -> length (window y n i) = (Nat.min (i + (n - Nat.div n 2)) (length y) - (i - Nat.div n 2))%nat.
Proof. intro H. unfold window. destruct (half_rest n). rewrite slice_length by lia. lia. Qed.
Lemma window_nonempty y n i : (0 < n)%nat -> (i < length y)%nat -> window y n i <> [].
Proof. intros Hn Hi E. pose proof (window_length y n i Hi) as L. rewrite E in L. cbn [length] in L. destruct (half_rest n). assert (n = 1 \/ 1 <= Nat.div n 2)%nat by (destruct (Nat.eq_dec n 1); [left; assumption|right; apply Nat.div_le_lower_bound; lia]). lia. Qed.
Lemma in_window y n i x : In x (window y n i) -> exists j, (i <= j + radius n)%nat /\ (j <= i + radius n)%nat /\ nth_error y j = Some x.
Proof. intro H. unfold window in H. apply in_slice in H. destruct H as [j [Hj E]]. exists j. unfold radius. destruct (half_rest n). split; [lia|]. split; [lia|exact E]. Qed.
Lemma Find_bounds v lo hi : v <> [] -> (forall x, In x v -> lo <= x /\ x <= hi) -> exists m, Find v = Ok m /\ lo <= m /\ m <= hi.
Proof.
  intros N H. destruct (Find_spec v N) as [m [E S]]. exists m. split; [exact E|].
  assert (O : forall k q, order_statistic v k q -> lo <= q /\ q <= hi) by (intros k q [[x [Hx Eq]] _]; rewrite <- Eq; apply H; exact Hx).
  destruct (Nat.odd (length v)); [eapply O; exact S|]. destruct (Nat.leb (length v) 1000); [|eapply O; exact S].
  destruct S as [a [b [-> [S1 S2]]]]. apply O in S1. apply O in S2. lra.
Qed.
Lemma Find_total v : v <> [] -> exists m, Find v = Ok m /\ forall lo hi, (forall x, In x v -> lo <= x /\ x <= hi) -> lo <= m /\ m <= hi.
Proof.
  intro N. destruct (Find_spec v N) as [m [E _]]. exists m. split; [exact E|]. intros lo hi H. destruct (Find_bounds v lo hi N H) as [m' [E' B]]. assert (m' = m) by congruence. subst. exact B.
Qed.
Lemma median_smooth y n : (0 < n)%nat -> exists z, MedianSmooth y n = Ok z /\ local_average (radius n) y z /\
  forall i v, nth_error z i = Some v -> Find (window y n i) = Ok v.
Proof.
  intro Hn. unfold MedianSmooth.
  destruct (mapM_ok (fun i => Find (window y n i)) (fun i m => Find (window y n i) = Ok m /\ forall lo hi, (forall x, In x (window y n i) -> lo <= x /\ x <= hi) -> lo <= m /\ m <= hi) (seq 0 (length y))) as [z [E F]].
  { intros i Hi. apply in_seq in Hi. destruct (Find_total (window y n i)) as [m [Em Bm]]; [apply window_nonempty; lia|]. exists m. split; [exact Em|split; [exact Em|exact Bm]]. }
  exists z. split; [exact E|]. apply Forall2_seq_nth in F. destruct F as [L F]. split; [|intros i v Hv; apply (F i v Hv)]. split; [exact L|].
  intros i v lo hi Hv NB. destruct (F i v Hv) as [_ B]. apply B. intros x Hx. apply in_window in Hx. destruct Hx as [j [J1 [J2 J3]]]. eapply NB; eassumption.
Qed.
Lemma nth_map_seq {B} (f : nat -> B) n i v : nth_error (map f (seq 0 n)) i = Some v -> v = f i /\ (i < n)%nat.
Proof.
  intro Hv. assert (Hi : (i < n)%nat) by (apply nth_error_len in Hv; rewrite map_length, seq_length in Hv; exact Hv). split; [|exact Hi].
  rewrite nth_error_map, (nth_error_nth' _ 0%nat), seq_nth in Hv by (rewrite ?seq_length; exact Hi). cbn [option_map plus] in Hv. congruence.
Qed.
Lemma MeanFind_eq v : v <> [] -> MeanFind v = Ok (qsum v / inject_Z (Z.of_nat (length v))).
Proof. destruct v; [contradiction|reflexivity]. Qed.
Lemma mean_smooth y n : (0 < n)%nat -> exists z, MeanSmooth y n = map Some z /\ local_average (radius n) y z /\
  forall i v, nth_error z i = Some v -> v * inject_Z (Z.of_nat (length (window y n i))) == qsum (window y n i).
Proof.
  intro Hn. exists (map (fun i => qsum (window y n i) / inject_Z (Z.of_nat (length (window y n i)))) (seq 0 (length y))). split; [|split].
  - unfold MeanSmooth. rewrite map_map. apply map_ext_in. intros i Hi. apply in_seq in Hi. unfold mean_find. pose proof (window_nonempty y n i Hn ltac:(lia)). destruct (window y n i) eqn:E; [contradiction|]. reflexivity.
  - split; [rewrite map_length, seq_length; reflexivity|]. intros i v lo hi Hv NB. apply nth_map_seq in Hv. destruct Hv as [-> Hi].
    destruct (MeanFind_bounds (window y n i) lo hi) as [m [Em [B1 [B2 _]]]]; [apply window_nonempty; assumption| |].
    + intros x Hx. apply in_window in Hx. destruct Hx as [j [J1 [J2 J3]]]. eapply NB; eassumption.
    + rewrite MeanFind_eq in Em by (apply window_nonempty; assumption). injection Em as <-. split; assumption.
  - intros i v Hv. apply nth_map_seq in Hv. destruct Hv as [-> Hi].
    field. pose proof (window_nonempty y n i Hn Hi). destruct (window y n i) as [|x w] eqn:E; [contradiction|]. intro Q. unfold Qeq, inject_Z in Q. cbn [Qnum Qden] in Q. cbn [length] in Q. lia.
Qed.
Lemma mean_smooth_nan y : MeanSmooth y 0 = map (fun _ => None) y.
Proof.
  unfold MeanSmooth. assert (H : forall i, mean_find (window y 0 i) = None) by (intro i; unfold window, slice; cbn [Nat.div Nat.divmod fst Nat.sub Nat.mul]; replace (Nat.min (i + 0 + 0) (length y) - (i - 0))%nat with 0%nat by lia; reflexivity).
  rewrite (map_ext _ (fun _ => None)) by (intro; apply H). generalize 0%nat at 1. induction y as [|x y IH]; intro s; [reflexivity|]. cbn [length seq map]. f_equal. 
  clear -y. generalize (S s). induction y as [|x y IH]; intro s'; [reflexivity|]. cbn [length seq map]. f_equal. apply IH.
Qed.
(** ** repeated smoothing *)
Lemma local_refl y : local_average 0 y y.
Proof. split; [reflexivity|]. intros i v lo hi Hv NB. apply (NB i v); [lia|lia|exact Hv]. Qed.
Lemma local_comp r1 r2 x y z : local_average r1 x y -> local_average r2 y z -> local_average (r1 + r2) x z.
Proof.
  intros [L1 H1] [L2 H2]. split; [congruence|]. intros i v lo hi Hv NB. apply (H2 i v lo hi Hv). intros j w J1 J2 Hw. apply (H1 j w lo hi Hw). intros k u K1 K2 Hu. apply (NB k u); [lia|lia|exact Hu].
Qed.
Lemma times_local n k y : (0 < n)%nat -> exists z, times k (fun y => MedianSmooth y n) y = Ok z /\ local_average (k * radius n) y z.
Proof.
  intro Hn. revert y. induction k as [|k IH]; intro y; [exists y; split; [reflexivity|apply local_refl]|]. destruct (median_smooth y n Hn) as [z [E [L _]]]. destruct (IH z) as [z' [E' L']].
  exists z'. cbn [times]. rewrite E. cbn [rbind]. split; [exact E'|]. cbn [Nat.mul]. eapply local_comp; eassumption.
Qed.
Definition oddn (n : nat) : nat := if Nat.odd n then n else S n.
Definition reach (cycles mean median : nat) : nat := (cycles * median + cycles * radius (oddn median) + radius (Nat.div mean 4))%nat.
Lemma smooth_local cycles big mean median : (4 <= mean)%nat -> exists z, smooth cycles big mean median = Ok (map Some z) /\ local_average (reach (Z.to_nat cycles) mean median) big z.
Proof.
  intro Hm. unfold smooth. destruct (times_local (2 * median + 1) (Z.to_nat cycles) big ltac:(lia)) as [s1 [E1 L1]]. rewrite E1. cbn [rbind].
  destruct (times_local (oddn median) (Z.to_nat cycles) s1) as [s2 [E2 L2]]; [unfold oddn; destruct (Nat.odd median) eqn:O; [destruct median; [discriminate|lia]|lia]|].
  change (if Nat.odd median then median else S median) with (oddn median). rewrite E2. cbn [rbind].
  assert (M : (0 < Nat.div mean 4)%nat) by (apply Nat.div_str_pos; lia). destruct (mean_smooth s2 _ M) as [s3 [E3 [L3 _]]]. rewrite E3. exists s3. split; [reflexivity|].
  pose proof (local_comp _ _ _ _ _ L1 (local_comp _ _ _ _ _ L2 L3)) as L. unfold reach. replace (radius (2 * median + 1)) with median in L by (unfold radius; symmetry; replace (2 * median + 1)%nat with (1 + median * 2)%nat by lia; rewrite Nat.div_add by lia; reflexivity).
  replace (Z.to_nat cycles * median + Z.to_nat cycles * radius (oddn median) + radius (mean / 4))%nat with (Z.to_nat cycles * median + (Z.to_nat cycles * radius (oddn median) + radius (mean / 4)))%nat by lia. exact L.
Qed.
Lemma smooth_nan cycles big mean median : (mean < 4)%nat -> smooth cycles big mean median = Ok (map (fun _ => None) big).
Proof.
  intro Hm. unfold smooth. destruct (times_local (2 * median + 1) (Z.to_nat cycles) big ltac:(lia)) as [s1 [E1 [L1 _]]]. rewrite E1. cbn [rbind].
  destruct (times_local (oddn median) (Z.to_nat cycles) s1) as [s2 [E2 [L2 _]]]; [unfold oddn; destruct (Nat.odd median) eqn:O; [destruct median; [discriminate|lia]|lia]|].
  change (if Nat.odd median then median else S median) with (oddn median). rewrite E2. cbn [rbind]. rewrite Nat.div_small by lia. rewrite mean_smooth_nan. f_equal.
  assert (L : length s2 = length big) by congruence. clear -L. revert big L. induction s2 as [|x s IH]; intros [|b big] L; try discriminate; [reflexivity|]. cbn [map]. f_equal. apply IH. cbn in L. lia.
Qed.
(** ** borders *)
Lemma nonzero_true x : nonzero x = true <-> ~ x == 0.
Proof. unfold nonzero. destruct (Qeq_bool_spec x 0); cbn; split; intro; try discriminate; try contradiction; auto. Qed.
Lemma nonzero_false x : nonzero x = false <-> x == 0.
Proof. unfold nonzero. destruct (Qeq_bool_spec x 0); cbn; split; intro; try discriminate; try contradiction; auto. Qed.
Lemma first_nz_spec y : forall s, match first_nz y s with
  | Some j => exists i a, j = (s + i)%nat /\ nth_error y i = Some a /\ ~ a == 0 /\ forall k x, (k < i)%nat -> nth_error y k = Some x -> x == 0
  | None => forall x, In x y -> x == 0 end.
Proof.
  induction y as [|x y IH]; intro s; cbn [first_nz]; [intros ? []|]. destruct (nonzero x) eqn:N.
  - exists 0%nat, x. split; [lia|]. split; [reflexivity|]. split; [apply nonzero_true; exact N|]. intros; lia.
  - apply nonzero_false in N. specialize (IH (S s)). destruct (first_nz y (S s)) as [j|].
    + destruct IH as [i [a [-> [E [Na H]]]]]. exists (S i), a. split; [lia|]. split; [exact E|]. split; [exact Na|]. intros [|k] u Hk Hu; cbn in Hu; [congruence|]. apply (H k); [lia|exact Hu].
    + intros u [<-|Hu]; [exact N|apply IH; exact Hu].
Qed.
Lemma last_nz_spec y : match last_nz (rev y) (length y - 1) with
  | Some j => exists a, nth_error y j = Some a /\ ~ a == 0 /\ forall k x, (j < k)%nat -> nth_error y k = Some x -> x == 0
  | None => forall x, In x y -> x == 0 end.
Proof.
  induction y as [|x y IH] using rev_ind; [intros ? []|]. rewrite rev_app_distr, app_length. cbn [rev app length last_nz]. replace (length y + 1 - 1)%nat with (length y) by lia. destruct (nonzero x) eqn:N.
  - exists x. split; [rewrite nth_error_app2, Nat.sub_diag by lia; reflexivity|]. split; [apply nonzero_true; exact N|]. intros k u Hk Hu. apply nth_error_len in Hu. rewrite app_length in Hu. cbn in Hu. lia.
  - apply nonzero_false in N. destruct (last_nz (rev y) (length y - 1)) as [j|].
    + destruct IH as [a [E [Na H]]]. exists a. assert (Hj : (j < length y)%nat) by (apply nth_error_len in E; exact E). split; [rewrite nth_error_app1 by exact Hj; exact E|]. split; [exact Na|].
      intros k u Hk Hu. destruct (Nat.lt_ge_cases k (length y)) as [L|L]; [rewrite nth_error_app1 in Hu by exact L; eapply H; eassumption|].
      rewrite nth_error_app2 in Hu by exact L. destruct (k - length y)%nat as [|m]; cbn in Hu; [injection Hu as <-; exact N|destruct m; discriminate].
    + intros u Hu. apply in_app_or in Hu. destruct Hu as [Hu|[<-|[]]]; [apply IH; exact Hu|exact N].
Qed.
Lemma count_nz_spec y : forall k, (k <= 10)%nat -> ((10 <? count_nz y k)%nat = true <-> (10 < k + nonzeros y)%nat).
Proof.
  unfold nonzeros. induction y as [|x y IH]; intros k Hk; cbn [count_nz filter length]; [rewrite Nat.ltb_lt; lia|]. cbv zeta. fold (nonzero x). destruct (nonzero x).
  - destruct (Nat.ltb_spec 10 (S k)) as [L|L]; [split; intro; [cbn [length]; lia|apply Nat.ltb_lt; lia]|]. rewrite IH by lia. cbn [length]. lia.
  - destruct (Nat.ltb_spec 10 k) as [L|L]; [lia|]. apply IH. exact Hk.
Qed.
Lemma nonzeros_le y k0 k1 : (forall j x, nth_error y j = Some x -> (j < k0 \/ k1 < j)%nat -> x == 0) -> (nonzeros y <= S k1 - k0)%nat.
Proof.
  unfold nonzeros. change (fun x0 : Q => negb (Qeq_bool x0 0)) with nonzero. revert k0 k1. induction y as [|x y IH]; intros k0 k1 H; [cbn; lia|]. cbn [filter].
  assert (Z : forall k1', (forall j u, nth_error y j = Some u -> (k1' <= j)%nat -> u == 0) -> (length (filter nonzero y) <= k1')%nat).
  { clear. induction y as [|x y IH]; intros k H; [cbn; lia|]. cbn [filter]. destruct (nonzero x) eqn:N.
    - apply nonzero_true in N. destruct k as [|k]; [exfalso; apply N; apply (H 0%nat x); [reflexivity|lia]|]. cbn [length]. apply le_n_S. apply IH. intros j u E L. apply (H (S j) u); [exact E|lia].
    - destruct k as [|k]; [apply (IH 0%nat); intros j u E L; apply (H (S j) u); [exact E|lia]|]. apply Nat.le_trans with k; [|lia]. apply IH. intros j u E L. apply (H (S j) u); [exact E|lia]. }
  destruct k0 as [|k0].
  - destruct (nonzero x) eqn:N.
    + cbn [length]. assert ((length (filter nonzero y) <= k1)%nat) by (apply Z; intros j u E L; apply (H (S j) u); [exact E|lia]). lia.
    + assert ((length (filter nonzero y) <= k1)%nat) by (apply Z; intros j u E L; apply (H (S j) u); [exact E|lia]). lia.
  - assert (x == 0) by (apply (H 0%nat x); [reflexivity|lia]). apply nonzero_false in H0. rewrite H0.
    destruct k1 as [|k1]; [|specialize (IH k0 k1); apply IH; intros j u E L; apply (H (S j) u); [exact E|lia]].
    assert ((length (filter nonzero y) <= 0)%nat) by (apply Z; intros j u E L; apply (H (S j) u); [exact E|lia]). change (fun x0 : Q => negb (Qeq_bool x0 0)) with nonzero. lia.
Qed.
Lemma borders y : let '(found, k0, k1) := FindEffectiveSpectrumBorder y in
  (found = true <-> (10 < nonzeros y)%nat) /\ (found = true -> effective y k0 k1 /\ (k1 < length y)%nat /\ (k0 + 10 <= k1)%nat).
Proof.
  unfold FindEffectiveSpectrumBorder. split; [apply (count_nz_spec y 0 ltac:(lia))|]. intro F. apply (count_nz_spec y 0 ltac:(lia)) in F.
  assert (NZ : (forall x, In x y -> x == 0) -> False).
  { intro A. assert (nonzeros y <= 1 - 1)%nat by (apply (nonzeros_le y 1 0); intros j x E _; apply A; eapply nth_error_In; exact E). lia. }
  pose proof (first_nz_spec y 0) as H0. pose proof (last_nz_spec y) as H1. destruct (first_nz y 0) as [k0|]; [|contradiction]. destruct (last_nz (rev y) (length y - 1)) as [k1|]; [|contradiction].
  destruct H0 as [i [a [-> [E0 [N0 Z0]]]]]. destruct H1 as [b [E1 [N1 Z1]]]. cbn [plus] in *.
  assert (K : (i <= k1)%nat) by (destruct (Nat.lt_ge_cases k1 i) as [L|L]; [exfalso; apply N1; eapply Z0; eassumption|exact L]).
  assert (EF : effective y i k1) by (split; [exact K|]; split; [exists a; split; assumption|]; split; [exists b; split; assumption|]; intros j x E [L|L]; [eapply Z0; eassumption|eapply Z1; eassumption]).
  split; [exact EF|]. split; [apply nth_error_len in E1; exact E1|]. destruct EF as [_ [_ [_ Z]]]. pose proof (nonzeros_le y i k1 Z). lia.
Qed.
Lemma effective_unique y k0 k1 k0' k1' : effective y k0 k1 -> effective y k0' k1' -> k0 = k0' /\ k1 = k1'.
Proof.
  intros [A1 [[a [A2 A3]] [[b [A4 A5]] A6]]] [B1 [[a' [B2 B3]] [[b' [B4 B5]] B6]]].
  assert (X1 : (k0 <= k0')%nat) by (destruct (Nat.lt_ge_cases k0' k0); [exfalso; apply B3; eapply A6; [exact B2|lia]|assumption]).
  assert (X2 : (k0' <= k0)%nat) by (destruct (Nat.lt_ge_cases k0 k0'); [exfalso; apply A3; eapply B6; [exact A2|lia]|assumption]).
  assert (X3 : (k1 <= k1')%nat) by (destruct (Nat.lt_ge_cases k1' k1); [exfalso; apply A5; eapply B6; [exact A4|lia]|assumption]).
  assert (X4 : (k1' <= k1)%nat) by (destruct (Nat.lt_ge_cases k1 k1'); [exfalso; apply B5; eapply A6; [exact B4|lia]|assumption]). lia.
Qed.
Lemma reflex_bounds nd mean : (11 <= nd)%nat -> (reflex nd mean <= nd - 1)%nat.
Proof.
  intro H. unfold reflex, clamp. assert (Nat.div (nd + 1) 2 <= nd - 1)%nat by (apply Nat.div_le_upper_bound; lia).
  destruct (Nat.ltb_spec (Nat.div (nd + 1) 2) 10); [lia|]. destruct (Nat.ltb_spec (5 * mean) (Nat.div (nd + 1) 2)); lia.
Qed.
(** ** mirrors *)
Lemma even_mirror y n : (n <= length y)%nat -> exists z, EvenMirror y n = Ok z /\ length z = (length y + 2 * n)%nat /\
  (forall j, (j < length y)%nat -> nth_error z (n + j) = nth_error y j) /\
  (forall j, (j < n)%nat -> nth_error z (n - 1 - j) = nth_error y j /\ nth_error z (n + length y + j) = nth_error y (length y - 1 - j)).
Proof.
  intro H. unfold EvenMirror. destruct (Nat.ltb_spec (length y) n); [lia|]. eexists. split; [reflexivity|].
  assert (L1 : length (rev (firstn n y)) = n) by (rewrite rev_length, firstn_length; lia). assert (L2 : length (firstn n (rev y)) = n) by (rewrite firstn_length, rev_length; lia).
  split; [rewrite !app_length, L1, L2; lia|]. split.
  - intros j Hj. rewrite nth_error_app2 by lia. rewrite nth_error_app1 by lia. f_equal. lia.
  - intros j Hj. split.
    + rewrite nth_error_app1 by lia. rewrite (nth_error_nth' _ 0) by lia. rewrite rev_nth by (rewrite firstn_length; lia). rewrite firstn_length. rewrite <- (nth_error_firstn y n j) by exact Hj.
      rewrite (nth_error_nth' (firstn n y) 0) by (rewrite firstn_length; lia). do 2 f_equal. lia.
    + rewrite nth_error_app2 by lia. rewrite nth_error_app2 by lia. replace (n + length y + j - length (rev (firstn n y)) - length y)%nat with j by lia. rewrite nth_error_firstn by exact Hj.
      rewrite (nth_error_nth' (rev y) 0) by (rewrite rev_length; lia). rewrite rev_nth by lia. rewrite (nth_error_nth' y 0) by lia. do 2 f_equal. lia.
Qed.
Lemma odd_mirror y n b e : (n <= length y)%nat -> exists z, OddMirror y n b e = Ok z /\ length z = (length y + 2 * n)%nat /\
  (forall j, (j < length y)%nat -> nth_error z (n + j) = nth_error y j) /\
  (forall j, (j < n)%nat -> nth_error z (n - 1 - j) = option_map (fun x => 2 * b - x) (nth_error y j) /\ nth_error z (n + length y + j) = option_map (fun x => 2 * e - x) (nth_error y (length y - 1 - j))).
Proof.
  intro H. unfold OddMirror. destruct (Nat.ltb_spec (length y) n); [lia|]. eexists. split; [reflexivity|].
  assert (L1 : length (rev (firstn n y)) = n) by (rewrite rev_length, firstn_length; lia). assert (L2 : length (firstn n (rev y)) = n) by (rewrite firstn_length, rev_length; lia).
  split; [rewrite !app_length, !map_length, L1, L2; lia|]. split.
  - intros j Hj. rewrite nth_error_app2 by (rewrite map_length; lia). rewrite nth_error_app1 by (rewrite map_length; lia). f_equal. rewrite map_length. lia.
  - intros j Hj. split.
    + rewrite nth_error_app1 by (rewrite map_length; lia). rewrite nth_error_map. f_equal. rewrite (nth_error_nth' _ 0) by lia. rewrite rev_nth by (rewrite firstn_length; lia). rewrite firstn_length. rewrite <- (nth_error_firstn y n j) by exact Hj.
      rewrite (nth_error_nth' (firstn n y) 0) by (rewrite firstn_length; lia). do 2 f_equal. lia.
    + rewrite nth_error_app2 by (rewrite map_length; lia). rewrite nth_error_app2 by (rewrite map_length; lia). rewrite map_length. replace (n + length y + j - length (rev (firstn n y)) - length y)%nat with j by lia. rewrite nth_error_map. f_equal. rewrite nth_error_firstn by exact Hj.
      rewrite (nth_error_nth' (rev y) 0) by (rewrite rev_length; lia). rewrite rev_nth by lia. rewrite (nth_error_nth' y 0) by lia. do 2 f_equal. lia.
Qed.
Lemma even_mirror_in y n z : EvenMirror y n = Ok z -> forall x, In x z -> In x y.
Proof.
  unfold EvenMirror. destruct (Nat.ltb (length y) n); [discriminate|]. intro E. injection E as <-. intros x Hx. apply in_app_or in Hx. destruct Hx as [Hx|Hx].
  - apply in_rev in Hx. revert Hx. clear. revert n; induction y as [|a y IH]; intros [|n] Hx; cbn in Hx; try contradiction. destruct Hx as [->|Hx]; [left; reflexivity|right; eapply IH; exact Hx].
  - apply in_app_or in Hx. destruct Hx as [Hx|Hx]; [exact Hx|]. apply in_rev. revert Hx. generalize (rev y). clear. intro y. revert n; induction y as [|a y IH]; intros [|n] Hx; cbn in Hx; try contradiction. destruct Hx as [->|Hx]; [left; reflexivity|right; eapply IH; exact Hx].
Qed.
(** ** the whole removal *)
Lemma sub2_nth a : forall b i x o, nth_error a i = Some x -> nth_error b i = Some o -> nth_error (sub2 a b) i = Some (osub x o).
Proof. induction a as [|u a IH]; intros [|v b] [|i] x o Ha Hb; cbn in *; try discriminate; [congruence|eauto]. Qed.
Lemma sub2_length a : forall b, length (sub2 a b) = Nat.min (length a) (length b).
Proof. induction a as [|u a IH]; intros [|v b]; cbn; try reflexivity. rewrite IH. reflexivity. Qed.
Section Main.
Context (fit : nat -> nat -> bool -> Q) (mean0 median0 cycles : Z) (even : bool).
Context (Hmean : (0 < mean0)%Z) (Hmedian : (0 < median0)%Z) (Hcycles : (0 < cycles)%Z).
(** the extended effective spectrum *)
Lemma big_ok flux k0 k1 mean : effective flux k0 k1 -> (k1 < length flux)%nat -> (k0 + 10 <= k1)%nat ->
  let eff := slice flux k0 (k1 + 1) in let n := reflex (k1 - k0 + 1) mean in
  length eff = (k1 - k0 + 1)%nat /\ (n <= k1 - k0)%nat /\
  exists big, (if even then EvenMirror eff n else OddMirror eff n (fit k0 (Nat.max (k0 + n) k1) false) (fit (Nat.min k0 (k1 - n)) k1 true)) = Ok big /\
    length big = (length eff + 2 * n)%nat /\ (even = true -> forall x, In x big -> In x eff).
Proof.
  intros EF L K eff n. assert (Le : length eff = (k1 - k0 + 1)%nat) by (unfold eff; rewrite slice_length; lia). split; [exact Le|].
  assert (Hn : (n <= k1 - k0)%nat) by (pose proof (reflex_bounds (k1 - k0 + 1) mean ltac:(lia)); unfold n; lia). split; [exact Hn|].
  destruct even.
  - destruct (even_mirror eff n ltac:(lia)) as [big [E [Lb _]]]. exists big. split; [exact E|]. split; [exact Lb|]. intros _. eapply even_mirror_in. exact E.
  - destruct (odd_mirror eff n (fit k0 (Nat.max (k0 + n) k1) false) (fit (Nat.min k0 (k1 - n)) k1 true) ltac:(lia)) as [big [E [Lb _]]]. exists big. split; [exact E|]. split; [exact Lb|]. discriminate.
Qed.
Lemma not_found flux : (nonzeros flux <= 10)%nat -> ProcessRemoveContinuum fit mean0 median0 cycles even flux = Ok (false, Some (map (fun _ => Some 0) flux)).
Proof.
  intro H. unfold ProcessRemoveContinuum. destruct (Z.leb_spec mean0 0); [lia|]. destruct (Z.leb_spec cycles 0); [lia|]. destruct (Z.leb_spec median0 0); [lia|].
  pose proof (borders flux) as B. destruct (FindEffectiveSpectrumBorder flux) as [[found k0] k1]. destruct B as [B _]. destruct found; [exfalso; assert (10 < nonzeros flux)%nat by (apply B; reflexivity); lia|]. reflexivity.
Qed.
Lemma found flux : (10 < nonzeros flux)%nat -> exists k0 k1 out, effective flux k0 k1 /\ (k1 < length flux)%nat /\ (k0 + 10 <= k1)%nat /\
  ProcessRemoveContinuum fit mean0 median0 cycles even flux = Ok (true, Some out) /\ length out = length flux /\
  (forall j x, nth_error flux j = Some x -> ~ inside k0 k1 j -> nth_error out j = Some (Some x)) /\
  (forall j x, nth_error flux j = Some x -> inside k0 k1 j ->
     ((mean0 < 4)%Z -> nth_error out j = Some None) /\
     ((4 <= mean0)%Z -> exists c, nth_error out j = Some (Some (x - c)) /\
        (even = true -> forall lo hi, (forall i u, inside k0 k1 i -> nth_error flux i = Some u -> lo <= u /\ u <= hi) -> lo <= c /\ c <= hi))).
Proof.
  intro H. unfold ProcessRemoveContinuum. destruct (Z.leb_spec mean0 0); [lia|]. destruct (Z.leb_spec cycles 0); [lia|]. destruct (Z.leb_spec median0 0); [lia|].
  pose proof (borders flux) as B. destruct (FindEffectiveSpectrumBorder flux) as [[fd k0] k1]. destruct B as [B1 B2]. assert (fd = true) by (apply B1; exact H). subst fd. destruct (B2 eq_refl) as [EF [L K]]. cbn [negb].
  set (mean := Nat.min (Z.to_nat mean0) (Nat.div (length flux) 2)). set (median := Nat.max mean (Z.to_nat median0)).
  destruct (big_ok flux k0 k1 mean EF L K) as [Le [Hn [big [Eb [Lb Hb]]]]]. set (n := reflex (k1 - k0 + 1) mean) in *. set (eff := slice flux k0 (k1 + 1)) in *.
  rewrite Eb. cbn [rbind].
  assert (M5 : (5 <= Nat.div (length flux) 2)%nat) by (apply Nat.div_le_lower_bound; lia).
  assert (SM : exists sm, smooth cycles big mean median = Ok sm /\ length sm = length big /\
    ((mean0 < 4)%Z -> forall i, (i < length big)%nat -> nth_error sm i = Some None) /\
    ((4 <= mean0)%Z -> exists z, sm = map Some z /\ local_average (reach (Z.to_nat cycles) mean median) big z)).
  { destruct (Z.lt_ge_cases mean0 4) as [Q|Q].
    - exists (map (fun _ => None) big). rewrite smooth_nan by (unfold mean; lia). split; [reflexivity|]. split; [apply map_length|]. split; [|lia]. intros _ i Hi. rewrite nth_error_map. destruct (nth_error_lt big i Hi) as [u ->]. reflexivity.
    - destruct (smooth_local cycles big mean median) as [z [Ez Lz]]; [unfold mean; lia|]. exists (map Some z). split; [exact Ez|]. split; [rewrite map_length; apply Lz|]. split; [lia|]. intros _. exists z. split; [reflexivity|exact Lz]. }
  destruct SM as [sm [Es [Ls [Sn So]]]]. rewrite Es. cbn [rbind].
  exists k0, k1, (map Some (firstn k0 flux) ++ sub2 eff (slice sm n (n + length eff)) ++ map Some (skipn (k1 + 1) flux))%list.
  assert (Lsl : length (slice sm n (n + length eff)) = length eff) by (rewrite slice_length; lia).
  assert (Lsub : length (sub2 eff (slice sm n (n + length eff))) = length eff) by (rewrite sub2_length; lia).
  assert (Lf : length (map (@Some Q) (firstn k0 flux)) = k0) by (rewrite map_length, firstn_length; lia).
  split; [exact EF|]. split; [exact L|]. split; [exact K|]. split; [reflexivity|]. split; [rewrite !app_length, Lf, Lsub, map_length, skipn_length; lia|]. split.
  - intros j x Hx NI. assert (j < length flux)%nat by (apply nth_error_len in Hx; exact Hx). destruct (Nat.lt_ge_cases j k0) as [J|J].
    + rewrite nth_error_app1 by lia. rewrite nth_error_map, nth_error_firstn, Hx by exact J. reflexivity.
    + assert (J2 : (k1 < j)%nat) by (unfold inside in NI; lia). rewrite nth_error_app2 by lia. rewrite nth_error_app2 by lia. rewrite nth_error_map, nth_error_skipn. replace (k1 + 1 + (j - length (map Some (firstn k0 flux)) - length (sub2 eff (slice sm n (n + length eff)))))%nat with j by lia. rewrite Hx. reflexivity.
  - intros j x Hx [I1 I2].
    assert (Nth : forall o, nth_error sm (n + (j - k0)) = Some o -> nth_error (map Some (firstn k0 flux) ++ sub2 eff (slice sm n (n + length eff)) ++ map Some (skipn (k1 + 1) flux))%list j = Some (osub x o)).
    { intros o Ho. rewrite nth_error_app2 by lia. rewrite nth_error_app1 by lia. rewrite Lf. apply sub2_nth; [unfold eff; rewrite nth_error_slice by lia; replace (k0 + (j - k0))%nat with j by lia; exact Hx|]. rewrite nth_error_slice by lia. exact Ho. }
    split.
    + intro Q. rewrite (Nth None); [reflexivity|]. apply Sn; [exact Q|lia].
    + intro Q. destruct (So Q) as [z [Ez [Lz Hz]]]. destruct (nth_error_lt z (n + (j - k0))) as [c Hc]; [rewrite Lz; lia|]. exists c. split; [apply (Nth (Some c)); rewrite Ez, nth_error_map, Hc; reflexivity|].
      intros Ev lo hi Bd. eapply Hz; [exact Hc|]. intros i u _ _ Hu. apply nth_error_In in Hu. apply (Hb Ev) in Hu. apply in_slice in Hu. destruct Hu as [i' [Hi' Hu]]. apply (Bd i'); [unfold inside; lia|exact Hu].
Qed.
End Main.
(** the border values are always fitted on the whole effective spectrum *)
Lemma fit_whole fit fit' mean0 median0 cycles even flux : (forall k0 k1, effective flux k0 k1 -> fit k0 k1 false = fit' k0 k1 false /\ fit k0 k1 true = fit' k0 k1 true) ->
  ProcessRemoveContinuum fit mean0 median0 cycles even flux = ProcessRemoveContinuum fit' mean0 median0 cycles even flux.
Proof.
  intro H. unfold ProcessRemoveContinuum. destruct (mean0 <=? 0)%Z; [reflexivity|]. destruct (cycles <=? 0)%Z; [reflexivity|]. destruct (median0 <=? 0)%Z; [reflexivity|].
  pose proof (borders flux) as B. destruct (FindEffectiveSpectrumBorder flux) as [[fd k0] k1]. destruct B as [_ B2]. destruct fd; cbn [negb]; [|reflexivity]. destruct (B2 eq_refl) as [EF [L K]].
  destruct (H k0 k1 EF) as [H1 H2].
  pose proof (reflex_bounds (k1 - k0 + 1) (Nat.min (Z.to_nat mean0) (length flux / 2)) ltac:(lia)) as R. set (n := reflex (k1 - k0 + 1) (Nat.min (Z.to_nat mean0) (length flux / 2))) in *.
  replace (Nat.max (k0 + n) k1) with k1 by lia. replace (Nat.min k0 (k1 - n)) with k0 by lia. rewrite H1, H2. reflexivity.
Qed.
Lemma refused fit mean0 median0 cycles even flux : (mean0 <= 0)%Z \/ (cycles <= 0)%Z \/ (median0 <= 0)%Z -> ProcessRemoveContinuum fit mean0 median0 cycles even flux = Ok (false, None).
Proof.
  intro H. unfold ProcessRemoveContinuum. destruct (Z.leb_spec mean0 0); [reflexivity|]. destruct (Z.leb_spec cycles 0); [reflexivity|]. destruct (Z.leb_spec median0 0); [reflexivity|lia].
Qed.
(** ** units *)
Lemma Forall2_length {A B} (P : A -> B -> Prop) l l' : Forall2 P l l' -> length l = length l'.
Proof. induction 1; cbn; congruence. Qed.
Section Scale.
Context (a : Q) (Ha : 0 < a).
Let R (x x' : Q) : Prop := x' == a * x.
Lemma scaled_lt x x' v v' : R x x' -> R v v' -> Qltb x' v' = Qltb x v.
Proof. unfold R. intros E F. destruct (Qltb_spec x v), (Qltb_spec x' v'); auto; rewrite E, F in *; exfalso; nra. Qed.
Lemma scaled_le x x' v v' : R x x' -> R v v' -> Qle_bool x' v' = Qle_bool x v.
Proof. unfold R. intros E F. destruct (Qle_bool_spec x v), (Qle_bool_spec x' v'); auto; rewrite E, F in *; exfalso; nra. Qed.
Lemma scaled_count (f f' : Q -> bool) l l' : Forall2 R l l' -> (forall x x', R x x' -> f' x' = f x) -> count f' l' = count f l.
Proof. intros F H. induction F as [|x x' l l' Hx F IH]; [reflexivity|]. rewrite !count_cons, IH, (H x x' Hx). reflexivity. Qed.
Lemma scaled_os l l' k v v' : Forall2 R l l' -> R v v' -> order_statistic l k v -> order_statistic l' k v'.
Proof.
  intros F E [[x [Hx Ex]] [H1 H2]]. split; [|split].
  - clear H1 H2. induction F as [|y y' l l' Hy F IH]; [contradiction|]. destruct Hx as [->|Hx]; [exists y'; split; [left; reflexivity|]; unfold R in *; rewrite Hy, E, Ex; reflexivity|]. destruct (IH Hx) as [u [U1 U2]]. exists u. split; [right; exact U1|exact U2].
  - rewrite (scaled_count (fun x => Qltb x v) (fun x => Qltb x v') _ _ F); [exact H1|]. intros y y' Hy. apply scaled_lt; assumption.
  - rewrite (scaled_count (fun x => Qle_bool x v) (fun x => Qle_bool x v') _ _ F); [exact H2|]. intros y y' Hy. apply scaled_le; assumption.
Qed.
Lemma scaled_find l l' m m' : Forall2 R l l' -> Find l = Ok m -> Find l' = Ok m' -> R m m'.
Proof.
  intros F E E'. assert (N : l <> []) by (intros ->; discriminate E). assert (N' : l' <> []) by (intros ->; discriminate E').
  destruct (Find_spec l N) as [u [Eu Su]]. destruct (Find_spec l' N') as [u' [Eu' Su']]. assert (u = m) by congruence. assert (u' = m') by congruence. subst u u'.
  rewrite <- (Forall2_length _ _ _ F) in Su'. destruct (Nat.odd (length l)); [|destruct (Nat.leb (length l) 1000)].
  - unfold R. symmetry. eapply order_statistic_unique; [|exact Su']. eapply scaled_os; [exact F| |exact Su]. unfold R. reflexivity.
  - destruct Su as [lo [hi [-> [S1 S2]]]]. destruct Su' as [lo' [hi' [-> [S1' S2']]]].
    assert (lo' == a * lo) by (symmetry; eapply order_statistic_unique; [|exact S1']; eapply scaled_os; [exact F| |exact S1]; unfold R; reflexivity).
    assert (hi' == a * hi) by (symmetry; eapply order_statistic_unique; [|exact S2']; eapply scaled_os; [exact F| |exact S2]; unfold R; reflexivity). unfold R. nra.
  - unfold R. symmetry. eapply order_statistic_unique; [|exact Su']. eapply scaled_os; [exact F| |exact Su]. unfold R. reflexivity.
Qed.
Lemma Forall2_firstn {A B} (P : A -> B -> Prop) l l' : Forall2 P l l' -> forall n, Forall2 P (firstn n l) (firstn n l').
Proof. induction 1; intros [|n]; cbn; constructor; auto. Qed.
Lemma Forall2_skipn {A B} (P : A -> B -> Prop) l l' : Forall2 P l l' -> forall n, Forall2 P (skipn n l) (skipn n l').
Proof. induction 1; intros [|n]; cbn; auto. Qed.
Lemma Forall2_slice {A B} (P : A -> B -> Prop) l l' b e : Forall2 P l l' -> Forall2 P (slice l b e) (slice l' b e).
Proof. intro F. unfold slice. apply Forall2_firstn, Forall2_skipn, F. Qed.
Lemma Forall2_rev' {A B} (P : A -> B -> Prop) l l' : Forall2 P l l' -> Forall2 P (rev l) (rev l').
Proof. induction 1; cbn; [constructor|]. apply Forall2_app; [assumption|constructor; [assumption|constructor]]. Qed.
Lemma Forall2_nthboth {A B} (P : A -> B -> Prop) l l' : length l = length l' -> (forall i x y, nth_error l i = Some x -> nth_error l' i = Some y -> P x y) -> Forall2 P l l'.
Proof.
  revert l'; induction l as [|x l IH]; intros [|y l'] L H; try discriminate; constructor; [apply (H 0%nat); reflexivity|]. apply IH; [cbn in L; lia|]. intros i u v Hu Hv. apply (H (S i)); assumption.
Qed.
Lemma scaled_window l l' n i : Forall2 R l l' -> Forall2 R (window l n i) (window l' n i).
Proof. intro F. unfold window. rewrite <- (Forall2_length _ _ _ F). apply Forall2_slice, F. Qed.
Lemma scaled_median l l' n z z' : (0 < n)%nat -> Forall2 R l l' -> MedianSmooth l n = Ok z -> MedianSmooth l' n = Ok z' -> Forall2 R z z'.
Proof.
  intros Hn F E E'. destruct (median_smooth l n Hn) as [w [Ew [[Lw _] Hw]]]. destruct (median_smooth l' n Hn) as [w' [Ew' [[Lw' _] Hw']]]. assert (w = z) by congruence. assert (w' = z') by congruence. subst w w'.
  pose proof (Forall2_length _ _ _ F). apply Forall2_nthboth; [congruence|]. intros i x y Hx Hy. eapply scaled_find; [apply (scaled_window l l' n i F)|apply Hw; exact Hx|apply Hw'; exact Hy].
Qed.
Lemma scaled_times k n : (0 < n)%nat -> forall l l' z z', Forall2 R l l' -> times k (fun y => MedianSmooth y n) l = Ok z -> times k (fun y => MedianSmooth y n) l' = Ok z' -> Forall2 R z z'.
Proof.
  intro Hn. induction k as [|k IH]; intros l l' z z' F E E'; cbn [times] in *; [congruence|]. destruct (median_smooth l n Hn) as [w [Ew _]]. destruct (median_smooth l' n Hn) as [w' [Ew' _]]. rewrite Ew in E. rewrite Ew' in E'. cbn [rbind] in *.
  eapply IH; [eapply scaled_median; eassumption|exact E|exact E'].
Qed.
Lemma scaled_qsum l l' : Forall2 R l l' -> qsum l' == a * qsum l.
Proof. induction 1 as [|x x' l l' Hx F IH]; [unfold qsum; cbn; ring|]. unfold R in Hx. rewrite !qsum_cons, IH, Hx. ring. Qed.
Let RO (x x' : option Q) : Prop := match x, x' with Some u, Some u' => u' == a * u | None, None => True | _, _ => False end.
Lemma scaled_mean l l' n : Forall2 R l l' -> Forall2 RO (MeanSmooth l n) (MeanSmooth l' n).
Proof.
  intro F. unfold MeanSmooth. rewrite <- (Forall2_length _ _ _ F). generalize (seq 0 (length l)). intro s. induction s as [|i s IH]; cbn [map]; constructor; [|exact IH].
  pose proof (scaled_window l l' n i F) as W. unfold mean_find. destruct W as [|x x' w w' Hx W]; [exact Logic.I|]. cbn [RO]. rewrite <- (Forall2_length _ _ _ (Forall2_cons x x' Hx W)).
  rewrite (scaled_qsum (x :: w) (x' :: w')) by (constructor; assumption). unfold Qdiv. ring.
Qed.
Lemma scaled_smooth c big big' mean median s s' : Forall2 R big big' -> smooth c big mean median = Ok s -> smooth c big' mean median = Ok s' -> Forall2 RO s s'.
Proof.
  intros F E E'. unfold smooth in *. assert (P1 : (0 < 2 * median + 1)%nat) by lia. assert (P2 : (0 < oddn median)%nat) by (unfold oddn; destruct (Nat.odd median) eqn:O; [destruct median; [discriminate|lia]|lia]).
  change (if Nat.odd median then median else S median) with (oddn median) in *.
  destruct (times_local _ (Z.to_nat c) big P1) as [t1 [T1 _]]. destruct (times_local _ (Z.to_nat c) big' P1) as [t1' [T1' _]]. rewrite T1 in E. rewrite T1' in E'. cbn [rbind] in *.
  destruct (times_local _ (Z.to_nat c) t1 P2) as [t2 [T2 _]]. destruct (times_local _ (Z.to_nat c) t1' P2) as [t2' [T2' _]]. rewrite T2 in E. rewrite T2' in E'. cbn [rbind] in *.
  injection E as <-. injection E' as <-. apply scaled_mean. eapply (scaled_times _ _ P2); [eapply (scaled_times _ _ P1); eassumption|eassumption|eassumption].
Qed.
Lemma scaled_nonzero x x' : R x x' -> nonzero x' = nonzero x.
Proof. intro E. unfold R in E. destruct (nonzero x) eqn:N; [apply nonzero_true in N; apply nonzero_true|apply nonzero_false in N; apply nonzero_false]; rewrite E; [intro Q; apply N; nra|rewrite N; ring]. Qed.
Lemma scaled_first l l' : Forall2 R l l' -> forall s, first_nz l' s = first_nz l s.
Proof. induction 1 as [|x x' l l' Hx F IH]; intro s; [reflexivity|]. cbn [first_nz]. rewrite (scaled_nonzero _ _ Hx), IH. reflexivity. Qed.
Lemma scaled_last l l' : Forall2 R l l' -> forall s, last_nz l' s = last_nz l s.
Proof. induction 1 as [|x x' l l' Hx F IH]; intro s; [reflexivity|]. cbn [last_nz]. rewrite (scaled_nonzero _ _ Hx), IH. reflexivity. Qed.
Lemma scaled_count_nz l l' : Forall2 R l l' -> forall s, count_nz l' s = count_nz l s.
Proof. induction 1 as [|x x' l l' Hx F IH]; intro s; [reflexivity|]. cbn [count_nz]. rewrite (scaled_nonzero _ _ Hx). cbv zeta. rewrite IH. reflexivity. Qed.
Lemma scaled_even y y' n z z' : Forall2 R y y' -> EvenMirror y n = Ok z -> EvenMirror y' n = Ok z' -> Forall2 R z z'.
Proof.
  intros F. unfold EvenMirror. rewrite <- (Forall2_length _ _ _ F). destruct (Nat.ltb (length y) n); [discriminate|]. intros E E'. injection E as <-. injection E' as <-.
  apply Forall2_app; [apply Forall2_rev', Forall2_firstn, F|]. apply Forall2_app; [exact F|]. apply Forall2_firstn, Forall2_rev', F.
Qed.
Lemma scaled_odd y y' n b b' e e' z z' : R b b' -> R e e' -> Forall2 R y y' -> OddMirror y n b e = Ok z -> OddMirror y' n b' e' = Ok z' -> Forall2 R z z'.
Proof.
  intros Hb He F. unfold OddMirror. rewrite <- (Forall2_length _ _ _ F). destruct (Nat.ltb (length y) n); [discriminate|]. intros E E'. injection E as <-. injection E' as <-.
  assert (M : forall b b' l l', R b b' -> Forall2 R l l' -> Forall2 R (map (fun x => 2 * b - x) l) (map (fun x => 2 * b' - x) l')).
  { intros u u' l l' Hu G. induction G as [|x x' l l' Hx G IH]; cbn [map]; constructor; [unfold R in *; rewrite Hx, Hu; ring|exact IH]. }
  apply Forall2_app; [apply M; [exact Hb|]; apply Forall2_rev', Forall2_firstn, F|]. apply Forall2_app; [exact F|]. apply M; [exact He|]. apply Forall2_firstn, Forall2_rev', F.
Qed.
Lemma scaled_sub2 l l' m m' : Forall2 R l l' -> Forall2 RO m m' -> Forall2 RO (sub2 l m) (sub2 l' m').
Proof.
  intro F. revert m m'. induction F as [|x x' l l' Hx F IH]; intros m m' G; [constructor|]. destruct G as [|o o' m m' Ho G]; cbn [sub2]; constructor; [|apply IH; exact G].
  destruct o, o'; cbn in *; try contradiction; [unfold R in Hx; rewrite Hx, Ho; ring|exact Logic.I].
Qed.
Lemma scaled_some l l' : Forall2 R l l' -> Forall2 RO (map Some l) (map Some l').
Proof. induction 1; constructor; assumption. Qed.
Lemma scaled_process fit fit' mean0 median0 cycles even flux flux' b o : (forall i j r, fit' i j r == a * fit i j r) -> Forall2 R flux flux' ->
  ProcessRemoveContinuum fit mean0 median0 cycles even flux = Ok (b, o) -> exists o', ProcessRemoveContinuum fit' mean0 median0 cycles even flux' = Ok (b, o') /\
  match o, o' with Some u, Some u' => Forall2 RO u u' | None, None => True | _, _ => False end.
Proof.
  intros HF F. pose proof (Forall2_length _ _ _ F) as LF. unfold ProcessRemoveContinuum. rewrite <- LF.
  destruct (mean0 <=? 0)%Z; [intro E; injection E as <- <-; exists None; split; [reflexivity|exact Logic.I]|]. destruct (cycles <=? 0)%Z; [intro E; injection E as <- <-; exists None; split; [reflexivity|exact Logic.I]|]. destruct (median0 <=? 0)%Z; [intro E; injection E as <- <-; exists None; split; [reflexivity|exact Logic.I]|].
  pose proof (borders flux) as B. assert (EB : FindEffectiveSpectrumBorder flux' = FindEffectiveSpectrumBorder flux).
  { unfold FindEffectiveSpectrumBorder. rewrite (scaled_first _ _ F), (scaled_count_nz _ _ F), (scaled_last _ _ (Forall2_rev' _ _ _ F)), LF. reflexivity. }
  pose proof (borders flux') as B'. rewrite EB in B' |- *. destruct (FindEffectiveSpectrumBorder flux) as [[fd k0] k1]. destruct fd; cbn [negb].
  2:{ intro E. injection E as <- <-. eexists. split; [reflexivity|]. clear -F Ha. induction F; cbn [map]; constructor; [cbn; ring|assumption]. }
  destruct B as [_ B2]. destruct (B2 eq_refl) as [EF [L K]]. destruct B' as [_ B2']. destruct (B2' eq_refl) as [EF' [L' K']].
  set (mean := Nat.min (Z.to_nat mean0) (length flux / 2)). set (median := Nat.max mean (Z.to_nat median0)).
  destruct (big_ok fit even flux k0 k1 mean EF L K) as [Le [Hn [big [Eb [Lb _]]]]]. destruct (big_ok fit' even flux' k0 k1 mean EF' L' K') as [Le' [Hn' [big' [Eb' [Lb' _]]]]].
  set (n := reflex (k1 - k0 + 1) mean) in *. set (eff := slice flux k0 (k1 + 1)) in *. set (eff' := slice flux' k0 (k1 + 1)) in *.
  assert (FE : Forall2 R eff eff') by (apply Forall2_slice; exact F). rewrite Eb, Eb'. cbn [rbind].
  assert (FB : Forall2 R big big') by (destruct even; [eapply scaled_even; [exact FE|exact Eb|exact Eb']|eapply scaled_odd; [apply HF|apply HF|exact FE|exact Eb|exact Eb']]).
  assert (SM : forall y, exists sm, smooth cycles y mean median = Ok sm).
  { intro y. destruct (Nat.lt_ge_cases mean 4) as [Q|Q]; [eexists; apply smooth_nan; exact Q|]. destruct (smooth_local cycles y mean median Q) as [z [Ez _]]. eexists. exact Ez. }
  destruct (SM big) as [sm Es]. destruct (SM big') as [sm' Es']. rewrite Es, Es'. cbn [rbind]. pose proof (scaled_smooth _ _ _ _ _ _ _ FB Es Es') as FS.
  intro E. injection E as <- <-. eexists. split; [reflexivity|]. rewrite <- (Forall2_length _ _ _ FE).
  apply Forall2_app; [apply scaled_some, Forall2_firstn, F|]. apply Forall2_app; [apply scaled_sub2; [exact FE|apply Forall2_slice; exact FS]|]. apply scaled_some, Forall2_skipn, F.
Qed.
End Scale.
Lemma window_samples y n i : (i < length y)%nat -> window y n i = samples y (i - Nat.div n 2) (i + (n - Nat.div n 2)).
Proof.
  intro H. unfold window, slice, samples. destruct (half_rest n). replace (i + n / 2 + (n - 2 * (n / 2)))%nat with (i + (n - n / 2))%nat by lia.
  destruct (Nat.le_ge_cases (i + (n - n / 2)) (length y)) as [L|L]; [rewrite Nat.min_l by exact L; reflexivity|]. rewrite Nat.min_r by exact L.
  rewrite firstn_all2 by (rewrite skipn_length; lia). rewrite firstn_all2 by (rewrite skipn_length; lia). reflexivity.
Qed.
Lemma qsum_total l : qsum l == total l.
Proof. induction l as [|x l IH]; [reflexivity|]. rewrite qsum_cons, IH. reflexivity. Qed.
Lemma median_window y n : (0 < n)%nat -> exists z, MedianSmooth y n = Ok z /\ local_average (Nat.div n 2) y z /\
  forall i v, nth_error z i = Some v -> Find (samples y (i - Nat.div n 2) (i + (n - Nat.div n 2))) = Ok v.
Proof.
  intro Hn. destruct (median_smooth y n Hn) as [z [E [L H]]]. exists z. split; [exact E|]. split; [exact L|]. intros i v Hv. rewrite <- window_samples; [apply H; exact Hv|]. destruct L as [L _]. rewrite <- L. apply nth_error_len in Hv. exact Hv.
Qed.
Lemma mean_window y n : (0 < n)%nat -> exists z, MeanSmooth y n = map Some z /\ local_average (Nat.div n 2) y z /\
  forall i v, nth_error z i = Some v -> let w := samples y (i - Nat.div n 2) (i + (n - Nat.div n 2)) in v * inject_Z (Z.of_nat (length w)) == total w.
Proof.
  intro Hn. destruct (mean_smooth y n Hn) as [z [E [L H]]]. exists z. split; [exact E|]. split; [exact L|]. intros i v Hv w. unfold w. rewrite <- window_samples; [rewrite <- qsum_total; apply H; exact Hv|]. destruct L as [L _]. rewrite <- L. apply nth_error_len in Hv. exact Hv.
Qed.
(** a flat spectrum has no line *)
Lemma flat fit mean0 median0 cycles flux k0 k1 c : (4 <= mean0)%Z -> (0 < median0)%Z -> (0 < cycles)%Z -> (10 < nonzeros flux)%nat -> effective flux k0 k1 ->
  (forall j x, inside k0 k1 j -> nth_error flux j = Some x -> x == c) ->
  exists out, ProcessRemoveContinuum fit mean0 median0 cycles true flux = Ok (true, Some out) /\ length out = length flux /\ forall j o, nth_error out j = Some o -> exists v, o = Some v /\ v == 0.
Proof.
  intros M M2 C N EF H. destruct (found fit mean0 median0 cycles true ltac:(lia) M2 C flux N) as [k0' [k1' [out [EF' [L [K [E [Lo [Ho Hi]]]]]]]]]. destruct (effective_unique _ _ _ _ _ EF' EF) as [-> ->].
  exists out. split; [exact E|]. split; [exact Lo|]. intros j o Hj. destruct (nth_error_lt flux j) as [x Hx]; [rewrite <- Lo; apply nth_error_len in Hj; exact Hj|].
  assert (D : inside k0 k1 j \/ ~ inside k0 k1 j) by (unfold inside; lia). destruct D as [D|D].
  - destruct (Hi j x Hx D) as [_ Hi']. destruct (Hi' M) as [v [Hv Bv]]. rewrite Hv in Hj. injection Hj as <-. eexists. split; [reflexivity|]. pose proof (H j x D Hx) as Ex.
    assert (B : c <= v /\ v <= c) by (apply (Bv eq_refl); intros i u Di Hu; rewrite (H i u Di Hu); lra). lra.
  - rewrite (Ho j x Hx D) in Hj. injection Hj as <-. exists x. split; [reflexivity|]. destruct EF as [_ [_ [_ Z]]]. apply (Z j x Hx). unfold inside in D. lia.
Qed.
(** the size of the reflection: half of the effective spectrum, at least 10 samples and at most five mean windows *)
Lemma reflection nd mean : (2 <= mean)%nat -> (10 <= reflex nd mean <= 5 * mean)%nat /\ ((10 <= Nat.div (nd + 1) 2 <= 5 * mean)%nat -> reflex nd mean = Nat.div (nd + 1) 2).
Proof.
  intro M. unfold reflex, clamp. destruct (Nat.ltb_spec (Nat.div (nd + 1) 2) 10) as [A|A]; [split; lia|]. destruct (Nat.ltb_spec (5 * mean) (Nat.div (nd + 1) 2)) as [B|B]; split; lia.
Qed.
