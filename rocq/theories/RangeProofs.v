From Verif Require Import Base RangeModel RangeSpec.
Open Scope Q_scope.

Lemma HasIntersection_iff a b : well_formed a -> well_formed b ->
  (HasIntersection a b = true <-> exists x, inside a x /\ inside b x).
Proof.
  intros Ha Hb. unfold HasIntersection. rewrite Qle_bool_true, Qmaxb_le_iff, !Qminb_ge_iff.
  unfold inside, well_formed in *. split.
  - intros [[H1 H2] [H3 H4]]. exists (Qmaxb (rbeg a) (rbeg b)). unfold Qmaxb.
    qcase; repeat split; lra.
  - intros [x [H1 H2]]. repeat split; lra.
Qed.

Lemma Intersect_spec a b out : well_formed a -> well_formed b ->
  let '(ok, r) := Intersect a b out in
  (ok = true <-> exists x, inside a x /\ inside b x) /\
  (ok = HasIntersection a b) /\
  (ok = true -> well_formed r /\ forall x, inside r x <-> inside a x /\ inside b x) /\
  (ok = false -> r = out).
Proof.
  intros Ha Hb. unfold Intersect. pose proof (HasIntersection_iff a b Ha Hb) as HI.
  destruct (HasIntersection a b) eqn:E; split; auto; split; auto; split; try discriminate; auto.
  intros _. split.
  - unfold HasIntersection in E. apply Qle_bool_true in E. exact E.
  - intro x. unfold inside; cbn [rbeg rend]. rewrite Qmaxb_le_iff, Qminb_ge_iff. tauto.
Qed.

Lemma getUnion_spec a b out : well_formed a -> well_formed b ->
  let '(ok, r) := getUnion a b out in
  (ok = true <-> exists x, inside a x /\ inside b x) /\
  (ok = true -> well_formed r /\ forall x, inside r x <-> inside a x \/ inside b x) /\
  (ok = false -> r = out).
Proof.
  intros Ha Hb. unfold getUnion. pose proof (HasIntersection_iff a b Ha Hb) as HI.
  destruct (HasIntersection a b) eqn:E; split; auto; split; try discriminate; auto.
  intros _. destruct (proj1 HI eq_refl) as [w [Hw1 Hw2]].
  unfold inside, well_formed in *. cbn [rbeg rend]. split.
  - apply Qminb_le_iff. left. apply Qmaxb_ge_iff. left. lra.
  - intro x. rewrite Qminb_le_iff, Qmaxb_ge_iff. intuition lra.
Qed.

(** ** joinIntersections *)
Lemma insert_range_perm a l : Permutation (insert_range a l) (a :: l).
Proof.
  induction l as [|h t IH]; simpl; [reflexivity|].
  destruct (range_lt h a); [|reflexivity].
  rewrite IH. apply perm_swap.
Qed.
Lemma sort_ranges_perm l : Permutation (sort_ranges l) l.
Proof.
  induction l as [|h t IH]; simpl; [reflexivity|]. rewrite insert_range_perm, IH. reflexivity.
Qed.

Definition beg_sorted (l : list range) := StronglySorted (fun a b => rbeg a <= rbeg b) l.

Lemma insert_range_sorted a l : beg_sorted l -> beg_sorted (insert_range a l).
Proof.
  unfold beg_sorted. induction l as [|h t IH]; simpl; intro H.
  - repeat constructor.
  - inversion H as [|? ? Ht Hf]; subst. unfold range_lt at 1.
    assert (C : (if Qeq_bool (rbeg h) (rbeg a) then Qltb (rend h) (rend a) else Qltb (rbeg h) (rbeg a)) = true -> rbeg h <= rbeg a)
      by (destruct (Qeq_bool_spec (rbeg h) (rbeg a)); intro K; [lra| apply Qltb_true in K; lra]).
    assert (D : (if Qeq_bool (rbeg h) (rbeg a) then Qltb (rend h) (rend a) else Qltb (rbeg h) (rbeg a)) = false -> rbeg a <= rbeg h)
      by (destruct (Qeq_bool_spec (rbeg h) (rbeg a)); intro K; [lra| apply Qltb_false in K; lra]).
    destruct (if Qeq_bool (rbeg h) (rbeg a) then _ else _).
    + constructor; [apply IH; exact Ht|].
      apply Forall_forall. intros x Hx.
      apply (Permutation_in _ (insert_range_perm a t)) in Hx. destruct Hx as [<-|Hx]; [apply C; reflexivity|].
      rewrite Forall_forall in Hf. apply Hf; exact Hx.
    + specialize (D eq_refl). constructor; [exact H|]. constructor; [exact D|].
      rewrite Forall_forall in *. intros x Hx. specialize (Hf x Hx). lra.
Qed.
Lemma sort_ranges_sorted l : beg_sorted (sort_ranges l).
Proof. induction l as [|h t IH]; simpl; [constructor|apply insert_range_sorted; exact IH]. Qed.

Lemma covered_cons r l x : covered (r :: l) x <-> inside r x \/ covered l x.
Proof.
  unfold covered. split.
  - intros [q [[<-|H] K]]; eauto.
  - intros [H|[q [H K]]]; [exists r|exists q]; simpl; auto.
Qed.
Lemma covered_perm l l' x : Permutation l l' -> covered l x <-> covered l' x.
Proof.
  intro P. unfold covered. split; intros [r [H K]]; exists r; split; auto;
  [apply (Permutation_in _ P)|apply (Permutation_in _ (Permutation_sym P))]; exact H.
Qed.

Lemma join_loop_beg t : forall c, beg_sorted (c :: t) ->
  forall r, In r (join_loop c t) -> rbeg c <= rbeg r.
Proof.
  induction t as [|it t IH]; intros c Hs r Hr; simpl in Hr.
  - destruct Hr as [<-|[]]. lra.
  - inversion Hs as [|? ? Hs' Hf]; subst. inversion Hs' as [|? ? Hs'' Hf']; subst.
    inversion Hf as [|? ? Hc Hf'']; subst.
    destruct (Qle_bool_spec (rbeg it) (rend c)) as [H|H].
    + apply (IH (mkRange (rbeg c) (Qmaxb (rend c) (rend it)))) in Hr; [exact Hr|].
      constructor; [exact Hs''|]. exact Hf''.
    + destruct Hr as [<-|Hr]; [lra|]. apply (IH it Hs') in Hr. lra.
Qed.

Lemma separated_nil1 c : separated [c].
Proof. intros i j a b Hij Hi Hj. destruct j as [|[|j]]; simpl in *; try lia; discriminate. Qed.
Lemma separated_cons c l : (forall r, In r l -> rend c < rbeg r) -> separated l -> separated (c :: l).
Proof.
  intros H1 H2 i j a b Hij Hi Hj. destruct j as [|j]; [lia|]. simpl in Hj.
  destruct i as [|i]; simpl in Hi.
  - inversion Hi; subst. apply H1. eapply nth_error_In; eauto.
  - apply (H2 i j); auto; lia.
Qed.

Lemma join_loop_spec t : forall c, beg_sorted (c :: t) -> well_formed c -> Forall well_formed t ->
  separated (join_loop c t) /\ Forall well_formed (join_loop c t) /\
  forall x, covered (join_loop c t) x <-> inside c x \/ covered t x.
Proof.
  induction t as [|it t IH]; intros c Hs Hc Hw; simpl.
  - split; [apply separated_nil1|]. split; [constructor; auto|].
    intro x. rewrite covered_cons. tauto.
  - inversion Hs as [|? ? Hs' Hf]; subst. inversion Hs' as [|? ? Hs'' Hf']; subst.
    inversion Hf as [|? ? Hci Hf'']; subst. inversion Hw as [|? ? Hwi Hwt]; subst.
    destruct (Qle_bool_spec (rbeg it) (rend c)) as [H|H].
    + destruct (IH (mkRange (rbeg c) (Qmaxb (rend c) (rend it)))) as (A & B & C).
      * constructor; [exact Hs''|exact Hf''].
      * unfold well_formed in *; cbn [rbeg rend]. apply Qmaxb_ge_iff. left; exact Hc.
      * exact Hwt.
      * split; [exact A|]. split; [exact B|]. intro x. rewrite C, covered_cons.
        unfold inside, well_formed in *; cbn [rbeg rend]. rewrite Qmaxb_ge_iff.
        split; [intros [[K1 [K2|K2]]|K]|intros [K|[K|K]]]; auto; try (left; lra).
        destruct (Qlt_le_dec x (rbeg it)); [left; lra|right; left; lra].
    + destruct (IH it Hs' Hwi Hwt) as (A & B & C).
      split; [|split].
      * apply separated_cons; [|exact A]. intros r Hr. apply (join_loop_beg t it Hs') in Hr. lra.
      * constructor; auto.
      * intro x. rewrite !covered_cons, C. tauto.
Qed.

Lemma joinIntersections_spec l : l <> [] -> Forall well_formed l ->
  exists l', joinIntersections l = Ok l' /\ separated l' /\ Forall well_formed l' /\
    forall x, covered l' x <-> covered l x.
Proof.
  intros Hne Hw. destruct l as [|a [|b t]]; [contradiction| |].
  - exists [a]. simpl. repeat split; auto; try tauto. apply separated_nil1.
  - assert (E : joinIntersections (a :: b :: t) =
      match sort_ranges (a :: b :: t) with [] => UB | h :: s => Ok (join_loop h s) end) by reflexivity.
    rewrite E; clear E.
    pose proof (sort_ranges_perm (a :: b :: t)) as P. pose proof (sort_ranges_sorted (a :: b :: t)) as S.
    destruct (sort_ranges (a :: b :: t)) as [|h s].
    + apply Permutation_nil in P. discriminate.
    + assert (Hw' : Forall well_formed (h :: s)).
      { rewrite Forall_forall in *. intros r Hr. apply Hw. apply (Permutation_in _ P). exact Hr. }
      inversion Hw' as [|? ? Hh Hs]; subst.
      destruct (join_loop_spec s h S Hh Hs) as (A & B & C).
      exists (join_loop h s). split; [reflexivity|]. split; [exact A|]. split; [exact B|].
      intro x. rewrite C, <- covered_cons. apply covered_perm. exact P.
Qed.

(** ** closed / enclosing indices *)
Lemma front_ok {A} (l : list A) : l <> [] -> exists x, front l = Ok x /\ nth_error l 0 = Some x.
Proof. destruct l; [contradiction|]. intros _. exists a. auto. Qed.
Lemma back_ok {A} (l : list A) : l <> [] -> exists x, back l = Ok x /\ nth_error l (length l - 1) = Some x.
Proof.
  intro H. destruct l as [|a t]; [contradiction|].
  destruct (nth_error_lt (a :: t) (length (a :: t) - 1)) as [x Hx]; [simpl; lia|].
  exists x. split; [|exact Hx]. unfold back, vget. rewrite Hx. reflexivity.
Qed.

Lemma lower_bound_iff l v i x : increasing l -> nth_error l i = Some x ->
  ((i < lower_bound l v)%nat <-> x < v).
Proof.
  intros Hs Hx. split; intro H.
  - eapply lower_bound_before; eauto.
  - destruct (le_lt_dec (lower_bound l v) i) as [K|K]; [|exact K].
    pose proof (lower_bound_from _ _ _ _ Hs K Hx). lra.
Qed.

(** the result of getClosedIntervalIndices, whatever the outcome *)
Lemma getClosed_spec r l : strictly_increasing l ->
  match getClosedIntervalIndices r l with
  | Ok (i, j) => (i <= j < length l)%nat /\
       forall k x, nth_error l k = Some x -> (inside r x <-> (i <= k <= j)%nat)
  | Throw EMPTY_LIST => l = []
  | Throw CRANGE_VECTBORDERS_OUTSIDERANGE | Throw CRANGE_NO_INTERSECTION =>
       l <> [] /\ (well_formed r -> forall x, In x l -> ~ inside r x)
  | _ => False
  end.
Proof.
  intro Hs. pose proof (strictly_increasing_increasing _ Hs) as Hi.
  unfold getClosedIntervalIndices. destruct l as [|a t] eqn:El; [reflexivity|]. rewrite <- El in *.
  assert (Hne : l <> []) by (subst; discriminate).
  assert (Hlen : (0 < length l)%nat) by (subst; simpl; lia). clear El.
  destruct (front_ok l Hne) as (fr & Hf & Hf0). destruct (back_ok l Hne) as (bk & Hb & Hbn).
  rewrite Hf, Hb. cbn [rbind].
  destruct (Qltb_spec (rend r) fr) as [H1|H1]; cbn [orb].
  { split; auto. intros Hwf x Hx. unfold inside. apply In_nth_error in Hx. destruct Hx as [k Hk].
    destruct k as [|k]; [assert (x = fr) by congruence; subst; lra|].
    pose proof (Hs 0%nat (S k) _ _ (ltac:(lia)) Hf0 Hk). lra. }
  destruct (Qltb_spec bk (rbeg r)) as [H2|H2].
  { split; auto. intros Hwf x Hx. unfold inside. apply In_nth_error in Hx. destruct Hx as [k Hk].
    pose proof (nth_error_len _ _ _ Hk) as Hkl.
    destruct (Nat.eq_dec k (length l - 1)) as [->|Hn]; [assert (x = bk) by congruence; subst; lra|].
    pose proof (Hs k (length l - 1)%nat _ _ (ltac:(lia)) Hk Hbn). lra. }
  set (m := lower_bound l (rbeg r)). set (M := lower_bound l (rend r)).
  assert (HM : (M <= length l)%nat) by apply lower_bound_le_length.
  assert (Kmax : exists j, (if Nat.eqb M (length l) then Ok (M - 1)%nat
         else do x <- vget l M; if Qltb (rend r) x then match M with O => UB | S k => Ok k end else Ok M) = Ok j
      /\ (j < length l)%nat /\ forall k x, nth_error l k = Some x -> (x <= rend r <-> (k <= j)%nat)).
  { destruct (Nat.eqb_spec M (length l)) as [E|E].
    - exists (M - 1)%nat. split; [reflexivity|]. split; [lia|]. intros k x Hk.
      pose proof (nth_error_len _ _ _ Hk).
      assert (x < rend r) by (apply (lower_bound_before l (rend r) k); [fold M; lia|exact Hk]).
      split; intro; [lia|lra].
    - destruct (nth_error_lt l M) as [xM HxM]; [lia|].
      unfold vget. rewrite HxM. cbn [rbind].
      pose proof (lower_bound_at _ _ _ HxM) as Hge.
      destruct (Qltb_spec (rend r) xM) as [H|H].
      + destruct M as [|k0] eqn:EM.
        * assert (xM = fr) by congruence. subst. lra.
        * exists k0. split; [reflexivity|]. split; [lia|]. intros k x Hk. split; intro Hx.
          -- destruct (le_lt_dec k k0) as [G|G]; [exact G|].
             destruct (Nat.eq_dec k (S k0)) as [->|Gn]; [assert (x = xM) by congruence; subst; lra|].
             pose proof (Hs (S k0) k _ _ (ltac:(lia)) HxM Hk). lra.
          -- assert (x < rend r) by (apply (lower_bound_before l (rend r) k); [fold M; lia|exact Hk]). lra.
      + exists M. split; [reflexivity|]. split; [lia|]. intros k x Hk. split; intro Hx.
        * destruct (le_lt_dec k M) as [G|G]; [exact G|].
          pose proof (Hs M k _ _ (ltac:(lia)) HxM Hk). lra.
        * destruct (Nat.eq_dec k M) as [->|Gn]; [assert (x = xM) by congruence; subst; lra|].
          assert (x < rend r) by (apply (lower_bound_before l (rend r) k); [fold M; lia|exact Hk]). lra. }
  destruct Kmax as (j & Ej & Hj & Hj').
  cbv zeta. rewrite Ej. cbn [rbind]. fold m.
  assert (Kmin : forall k x, nth_error l k = Some x -> (rbeg r <= x <-> (m <= k)%nat)).
  { intros k x Hk. pose proof (lower_bound_iff l (rbeg r) k x Hi Hk) as L. fold m in L. split; intro.
    - destruct (le_lt_dec m k); auto. assert (x < rbeg r) by (apply L; lia). lra.
    - destruct (Qlt_le_dec x (rbeg r)) as [G|G]; auto. apply L in G. lia. }
  destruct (Nat.ltb_spec j m) as [G|G].
  - split; auto. intros _ x Hx [I1 I2]. apply In_nth_error in Hx. destruct Hx as [k Hk].
    apply (Kmin k x Hk) in I1. apply (Hj' k x Hk) in I2. lia.
  - split; [lia|]. intros k x Hk. unfold inside. rewrite (Kmin k x Hk), (Hj' k x Hk). tauto.
Qed.

(** on a grid with repeated samples: the closed interval misses samples *)
Lemma getClosed_duplicates_refuted :
  exists r l i j, increasing l /\ getClosedIntervalIndices r l = Ok (i, j) /\
    exists k x, nth_error l k = Some x /\ inside r x /\ ~ (i <= k <= j)%nat.
Proof.
  exists (mkRange 1 2), [1; 2; 2], 0%nat, 1%nat. split.
  - repeat (apply increasing_cons; [simpl; intros; intuition (subst; lra)|]). apply increasing_nil.
  - split; [reflexivity|]. exists 2%nat, 2. simpl. split; auto. unfold inside; simpl. split; [lra|lia].
Qed.

Lemma lower_bound_mono_eq l v i x : increasing l -> nth_error l i = Some x -> v <= x ->
  (lower_bound l v <= i)%nat.
Proof.
  intros Hs Hx Hv. destruct (le_lt_dec (lower_bound l v) i); auto.
  pose proof (lower_bound_before _ _ _ _ l0 Hx). lra.
Qed.

Lemma getEnclosing_spec r l : strictly_increasing l -> well_formed r ->
  match getEnclosingIntervalIndices r l with
  | Ok (i, j) => bracket_below l (rbeg r) i /\ bracket_above l (rend r) j
  | Throw EMPTY_LIST => l = []
  | Throw CRANGE_VECTBORDERS_OUTSIDERANGE =>
      l <> [] /\ ~ ((exists x, In x l /\ x <= rbeg r) /\ (exists y, In y l /\ rend r <= y))
  | _ => False
  end.
Proof.
  intros Hs Hwf. pose proof (strictly_increasing_increasing _ Hs) as Hi.
  unfold getEnclosingIntervalIndices. destruct l as [|a t] eqn:El; [reflexivity|]. rewrite <- El in *.
  assert (Hne : l <> []) by (subst; discriminate).
  assert (Hlen : (0 < length l)%nat) by (subst; simpl; lia). clear El.
  destruct (front_ok l Hne) as (fr & Hf & Hf0). destruct (back_ok l Hne) as (bk & Hb & Hbn).
  rewrite Hf, Hb. cbn [rbind].
  assert (Hmin : forall x, In x l -> fr <= x).
  { intros x Hx. apply In_nth_error in Hx. destruct Hx as [k Hk]. destruct k as [|k].
    - assert (x = fr) by congruence. subst; lra.
    - apply (Hi 0%nat (S k)); auto; lia. }
  assert (Hmax : forall x, In x l -> x <= bk).
  { intros x Hx. apply In_nth_error in Hx. destruct Hx as [k Hk].
    pose proof (nth_error_len _ _ _ Hk) as Hkl.
    destruct (Nat.eq_dec k (length l - 1)) as [->|Hn]; [assert (x = bk) by congruence; subst; lra|].
    apply (Hi k (length l - 1)%nat); auto; lia. }
  destruct (Qltb_spec (rbeg r) fr) as [H1|H1]; cbn [orb].
  { split; auto. intros [[x [Hx Hx']] _]. pose proof (Hmin x Hx). lra. }
  destruct (Qltb_spec bk (rend r)) as [H2|H2].
  { split; auto. intros [_ [x [Hx Hx']]]. pose proof (Hmax x Hx). lra. }
  unfold well_formed in Hwf.
  assert (L1 : (lower_bound l (rbeg r) <= length l - 1)%nat) by (eapply lower_bound_mono_eq; eauto; lra).
  assert (L2 : (lower_bound l (rend r) <= length l - 1)%nat) by (eapply lower_bound_mono_eq; eauto; lra).
  assert (HA : bracket_above l (rend r) (lower_bound l (rend r))).
  { destruct (nth_error_lt l (lower_bound l (rend r))) as [x Hx]; [lia|].
    exists x. split; [exact Hx|]. split; [eapply lower_bound_at; eauto|].
    intros j y Hj Hy. eapply lower_bound_before; eauto. }
  destruct (nth_error_lt l (lower_bound l (rbeg r))) as [x Hx]; [lia|].
  unfold vget. rewrite Hx. cbn [rbind].
  pose proof (lower_bound_at _ _ _ Hx) as Hge.
  destruct (Qltb_spec (rbeg r) x) as [H|H].
  - destruct (lower_bound l (rbeg r)) as [|k] eqn:EM.
    + assert (x = fr) by congruence. subst. lra.
    + split; [|exact HA]. destruct (nth_error_lt l k) as [z Hz]; [lia|].
      exists z. split; [exact Hz|]. split.
      * assert (z < rbeg r) by (eapply lower_bound_before; [rewrite EM|]; eauto; lia). lra.
      * intros j y Hj Hy. left. destruct (Nat.eq_dec j (S k)) as [->|Hn].
        -- assert (y = x) by congruence. subst; lra.
        -- pose proof (Hs (S k) j _ _ (ltac:(lia)) Hx Hy). lra.
  - split; [|exact HA]. exists x. split; [exact Hx|]. split; [lra|].
    intros j y Hj Hy. left. pose proof (Hs _ j _ _ Hj Hx Hy). lra.
Qed.

Lemma lower_bound_firstn l n v : (lower_bound l v <= n)%nat ->
  lower_bound (firstn n l) v = lower_bound l v.
Proof.
  revert n; induction l as [|a t IH]; intros n H; simpl in *; [destruct n; reflexivity|].
  destruct n as [|n]; simpl; destruct (Qltb a v); auto; try lia.
  rewrite IH; [reflexivity|lia].
Qed.
Lemma lower_bound_skipn l n v : (n <= lower_bound l v)%nat ->
  (n + lower_bound (skipn n l) v)%nat = lower_bound l v.
Proof.
  revert n; induction l as [|a t IH]; intros n H; simpl in *.
  - assert (n = 0)%nat by lia; subst; reflexivity.
  - destruct n as [|n]; simpl; [reflexivity|]. destruct (Qltb a v); [|lia].
    rewrite <- (IH n) by lia. lia.
Qed.

Lemma lower_bound_mono l u v : u <= v -> (lower_bound l u <= lower_bound l v)%nat.
Proof.
  intro H. induction l as [|a t IH]; simpl; [lia|].
  destruct (Qltb_spec a u); destruct (Qltb_spec a v); try lia. lra.
Qed.

(** the overload with a value returns the same indices *)
Lemma getEnclosing_value_same r l v : inside r v ->
  getEnclosingIntervalIndices_value r l v = getEnclosingIntervalIndices r l.
Proof.
  intros [H1 H2]. unfold getEnclosingIntervalIndices_value, getEnclosingIntervalIndices.
  destruct (Qltb_spec v (rbeg r)); [lra|]. destruct (Qltb_spec (rend r) v); [lra|]. cbn [orb].
  destruct l as [|a t]; [reflexivity|].
  rewrite lower_bound_firstn by (apply lower_bound_mono; exact H1).
  rewrite lower_bound_skipn by (apply lower_bound_mono; exact H2). reflexivity.
Qed.
Lemma getEnclosing_value_outside r l v : ~ inside r v ->
  getEnclosingIntervalIndices_value r l v = Throw CRANGE_VALUE_OUTSIDERANGE.
Proof.
  intro H. unfold getEnclosingIntervalIndices_value, inside in *.
  destruct (Qltb_spec v (rbeg r)); [reflexivity|]. destruct (Qltb_spec (rend r) v); [reflexivity|].
  exfalso; apply H; lra.
Qed.

(** reversed range beyond the grid: dereference of end() *)
Lemma getEnclosing_reversed_UB :
  exists r l, strictly_increasing l /\ getEnclosingIntervalIndices r l = UB.
Proof.
  exists (mkRange 5 2), [1; 2; 3]. split; [|reflexivity].
  repeat (apply strictly_increasing_cons; [simpl; intros; intuition (subst; lra)|]).
  apply strictly_increasing_nil.
Qed.

(** ** indexing *)
Lemma getIndex_spec l z :
  match getIndex l z with
  | Ok i => (exists x, nth_error l i = Some x /\ x == z) /\
            (forall j y, (j < i)%nat -> nth_error l j = Some y -> ~ y == z)
  | Throw INTERNAL_ERROR => forall x, In x l -> ~ x == z
  | _ => False
  end.
Proof.
  unfold getIndex. induction l as [|a t IH]; simpl; [intros x []|].
  destruct (Qeq_bool_spec a z) as [H|H]; cbn [option_map].
  - split; [exists a; simpl; auto|]. intros; lia.
  - destruct (find_index t z) as [i|]; cbn [option_map] in *.
    + destruct IH as [[x [Hx Hxz]] Hl]. split; [exists x; auto|].
      intros j y Hj Hy. destruct j as [|j]; simpl in Hy; [inversion Hy; subst; exact H|].
      apply (Hl j y); auto; lia.
    + intros x [<-|Hx]; auto.
Qed.

Lemma getClosestLowerIndex_spec l v : increasing l -> l <> [] ->
  match getClosestLowerIndex l v with
  | Ok (Some i) => bracket_below l v i
  | Ok None => forall x, In x l -> v < x
  | _ => False
  end.
Proof.
  intros Hi Hne. unfold getClosestLowerIndex.
  destruct (front_ok l Hne) as (fr & Hf & Hf0). rewrite Hf. cbn [rbind].
  destruct (Qltb_spec v fr) as [H|H].
  - intros x Hx. apply In_nth_error in Hx. destruct Hx as [k Hk]. destruct k as [|k].
    + assert (x = fr) by congruence. subst; lra.
    + pose proof (Hi 0%nat (S k) _ _ ltac:(lia) Hf0 Hk). lra.
  - pose proof (lower_bound_le_length l v) as HL.
    assert (Hdec : forall k, lower_bound l v = S k ->
             (forall x, nth_error l (S k) = Some x -> v < x) -> bracket_below l v k).
    { intros k E Hgt. destruct (nth_error_lt l k) as [z Hz]; [lia|].
      exists z. split; [exact Hz|]. split.
      - assert (z < v) by (eapply lower_bound_before; [rewrite E|]; eauto; lia). lra.
      - intros j y Hj Hy. left. destruct (nth_error_lt l (S k)) as [w Hw].
        { pose proof (nth_error_len _ _ _ Hy). lia. }
        destruct (Nat.eq_dec j (S k)) as [->|Hn]; [apply Hgt; exact Hy|].
        pose proof (Hi (S k) j _ _ ltac:(lia) Hw Hy). pose proof (Hgt w Hw). lra. }
    cbv zeta. destruct (Nat.eqb_spec (lower_bound l v) (length l)) as [E|E]; cbn [rbind].
    + destruct (lower_bound l v) as [|k] eqn:EK; [destruct l; [contradiction|discriminate]|].
      apply Hdec; auto. intros x Hx. apply nth_error_len in Hx. lia.
    + destruct (nth_error_lt l (lower_bound l v)) as [x Hx]; [lia|].
      unfold vget. rewrite Hx. cbn [rbind]. pose proof (lower_bound_at _ _ _ Hx) as Hge.
      destruct (Qeq_bool_spec x v) as [Heq|Heq]; cbn [negb].
      * exists x. split; [exact Hx|]. split; [lra|]. intros j y Hj Hy.
        pose proof (Hi _ j _ _ Hj Hx Hy). destruct (Qlt_le_dec v y); [left; lra|right; lra].
      * assert (Hlt : v < x) by (destruct (Qlt_le_dec v x); auto; exfalso; apply Heq; lra).
        destruct (lower_bound l v) as [|k] eqn:EK.
        -- assert (x = fr) by congruence. subst. lra.
        -- apply Hdec; auto. intros y Hy. congruence.
Qed.

Lemma getClosestUpperIndex_spec l v : increasing l -> l <> [] ->
  match getClosestUpperIndex l v with
  | Ok (Some i) => bracket_above l v i
  | Ok None => forall x, In x l -> x < v
  | _ => False
  end.
Proof.
  intros Hi Hne. unfold getClosestUpperIndex.
  destruct (back_ok l Hne) as (bk & Hb & Hbn). rewrite Hb. cbn [rbind].
  destruct (Qltb_spec bk v) as [H|H].
  - intros x Hx. apply In_nth_error in Hx. destruct Hx as [k Hk].
    pose proof (nth_error_len _ _ _ Hk) as Hkl.
    destruct (Nat.eq_dec k (length l - 1)) as [->|Hn]; [assert (x = bk) by congruence; subst; lra|].
    pose proof (Hi k (length l - 1)%nat _ _ ltac:(lia) Hk Hbn). lra.
  - assert ((lower_bound l v <= length l - 1)%nat) by (eapply lower_bound_mono_eq; eauto; lra).
    assert (0 < length l)%nat by (destruct l; [contradiction|simpl; lia]).
    destruct (nth_error_lt l (lower_bound l v)) as [x Hx]; [lia|].
    exists x. split; [exact Hx|]. split; [eapply lower_bound_at; eauto|].
    intros j y Hj Hy. eapply lower_bound_before; eauto.
Qed.

Lemma Qabs_cases q : (0 <= q /\ Qabs q == q) \/ (q < 0 /\ Qabs q == - q).
Proof.
  destruct (Qlt_le_dec q 0) as [H|H]; [right|left]; split; auto.
  - apply Qabs_neg. lra.
  - apply Qabs_pos. exact H.
Qed.
Ltac qabs q := let H := fresh "HA" in let E := fresh "EA" in destruct (Qabs_cases q) as [[H E]|[H E]].

Lemma getCloserIndex_spec l v : increasing l -> l <> [] ->
  exists i, getCloserIndex l v = Ok i /\ nearest l v i.
Proof.
  intros Hi Hne. unfold getCloserIndex.
  pose proof (lower_bound_le_length l v) as HL.
  assert (Hpos : (0 < length l)%nat) by (destruct l; [contradiction|simpl; lia]).
  destruct (Nat.eqb_spec (lower_bound l v) (length l)) as [E|E].
  - rewrite E. destruct (length l) as [|n] eqn:En; [lia|].
    exists n. split; [reflexivity|]. destruct (nth_error_lt l n) as [x Hx]; [lia|].
    exists x. split; [exact Hx|]. intros y Hy. apply In_nth_error in Hy. destruct Hy as [k Hk].
    pose proof (nth_error_len _ _ _ Hk).
    assert (x < v) by (apply (lower_bound_before l v n); [lia|exact Hx]).
    assert (y <= x).
    { destruct (Nat.eq_dec k n) as [->|]; [assert (y = x) by congruence; subst; lra|].
      apply (Hi k n); auto; lia. }
    qabs (x - v); qabs (y - v); lra.
  - destruct (nth_error_lt l (lower_bound l v)) as [x Hx]; [lia|].
    pose proof (lower_bound_at _ _ _ Hx) as Hge.
    assert (Hright : forall k y, (lower_bound l v <= k)%nat -> nth_error l k = Some y -> x <= y).
    { intros k y Hk Hy. destruct (Nat.eq_dec k (lower_bound l v)) as [->|]; [assert (y = x) by congruence; subst; lra|].
      apply (Hi (lower_bound l v) k); auto; lia. }
    destruct (lower_bound l v) as [|k] eqn:EK.
    + exists 0%nat. split; [reflexivity|]. exists x. split; [exact Hx|].
      intros y Hy. apply In_nth_error in Hy. destruct Hy as [j Hj].
      pose proof (Hright j y ltac:(lia) Hj). qabs (x - v); qabs (y - v); lra.
    + destruct (nth_error_lt l k) as [z Hz]; [lia|].
      unfold vget. rewrite Hx, Hz. cbn [rbind].
      assert (Hzv : z < v) by (eapply lower_bound_before; [rewrite EK|]; eauto; lia).
      assert (Hleft : forall j y, (j <= k)%nat -> nth_error l j = Some y -> y <= z).
      { intros j y Hj Hy. destruct (Nat.eq_dec j k) as [->|]; [assert (y = z) by congruence; subst; lra|].
        apply (Hi j k); auto; lia. }
      assert (Hall : forall y, In y l -> y <= z \/ x <= y).
      { intros y Hy. apply In_nth_error in Hy. destruct Hy as [j Hj].
        destruct (le_lt_dec j k); [left; eapply Hleft; eauto|right; eapply Hright; eauto; lia]. }
      destruct (Qltb_spec (Qabs (z - v)) (Qabs (x - v))) as [H|H].
      * exists k. split; [reflexivity|]. exists z. split; [exact Hz|]. intros y Hy.
        destruct (Hall y Hy); qabs (x - v); qabs (y - v); qabs (z - v); lra.
      * exists (S k). split; [reflexivity|]. exists x. split; [exact Hx|]. intros y Hy.
        destruct (Hall y Hy); qabs (x - v); qabs (y - v); qabs (z - v); lra.
Qed.

Lemma indexing_empty_UB v : getCloserIndex [] v = UB /\ getClosestLowerIndex [] v = UB
   /\ getClosestUpperIndex [] v = UB.
Proof. repeat split. Qed.

Lemma Clamp_spec r v : rbeg r <= rend r ->
  rbeg r <= Clamp r v /\ Clamp r v <= rend r /\ (rbeg r <= v -> v <= rend r -> Clamp r v = v) /\
  (forall w, rbeg r <= w -> w <= rend r -> Qabs (v - Clamp r v) <= Qabs (v - w)) /\
  Clamp r (Clamp r v) = Clamp r v.
Proof.
  intro H.
  assert (C : (v < rbeg r /\ Clamp r v = rbeg r) \/ (rend r < v /\ Clamp r v = rend r) \/ (rbeg r <= v /\ v <= rend r /\ Clamp r v = v)).
  { unfold Clamp. destruct (Qltb_spec v (rbeg r)) as [A|A]; destruct (Qltb_spec (rend r) v) as [B|B]; try (exfalso; lra);
      [left|right; left|right; right]; repeat split; auto; lra. }
  destruct C as [[A E]|[[A E]|[A [B E]]]]; rewrite E.
  - repeat split; try lra.
    + intros w W1 W2. rewrite !Qabs_neg by lra. lra.
    + unfold Clamp. destruct (Qltb_spec (rbeg r) (rbeg r)) as [B|B]; [lra|]. destruct (Qltb_spec (rend r) (rbeg r)) as [C|C]; [lra|reflexivity].
  - repeat split; try lra.
    + intros w W1 W2. rewrite !Qabs_pos by lra. lra.
    + unfold Clamp. destruct (Qltb_spec (rend r) (rbeg r)) as [B|B]; [lra|]. destruct (Qltb_spec (rend r) (rend r)) as [C|C]; [lra|reflexivity].
  - repeat split; try lra; auto.
    intros w W1 W2. setoid_replace (v - v) with 0 by ring. apply (Qabs_nonneg (v - w)).
Qed.
