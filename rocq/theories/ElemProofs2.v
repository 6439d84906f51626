From Verif Require Import Base RangeModel AxisModel ElemModel ElemSpec ElemProofs.
Open Scope Z_scope.

Lemma overlapping_spec x1 x2 y1 y2 : overlapping x1 x2 y1 y2 = true <-> overlap (x1, x2) (y1, y2).
Proof.
  unfold overlapping, overlap, in_support. cbn [fst snd]. rewrite Z.ltb_lt. split.
  - intro H. exists (Z.max x1 y1). lia.
  - intros [t H]. lia.
Qed.
Lemma overlap_sym p q : overlap p q -> overlap q p.
Proof. unfold overlap. intros [t H]. exists t. tauto. Qed.
Lemma overlap_mono p q p' : inside p p' -> overlap p q -> overlap p' q.
Proof. unfold overlap, inside, in_support. intros I [t H]. exists t. lia. Qed.

Section Inv.
Variables (n : nat) (out : nat -> bool) (theo : nat -> Z * Z).
Definition inr (k : nat) : Prop := (k < n)%nat /\ out k = false.
Hypothesis NE : forall k, inr k -> nonempty (theo k).

Notation linked := (linked inr theo).
Lemma linked_trans a b c : linked a b -> linked b c -> linked a c.
Proof. intros H K. induction K as [|l m K IH I O]; auto. eapply linked_step; eauto. Qed.
Lemma linked_in a b : linked a b -> inr a /\ inr b.
Proof. intro H. induction H as [|l m K IH I O]; tauto. Qed.
Lemma linked_sym a b : linked a b -> linked b a.
Proof.
  intro H. induction H as [I|l m K IH I O]; [now constructor|].
  apply linked_trans with l; auto. eapply linked_step; [|apply (linked_in _ _ K)|apply overlap_sym, O]. now constructor.
Qed.

Definition X (st : supst) (h : nat) : Z * Z := (sn st h, en st h).
Definition alive (st : supst) (h : nat) : Prop := inr h /\ nonempty (X st h).

Record Inv (st : supst) (G : nat -> list nat) : Prop := {
  i_act : forall h k, alive st h -> (ac st h k = true <-> In k (G h));
  i_self : forall h, alive st h -> In h (G h);
  i_mem : forall h k, alive st h -> In k (G h) -> linked h k /\ inside (theo k) (X st h);
  i_cov : forall h t, alive st h -> in_support t (X st h) -> exists k, In k (G h) /\ in_support t (theo k);
  i_cov2 : forall h t, alive st h -> in_support t (X st h) -> in_support (t + 1) (X st h) ->
             exists k, In k (G h) /\ in_support t (theo k) /\ in_support (t + 1) (theo k);
  i_all : forall k, inr k -> exists h, alive st h /\ In k (G h);
  i_dis : forall h h' k, alive st h -> alive st h' -> In k (G h) -> In k (G h') -> h = h';
  i_nd : forall h, alive st h -> NoDup (G h);
  i_sym : forall x y, ac st x y = true -> ac st y x = true;
  i_diag : forall x, (x < n)%nat -> ac st x x = true;
  i_out : forall x y, ac st x y = true -> x = y \/ (inr x /\ inr y)
}.

Definition merged (i j : nat) (st : supst) : supst :=
  mkSup (upd (upd (sn st) i (Z.min (sn st i) (sn st j))) j (Z.max (en st i) (en st j)))
        (upd (upd (en st) i (Z.max (en st i) (en st j))) j (Z.max (en st i) (en st j) - 1))
        (activate n out i j (ac st)).
Definition Gm (i j : nat) (G : nat -> list nat) : nat -> list nat := upd (upd G i (G i ++ G j)%list) j [].

Lemma merged_j i j st : i <> j -> ~ nonempty (X (merged i j st) j).
Proof. intro N. unfold X, nonempty, merged. cbn [sn en fst snd]. rewrite !upd_eq. lia. Qed.
Lemma merged_i i j st : i <> j -> X (merged i j st) i = (Z.min (sn st i) (sn st j), Z.max (en st i) (en st j)).
Proof. intro N. unfold X, merged. cbn [sn en]. rewrite !(upd_neq _ j _ i) by auto. now rewrite !upd_eq. Qed.
Lemma merged_o i j st h : h <> i -> h <> j -> X (merged i j st) h = X st h.
Proof. intros A B. unfold X, merged. cbn [sn en]. now rewrite !upd_neq by auto. Qed.
Lemma alive_merged i j st h : i <> j -> alive st i -> alive st j -> alive (merged i j st) h <-> (h <> j /\ alive st h).
Proof.
  intros N Ai Aj. unfold alive. destruct (Nat.eq_dec h j) as [-> |H].
  - split; [|tauto]. intros [_ H]. now apply merged_j in H.
  - destruct (Nat.eq_dec h i) as [-> |H'].
    + rewrite merged_i by auto. destruct Ai as [I A], Aj as [J B]. unfold nonempty, X in *. cbn [fst snd] in *. intuition lia.
    + rewrite merged_o by auto. tauto.
Qed.
Lemma Gm_i i j G : i <> j -> Gm i j G i = (G i ++ G j)%list.
Proof. intro N. unfold Gm. rewrite upd_neq by auto. apply upd_eq. Qed.
Lemma Gm_o i j G h : h <> i -> h <> j -> Gm i j G h = G h.
Proof. intros A B. unfold Gm. now rewrite !upd_neq by auto. Qed.

Lemma merged_inv i j st G : i <> j -> alive st i -> alive st j -> overlap (X st i) (X st j) ->
  Inv st G -> Inv (merged i j st) (Gm i j G).
Proof.
  intros N Ai Aj O I. pose proof (alive_merged i j st) as AM.
  assert (AM' : forall h, alive (merged i j st) h -> h <> j /\ alive st h) by (intros h H; apply AM; auto). clear AM.
  assert (Ri : forall x, ac st i x = true -> (x < n)%nat /\ out x = false).
  { intros x H. destruct (i_out _ _ I _ _ H) as [E|[_ E]]; [|auto]. subst. apply Ai. }
  assert (Rj : forall x, ac st j x = true -> (x < n)%nat /\ out x = false).
  { intros x H. destruct (i_out _ _ I _ _ H) as [E|[_ E]]; [|auto]. subst. apply Aj. }
  assert (Di : ac st i i = true) by (apply (i_diag _ _ I); apply Ai).
  assert (Dj : ac st j j = true) by (apply (i_diag _ _ I); apply Aj).
  assert (AT : forall k l, ac (merged i j st) k l = true <-> ac st k l = true \/ ((k = i \/ k = j) /\ (ac st i l = true \/ ac st j l = true)) \/
            ((l = i \/ l = j) /\ (ac st i k = true \/ ac st j k = true))).
  { intros k l. unfold merged. cbn [ac]. apply activate_true; auto. apply (i_sym _ _ I). }
  assert (LK : exists k l, In k (G i) /\ In l (G j) /\ overlap (theo k) (theo l)).
  { destruct O as (t & O1 & O2 & O3 & O4). destruct (i_cov2 _ _ I i t Ai O1 O3) as (k & K1 & K2 & K3). destruct (i_cov2 _ _ I j t Aj O2 O4) as (l & L1 & L2 & L3).
    exists k, l. split; [auto|split; [auto|exists t; auto]]. }
  assert (LJ : linked i j).
  { destruct LK as (k & l & Hk & Hl & Ho). destruct (i_mem _ _ I i k Ai Hk) as [Lk _]. destruct (i_mem _ _ I j l Aj Hl) as [Ll _].
    apply linked_trans with l; [|apply linked_sym, Ll]. eapply linked_step; [exact Lk|apply (linked_in _ _ Ll)|exact Ho]. }
  assert (B : forall a b a' b', nonempty (a, b) -> nonempty (a', b') -> overlap (a, b) (a', b') -> forall t, in_support t (Z.min a a', Z.max b b') -> in_support t (a, b) \/ in_support t (a', b')).
  { unfold overlap, in_support, nonempty. cbn [fst snd]. intros a b a' b' _ _ [u U] t T. lia. }
  assert (B2 : forall a b a' b', overlap (a, b) (a', b') -> forall t, in_support t (Z.min a a', Z.max b b') -> in_support (t + 1) (Z.min a a', Z.max b b') ->
              (in_support t (a, b) /\ in_support (t + 1) (a, b)) \/ (in_support t (a', b') /\ in_support (t + 1) (a', b'))).
  { unfold overlap, in_support. cbn [fst snd]. intros a b a' b' [u U] t T T'. lia. }
  split.
  - intros h k Ah. destruct (AM' h Ah) as [Nh Ah']. rewrite AT. destruct (Nat.eq_dec h i) as [-> |Hi].
    + rewrite Gm_i by auto. rewrite in_app_iff. rewrite <- (i_act _ _ I i k Ai), <- (i_act _ _ I j k Aj). split.
      * intros [H|[[_ H]|[[-> | ->] H]]]; auto.
      * tauto.
    + rewrite Gm_o by auto. rewrite <- (i_act _ _ I h k Ah'). split; [|tauto].
      intros [H|[[[-> | ->] H]|[_ [H|H]]]]; auto; try congruence.
      * apply (i_act _ _ I) in H; [|auto]. exfalso. apply Hi. apply (i_dis _ _ I h i h); auto. apply (i_self _ _ I); auto.
      * apply (i_act _ _ I) in H; [|auto]. exfalso. apply Nh. apply (i_dis _ _ I h j h); auto. apply (i_self _ _ I); auto.
  - intros h Ah. destruct (AM' h Ah) as [Nh Ah']. destruct (Nat.eq_dec h i) as [-> |Hi].
    + rewrite Gm_i by auto. apply in_or_app. left. apply (i_self _ _ I); auto.
    + rewrite Gm_o by auto. apply (i_self _ _ I); auto.
  - intros h k Ah Hk. destruct (AM' h Ah) as [Nh Ah']. destruct (Nat.eq_dec h i) as [-> |Hi].
    + rewrite merged_i by auto. rewrite Gm_i in Hk by auto. apply in_app_iff in Hk. destruct Hk as [Hk|Hk].
      * destruct (i_mem _ _ I i k Ai Hk) as [L S]. split; auto. unfold inside, X in *. cbn [fst snd] in *. lia.
      * destruct (i_mem _ _ I j k Aj Hk) as [L S]. split; [eapply linked_trans; eauto|]. unfold inside, X in *. cbn [fst snd] in *. lia.
    + rewrite merged_o by auto. rewrite Gm_o in Hk by auto. apply (i_mem _ _ I); auto.
  - intros h t Ah Ht. destruct (AM' h Ah) as [Nh Ah']. destruct (Nat.eq_dec h i) as [-> |Hi].
    + rewrite merged_i in Ht by auto. rewrite Gm_i by auto.
      destruct (B _ _ _ _ (proj2 Ai) (proj2 Aj) O t Ht) as [H|H].
      * destruct (i_cov _ _ I i t Ai H) as (k & K & K'). exists k. rewrite in_app_iff. auto.
      * destruct (i_cov _ _ I j t Aj H) as (k & K & K'). exists k. rewrite in_app_iff. auto.
    + rewrite merged_o in Ht by auto. rewrite Gm_o by auto. apply (i_cov _ _ I); auto.
  - intros h t Ah Ht Ht'. destruct (AM' h Ah) as [Nh Ah']. destruct (Nat.eq_dec h i) as [-> |Hi].
    + rewrite merged_i in Ht, Ht' by auto. rewrite Gm_i by auto.
      destruct (B2 _ _ _ _ O t Ht Ht') as [[H H']|[H H']].
      * destruct (i_cov2 _ _ I i t Ai H H') as (k & K & K'). exists k. rewrite in_app_iff. auto.
      * destruct (i_cov2 _ _ I j t Aj H H') as (k & K & K'). exists k. rewrite in_app_iff. auto.
    + rewrite merged_o in Ht, Ht' by auto. rewrite Gm_o by auto. apply (i_cov2 _ _ I); auto.
  - intros k Hk. destruct (i_all _ _ I k Hk) as (h & Ah & Hh). destruct (Nat.eq_dec h j) as [-> |Nh].
    + exists i. split; [apply alive_merged; auto|]. rewrite Gm_i by auto. apply in_or_app; auto.
    + exists h. split; [apply alive_merged; auto|]. destruct (Nat.eq_dec h i) as [-> |Hi].
      * rewrite Gm_i by auto. apply in_or_app; auto.
      * rewrite Gm_o by auto. auto.
  - intros h h' k Ah Ah' Hk Hk'. destruct (AM' h Ah) as [Nh Bh]. destruct (AM' h' Ah') as [Nh' Bh'].
    assert (W : forall x, x <> j -> In k (Gm i j G x) -> In k (G x) \/ (x = i /\ In k (G j))).
    { intros x Nx Hx. destruct (Nat.eq_dec x i) as [-> |Hi]; [rewrite Gm_i in Hx by auto; apply in_app_iff in Hx; tauto|rewrite Gm_o in Hx by auto; auto]. }
    destruct (W h Nh Hk) as [A|[-> A]]; destruct (W h' Nh' Hk') as [A'|[-> A']]; auto.
    + apply (i_dis _ _ I h h' k); auto.
    + exfalso. apply Nh. apply (i_dis _ _ I h j k); auto.
    + exfalso. apply Nh'. apply (i_dis _ _ I h' j k); auto.
  - intros h Ah. destruct (AM' h Ah) as [Nh Bh]. destruct (Nat.eq_dec h i) as [-> |Hi]; [rewrite Gm_i by auto|rewrite Gm_o by auto; apply (i_nd _ _ I); auto].
    assert (U : forall l l' : list nat, NoDup l -> NoDup l' -> (forall x, In x l -> In x l' -> False) -> NoDup (l ++ l')%list).
    { induction l as [|a l IH]; intros l' P Q' D; cbn [app]; auto. apply NoDup_cons_iff in P. destruct P as [P1 P2]. constructor.
      - rewrite in_app_iff. intros [H|H]; [auto|]. apply (D a); [left; auto|auto].
      - apply IH; auto. intros x Hx. apply D. right; auto. }
    apply U; [apply (i_nd _ _ I); auto|apply (i_nd _ _ I); auto|]. intros x Hx Hx'. apply N. apply (i_dis _ _ I i j x); auto.
  - intros x y. rewrite !AT. intros [H|[H|H]]; [left; apply (i_sym _ _ I); auto|tauto|tauto].
  - intros x Hx. apply AT. left. apply (i_diag _ _ I); auto.
  - intros x y. rewrite AT. intros [H|[[[-> | ->] [H|H]]|[[-> | ->] [H|H]]]]; [apply (i_out _ _ I); auto| | | | | | | |]; right.
    all: split; first [exact (proj1 Ai)|exact (proj1 Aj)|now apply Ri|now apply Rj].
Qed.

Lemma step_cases i j st : alive st i -> (j < n)%nat ->
  (merge_step n out i st j = merged i j st /\ i <> j /\ alive st j /\ overlap (X st i) (X st j)) \/
  (merge_step n out i st j = st /\ (j <> i -> alive st j -> ~ overlap (X st i) (X st j))).
Proof.
  intros Ai Lj. unfold merge_step. destruct (out j) eqn:Oj.
  { right. split; auto. intros _ [[_ H] _]. congruence. }
  destruct (Z.ltb_spec (en st j) (sn st j)) as [H|H].
  { right. split; auto. intros _ [_ H']. unfold nonempty, X in H'. cbn [fst snd] in H'. lia. }
  destruct (Nat.eqb_spec i j) as [-> |N]. { right. split; [auto|congruence]. }
  cbn zeta. destruct (overlapping (sn st i) (en st i) (sn st j) (en st j)) eqn:E.
  - left. apply overlapping_spec in E. repeat split; auto.
  - right. split; auto. intros _ _ O. apply overlapping_spec in O. unfold X in O. congruence.
Qed.
End Inv.
