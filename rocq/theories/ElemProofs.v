From Verif Require Import Base RangeModel AxisModel ElemModel ElemSpec.
Open Scope Z_scope.

Lemma upd_eq {A} (f : nat -> A) i v : upd f i v i = v.
Proof. unfold upd. now rewrite Nat.eqb_refl. Qed.
Lemma upd_neq {A} (f : nat -> A) i v k : k <> i -> upd f i v k = f k.
Proof. unfold upd. intro H. apply Nat.eqb_neq in H. now rewrite H. Qed.
Lemma upd2_true a i j k l : upd2 a i j k l = true <-> a k l = true \/ (k = i /\ l = j).
Proof.
  unfold upd2. destruct (Nat.eqb_spec k i) as [-> |H]; destruct (Nat.eqb_spec l j) as [-> |H']; cbn [andb]; intuition congruence.
Qed.

(** ** the activity matrix *)
Lemma act_fold (out : nat -> bool) r w L : forall a, r <> w -> a r w = true ->
  forall k l, fold_left (fun (a : nat -> nat -> bool) x => if out x then a else if a r x then upd2 (upd2 a x w) w x else a) L a k l = true <->
    a k l = true \/ (k = w /\ In l L /\ out l = false /\ a r l = true) \/ (l = w /\ In k L /\ out k = false /\ a r k = true).
Proof.
  induction L as [|x L IH]; intros a N R k l; cbn [fold_left].
  - cbn [In]. tauto.
  - destruct (out x) eqn:O.
    { rewrite IH by auto. cbn [In]. intuition (subst; congruence). }
    destruct (a r x) eqn:E.
    + rewrite IH; [|auto|apply upd2_true; left; apply upd2_true; auto].
      assert (RR : forall y, upd2 (upd2 a x w) w x r y = true <-> a r y = true).
      { intro y. rewrite !upd2_true. split; [|tauto]. intros [[H|[-> ->]]|[H _]]; auto; congruence. }
      rewrite !RR, !upd2_true. cbn [In]. split.
      * intros [[[H|[-> ->]]|[-> ->]]|[[-> [H [H1 H2]]]|[-> [H [H1 H2]]]]]; [left; auto| | | |].
        { right; right. auto. } { right; left. auto. } { right; left. auto. } { right; right. auto. }
      * intros [H|[[-> [[-> |H] [H1 H2]]]|[-> [[-> |H] [H1 H2]]]]].
        { auto. } { left; right; auto. } { right; left; auto. } { left; left; right; auto. } { right; right; auto. }
    + rewrite IH by auto. cbn [In]. split; [tauto|].
      intros [H|[[-> [[-> |H] [H1 H2]]]|[-> [[-> |H] [H1 H2]]]]]; try congruence; tauto.
Qed.

Lemma activate_true n out i j a k l : i <> j -> 
  (forall x, a i x = true -> (x < n)%nat /\ out x = false) -> (forall x, a j x = true -> (x < n)%nat /\ out x = false) ->
  a i i = true -> a j j = true -> (forall x y, a x y = true -> a y x = true) ->
  activate n out i j a k l = true <->
    a k l = true \/ ((k = i \/ k = j) /\ (a i l = true \/ a j l = true)) \/ ((l = i \/ l = j) /\ (a i k = true \/ a j k = true)).
Proof.
  intros N Ai Aj Ii Jj Sym. unfold activate.
  set (a1 := upd2 (upd2 a i j) j i).
  assert (R1 : forall y, a1 i y = true <-> a i y = true \/ y = j).
  { intro y. unfold a1. rewrite !upd2_true. intuition congruence. }
  assert (R1' : forall y, a1 j y = true <-> a j y = true \/ y = i).
  { intro y. unfold a1. rewrite !upd2_true. intuition congruence. }
  destruct (Ai i Ii) as [Li Oi]. destruct (Aj j Jj) as [Lj Oj].
  assert (S : forall x, In x (seq 0 n) <-> (x < n)%nat) by (intro x; rewrite in_seq; lia).
  set (a2 := fold_left _ (seq 0 n) a1).
  assert (T2 : forall k l, a2 k l = true <-> a1 k l = true \/ (k = j /\ (a i l = true \/ l = j)) \/ (l = j /\ (a i k = true \/ k = j))).
  { intros k' l'. unfold a2. rewrite act_fold; [|auto|apply R1; auto]. rewrite !S, !R1. split.
    - tauto.
    - intros [H|[[-> [H| ->]]|[-> [H| ->]]]]; [tauto| | | |].
      + right; left. pose proof (Ai _ H). tauto.
      + right; left. tauto.
      + right; right. pose proof (Ai _ H). tauto.
      + right; right. tauto. }
  assert (R2 : forall y, a2 j y = true <-> a j y = true \/ a i y = true \/ y = i \/ y = j).
  { intro y. rewrite T2, R1'. intuition (subst; auto). }
  rewrite act_fold; [|auto|apply R2; auto]. rewrite !S, !R2, T2. unfold a1. rewrite !upd2_true.
  split.
  - intros [[[[H|[-> ->]]|[-> ->]]|[[-> [H| ->]]|[-> [H| ->]]]]|[[-> H]|[-> H]]]; try tauto;
      destruct H as (_ & _ & [H|[H|[-> | ->]]]); tauto.
  - intros [H|[[[-> | ->] [H|H]]|[[-> | ->] [H|H]]]].
    + tauto.
    + right; left. pose proof (Ai _ H). tauto.
    + right; left. pose proof (Aj _ H). tauto.
    + left; right; left. tauto.
    + left; left; left; left. tauto.
    + right; right. pose proof (Ai _ H). tauto.
    + right; right. pose proof (Aj _ H). tauto.
    + left; right; right; tauto.
    + left; left; left; left. auto.
Qed.
