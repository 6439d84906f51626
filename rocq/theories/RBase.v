(** Real-number helpers: models of double arithmetic where the code uses log/exp/sqrt.
    Rounding is not modelled.  The comparisons are the (classical) decisions of the standard library. *)
From Coq Require Export Reals Lra Lia ZArith List Psatz.
From Verif Require Import Base.
Export ListNotations.
Open Scope R_scope.

Definition Rltb (x y : R) : bool := if Rlt_dec x y then true else false.
Definition Rleb (x y : R) : bool := if Rle_dec x y then true else false.
Definition Reqb (x y : R) : bool := if Req_EM_T x y then true else false.
Lemma Rltb_spec x y : reflect (x < y) (Rltb x y).
Proof. unfold Rltb. destruct (Rlt_dec x y); constructor; auto. Qed.
Lemma Rleb_spec x y : reflect (x <= y) (Rleb x y).
Proof. unfold Rleb. destruct (Rle_dec x y); constructor; auto. Qed.
Lemma Reqb_spec x y : reflect (x = y) (Reqb x y).
Proof. unfold Reqb. destruct (Req_EM_T x y); constructor; auto. Qed.
Definition Rmaxb (x y : R) : R := if Rltb x y then y else x.
Definition Rminb (x y : R) : R := if Rltb y x then y else x.
Ltac rcase :=
  match goal with
  | |- context[Rltb ?x ?y] => destruct (Rltb_spec x y)
  | |- context[Rleb ?x ?y] => destruct (Rleb_spec x y)
  | |- context[Reqb ?x ?y] => destruct (Reqb_spec x y)
  | H : context[Rltb ?x ?y] |- _ => destruct (Rltb_spec x y)
  | H : context[Rleb ?x ?y] |- _ => destruct (Rleb_spec x y)
  | H : context[Reqb ?x ?y] |- _ => destruct (Reqb_spec x y)
  end.

(** integer part, toward minus infinity *)
Definition Rfloor (x : R) : Z := (up x - 1)%Z.
Lemma Rfloor_le x : IZR (Rfloor x) <= x.
Proof. unfold Rfloor. rewrite minus_IZR. destruct (archimed x). simpl. lra. Qed.
Lemma Rfloor_lt x : x < IZR (Rfloor x) + 1.
Proof. unfold Rfloor. rewrite minus_IZR. destruct (archimed x). simpl. lra. Qed.
Lemma Rfloor_unique x z : IZR z <= x -> x < IZR z + 1 -> Rfloor x = z.
Proof.
  intros H1 H2. pose proof (Rfloor_le x). pose proof (Rfloor_lt x).
  assert (IZR z < IZR (Rfloor x + 1)) by (rewrite plus_IZR; simpl; lra).
  assert (IZR (Rfloor x) < IZR (z + 1)) by (rewrite plus_IZR; simpl; lra).
  apply lt_IZR in H3. apply lt_IZR in H4. lia.
Qed.
(** truncation toward zero; conversion to Int32 is UB when it does not fit *)
Definition Rtrunc (x : R) : Z := if Rltb x 0 then (- Rfloor (- x))%Z else Rfloor x.
Definition Rto_int32 (x : R) : res Z :=
  let z := Rtrunc x in
  if (Z.leb (-2147483648) z && Z.leb z 2147483647)%bool then Ok z else UB.
Lemma Rto_int32_count x : 0 <= x -> x < 2147483647 -> Rto_int32 (x + 1) = Ok (Rfloor x + 1)%Z.
Proof.
  intros H1 H2. unfold Rto_int32, Rtrunc. destruct (Rltb_spec (x + 1) 0); [lra|].
  assert (E : Rfloor (x + 1) = (Rfloor x + 1)%Z).
  { pose proof (Rfloor_le x). pose proof (Rfloor_lt x). apply Rfloor_unique; rewrite plus_IZR; simpl; lra. }
  rewrite E. pose proof (Rfloor_le x). pose proof (Rfloor_lt x).
  assert (-1 < Rfloor x)%Z by (apply lt_IZR; simpl; lra).
  assert (Rfloor x < 2147483647)%Z by (apply lt_IZR; simpl; lra).
  destruct (Z.leb_spec (-2147483648) (Rfloor x + 1)); [|lia].
  destruct (Z.leb_spec (Rfloor x + 1) 2147483647); [|lia]. reflexivity.
Qed.

Lemma Rnth_map_seq {A} (f : nat -> A) n : forall s i x,
  nth_error (map f (seq s n)) i = Some x <-> (i < n)%nat /\ x = f (s + i)%nat.
Proof.
  induction n as [|n IH]; intros s i x; simpl.
  - destruct i; split; intro H; try discriminate; lia.
  - destruct i as [|i]; simpl.
    + rewrite Nat.add_0_r. split; intro H; [inversion H; split; [lia|auto]|destruct H as [_ ->]; auto].
    + rewrite (IH (S s) i x). rewrite <- plus_n_Sm. simpl. split; intros [H1 H2]; split; auto; lia.
Qed.

Definition Rstrictly_increasing (l : list R) : Prop :=
  forall i j x y, (i < j)%nat -> nth_error l i = Some x -> nth_error l j = Some y -> x < y.
