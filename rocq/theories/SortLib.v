(** Stable insertion sort with a strict-weak-order comparator: the model of std::sort / std::stable_sort.
    std::sort is not stable: wherever the comparator leaves ties between distinguishable elements the
    modelled property is stated so as not to depend on their order. *)
From Coq Require Import List Permutation Sorted Arith Lia.
From Verif Require Import Base.
Import ListNotations.

Section Sort.
  Context {A : Type}.
  Variable lt : A -> A -> bool.

  Fixpoint ins (a : A) (l : list A) : list A :=
    match l with
    | [] => [a]
    | h :: t => if lt h a then h :: ins a t else a :: h :: t
    end.
  Fixpoint isort (l : list A) : list A :=
    match l with [] => [] | h :: t => ins h (isort t) end.

  Lemma ins_perm a l : Permutation (ins a l) (a :: l).
  Proof.
    induction l as [|h t IH]; simpl; [reflexivity|].
    destruct (lt h a); [|reflexivity]. rewrite IH. apply perm_swap.
  Qed.
  Lemma isort_perm l : Permutation (isort l) l.
  Proof. induction l as [|h t IH]; simpl; [reflexivity|]. rewrite ins_perm, IH. reflexivity. Qed.
  Lemma isort_length l : length (isort l) = length l.
  Proof. apply Permutation_length, isort_perm. Qed.

  Hypothesis lt_asym : forall x y, lt x y = true -> lt y x = false.
  Hypothesis le_trans : forall x y z, lt y x = false -> lt z y = false -> lt z x = false.

  Definition lesorted := StronglySorted (fun x y => lt y x = false).

  Lemma ins_sorted a l : lesorted l -> lesorted (ins a l).
  Proof.
    unfold lesorted. induction l as [|h t IH]; simpl; intro H.
    - repeat constructor.
    - inversion H as [|? ? Ht Hf]; subst. destruct (lt h a) eqn:E.
      + constructor; [apply IH; exact Ht|]. apply Forall_forall. intros x Hx.
        apply (Permutation_in _ (ins_perm a t)) in Hx. destruct Hx as [<-|Hx].
        * apply lt_asym. exact E.
        * rewrite Forall_forall in Hf. apply Hf. exact Hx.
      + constructor; [exact H|]. constructor; [exact E|].
        rewrite Forall_forall in *. intros x Hx. apply le_trans with h; auto.
  Qed.
  Lemma isort_sorted l : lesorted (isort l).
  Proof. induction l as [|h t IH]; simpl; [constructor|apply ins_sorted; exact IH]. Qed.

  (** stability: elements equivalent to a given one keep their order *)
  Hypothesis eqv_trans : forall k x y, lt k x = false -> lt x k = false -> lt k y = false -> lt y k = false ->
     lt x y = false.
  Definition eqv (k x : A) : bool := (negb (lt k x) && negb (lt x k))%bool.
  Lemma ins_filter k a l : filter (eqv k) (ins a l) = filter (eqv k) (a :: l).
  Proof.
    induction l as [|h t IH]; [reflexivity|]. cbn [ins].
    destruct (lt h a) eqn:E; [|reflexivity].
    cbn [filter] in *. rewrite IH. unfold eqv.
    destruct (negb (lt k h) && negb (lt h k))%bool eqn:E1; destruct (negb (lt k a) && negb (lt a k))%bool eqn:E2; auto.
    exfalso. apply andb_prop in E1. apply andb_prop in E2. destruct E1 as [P1 P2]; destruct E2 as [P3 P4].
    apply Bool.negb_true_iff in P1, P2, P3, P4.
    rewrite (eqv_trans k h a P1 P2 P3 P4) in E. discriminate.
  Qed.
  Lemma isort_stable k l : filter (eqv k) (isort l) = filter (eqv k) l.
  Proof.
    induction l as [|h t IH]; [reflexivity|]. cbn [isort]. rewrite ins_filter. cbn [filter].
    rewrite IH. reflexivity.
  Qed.
End Sort.

(** Sorting rationals in increasing order. *)
Definition qsort : list Q -> list Q := isort Qltb.
Lemma qsort_perm l : Permutation (qsort l) l.
Proof. apply isort_perm. Qed.
Lemma qsort_sorted_strong l : StronglySorted (fun x y => (x <= y)%Q) (qsort l).
Proof.
  assert (H : lesorted Qltb (isort Qltb l)).
  { apply isort_sorted.
    - intros x y H. apply Qltb_true in H. apply Qltb_false. lra.
    - intros x y z H1 H2. apply Qltb_false in H1, H2. apply Qltb_false. lra. }
  unfold qsort. induction H as [|a t Ht IH Hf]; constructor; auto.
  eapply Forall_impl; [|exact Hf]. intros b Hb. apply Qltb_false in Hb. exact Hb.
Qed.
Lemma StronglySorted_increasing l : StronglySorted (fun x y => (x <= y)%Q) l -> increasing l.
Proof.
  induction 1 as [|a t Ht IH Hf]; [apply increasing_nil|].
  apply increasing_cons; [|exact IH]. rewrite Forall_forall in Hf. exact Hf.
Qed.
Lemma qsort_increasing l : increasing (qsort l).
Proof. apply StronglySorted_increasing, qsort_sorted_strong. Qed.
