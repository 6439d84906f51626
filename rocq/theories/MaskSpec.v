(** Vocabulary for C11 and C12. *)
From Coq Require Import NArith String.
From Verif Require Import Base MaskModel.
Open Scope N_scope.

(** a mask holding only 0 (rejected) and 1 (kept) *)
Definition binary (m : mask) : Prop := Forall (fun b => b = 0 \/ b = 1) m.
(** positions kept by a mask / by both masks *)
Definition kept (m : mask) (i : nat) : bool := match nth_error m i with Some 1 => true | _ => false end.
Definition number_kept (m : mask) : nat := length (filter (kept m) (seq 0 (length m))).
Definition number_kept_by_both (a b : mask) : nat :=
  length (filter (fun i => kept a i && kept b i)%bool (seq 0 (length a))).

(** the part of a call history after its last reset *)
Fixpoint since_reset (ops : list flag_op) : list flag_op :=
  match ops with
  | [] => []
  | o :: t => if existsb (fun x => match x with OpReset => true | _ => false end) ops
              then since_reset t else ops
  end.
(** the warnings of a history, in order *)
Fixpoint warnings (ops : list flag_op) : list (N * string) :=
  match ops with
  | [] => []
  | OpWarning c m :: t => (c, m) :: warnings t
  | OpReset :: t => warnings t
  end.
