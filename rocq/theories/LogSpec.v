(** Specification vocabulary for the logger (C41, C47). *)
From Coq Require Import String.
From Verif Require Import Base LogModel.

(** live handler objects *)
Fixpoint live (ops : list log_op) : list nat :=   (* ops latest first *)
  match ops with
  | [] => []
  | Construct h :: r => h :: live r
  | Destroy h :: r => remove Nat.eq_dec h (live r)
  | SetLevelMask _ _ :: r => live r
  end.
(** a handler is constructed where no live handler is, and only live handlers are destroyed or configured *)
Fixpoint history (ops : list log_op) : Prop :=    (* latest first *)
  match ops with
  | [] => True
  | Construct h :: r => ~ In h (live r) /\ history r
  | Destroy h :: r => In h (live r) /\ history r
  | SetLevelMask h _ :: r => In h (live r) /\ history r
  end.
(** the handlers having a place: those constructed while fewer than eight had one, and not destroyed since *)
Fixpoint placed (ops : list log_op) : list nat :=
  match ops with
  | [] => []
  | Construct h :: r => if Nat.ltb (length (placed r)) 8 then h :: placed r else placed r
  | Destroy h :: r => remove Nat.eq_dec h (placed r)
  | SetLevelMask _ _ :: r => placed r
  end.
(** the level of a handler: the last one set since its construction, 80 (warning) by default *)
Fixpoint level_of (ops : list log_op) (h : nat) : Z :=
  match ops with
  | [] => 80%Z
  | Construct g :: r => if Nat.eqb g h then 80%Z else level_of r h
  | Destroy _ :: r => level_of r h
  | SetLevelMask g m :: r => if Nat.eqb g h then m else level_of r h
  end.

(** the messages of thread t in an order list of (thread, message) *)
Definition of_thread (t : nat) (order : list (nat * (level * string))) : list (level * string) :=
  map snd (filter (fun x => Nat.eqb (fst x) t) order).
Definition pending (c : conc) (t : nat) : list (level * string) :=
  match nth_error (threads c) t with Some th => todo th | None => [] end.
Definition idle (c : conc) : Prop := forall t th, nth_error (threads c) t = Some th -> at_pc th = Idle.
