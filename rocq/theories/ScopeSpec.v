(** Vocabulary for C13, C14: the scope stack as a plain list of (name, type), bottom first. *)
From Coq Require Import String Ascii.
From Verif Require Import Base ScopeModel.
Open Scope string_scope.

Definition astack := list (string * scope_type).
Definition types (a : astack) : list scope_type := map snd a.
(** position of a type in the stack *)
Definition at_level (a : astack) (t : scope_type) (k : nat) : Prop := exists n, nth_error a k = Some (n, t).

(** The nesting discipline: at most one element of each type (other than UNDEFINED); a spectrum model lies
    below any stage; a method lies exactly one level above a stage. *)
Definition well_nested (a : astack) : Prop :=
  (forall t i j, t <> UNDEFINED -> at_level a t i -> at_level a t j -> i = j) /\
  (forall i j, at_level a SPECTRUMMODEL i -> at_level a STAGE j -> (i < j)%nat) /\
  (forall i, at_level a METHOD i -> exists j, i = S j /\ at_level a STAGE j).

(** which pushes are allowed *)
Definition top_is (a : astack) (t : scope_type) : Prop := exists b n, a = (b ++ [(n, t)])%list.
Definition may_push (a : astack) (t : scope_type) : Prop :=
  match t with
  | UNDEFINED => True
  | SPECTRUMMODEL => ~ In SPECTRUMMODEL (types a) /\ ~ In STAGE (types a)
  | STAGE => ~ In STAGE (types a) /\ ~ In METHOD (types a)
  | METHOD => top_is a STAGE
  end.

(** the reference stack: what a history of pushes and pops leaves, rejected pushes being ignored;
    [None] once an empty stack is popped (a call the user must not make) *)
Inductive ref_run : astack -> list scope_op -> astack -> Prop :=
| ref_nil a : ref_run a [] a
| ref_push a n t ops b : may_push a t -> ref_run (a ++ [(n, t)])%list ops b -> ref_run a (Push n t :: ops) b
| ref_reject a n t ops b : ~ may_push a t -> ref_run a ops b -> ref_run a (Push n t :: ops) b
| ref_pop a x ops b : ref_run a ops b -> ref_run (a ++ [x])%list (Pop :: ops) b.

(** running a whole history on the real stack; stops at UB *)
Fixpoint scope_run (s : scope_stack) (ops : list scope_op) : res scope_stack :=
  match ops with
  | [] => Ok s
  | o :: r => match scope_step s o with (_, UB) => UB | (s', _) => scope_run s' r end
  end.

(** what a caller observes of the stack agrees with the reference stack *)
Definition shows (s : scope_stack) (a : astack) : Prop :=
  sc_names s = map fst a /\
  (forall t, t <> UNDEFINED -> (has_type s t = true <-> In t (types a))) /\
  (forall t k, t <> UNDEFINED -> (get_type_level s t = Ok k <-> at_level a t k)) /\
  (forall t n, t <> UNDEFINED -> (get_type_value s t = Ok n <-> In (n, t) a)) /\
  get_current_type s = last (types a) UNDEFINED.

(** a dotted path with no dot inside a component *)
Definition dot : ascii := "."%char.
Fixpoint no_dot (s : string) : Prop :=
  match s with EmptyString => True | String c r => c <> dot /\ no_dot r end.
Definition plain (s : string) : Prop := s <> "" /\ no_dot s.
Fixpoint dotted (l : list string) : string :=
  match l with [] => "" | [x] => x | x :: r => x ++ "." ++ dotted r end.
