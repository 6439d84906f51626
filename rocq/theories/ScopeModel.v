(** Model of the scope stack (src/lib/processflow/scopestack.cpp, RedshiftLibrary/processflow/scopestack.h),
    of its RAII guard (autoscope.cpp) and of scope names (scopestore.cpp). *)
From Coq Require Import String Ascii.
From Verif Require Import Base.
Open Scope string_scope.

(** scopestack.h:55 *)
Inductive scope_type := UNDEFINED | SPECTRUMMODEL | STAGE | METHOD.
Definition st_eqb (a b : scope_type) : bool :=
  match a, b with
  | UNDEFINED, UNDEFINED | SPECTRUMMODEL, SPECTRUMMODEL | STAGE, STAGE | METHOD, METHOD => true
  | _, _ => false end.
(** order of the keys of std::map<ScopeType, size_t> *)
Definition st_rank (a : scope_type) : nat :=
  match a with UNDEFINED => 0 | SPECTRUMMODEL => 1 | STAGE => 2 | METHOD => 3 end%nat.

(** scopestack.h:103-104: m_scopeStack (bottom first) and m_type_level (an ordered map) *)
Record scope_stack := mkScope { sc_names : list string; sc_level : list (scope_type * nat) }.
(** scopestack.h:69-72 constructors from a list of names: no type set *)
Definition scope_of (l : list string) : scope_stack := mkScope l [].

Fixpoint lv_find (m : list (scope_type * nat)) (t : scope_type) : option nat :=
  match m with [] => None | (u, n) :: r => if st_eqb u t then Some n else lv_find r t end.
Fixpoint lv_insert (m : list (scope_type * nat)) (t : scope_type) (n : nat) : list (scope_type * nat) :=
  match m with
  | [] => [(t, n)]
  | (u, k) :: r => if Nat.ltb (st_rank t) (st_rank u) then (t, n) :: (u, k) :: r else (u, k) :: lv_insert r t n
  end.

(** scopestack.h:90-92 *)
Definition has_type (s : scope_stack) (t : scope_type) : bool :=
  match lv_find (sc_level s) t with Some _ => true | None => false end.
(** scopestack.h:96 (std::map::at throws std::out_of_range) *)
Definition get_type_level (s : scope_stack) (t : scope_type) : res nat :=
  match lv_find (sc_level s) t with Some n => Ok n | None => Throw STD_out_of_range end.
(** scopestack.h:93-95 *)
Definition get_type_value (s : scope_stack) (t : scope_type) : res string :=
  do n <- get_type_level s t;
  match nth_error (sc_names s) n with Some x => Ok x | None => Throw STD_out_of_range end.

(** scopestack.cpp:72-106.  A thrown exception is an outcome next to the (possibly changed) map. *)
Definition set_type_level (s : scope_stack) (t : scope_type) : list (scope_type * nat) * res unit :=
  let m := sc_level s in
  let insert := match lv_find m t with
                | Some _ => (m, Throw SCOPESTACK_ERROR)
                | None => (lv_insert m t (length (sc_names s)), Ok tt) end in
  match t with
  | UNDEFINED => (m, Ok tt)
  | SPECTRUMMODEL => if has_type s STAGE then (m, Throw SCOPESTACK_ERROR) else insert
  | STAGE => if has_type s METHOD then (m, Throw SCOPESTACK_ERROR) else insert
  | METHOD =>
      match lv_find m STAGE with
      | None => (m, Throw SCOPESTACK_ERROR)
      | Some l => if Nat.eqb (l + 1) (length (sc_names s)) then insert else (m, Throw SCOPESTACK_ERROR)
      end
  end.
(** scopestack.cpp:46-54: on an exception the name is not pushed *)
Definition push_back (s : scope_stack) (v : string) (t : scope_type) : scope_stack * res unit :=
  match set_type_level s t with
  | (m, Ok _) => (mkScope (sc_names s ++ [v]) m, Ok tt)
  | (m, Throw e) => (mkScope (sc_names s) m, Throw e)
  | (m, UB) => (mkScope (sc_names s) m, UB)
  end.
(** scopestack.cpp:108-116 *)
Definition reset_type_level (names : list string) (m : list (scope_type * nat)) : list (scope_type * nat) :=
  filter (fun p => negb (Nat.leb (length names) (snd p))) m.
(** scopestack.cpp:56-59; pop_back on an empty vector is UB *)
Definition pop_back (s : scope_stack) : scope_stack * res unit :=
  match sc_names s with
  | [] => (s, UB)
  | _ => let n := removelast (sc_names s) in (mkScope n (reset_type_level n (sc_level s)), Ok tt)
  end.
(** scopestack.cpp:61-70: first entry, in key order, whose level + 1 is the size *)
Definition get_current_type (s : scope_stack) : scope_type :=
  match find (fun p => Nat.eqb (snd p + 1) (length (sc_names s))) (sc_level s) with
  | Some (t, _) => t
  | None => UNDEFINED
  end.

(** Call histories. *)
Inductive scope_op := Push (v : string) (t : scope_type) | Pop.
Definition scope_step (s : scope_stack) (o : scope_op) : scope_stack * res unit :=
  match o with Push v t => push_back s v t | Pop => pop_back s end.

(** ** RAII guards: autoscope.cpp:44-59.
    A program opens guards, throws and catches.  [Guard n t p] is
    [{ CAutoScope g(stack, n, t); p }]: a throwing constructor runs no destructor; the destructor runs
    on normal and exceptional exit.  The logging calls are not modelled. *)
Inductive prog :=
| Done
| Raise (e : errcode)
| Seq (p q : prog)
| Guard (n : string) (t : scope_type) (p : prog)
| Catch (p q : prog).       (* try { p } catch (...) { q } *)
Fixpoint exec (p : prog) (s : scope_stack) : scope_stack * res unit :=
  match p with
  | Done => (s, Ok tt)
  | Raise e => (s, Throw e)
  | Seq a b => match exec a s with (s1, Ok _) => exec b s1 | r => r end
  | Guard n t b =>
      match push_back s n t with
      | (s1, Ok _) =>
          let '(s2, r) := exec b s1 in
          (match r with
           | UB => (s2, UB)
           | _ => match pop_back s2 with (s3, Ok _) => (s3, r) | (s3, bad) => (s3, bad) end
           end)
      | (s1, bad) => (s1, bad)
      end
  | Catch a b => match exec a s with (s1, Throw _) => exec b s1 | r => r end
  end.

(** ** Scope names, scopestore.cpp *)
(** scopestore.cpp:46-61 (std::accumulate with a dot) *)
Definition dot_fold (first : string) (rest : list string) : string :=
  fold_left (fun a b => a ++ "." ++ b) rest first.
Definition GetCurrentScopeName (s : scope_stack) : string :=
  match sc_names s with [] => "" | h :: t => dot_fold h t end.
(** scopestore.cpp:63-81; depth is an int compared as unsigned with size(): a negative depth throws *)
Definition getCurrentScopeNameAt (s : scope_stack) (depth : Z) : res string :=
  if (orb (depth <? 0)%Z (Z.of_nat (length (sc_names s)) <? depth)%Z) then Throw INTERNAL_ERROR
  else if (depth =? 0)%Z then Ok ""
  else match firstn (Z.to_nat depth) (sc_names s) with [] => UB | h :: t => Ok (dot_fold h t) end.
Definition prefix_name (scope name : string) : string :=
  match scope with "" => name | _ => scope ++ "." ++ name end.
(** scopestore.cpp:83-93 *)
Definition GetScopedName (s : scope_stack) (name : string) : string := prefix_name (GetCurrentScopeName s) name.
(** scopestore.cpp:101-112 *)
Definition GetScopedNameAt (s : scope_stack) (name : string) (depth : Z) : res string :=
  do c <- getCurrentScopeNameAt s depth; Ok (prefix_name c name).
(** scopestore.cpp:95-99 *)
Definition GetScopedNameAtType (s : scope_stack) (name : string) (t : scope_type) : res string :=
  do l <- get_type_level s t; GetScopedNameAt s name (Z.of_nat l + 1).
(** scopestore.h:68: UInt8 getScopeDepth() *)
Definition getScopeDepth (s : scope_stack) : nat := (length (sc_names s) mod 256)%nat.
