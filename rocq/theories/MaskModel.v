(** Model of RedshiftLibrary/src/lib/common/mask.cpp and common/mask.h (CMask), and of
    src/lib/common/flag.cpp (CFlagWarning).
    A mask is a vector of UInt8 (datatypes.h:93), modelled as [list N]; a value written to it is reduced
    modulo 256.  Simplification: the Int32 sums are unbounded here (in C++ they are exact below 2^31,
    i.e. below 8421505 samples of value 255). *)
From Coq Require Import NArith String.
From Verif Require Import Base.
Open Scope N_scope.

Definition mask := list N.
(** a vector of bytes *)
Definition bytes (m : mask) : Prop := Forall (fun b => b < 256) m.

(** mask.h:55-56 CMask(weightsCount, defaultValue); a negative count is std::length_error *)
Definition MaskMake (n : Z) (defaultValue : Z) : res mask :=
  if (n <? 0)%Z then Throw STD_length_error
  else Ok (repeat (Z.to_N (Z.modulo defaultValue 256)) (Z.to_nat n)).

(** the loops of mask.cpp:52-54 and 69-71 *)
Fixpoint and_masks (a b : mask) : mask :=
  match a, b with x :: s, y :: t => N.land x y :: and_masks s t | _, _ => [] end.

(** mask.cpp:48-57 *)
Definition MaskAndAssign (self other : mask) : mask :=
  if Nat.eqb (length self) (length other) then and_masks self other else self.
(** mask.cpp:62-74: (returned flag, new mask) *)
Definition MaskIntersectWith (self other : mask) : bool * mask :=
  if Nat.eqb (length self) (length other) then (true, and_masks self other) else (false, self).

Fixpoint sum_mask (m : mask) : Z := match m with [] => 0%Z | x :: t => (Z.of_N x + sum_mask t)%Z end.
(** mask.h:90-96 *)
Definition GetUnMaskedSampleCount (m : mask) : Z := sum_mask m.
(** mask.h:84-86 *)
Definition GetMaskedSampleCount (m : mask) : Z := (Z.of_nat (length m) - GetUnMaskedSampleCount m)%Z.

(** mask.cpp:79-107 *)
Definition CompouteOverlapFraction (self other : mask) : Q :=
  if negb (Nat.eqb (length other) (length self)) then (-1)%Q
  else if (sum_mask self =? 0)%Z then 0%Q
  else (inject_Z (sum_mask other) / inject_Z (sum_mask self))%Q.
(** mask.cpp:112-131 *)
Definition IntersectAndComputeOverlapFraction (self other : mask) : Q :=
  if negb (Nat.eqb (length other) (length self)) then (-1)%Q
  else if (sum_mask self =? 0)%Z then 0%Q
  else (inject_Z (sum_mask (and_masks other self)) / inject_Z (sum_mask self))%Q.

(** ** Warning flags, flag.cpp *)
(** warningcodes.i:1-21: codes 0..17; Int32 m_flags is a static object's member, hence starts at 0
    (singleton.h:56-59, static storage).  [1 << c] stays below 2^18, so the Int32 word is modelled by N. *)
Record flag_state := mkFlag { f_bits : N; f_messages : list (N * string) }.
Definition flag_init : flag_state := mkFlag 0 [].
Inductive flag_op :=
| OpWarning (code : N) (msg : string)       (* flag.cpp:52-56 (the variadic overload 58-67 forwards here) *)
| OpReset.                                   (* flag.cpp:71-74 *)
(** flag.cpp:52-56, 71-74.  Simplification: the log line written by warning() is not part of the state. *)
Definition flag_step (s : flag_state) (o : flag_op) : flag_state :=
  match o with
  | OpWarning c m => mkFlag (N.lor (f_bits s) (N.shiftl 1 c)) (f_messages s ++ [(c, m)])
  | OpReset => mkFlag 0 []
  end.
Definition flag_run (ops : list flag_op) : flag_state := fold_left flag_step ops flag_init.
(** flag.cpp:69 and 76 *)
Definition getBitMask (s : flag_state) : N := f_bits s.
Definition getListMessages (s : flag_state) : list (N * string) := f_messages s.
