(** Float64 values with the IEEE special values; finite values are exact rationals (rounding and signed zeros
    are not modelled, overflow is). *)
From Verif Require Import Base.
Open Scope Q_scope.

Inductive f64 := NaN | NInf | PInf | Fin (q : Q).

(** <cfloat>: DBL_MAX = (2^53 - 1) * 2^971, DBL_MIN = 2^-1022 *)
Definition DBL_MAX : Q := inject_Z ((2 ^ 53 - 1) * 2 ^ 971).
Definition DBL_MIN : Q := 1 # (2 ^ 1022).

(** result of an arithmetic operation whose exact value is x *)
Definition of_Q (x : Q) : f64 :=
  if Qltb DBL_MAX x then PInf else if Qltb x (- DBL_MAX) then NInf else Fin x.
(** multiplication and division of finite values *)
Definition fmul (a b : Q) : f64 := of_Q (a * b).
Definition fdiv (a b : Q) : f64 :=
  if Qeq_bool b 0 then (if Qeq_bool a 0 then NaN else if Qltb a 0 then NInf else PInf) else of_Q (a / b).

Definition is_finite (a : f64) : bool := match a with Fin _ => true | _ => false end.
(** a < b, false when a side is NaN *)
Definition flt (a b : f64) : bool :=
  match a, b with
  | NaN, _ | _, NaN => false
  | NInf, NInf => false | NInf, _ => true
  | _, NInf => false
  | PInf, _ => false
  | Fin _, PInf => true
  | Fin x, Fin y => Qltb x y
  end.

Lemma DBL_MAX_pos : 0 < DBL_MAX.
Proof. reflexivity. Qed.
Lemma DBL_MIN_pos : 0 < DBL_MIN.
Proof. reflexivity. Qed.
Lemma of_Q_fin x : Qabs x <= DBL_MAX -> of_Q x = Fin x.
Proof.
  intro H. apply Qabs_Qle_condition in H. unfold of_Q.
  destruct (Qltb_spec DBL_MAX x); [lra|]. destruct (Qltb_spec x (- DBL_MAX)); [lra|]. reflexivity.
Qed.
Global Opaque DBL_MAX DBL_MIN.
