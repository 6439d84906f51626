(** Real numbers extended with the IEEE special values, where the code computes with them.
    Simplification: signed zeros are not distinguished (x/0 takes the sign of x). *)
From Verif Require Import Base RBase.
Open Scope R_scope.

Inductive rx := XNaN | XInf (negative : bool) | XFin (r : R).

Definition xneg (a : rx) : rx :=
  match a with XNaN => XNaN | XInf s => XInf (negb s) | XFin r => XFin (- r) end.
Definition xadd (a b : rx) : rx :=
  match a, b with
  | XNaN, _ | _, XNaN => XNaN
  | XInf s, XInf t => if Bool.eqb s t then XInf s else XNaN
  | XInf s, XFin _ => XInf s
  | XFin _, XInf t => XInf t
  | XFin x, XFin y => XFin (x + y)
  end.
Definition xsub (a b : rx) : rx := xadd a (xneg b).
Definition xdiv (a b : rx) : rx :=
  match a, b with
  | XNaN, _ | _, XNaN => XNaN
  | XInf _, XInf _ => XNaN
  | XFin _, XInf _ => XFin 0
  | XInf s, XFin y => XInf (xorb s (Rltb y 0))
  | XFin x, XFin y =>
      if Reqb y 0 then (if Reqb x 0 then XNaN else XInf (Rltb x 0)) else XFin (x / y)
  end.
Definition xabs (a : rx) : rx :=
  match a with XNaN => XNaN | XInf _ => XInf false | XFin r => XFin (Rabs r) end.
(** std::log *)
Definition xlog (a : rx) : rx :=
  match a with
  | XNaN => XNaN
  | XInf false => XInf false
  | XInf true => XNaN
  | XFin r => if Rltb 0 r then XFin (ln r) else if Reqb r 0 then XInf true else XNaN
  end.
(** a > b; false as soon as one side is NaN *)
Definition xgt (a b : rx) : bool :=
  match a, b with
  | XNaN, _ | _, XNaN => false
  | XInf s, XInf t => (negb s && t)%bool
  | XInf s, XFin _ => negb s
  | XFin _, XInf t => t
  | XFin x, XFin y => Rltb y x
  end.
