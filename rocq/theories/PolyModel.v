(** Model of the degree-2 polynomials (C46): RedshiftLibrary/src/lib/common/polynom.cpp and common/polynom.h.
    Coefficients are exact rationals; NaN defaults (a default-constructed polynomial) are not modelled. *)
From Verif Require Import Base.
Open Scope Q_scope.

(** polynom.h:46-61 *)
Record polynom := mkPoly { a0 : Q; a1 : Q; a2 : Q }.

(** polynom.cpp:46-55; degree = 2 (polynom.h:56) *)
Definition ofList (c : list Q) : res polynom :=
  if Nat.leb (length c) 2 then Throw INTERNAL_ERROR else
  do x0 <- vget c 0; do x1 <- vget c 1; do x2 <- vget c 2; Ok (mkPoly x0 x1 x2).

(** polynom.cpp:57-62 *)
Definition getValue (p : polynom) (x : Q) : Q := a0 p + a1 p * x + a2 p * x * x.
(** polynom.cpp:64-70 *)
Definition getValueAndGrad (p : polynom) (x : Q) : Q * list Q :=
  (1 * a0 p + x * a1 p + x * x * a2 p, [1; x; x * x]).

(** polynom.h:63-83: the stored coefficients, the reduced origin and the scale *)
Record npolynom := mkNPoly { n0 : Q; n1 : Q; n2 : Q; x0red : Q; scale : Q }.

(** polynom.h:66-67; the coefficients are NaN until setCoeffs is called, here any values *)
Definition construct (x0 sc c0 c1 c2 : Q) : npolynom := mkNPoly c0 c1 c2 (- x0 / sc) sc.

(** polynom.cpp:74-79 *)
Definition getCoeffs (p : npolynom) : Q * Q * Q :=
  (n0 p + n1 p * x0red p + n2 p * x0red p * x0red p, (n1 p + 2 * n2 p * x0red p) / scale p, n2 p / (scale p * scale p)).

(** polynom.cpp:81-86: a1 uses the new a2, a0 the new a1 and a2 *)
Definition setCoeffs (p : npolynom) (c0 c1 c2 : Q) : npolynom :=
  let m2 := c2 * scale p * scale p in
  let m1 := c1 * scale p - 2 * m2 * x0red p in
  let m0 := c0 - m1 * x0red p - m2 * x0red p * x0red p in
  mkNPoly m0 m1 m2 (x0red p) (scale p).

(** polynom.cpp:88-94 *)
Definition ngetValue (p : npolynom) (x : Q) : Q :=
  let xred := x / scale p + x0red p in n0 p + n1 p * xred + n2 p * xred * xred.
(** polynom.cpp:96-104 *)
Definition ngetValueAndGrad (p : npolynom) (x : Q) : Q * list Q :=
  let xred := x / scale p + x0red p in
  (1 * n0 p + xred * n1 p + xred * xred * n2 p, [1; xred; xred * xred]).
