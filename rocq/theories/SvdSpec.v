(** Vocabulary for C69. *)
From Verif Require Import Base SvdModel.
Open Scope Q_scope.

Fixpoint dot (u v : list Q) : Q := match u, v with a :: u', b :: v' => a * b + dot u' v' | _, _ => 0 end.
(** the weighted sum of squares of a linear problem *)
Fixpoint squares (rows : list obs) (c : list Q) : Q :=
  match rows with [] => 0 | r :: t => o_w r * ((o_y r - dot (o_row r) c) * (o_y r - dot (o_row r) c)) + squares t c end.
(** a solver of linear least squares with k unknowns: the solution minimises the sum of squares *)
Definition exact (solve : nat -> list obs -> list Q * list Q) : Prop :=
  forall k rows, (forall r, In r rows -> 0 <= o_w r /\ length (o_row r) = k) ->
    length (fst (solve k rows)) = k /\ length (snd (solve k rows)) = k /\
    forall c, length c = k -> squares rows (fst (solve k rows)) <= squares rows c.

(** the elements es with the amplitudes a, and a polynomial, at the sample i *)
Fixpoint lines_at (col : nat -> nat -> Q) (es : list nat) (a : list Q) (i : nat) : Q :=
  match es, a with e :: es', x :: a' => x * col e i + lines_at col es' a' i | _, _ => 0 end.
Definition poly_at (p : Q * Q * Q) (x : Q) : Q := fst (fst p) + snd (fst p) * x + snd p * (x * x).
(** the chi square of the elements over samples *)
Fixpoint chi2 (axis flux err : nat -> Q) (col : nat -> nat -> Q) (es : list nat) (a : list Q) (p : Q * Q * Q) (xs : list nat) : Q :=
  match xs with
  | [] => 0
  | i :: t => let d := (flux i - lines_at col es a i - poly_at p (axis i)) / err i in d * d + chi2 axis flux err col es a p t
  end.
Definition no_poly : Q * Q * Q := (0, 0, 0).
(** the amplitudes a and the polynomial p minimise the chi square over all amplitudes, and all polynomials if there are some *)
Definition best_joint (axis flux err : nat -> Q) (col : nat -> nat -> Q) (offs : bool) (es : list nat) (xs : list nat) (a : list Q) (p : Q * Q * Q) : Prop :=
  length a = length es /\ (offs = false -> p = no_poly) /\
  forall b q, length b = length es -> (offs = false -> q = no_poly) -> chi2 axis flux err col es a p xs <= chi2 axis flux err col es b q xs.
(** the amplitudes of the elements in a state *)
Definition has_amps (s : sst) (es : list nat) (a : list Q) : Prop := map (s_amp s) es = map Some a.
(** nothing changes but for the elements es *)
Definition only (es : list nat) (s s' : sst) : Prop :=
  forall e, ~ In e es -> s_amp s' e = s_amp s e /\ s_std s' e = s_std s e /\ s_poly s' e = s_poly s e.
Definition not_negative (a : option Q) : Prop := match a with Some v => 0 <= v | None => True end.
(** the elements whose amplitude is not negative *)
Definition kept (es : list nat) (a : list Q) : list nat := map fst (filter (fun p => negb (Qltb (snd p) 0)) (combine es a)).
(** the weights of the samples *)
Fixpoint weights (err : nat -> Q) (xs : list nat) : Q := match xs with [] => 0 | i :: t => 1 / (err i * err i) + weights err t end.
Definition same_amp (a b : option Q) : Prop := match a, b with Some x, Some y => x == y | None, None => True | _, _ => False end.
