(** What is expected of the redshift error. *)
From Verif Require Import Base RBase.
Open Scope R_scope.

(** samples at most [h] indices away from [iz] *)
Definition window {A} (h iz : nat) (l : list A) : list A := skipn (iz - h) (firstn (iz + h + 1) l).
(** centred samples ((z - z0)^2, logpdf(z0) - logpdf(z)) *)
Definition centred (z pdf : list R) (x0 y0 : R) : list (R * R) :=
  map (fun q => ((fst q - x0) ^ 2, y0 - snd q)) (combine z pdf).
(** distance of the parabola y = c x^2 to the samples *)
Fixpoint residual (l : list (R * R)) (c : R) : R :=
  match l with [] => 0 | (x2, y) :: t => (y - c * x2) ^ 2 + residual t c end.
(** [c] is the least-squares curvature of the samples around [iz], within [h] indices *)
Definition curvature (z pdf : list R) (iz h : nat) (c : R) : Prop :=
  exists x0 y0, nth_error z iz = Some x0 /\ nth_error pdf iz = Some y0 /\
    forall c', c' <> c -> residual (centred (window h iz z) (window h iz pdf) x0 y0) c <
                          residual (centred (window h iz z) (window h iz pdf) x0 y0) c'.
