(** Vocabulary for C53. *)
From Coq Require Import String.
From Coquelicot Require Import Coquelicot.
From Verif Require Import Base RBase LProfModel.
Open Scope R_scope.

(** [v] is the integral of [f] over the whole wavelength axis *)
Definition total_integral (f : R -> R) (v : R) : Prop := is_RInt_gen f (Rbar_locally m_infty) (Rbar_locally p_infty) v.
(** density of the skew normal law of location xi, scale w and shape a is (skew u a) / (w sqrt (2 PI)) with u = (x - xi) / w;
    [Phi2 x] is 2 / sqrt PI times the integral of exp (- t^2) from 0 to x *)
Definition Phi2 (x : R) : R := 2 / sqrt PI * RInt (fun t => exp (- (t * t))) 0 x.
Definition skew (a u : R) : R := exp (- (u * u / 2)) * (1 + Phi2 (a * u / sqrt 2)).
(** a profile with parameters c, a, d: none is NaN, and the shift is null when there is no centering *)
Definition aok (p : aprof) (c a d : R) : Prop :=
  ap_coeff p = Some c /\ ap_alpha p = Some a /\ ap_delta p = Some d /\ (ap_centering p = "none"%string -> d = 0).
