(** Vocabulary for C44. *)
From Coq Require Import String.
From Verif Require Import Base AirVacModel.
Open Scope Q_scope.

Definition iterative (c : conv) : Prop := In c [edlen1953; edlen1966; PeckReeder1972; ciddor1996].
Definition known (c : conv) : Prop := In c [edlen1953; edlen1966; PeckReeder1972; ciddor1996; morton2000].
(** the wavelengths the converter accepts *)
Definition accepted (c : conv) (w : Q) : Prop := k_min c <= w /\ match k_max c with None => True | Some m => w <= m end.

(** the published dispersion formulas, sigma in inverse micrometers, wavelength in Angstroms *)
Definition published_index (name : string) (w : Q) : Q :=
  let s2 := (10000 / w) * (10000 / w) in
  if String.eqb name "edlen1953" then 1 + (64328 # 1000000000) + (294981 # 10000000) / (146 - s2) + (25540 # 100000000) / (41 - s2) else
  if String.eqb name "edlen1966" then 1 + (834213 # 10000000000) + (2406030 # 100000000) / (130 - s2) + (15997 # 100000000) / ((389 # 10) - s2) else
  if String.eqb name "PeckReeder1972" then 1 + (5791817 # 100000000) / ((2380185 # 10000) - s2) + (167909 # 100000000) / ((57362 # 1000) - s2) else
  if String.eqb name "ciddor1996" then 1 + (5792105 # 100000000) / ((2380185 # 10000) - s2) + (167917 # 100000000) / ((57362 # 1000) - s2) else
  1 + (834254 # 10000000000) + (2406147 # 100000000) / (130 - s2) + (15998 # 100000000) / ((389 # 10) - s2).
(** an air wavelength [a] of the vacuum wavelength [w], and its order of magnitude *)
Definition air_pair (c : conv) (w a : Q) : Prop := a * refractive c w == w /\ w * (1 - (33 # 100000)) < a /\ a < w * (1 - (26 # 100000)).
(** a vacuum wavelength [v] of the air wavelength [a]: above it, and converting [v] back gives [a] up to 1.1e-7 of itself *)
Definition vac_pair (c : conv) (a v : Q) : Prop := a < v /\ Qabs (v / refractive c v - a) < (11 # 100000000) * a.
