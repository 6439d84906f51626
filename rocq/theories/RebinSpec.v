(** Specification vocabulary for rebinning (C23, C24). *)
From Verif Require Import Base RangeSpec RebinModel.
Open Scope Q_scope.

(** well formed source: sorted wavelengths, one flux and one noise value per wavelength *)
Definition wf_source (s : source) : Prop :=
  strictly_increasing (s_X s) /\ length (s_Y s) = length (s_X s) /\ length (s_E s) = length (s_X s).

(** the range lies inside the source axis *)
Definition range_inside (s : source) (b e : Q) : Prop :=
  exists x0 xl, nth_error (s_X s) 0 = Some x0 /\ nth_error (s_X s) (length (s_X s) - 1) = Some xl /\
    x0 <= b /\ e <= xl.

(** [v] is at fraction (x - xk)/(xk1 - xk) of the way from [vk] to [vk1] *)
Definition on_segment (xk xk1 vk vk1 x v : Q) : Prop :=
  (v - vk) * (xk1 - xk) == (vk1 - vk) * (x - xk).

(** the source interval [k, k+1] holds x, and the interpolated value at x of the table V is v *)
Definition interpolates (s : source) (V : list Q) (k : nat) (x v : Q) : Prop :=
  exists xk xk1 vk vk1,
    nth_error (s_X s) k = Some xk /\ nth_error (s_X s) (S k) = Some xk1 /\
    nth_error V k = Some vk /\ nth_error V (S k) = Some vk1 /\
    xk <= x /\ x <= xk1 /\ on_segment xk xk1 vk vk1 x v.

(** variance propagated by the linear combination (1-t) a + t b of two independent samples *)
Definition propagated_variance (s : source) (k : nat) (x v : Q) : Prop :=
  exists xk xk1 ek ek1,
    nth_error (s_X s) k = Some xk /\ nth_error (s_X s) (S k) = Some xk1 /\
    nth_error (s_E s) k = Some ek /\ nth_error (s_E s) (S k) = Some ek1 /\
    v * ((xk1 - xk) * (xk1 - xk)) ==
      (ek * (xk1 - x)) * (ek * (xk1 - x)) + (ek1 * (x - xk)) * (ek1 * (x - xk)).

(** step of the target grid at index i (the previous step for the last sample), step of the source at k *)
Definition target_step (Xt : list Q) (i : nat) (d : Q) : Prop :=
  exists a b, d == b - a /\
   ((nth_error Xt i = Some a /\ nth_error Xt (S i) = Some b) \/
    (S i = length Xt /\ exists p, i = S p /\ nth_error Xt p = Some a /\ nth_error Xt i = Some b)).
Definition source_step (s : source) (k : nat) (d : Q) : Prop :=
  exists a b, d == b - a /\
   ((nth_error (s_X s) k = Some a /\ nth_error (s_X s) (S k) = Some b) \/
    (S k = length (s_X s) /\ exists p, k = S p /\ nth_error (s_X s) p = Some a /\ nth_error (s_X s) k = Some b)).

(** noise expected at target index i for the linear operator using source interval k *)
Definition lin_noise (opt : opt_error) (s : source) (Xt : list Q) (i k : nat) (x : Q) (e : err) : Prop :=
  match opt with
  | OptRebin => exists v, e = EVal v /\ interpolates s (s_E s) k x v
  | OptRebinVariance => exists v c ds dt, e = ESqrt2 v c /\ propagated_variance s k x v /\
      source_step s k ds /\ target_step Xt i dt /\ c * dt == ds
  | _ => e = EVal 1
  end.
Definition outside_noise (opt : opt_error) (e : err) : Prop :=
  match opt with OptRebin | OptRebinVariance => e = EInf | _ => e = EVal 1 end.

(** Target wavelengths reached by the linear operator: not before the range, and not after the first source sample
    beyond the range end. *)
Definition lin_reached (s : source) (b e x : Q) : Prop :=
  b <= x /\ exists k xk xk1, nth_error (s_X s) k = Some xk /\ nth_error (s_X s) (S k) = Some xk1 /\
    xk <= e /\ x <= xk1.

(** noise expected at target index i for the NGP operator using source sample k *)
Definition ngp_noise (opt : opt_error) (s : source) (Xt : list Q) (i k : nat) (e : err) : Prop :=
  match opt with
  | OptNo => e = EVal 1
  | OptRebinVariance => exists ek c ds dt, nth_error (s_E s) k = Some ek /\ e = EScaled ek c /\
      source_step s k ds /\ target_step Xt i dt /\ c * dt == ds
  | _ => exists ek, nth_error (s_E s) k = Some ek /\ e = EVal ek
  end.
