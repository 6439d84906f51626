(** Ranges of redshifts with the same igm correction. *)
From Verif Require Import Base.
Open Scope Q_scope.

(** the indices of a range *)
Definition indices (r : Z * Z) : list nat := seq (Z.to_nat (fst r)) (Z.to_nat (snd r + 1) - Z.to_nat (fst r)).
(** the redshift above which the first wavelength [lambda0] of the spectrum is below Lyman-alpha (1216) at rest *)
Definition igm_start (lambda0 : Q) : Q := lambda0 / 1216 - 1.
(** the values at which the correction may change: the igm start and the bins above it, the last bin
    boundary excepted *)
Definition threshold (lambda0 : Q) (bins : list Q) (t : Q) : Prop :=
  t = igm_start lambda0 \/ In t (removelast bins) /\ igm_start lambda0 < t.
(** two thresholds inside the grid always have a redshift between them *)
Definition separated (lambda0 : Q) (bins zs : list Q) : Prop :=
  forall t1 t2 fr bk, threshold lambda0 bins t1 -> threshold lambda0 bins t2 -> t1 < t2 ->
    nth_error zs 0 = Some fr -> nth_error zs (length zs - 1) = Some bk -> fr < t1 -> t2 < bk ->
    exists z, In z zs /\ t1 < z /\ z <= t2.
(** consecutive non-empty ranges from [b] to [n]-1 *)
Fixpoint nonempty_chain (b : Z) (l : list (Z * Z)) (n : Z) : Prop :=
  match l with
  | [] => b = n
  | (b', e) :: r => b' = b /\ (b <= e)%Z /\ nonempty_chain (e + 1) r n
  end.
(** cell [k] of the grid contains [t]: z_k <= t < z_(k+1) *)
Definition in_cell (zs : list Q) (t : Q) (k : nat) : Prop :=
  exists x y, nth_error zs k = Some x /\ nth_error zs (S k) = Some y /\ x <= t /\ t < y.
