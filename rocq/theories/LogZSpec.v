(** Specification vocabulary for C77. *)
From Verif Require Import Base RangeModel RangeSpec ZGridModel LogZModel.
Open Scope Q_scope.

(** the samples (z, v) are the two ends of an interval of the tabulated curve, and (x, y) is on the segment they span *)
Definition on_segment (zs : list Q) (vs : list flt) (x y : Q) : Prop :=
  exists i xl xh yl yh, nth_error zs i = Some xl /\ nth_error zs (S i) = Some xh /\
    nth_error vs i = Some (Some yl) /\ nth_error vs (S i) = Some (Some yh) /\
    xl <= x /\ x <= xh /\ (y - yl) * (xh - xl) == (x - xl) * (yh - yl).

(** between the first and the last tabulated redshift *)
Definition covered_by (zs : list Q) (x : Q) : Prop :=
  exists a b, nth_error zs 0 = Some a /\ nth_error zs (length zs - 1) = Some b /\ a <= x /\ x <= b.

(** a curve that can be interpolated: one number per redshift, at least two, increasing redshifts *)
Definition curve (p : zpdf) : Prop :=
  strictly_increasing (p_z p) /\ length (p_val p) = length (p_z p) /\ (2 <= length (p_z p))%nat /\
  (forall v, In v (p_val p) -> v <> None).

(** [p'] is [p] resampled linearly on [target] *)
Definition resampled (p p' : zpdf) (target : list Q) : Prop :=
  p_z p' = target /\ length (p_val p') = length target /\
  forall k x, nth_error target k = Some x ->
    (covered_by (p_z p) x -> exists y, nth_error (p_val p') k = Some (Some y) /\ on_segment (p_z p) (p_val p) x y) /\
    (~ covered_by (p_z p) x -> nth_error (p_val p') k = Some None).

(** the parameters of the object describe the list [ps] *)
Definition described (p : zpdf) (ps : list zparam) : Prop :=
  p_center p = map zp_center ps /\ p_min p = map (fun q => rbeg (zp_range q)) ps /\
  p_max p = map (fun q => rend (zp_range q)) ps /\ p_step p = map zp_step ps.

(** NaN values: a resampled value is NaN as soon as one of its two neighbours is *)
Definition nan_between (zs : list Q) (vs : list flt) (x : Q) : Prop :=
  exists i xl xh, nth_error zs i = Some xl /\ nth_error zs (S i) = Some xh /\ xl < x /\ x < xh /\
    (nth_error vs i = Some None \/ nth_error vs (S i) = Some None).

