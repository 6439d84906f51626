(** Model of COperatorLineModel::SpanRedshiftWindow with logarithmic sampling (RedshiftLibrary/src/lib/operator/linemodel.cpp:600-613), over the reals. *)
From Verif Require Import Base RBase RangeLogModel.
Open Scope R_scope.

(** range.h:380-399 over the reals, into the range itself *)
Definition intersectR (a b : rrange) : rrange :=
  if Rleb (Rmaxb (rb a) (rb b)) (Rminb (re a) (re b)) then mkRR (Rmaxb (rb a) (rb b)) (Rminb (re a) (re b)) else a.
(** linemodel.cpp:603-606 *)
Definition half_r (h z : R) : R := (exp h - 1) * (1 + z).
Definition half_l (h z : R) : R := (1 - exp (- h)) * (1 + z).
(** linemodel.cpp:600-613; the epsilon is the default argument of range.h:247 *)
Definition SpanRedshiftWindow_log (g : list R) (h step z : R) : res (list R) :=
  let w := intersectR (mkRR (z - half_l h z) (z + half_r h z)) (mkRR (hd 0 g) (last g 0)) in
  spanCenteredWindow_log w z step (/ 100000000).
