(** Property C10: the median and mean routines. *)
From Verif Require Import Base MedianModel MedianSpec MedianProofs.
Open Scope Q_scope.

(** Every non-empty sample has a median; the returned value by parity and size. *)
Theorem C10_median_value : forall v, v <> [] ->
  exists m, Find v = Ok m /\
  (if Nat.odd (length v) then order_statistic v (Nat.div2 (length v)) m
   else if Nat.leb (length v) 1000
   then exists lo hi, m = (1#2) * (lo + hi) /\
        order_statistic v (Nat.div2 (length v) - 1) lo /\ order_statistic v (Nat.div2 (length v)) hi
   else order_statistic v (Nat.div2 (length v) - 1) m).
Proof. exact Find_spec. Qed.
Print Assumptions C10_median_value.

Theorem C10_median_splits_sample_in_halves : forall v m, Find v = Ok m -> weak_median v m.
Proof. exact Find_weak_median. Qed.
Print Assumptions C10_median_splits_sample_in_halves.

Theorem C10_median_order_independent : forall v w a b,
  Permutation v w -> Find v = Ok a -> Find w = Ok b -> a == b.
Proof. exact Find_perm. Qed.
Print Assumptions C10_median_order_independent.

(** The usual convention (mid-point of the two middle values for an even size) is not followed above
    1000 samples: the lower middle value is returned. *)
Theorem C10_even_midpoint_refuted : exists v m lo hi, Find v = Ok m /\ Nat.even (length v) = true /\
  order_statistic v (Nat.div2 (length v) - 1) lo /\ order_statistic v (Nat.div2 (length v)) hi /\
  ~ m == (1#2) * (lo + hi).
Proof. exact Find_even_large_refuted. Qed.
Print Assumptions C10_even_midpoint_refuted.

(** No guard on an empty sample: the first element is dereferenced. *)
Theorem C10_empty_sample_refuted : Find [] = UB.
Proof. exact Find_empty_UB. Qed.
Print Assumptions C10_empty_sample_refuted.

Theorem C10_mean_between_extremes : forall v lo hi, v <> [] -> (forall x, In x v -> lo <= x /\ x <= hi) ->
  exists m, MeanFind v = Ok m /\ lo <= m /\ m <= hi /\ m * inject_Z (Z.of_nat (length v)) == qsum v.
Proof. exact MeanFind_bounds. Qed.
Print Assumptions C10_mean_between_extremes.

Example C10_nonvacuous :
  Find [3; 9; 1; 7; 5; 2; 8; 4; 6] = Ok 5 /\ Find [4; 1; 3; 2; 10; 8] = Ok (7 # 2) /\
  Find [9; 1; 1; 8; 7; 2; 2] = Ok 2 /\
  Find (map (fun k => inject_Z (Z.of_nat (k * 7 mod 11))) (seq 0 1001)) = Ok 5.
Proof. repeat split; vm_compute; reflexivity. Qed.
