(** Properties C11 (masks) and C12 (warning flags). *)
From Coq Require Import NArith String.
From Verif Require Import Base MaskModel MaskSpec MaskProofs.
Open Scope N_scope.

Theorem C11_intersection_is_samplewise_and : forall a b,
  (length a = length b -> exists m, MaskIntersectWith a b = (true, m) /\ length m = length a /\
     forall i x y, nth_error a i = Some x -> nth_error b i = Some y -> nth_error m i = Some (N.land x y)) /\
  (length a <> length b -> MaskIntersectWith a b = (false, a)) /\
  MaskAndAssign a b = snd (MaskIntersectWith a b).
Proof. exact IntersectWith_spec. Qed.
Print Assumptions C11_intersection_is_samplewise_and.

Theorem C11_overlap_fraction : forall a b,
  (length a <> length b -> IntersectAndComputeOverlapFraction a b = (-1)%Q /\ CompouteOverlapFraction a b = (-1)%Q) /\
  (length a = length b ->
     (0 <= IntersectAndComputeOverlapFraction a b /\ IntersectAndComputeOverlapFraction a b <= 1)%Q /\
     (binary a -> binary b ->
        if Nat.eqb (number_kept a) 0 then IntersectAndComputeOverlapFraction a b = 0%Q
        else IntersectAndComputeOverlapFraction a b =
             (inject_Z (Z.of_nat (number_kept_by_both a b)) / inject_Z (Z.of_nat (number_kept a)))%Q)).
Proof. exact overlap_spec. Qed.
Print Assumptions C11_overlap_fraction.

Theorem C11_counts : forall m, binary m ->
  GetUnMaskedSampleCount m = Z.of_nat (number_kept m) /\
  GetMaskedSampleCount m = (Z.of_nat (length m) - Z.of_nat (number_kept m))%Z.
Proof. exact count_spec. Qed.
Print Assumptions C11_counts.

(** The other overlap routine is not a fraction: it can exceed 1. *)
Theorem C11_plain_overlap_in_unit_refuted : exists a b, binary a /\ binary b /\ length a = length b /\
  (1 < CompouteOverlapFraction a b)%Q.
Proof. exact CompouteOverlapFraction_above_one. Qed.
Print Assumptions C11_plain_overlap_in_unit_refuted.

Example C11_nonvacuous :
  binary [1;1;0;1] /\ binary [0;1;1;1] /\ number_kept [1;1;0;1] = 3%nat /\
  MaskIntersectWith [1;1;0;1] [0;1;1;1] = (true, [0;1;0;1]) /\
  IntersectAndComputeOverlapFraction [1;1;0;1] [0;1;1;1] = (2 # 3)%Q /\
  number_kept_by_both [1;1;0;1] [0;1;1;1] = 2%nat /\
  GetUnMaskedSampleCount [1;1;0;1] = 3%Z /\ GetMaskedSampleCount [1;1;0;1] = 1%Z.
Proof. unfold binary. repeat split; auto 8. Qed.

Theorem C12_flags_are_warnings_since_reset : forall ops,
  getListMessages (flag_run ops) = warnings (since_reset ops) /\
  forall k, N.testbit (getBitMask (flag_run ops)) k = true <-> exists m, In (k, m) (warnings (since_reset ops)).
Proof. exact flag_history. Qed.
Print Assumptions C12_flags_are_warnings_since_reset.

Theorem C12_flag_word_fits : forall ops, (forall c m, In (OpWarning c m) ops -> c < 18) ->
  getBitMask (flag_run ops) < 2 ^ 18.
Proof. exact flag_word_fits. Qed.
Print Assumptions C12_flag_word_fits.

Example C12_nonvacuous :
  let h := [OpWarning 3 "a"; OpWarning 1 "b"; OpReset; OpWarning 5 "c"; OpWarning 0 "d"; OpWarning 5 "e"] in
  since_reset h = [OpWarning 5 "c"; OpWarning 0 "d"; OpWarning 5 "e"] /\
  getBitMask (flag_run h) = 33 /\
  getListMessages (flag_run h) = [(5, "c"%string); (0, "d"%string); (5, "e"%string)].
Proof. repeat split. Qed.
