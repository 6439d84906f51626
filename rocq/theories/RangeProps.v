(** Properties C01-C09: ranges, grids over ranges, index lookups. *)
From Verif Require Import Base RangeModel RangeSpec RangeProofs RangeGridProofs.
Open Scope Q_scope.

(** C01 *)
Theorem C01_intersect_is_set_intersection : forall a b out, well_formed a -> well_formed b ->
  let '(ok, r) := Intersect a b out in
  (ok = true <-> exists x, inside a x /\ inside b x) /\
  (ok = HasIntersection a b) /\
  (ok = true -> well_formed r /\ forall x, inside r x <-> inside a x /\ inside b x) /\
  (ok = false -> r = out).
Proof. exact Intersect_spec. Qed.
Print Assumptions C01_intersect_is_set_intersection.
Example C01_nonvacuous :
  well_formed (mkRange 1 5) /\ well_formed (mkRange 3 9) /\
  Intersect (mkRange 1 5) (mkRange 3 9) (mkRange 0 0) = (true, mkRange 3 5) /\
  Intersect (mkRange 1 2) (mkRange 3 9) (mkRange 7 8) = (false, mkRange 7 8).
Proof. unfold well_formed; simpl. repeat split; try lra. Qed.

(** C02 *)
Theorem C02_union_is_set_union : forall a b out, well_formed a -> well_formed b ->
  let '(ok, r) := getUnion a b out in
  (ok = true <-> exists x, inside a x /\ inside b x) /\
  (ok = true -> well_formed r /\ forall x, inside r x <-> inside a x \/ inside b x) /\
  (ok = false -> r = out).
Proof. exact getUnion_spec. Qed.
Print Assumptions C02_union_is_set_union.
Example C02_nonvacuous :
  getUnion (mkRange 1 5) (mkRange 3 9) (mkRange 0 0) = (true, mkRange 1 9) /\
  getUnion (mkRange 1 2) (mkRange 3 9) (mkRange 7 8) = (false, mkRange 7 8).
Proof. split; reflexivity. Qed.

(** C03 *)
Theorem C03_join_keeps_coverage : forall l, l <> [] -> Forall well_formed l ->
  exists l', joinIntersections l = Ok l' /\ separated l' /\ Forall well_formed l' /\
    forall x, covered l' x <-> covered l x.
Proof. exact joinIntersections_spec. Qed.
Print Assumptions C03_join_keeps_coverage.
Theorem C03_join_empty_rejected : joinIntersections [] = Throw EMPTY_LIST.
Proof. exact eq_refl. Qed.
Print Assumptions C03_join_empty_rejected.
Example C03_nonvacuous :
  Forall well_formed [mkRange 5 7; mkRange 1 3; mkRange 2 4; mkRange 6 9] /\
  joinIntersections [mkRange 5 7; mkRange 1 3; mkRange 2 4; mkRange 6 9] = Ok [mkRange 1 4; mkRange 5 9].
Proof. split; [repeat constructor; unfold well_formed; simpl; lra | reflexivity]. Qed.

(** C04: exact on strictly increasing grids; the only exceptions are the three documented ones, and
    when one is thrown no sample is inside. *)
Theorem C04_closed_interval_exact : forall r l, strictly_increasing l ->
  match getClosedIntervalIndices r l with
  | Ok (i, j) => (i <= j < length l)%nat /\
       forall k x, nth_error l k = Some x -> (inside r x <-> (i <= k <= j)%nat)
  | Throw EMPTY_LIST => l = []
  | Throw CRANGE_VECTBORDERS_OUTSIDERANGE | Throw CRANGE_NO_INTERSECTION =>
       l <> [] /\ (well_formed r -> forall x, In x l -> ~ inside r x)
  | _ => False
  end.
Proof. exact getClosed_spec. Qed.
Print Assumptions C04_closed_interval_exact.
(** with repeated samples the upper index is the first repetition: samples are missed *)
Theorem C04_closed_interval_duplicates_refuted :
  exists r l i j, increasing l /\ getClosedIntervalIndices r l = Ok (i, j) /\
    exists k x, nth_error l k = Some x /\ inside r x /\ ~ (i <= k <= j)%nat.
Proof. exact getClosed_duplicates_refuted. Qed.
Print Assumptions C04_closed_interval_duplicates_refuted.
Example C04_nonvacuous : strictly_increasing [1; 2; 4; 8] /\
  getClosedIntervalIndices (mkRange (3#2) 5) [1; 2; 4; 8] = Ok (1%nat, 2%nat) /\
  getClosedIntervalIndices (mkRange 5 6) [1; 2; 4; 8] = Throw CRANGE_NO_INTERSECTION.
Proof. split; [|split; reflexivity].
  repeat (apply strictly_increasing_cons; [simpl; intros; intuition (subst; lra)|]).
  apply strictly_increasing_nil. Qed.

(** C05 *)
Theorem C05_enclosing_interval_brackets : forall r l, strictly_increasing l -> well_formed r ->
  match getEnclosingIntervalIndices r l with
  | Ok (i, j) => bracket_below l (rbeg r) i /\ bracket_above l (rend r) j
  | Throw EMPTY_LIST => l = []
  | Throw CRANGE_VECTBORDERS_OUTSIDERANGE =>
      l <> [] /\ ~ ((exists x, In x l /\ x <= rbeg r) /\ (exists y, In y l /\ rend r <= y))
  | _ => False
  end.
Proof. exact getEnclosing_spec. Qed.
Print Assumptions C05_enclosing_interval_brackets.
Theorem C05_enclosing_value_overload_agrees : forall r l v, inside r v ->
  getEnclosingIntervalIndices_value r l v = getEnclosingIntervalIndices r l.
Proof. exact getEnclosing_value_same. Qed.
Print Assumptions C05_enclosing_value_overload_agrees.
Theorem C05_enclosing_value_outside_throws : forall r l v, ~ inside r v ->
  getEnclosingIntervalIndices_value r l v = Throw CRANGE_VALUE_OUTSIDERANGE.
Proof. exact getEnclosing_value_outside. Qed.
Print Assumptions C05_enclosing_value_outside_throws.
(** without well-formedness the code dereferences end() *)
Theorem C05_enclosing_reversed_range_refuted :
  exists r l, strictly_increasing l /\ getEnclosingIntervalIndices r l = UB.
Proof. exact getEnclosing_reversed_UB. Qed.
Print Assumptions C05_enclosing_reversed_range_refuted.
Example C05_nonvacuous : well_formed (mkRange 3 5) /\
  getEnclosingIntervalIndices (mkRange 3 5) [1; 2; 4; 8] = Ok (1%nat, 3%nat).
Proof. split; [unfold well_formed; simpl; lra|reflexivity]. Qed.

(** C06 *)
Theorem C06_spread_over_uniform : forall r delta,
  well_formed r -> 0 < delta -> GetLength r / delta < int32_max ->
  exists v, SpreadOver r delta false = Ok v /\
    Z.of_nat (length v) = (Qfloor ((rend r - rbeg r) / delta) + 1)%Z /\
    arithmetic v (rbeg r) delta /\ (forall x, In x v -> inside r x) /\
    exists x, nth_error v (length v - 1) = Some x /\ rend r - delta < x.
Proof. exact SpreadOver_spec. Qed.
Print Assumptions C06_spread_over_uniform.
Theorem C06_spread_over_backward_uniform : forall r delta,
  well_formed r -> 0 < delta -> GetLength r / delta < int32_max ->
  exists v, SpreadOver r delta true = Ok v /\
    Z.of_nat (length v) = (Qfloor ((rend r - rbeg r) / delta) + 1)%Z /\
    (exists x0, arithmetic v x0 delta /\ x0 < rbeg r + delta) /\ (forall x, In x v -> inside r x) /\
    last_is v (rend r).
Proof. exact SpreadOver_backward_spec. Qed.
Print Assumptions C06_spread_over_backward_uniform.
Theorem C06_spread_over_epsilon_forward : forall r delta eps,
  well_formed r -> 0 <= eps -> eps < delta -> (GetLength r + eps) / delta < int32_max ->
  exists v, SpreadOverEpsilon r delta false eps = Ok v /\ v <> [] /\ first_is v (rbeg r) /\
    (forall x, In x v -> inside r x) /\ near_uniform v delta eps /\
    (forall i x, (S i < length v)%nat -> nth_error v i = Some x -> x == rbeg r + delta * inject_Z (Z.of_nat i)) /\
    exists x, nth_error v (length v - 1) = Some x /\ rend r - delta < x.
Proof. exact SpreadOverEpsilon_forward. Qed.
Print Assumptions C06_spread_over_epsilon_forward.
Theorem C06_spread_over_epsilon_backward : forall r delta eps,
  well_formed r -> 0 <= eps -> eps < delta -> (GetLength r + eps) / delta < int32_max ->
  exists v, SpreadOverEpsilon r delta true eps = Ok v /\ v <> [] /\ last_is v (rend r) /\
    (forall x, In x v -> inside r x) /\ near_uniform v delta eps /\
    (forall i x, (0 < i)%nat -> nth_error v i = Some x ->
        x == rend r - delta * inject_Z (Z.of_nat (length v - 1 - i))) /\
    exists x, nth_error v 0 = Some x /\ x < rbeg r + delta.
Proof. exact SpreadOverEpsilon_backward. Qed.
Print Assumptions C06_spread_over_epsilon_backward.
(** a negative step is not rejected: front() of an empty vector *)
Theorem C06_negative_step_refuted :
  exists r delta, well_formed r /\ delta < 0 /\ SpreadOverEpsilon r delta false default_epsilon = UB.
Proof. exact SpreadOverEpsilon_negative_step_UB. Qed.
Print Assumptions C06_negative_step_refuted.
Example C06_nonvacuous : well_formed (mkRange 1 2) /\ 0 < (1#3) /\
  GetLength (mkRange 1 2) / (1#3) < int32_max /\
  (match SpreadOver (mkRange 1 2) (1#3) false with Ok v => length v = 4%nat | _ => False end) /\
  (match SpreadOver (mkRange 1 2) (2#3) true with Ok v => length v = 2%nat | _ => False end).
Proof. repeat split; try reflexivity. unfold well_formed; simpl; lra. Qed.

(** C08 (linear sampling) *)
Theorem C08_centered_window_linear : forall r center delta,
  inside r center -> default_epsilon < delta ->
  (rend r - rbeg r + default_epsilon) / delta < int32_max ->
  exists v, spanCenteredWindow_lin r center delta = Ok v /\
    strictly_increasing v /\ (forall x, In x v -> inside r x) /\
    near_uniform v delta default_epsilon /\
    (exists i x, nth_error v i = Some x /\ x == center) /\
    (exists x, nth_error v 0 = Some x /\ x < rbeg r + delta) /\
    (exists x, nth_error v (length v - 1) = Some x /\ rend r - delta < x).
Proof. exact spanCenteredWindow_lin_spec. Qed.
Print Assumptions C08_centered_window_linear.
Example C08_nonvacuous : inside (mkRange 0 1) (1#2) /\ default_epsilon < (1#5) /\
  (1 - 0 + default_epsilon) / (1#5) < int32_max /\
  (match spanCenteredWindow_lin (mkRange 0 1) (1#2) (1#5) with
   | Ok [a; b; c; d; e] => c == 1#2 /\ a == 1#10 | _ => False end).
Proof. unfold inside; vm_compute; repeat split; discriminate || reflexivity. Qed.

(** C09 *)
Theorem C09_getIndex_exact : forall l z,
  match getIndex l z with
  | Ok i => (exists x, nth_error l i = Some x /\ x == z) /\
            (forall j y, (j < i)%nat -> nth_error l j = Some y -> ~ y == z)
  | Throw INTERNAL_ERROR => forall x, In x l -> ~ x == z
  | _ => False
  end.
Proof. exact getIndex_spec. Qed.
Print Assumptions C09_getIndex_exact.
Theorem C09_closest_lower_index : forall l v, increasing l -> l <> [] ->
  match getClosestLowerIndex l v with
  | Ok (Some i) => bracket_below l v i
  | Ok None => forall x, In x l -> v < x
  | _ => False
  end.
Proof. exact getClosestLowerIndex_spec. Qed.
Print Assumptions C09_closest_lower_index.
Theorem C09_closest_upper_index : forall l v, increasing l -> l <> [] ->
  match getClosestUpperIndex l v with
  | Ok (Some i) => bracket_above l v i
  | Ok None => forall x, In x l -> x < v
  | _ => False
  end.
Proof. exact getClosestUpperIndex_spec. Qed.
Print Assumptions C09_closest_upper_index.
Theorem C09_closer_index_is_nearest : forall l v, increasing l -> l <> [] ->
  exists i, getCloserIndex l v = Ok i /\ nearest l v i.
Proof. exact getCloserIndex_spec. Qed.
Print Assumptions C09_closer_index_is_nearest.
(** the empty vector is not rejected *)
Theorem C09_empty_vector_refuted : forall v,
  getCloserIndex [] v = UB /\ getClosestLowerIndex [] v = UB /\ getClosestUpperIndex [] v = UB.
Proof. exact indexing_empty_UB. Qed.
Print Assumptions C09_empty_vector_refuted.
(** the linear-scan model of std::lower_bound used everywhere agrees with the binary search *)
Theorem C09_lower_bound_is_binary_search : forall l v, increasing l ->
  bsearch (S (length l)) l v 0 (length l) = lower_bound l v.
Proof. exact bsearch_lower_bound. Qed.
Print Assumptions C09_lower_bound_is_binary_search.
Example C09_nonvacuous :
  getCloserIndex [1; 2; 4; 8] 5 = Ok 2%nat /\ getClosestLowerIndex [1; 2; 4; 8] 5 = Ok (Some 2%nat) /\
  getClosestUpperIndex [1; 2; 4; 8] 5 = Ok (Some 3%nat) /\ getIndex [1; 2; 4; 8] 4 = Ok 2%nat /\
  getClosestLowerIndex [1; 2] 0 = Ok None.
Proof. repeat split. Qed.

(** ** C48: clamping a value in a range *)
Theorem C48_clamp : forall r v, rbeg r <= rend r ->
  rbeg r <= Clamp r v /\ Clamp r v <= rend r /\ (rbeg r <= v -> v <= rend r -> Clamp r v = v) /\
  (forall w, rbeg r <= w -> w <= rend r -> Qabs (v - Clamp r v) <= Qabs (v - w)) /\
  Clamp r (Clamp r v) = Clamp r v.
Proof. exact Clamp_spec. Qed.
Print Assumptions C48_clamp.
Example C48_case : Clamp (mkRange 2 5) 7 = 5 /\ Clamp (mkRange 2 5) 1 = 2 /\ Clamp (mkRange 2 5) 3 = 3.
Proof. repeat split. Qed.
