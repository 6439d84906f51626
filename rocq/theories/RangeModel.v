(** Model of RedshiftLibrary/RedshiftLibrary/common/range.h (CRange<Float64>, no-log part) and
    RedshiftLibrary/RedshiftLibrary/common/indexing.h (CIndexing<Float64>).
    Float64 is modelled by exact rationals: the comparison-only functions are exact, the grid
    builders ignore rounding. *)
From Verif Require Import Base.
Open Scope Q_scope.

(** range.h:57-62, 437-438  CRange<T>: a pair (m_Begin, m_End); nothing enforces begin <= end. *)
Record range := mkRange { rbeg : Q; rend : Q }.

(** range.h:70 *)
Definition GetIsEmpty (r : range) : bool := Qeq_bool (rbeg r) (rend r).
(** range.h:124 *)
Definition GetLength (r : range) : Q := rend r - rbeg r.
(** range.h:94-96 *)
Definition range_add (a b : range) : range := mkRange (rbeg a + rbeg b) (rend a + rend b).
(** range.h:110-114 *)
Definition range_lt (a b : range) : bool :=
  if Qeq_bool (rbeg a) (rbeg b) then Qltb (rend a) (rend b) else Qltb (rbeg a) (rbeg b).
(** range.h:130 *)
Definition Clamp (r : range) (v : Q) : Q :=
  if Qltb v (rbeg r) then rbeg r else if Qltb (rend r) v then rend r else v.

(** range.h:380-383 *)
Definition HasIntersection (a b : range) : bool :=
  Qle_bool (Qmaxb (rbeg a) (rbeg b)) (Qminb (rend a) (rend b)).
(** range.h:390-399; the out parameter [intersect] is threaded: (returned bool, new value). *)
Definition Intersect (a b intersect : range) : bool * range :=
  if HasIntersection a b
  then (true, mkRange (Qmaxb (rbeg a) (rbeg b)) (Qminb (rend a) (rend b)))
  else (false, intersect).
(** range.h:401-408 *)
Definition getUnion (a b ab : range) : bool * range :=
  if HasIntersection a b
  then (true, mkRange (Qminb (rbeg a) (rbeg b)) (Qmaxb (rend a) (rend b)))
  else (false, ab).
(** range.h:388 and 409: the output aliases [*this]. *)
Definition IntersectWith (a r : range) : bool * range := Intersect a r a.
Definition unionWith (a r : range) : bool * range := getUnion a r a.

(** range.h:422 std::sort(ranges) with operator<.  Insertion sort stands for std::sort: two ranges
    that compare equivalent have equal bounds, so the sorted sequence is unique. *)
Fixpoint insert_range (a : range) (l : list range) : list range :=
  match l with
  | [] => [a]
  | h :: t => if range_lt h a then h :: insert_range a t else a :: h :: t
  end.
Fixpoint sort_ranges (l : list range) : list range :=
  match l with [] => [] | h :: t => insert_range h (sort_ranges t) end.

(** range.h:423-433: the merging loop; [current] is the pending range. *)
Fixpoint join_loop (current : range) (l : list range) : list range :=
  match l with
  | [] => [current]
  | it :: t =>
      if Qle_bool (rbeg it) (rend current)
      then join_loop (mkRange (rbeg current) (Qmaxb (rend current) (rend it))) t
      else current :: join_loop it t
  end.
(** range.h:411-434 *)
Definition joinIntersections (ranges : list range) : res (list range) :=
  match ranges with
  | [] => Throw EMPTY_LIST
  | [_] => Ok ranges
  | _ => match sort_ranges ranges with
         | [] => UB
         | h :: t => Ok (join_loop h t)
         end
  end.

(** Conversion double -> Int32: truncation toward zero, UB when the result does not fit. *)
Definition Qtrunc (x : Q) : Z := if Qltb x 0 then Qceiling x else Qfloor x.
Definition to_int32 (x : Q) : res Z :=
  let z := Qtrunc x in
  if (Z.leb (-2147483648) z && Z.leb z 2147483647)%bool then Ok z else UB.

(** std::vector<T> v(count) with an Int32 count: a negative count becomes a huge size_t and
    throws std::length_error. *)
Definition build (count : Z) (f : nat -> Q) : res (list Q) :=
  if Z.ltb count 0 then Throw STD_length_error
  else Ok (map f (seq 0 (Z.to_nat count))).

(** range.h:132-143 *)
Definition SpreadOver_backward (r : range) (delta : Q) : res (list Q) :=
  if (GetIsEmpty r || Qeq_bool delta 0 || Qltb (GetLength r) delta)%bool then Ok [rend r]
  else
    do count <- to_int32 (GetLength r / delta + 1);
    build count (fun i => rend r - delta * inject_Z (count - 1 - Z.of_nat i)).

(** range.h:145-159 *)
Definition SpreadOver (r : range) (delta : Q) (backward : bool) : res (list Q) :=
  if backward then SpreadOver_backward r delta
  else if (GetIsEmpty r || Qeq_bool delta 0 || Qltb (GetLength r) delta)%bool then Ok [rbeg r]
  else
    do count <- to_int32 (GetLength r / delta + 1);
    build count (fun i => rbeg r + delta * inject_Z (Z.of_nat i)).

(** ret.front() = max(ret.front(), m_Begin); ret.back() = min(ret.back(), m_End)
    (range.h:169-170); both are UB on an empty vector. *)
Definition clamp_ends (r : range) (l : list Q) : res (list Q) :=
  match l with
  | [] => UB
  | h :: t =>
      let l1 := Qmaxb h (rbeg r) :: t in
      do b <- back l1;
      vset l1 (length l1 - 1) (Qminb b (rend r))
  end.

(** range.h:161-172 (epsilon is 1e-8 by default) *)
Definition SpreadOverEpsilon (r : range) (delta : Q) (backward : bool) (epsilon : Q) : res (list Q) :=
  let range_epsilon := if backward then mkRange (- epsilon) 0 else mkRange 0 epsilon in
  let range_ := range_add r range_epsilon in
  do ret <- SpreadOver range_ delta backward;
  clamp_ends r ret.

(** range.h:273-288 with logsampling = false; epsilon is the default 1e-8 of SpreadOverEpsilon. *)
Definition default_epsilon : Q := 1 # 100000000.
Definition spanCenteredWindow_lin (r : range) (center delta : Q) : res (list Q) :=
  do vect <- SpreadOverEpsilon (mkRange (rbeg r) center) delta true default_epsilon;
  do vect_part2 <- SpreadOverEpsilon (mkRange center (rend r)) delta false default_epsilon;
  match vect_part2 with
  | [] => UB                      (* std::begin(vect_part2) + 1 past the end *)
  | _ :: t => Ok (vect ++ t)
  end.

(** range.h:324-346 *)
Definition getEnclosingIntervalIndices (r : range) (ordered_values : list Q) : res (nat * nat) :=
  match ordered_values with
  | [] => Throw EMPTY_LIST
  | _ =>
    do fr <- front ordered_values;
    do bk <- back ordered_values;
    if (Qltb (rbeg r) fr || Qltb bk (rend r))%bool then Throw CRANGE_VECTBORDERS_OUTSIDERANGE
    else
      let it_min := lower_bound ordered_values (rbeg r) in
      let it_max := lower_bound ordered_values (rend r) in
      do x <- vget ordered_values it_min;
      if Qltb (rbeg r) x
      then match it_min with O => UB | S k => Ok (k, it_max) end
      else Ok (it_min, it_max)
  end.

(** range.h:292-322 (the overload that also takes a value inside the range) *)
Definition getEnclosingIntervalIndices_value (r : range) (ordered_values : list Q) (value : Q)
  : res (nat * nat) :=
  if (Qltb value (rbeg r) || Qltb (rend r) value)%bool then Throw CRANGE_VALUE_OUTSIDERANGE
  else match ordered_values with
  | [] => Throw EMPTY_LIST
  | _ =>
    do fr <- front ordered_values;
    do bk <- back ordered_values;
    if (Qltb (rbeg r) fr || Qltb bk (rend r))%bool then Throw CRANGE_VECTBORDERS_OUTSIDERANGE
    else
      let it := lower_bound ordered_values value in
      let it_min := lower_bound (firstn it ordered_values) (rbeg r) in
      let it_max := (it + lower_bound (skipn it ordered_values) (rend r))%nat in
      do x <- vget ordered_values it_min;
      if Qltb (rbeg r) x
      then match it_min with O => UB | S k => Ok (k, it_max) end
      else Ok (it_min, it_max)
  end.

(** range.h:350-378.  i_max is an Int32 and may not go below 0 here; the comparison i_min > i_max is
    the one of line 373. *)
Definition getClosedIntervalIndices (r : range) (ordered_values : list Q) : res (nat * nat) :=
  match ordered_values with
  | [] => Throw EMPTY_LIST
  | _ =>
    do fr <- front ordered_values;
    do bk <- back ordered_values;
    if (Qltb (rend r) fr || Qltb bk (rbeg r))%bool then Throw CRANGE_VECTBORDERS_OUTSIDERANGE
    else
      let it_min := lower_bound ordered_values (rbeg r) in
      let it_max0 := lower_bound ordered_values (rend r) in
      do it_max <-
        (if Nat.eqb it_max0 (length ordered_values) then Ok (it_max0 - 1)%nat
         else do x <- vget ordered_values it_max0;
              if Qltb (rend r) x
              then match it_max0 with O => UB | S k => Ok k end
              else Ok it_max0);
      if Nat.ltb it_max it_min then Throw CRANGE_NO_INTERSECTION else Ok (it_min, it_max)
  end.

(** ** indexing.h *)

(** indexing.h:59-67 (std::find) *)
Fixpoint find_index (l : list Q) (z : Q) : option nat :=
  match l with
  | [] => None
  | x :: t => if Qeq_bool x z then Some O else option_map S (find_index t z)
  end.
Definition getIndex (l : list Q) (z : Q) : res nat :=
  match find_index l z with Some i => Ok i | None => Throw INTERNAL_ERROR end.

(** indexing.h:71-84; result: None when the function returns false (i_min = undefIdx). *)
Definition getClosestLowerIndex (ordered_values : list Q) (value : Q) : res (option nat) :=
  do fr <- front ordered_values;
  if Qltb value fr then Ok None
  else
    let it := lower_bound ordered_values value in
    do dec <- (if Nat.eqb it (length ordered_values) then Ok true
               else do x <- vget ordered_values it; Ok (negb (Qeq_bool x value)));
    if dec : bool then match it with O => UB | S k => Ok (Some k) end else Ok (Some it).

(** indexing.h:87-105 *)
Definition getCloserIndex (ordered_values : list Q) (value : Q) : res nat :=
  let it := lower_bound ordered_values value in
  if Nat.eqb it (length ordered_values)
  then match it with O => UB (* --end() on an empty vector *) | S k => Ok k end
  else match it with
  | O => Ok O
  | S k =>
      do x <- vget ordered_values it;
      do y <- vget ordered_values k;
      if Qltb (Qabs (y - value)) (Qabs (x - value)) then Ok k else Ok it
  end.

(** indexing.h:108-119 *)
Definition getClosestUpperIndex (ordered_values : list Q) (value : Q) : res (option nat) :=
  do bk <- back ordered_values;
  if Qltb bk value then Ok None
  else Ok (Some (lower_bound ordered_values value)).
