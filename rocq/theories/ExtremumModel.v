(** Model of the peak finder (C25-C27): RedshiftLibrary/src/lib/extremum/extremum.cpp.
    Abscissas are exact rationals; ordinates are [option Q], [None] being NaN (infinities are not modelled).
    The unstable std::sort of indexes is an arbitrary function [srt]; the theorems only assume that it returns a
    permutation of the indexes sorted by decreasing value. *)
From Verif Require Import Base RangeModel.
Open Scope Q_scope.

Definition olt (a b : option Q) : bool := match a, b with Some x, Some y => Qltb x y | _, _ => false end.
Definition oeq (a b : option Q) : bool := match a, b with Some x, Some y => Qeq_bool x y | _, _ => false end.
Definition isnan (a : option Q) : bool := match a with None => true | _ => false end.

Record params := mkParams {
  p_max : Z;               (* m_MaxPeakCount *)
  p_sep : Q;               (* m_extrema_separation; active iff > 0 (extremum.cpp:63) *)
  p_cut : Q;               (* m_meritCut *)
  p_sign : Q;              (* m_SignSearch: -1 or 1 (extremum.cpp:61) *)
  p_border : bool;         (* m_allow_extrema_at_border *)
  p_xrange : range }.      (* m_XRange *)

Record point := mkPoint { pX : Q; pY : Q }.

(** extremum.cpp:266-273 with invertSearch = false (the only call, extremum.cpp:99) *)
Definition applySign (sg : Q) (y : list (option Q)) : list (option Q) :=
  map (fun v => match v with Some q => Some (q * sg) | None => None end) y.

(** extremum.cpp:252-255, [fuel] = EndIndex - BeginIndex *)
Fixpoint first_valid (y : list (option Q)) (fuel i : nat) : res nat :=
  match fuel with
  | O => Ok i
  | S f => do v <- vget y i; if isnan v then first_valid y f (S i) else Ok i
  end.
(** extremum.cpp:257-259 *)
Fixpoint last_valid (y : list (option Q)) (fuel i : nat) : res nat :=
  match fuel with
  | O => Ok i
  | S f => do v <- vget y i; if isnan v then (match i with O => UB | S p => last_valid y f p end) else Ok i
  end.
(** extremum.cpp:249-264; indices with begin <= end *)
Definition getFirstandLastnonNANElementIndices (y : list (option Q)) (b e : nat) : res (nat * nat) :=
  do b' <- first_valid y (e - b) b;
  do e' <- last_valid y (e - b') e;
  if Nat.ltb (e' - b') 2 then Throw INTERNAL_ERROR else Ok (b', e').

Record pstate := mkPs { plank : bool; cnt_plk : nat; outs : list nat }.

(** [i - round(cnt / 2)] with Int32 operands (integer division): a negative index is an out-of-bounds read *)
Definition back_off (i h : nat) : res nat := if Nat.leb h i then Ok (i - h)%nat else UB.

(** body of the loop extremum.cpp:329-366 on the three values read around i. The peaks are recorded by index; the code
    pushes xAxis[index] and tmpY[index] at once, which is done in FindAllPeaks below. *)
Definition peak_step (a b c : option Q) (i : nat) (st : pstate) : res pstate :=
  if olt a b && olt c b then Ok (mkPs (plank st) (cnt_plk st) (outs st ++ [i]))
  else if olt a b && oeq b c then Ok (mkPs true (S (cnt_plk st)) (outs st))
  else if negb (oeq a b) then Ok st
  else if plank st && oeq a b && olt c b then
    do idx <- back_off i (S (cnt_plk st) / 2);
    Ok (mkPs false 0 (outs st ++ [idx]))
  else if oeq a b && olt b c then Ok (mkPs false 0 (outs st))
  else Ok (mkPs (plank st) (S (cnt_plk st)) (outs st)).

(** extremum.cpp:329, [m] = number of iterations left *)
Fixpoint peak_loop (tmpY : list (option Q)) (m i : nat) (st : pstate) : res pstate :=
  match m with
  | O => Ok st
  | S m' =>
      do a <- vget tmpY (i - 1); do b <- vget tmpY i; do c <- vget tmpY (i + 1);
      do st' <- peak_step a b c i st;
      peak_loop tmpY m' (S i) st'
  end.

(** extremum.cpp:299-381, on the signed values: list of indexes of the peaks *)
Definition peak_indexes (border : bool) (yAxis tmpY : list (option Q)) (b0 e0 : nat) : res (list nat) :=
  do (b, e) <- getFirstandLastnonNANElementIndices yAxis b0 e0;
  do v0 <- vget tmpY b; do v1 <- vget tmpY (b + 1);
  let st0 := if border && olt v1 v0 then mkPs false 0 [b]
             else if border && oeq v0 v1 then mkPs true 1 []
             else mkPs false 0 [] in
  do st <- peak_loop tmpY (e - (b + 1)) (b + 1) st0;
  if negb border then Ok (outs st) else
  do u <- vget tmpY (e - 1); do w <- vget tmpY e;
  if olt w u then Ok (outs st) else
  let cnt := (cnt_plk st + (if plank st then 1 else 0))%nat in
  do idx <- back_off e (cnt / 2);
  Ok (outs st ++ [idx]).

Fixpoint vgets {A} (l : list A) (is : list nat) : res (list A) :=
  match is with
  | [] => Ok []
  | i :: r => do x <- vget l i; do xs <- vgets l r; Ok (x :: xs)
  end.

(** extremum.cpp:275-382 *)
Definition FindAllPeaks (p : params) (x : list Q) (y : list (option Q)) (b e : nat)
  : res (list Q * list (option Q)) :=
  let tmpY := applySign (p_sign p) y in
  do idx <- peak_indexes (p_border p) y tmpY b e;
  do mx <- vgets x idx;
  do my <- vgets tmpY idx;
  Ok (mx, my).

(** std::sort with a comparator reading NaN is not a strict weak ordering: undefined *)
Fixpoint no_nan (l : list (option Q)) : res (list Q) :=
  match l with
  | [] => Ok []
  | Some q :: r => do qs <- no_nan r; Ok (q :: qs)
  | None :: _ => UB
  end.

(** extremum.cpp:180-188 *)
Fixpoint cut_filter (best cut : Q) (mx my : list Q) : list Q * list Q :=
  match mx, my with
  | x :: mx', y :: my' =>
      let (a, b) := cut_filter best cut mx' my' in
      if Qle_bool (best - y) cut then (x :: a, y :: b) else (a, b)
  | _, _ => ([], [])
  end.
(** extremum.cpp:172-200 with keepMinN = 1 (extremum.cpp:120). The refill loop 189-196 runs only when nothing was
    kept; it then inserts the best peak. *)
Definition Cut_Threshold (cut : Q) (srt : list nat) (mx my : list Q) : res (list Q * list Q) :=
  match mx with
  | [] => Throw INTERNAL_ERROR
  | [_] => Ok (mx, my)
  | _ =>
    do i0 <- vget srt 0;
    do best <- vget my i0;
    let (nx, ny) := cut_filter best cut mx my in
    match nx with
    | [] => do bx <- vget mx i0; Ok ([bx], [best])
    | _ => Ok (nx, ny)
    end
  end.

(** extremum.cpp:239-243 *)
Fixpoint mark_from (j lo hi i : nat) (t : list bool) : list bool :=
  match t with
  | [] => []
  | v :: r => (if (Nat.leb lo j && Nat.leb j hi && negb (Nat.eqb j i))%bool then false else v)
              :: mark_from (S j) lo hi i r
  end.

(** extremum.cpp:229-232 *)
Definition wind_high (sep x : Q) : Q := x + (x + 1) * sep / (1 - sep / 2).
Definition wind_low (sep x : Q) : Q := x - (x + 1) * sep / (1 + sep / 2).

(** extremum.cpp:219-244; an exception of getClosedIntervalIndices is caught and nothing is marked (when it is thrown
    at range.h:374 the two indices are set but i_min > i_max, when thrown before they keep the value i) *)
Fixpoint filter_loop (p : params) (mx my : list Q) (idxs : list nat) (track : list bool) (nkeep : Z)
  : res (list point) :=
  match idxs with
  | [] => Ok []
  | i :: r =>
      if (nkeep =? p_max p)%Z then Ok [] else
      do t <- vget track i;
      if negb t then filter_loop p mx my r track nkeep else
      do x <- vget mx i; do y <- vget my i;
      do track' <- (match getClosedIntervalIndices (mkRange (wind_low (p_sep p) x) (wind_high (p_sep p) x)) mx with
                    | Ok (lo, hi) => Ok (mark_from 0 lo hi i track)
                    | Throw _ => Ok track
                    | UB => UB
                    end);
      do ps <- filter_loop p mx my r track' (nkeep + 1);
      Ok (mkPoint x (p_sign p * y) :: ps)
  end.

(** extremum.cpp:208-211 and 393-396: the first n entries of the sorted indexes *)
Fixpoint take_points (p : params) (srt : list nat) (mx my : list Q) (n : nat) {struct n} : res (list point) :=
  match n with
  | O => Ok []
  | S m =>
      match srt with
      | [] => UB  (* m_sortedIndexes[j] out of bounds *)
      | i :: r =>
          do x <- vget mx i; do y <- vget my i;
          do ps <- take_points p r mx my m;
          Ok (mkPoint x (p_sign p * y) :: ps)
      end
  end.

(** extremum.cpp:202-246 with keepmin = 1 *)
Definition FilterOutNeighboringPeaksAndTruncate (p : params) (srt : list nat) (mx my : list Q) : res (list point) :=
  if Nat.leb (length mx) 1 then take_points p srt mx my (length mx)
  else filter_loop p mx my srt (repeat true (length mx)) 0.

(** extremum.cpp:388-398 *)
Definition Truncate (p : params) (srt : list nat) (mx my : list Q) : res (list point) :=
  take_points p srt mx my (Z.to_nat (Z.min (p_max p) (Z.of_nat (length mx)))).

(** extremum.cpp:141-155 on the sorted list; [i < maxX.size() - 1] is an unsigned comparison, so an empty list
    enters the loop and reads out of bounds. *)
Fixpoint sep_loop (sep : Q) (whole : range) (l : list Q) : res unit :=
  match l with
  | a :: ((b :: _) as t) =>
      let (_, wh) := IntersectWith (mkRange (b - sep / 2 * (1 + b)) (b + sep / 2 * (1 + b))) whole in
      let (_, wl) := IntersectWith (mkRange (a - sep / 2 * (1 + a)) (a + sep / 2 * (1 + a))) whole in
      if Qltb (rbeg wh - rend wl) 0 then Throw INTERNAL_ERROR else sep_loop sep whole t
  | _ => Ok tt
  end.
(** extremum.cpp:138-163; [sorted] is the list after std::sort *)
Definition assertPeakSeparation (sep : Q) (sorted : list Q) : res unit :=
  match sorted with
  | [] => UB
  | a :: _ => sep_loop sep (mkRange a (last sorted a)) sorted
  end.

Section Find.
Variable srt : list Q -> list nat.     (* SortIndexes, extremum.cpp:68-73 *)
Variable xsort : list Q -> list Q.     (* std::sort of doubles, extremum.cpp:140 *)

(** extremum.cpp:79-136 *)
Definition Find (p : params) (x : list Q) (y : list (option Q)) (isFirstPass : bool) : res (list point) :=
  let n := length x in
  if Nat.eqb n 0 then Throw INTERNAL_ERROR else
  if negb (Nat.eqb n (length y)) then Throw INTERNAL_ERROR else
  do (b, e) <- (if GetIsEmpty (p_xrange p) then Ok (0%nat, (n - 1)%nat)
                else getClosedIntervalIndices (p_xrange p) x);
  do (mx, my0) <- FindAllPeaks p x y b e;
  match mx with
  | [] => if isFirstPass then Throw PDF_PEAK_NOT_FOUND else Ok []
  | _ =>
    do my <- no_nan my0;
    let s := srt my in
    do (mx1, my1) <- (if Qltb 0 (p_cut p) && Nat.ltb 1 (length mx) then Cut_Threshold (p_cut p) s mx my
                      else Ok (mx, my));
    if Qltb 0 (p_sep p) then
      do pts <- FilterOutNeighboringPeaksAndTruncate p s mx1 my1;
      do _ <- assertPeakSeparation (p_sep p) (xsort (map pX pts));
      Ok pts
    else Truncate p s mx1 my1
  end.
End Find.
