(** Model of RedshiftLibrary/RedshiftLibrary/common/median.hpp (CMedian<Float64>) and
    common/mean.hpp (CMean<Float64>).  Comparison-only code, except the average of BeersFind. *)
From Verif Require Import Base SortLib.
Open Scope Q_scope.

(** median.hpp:40-44 SORT_PAIR(p[i], p[j]): swap when p[i] > p[j].  Out of range: UB. *)
Definition sort_pair (p : list Q) (ij : nat * nat) : res (list Q) :=
  let '(i, j) := ij in
  do a <- vget p i;
  do b <- vget p j;
  if Qltb b a then (do p1 <- vset p i b; vset p1 j a) else Ok p.
Fixpoint run_network (net : list (nat * nat)) (p : list Q) : res (list Q) :=
  match net with [] => Ok p | c :: t => do p' <- sort_pair p c; run_network t p' end.

(** median.hpp:163-165 *)
Definition net3 : list (nat * nat) := [(0,1); (1,2); (0,1)]%nat.
(** median.hpp:174-180 *)
Definition net5 : list (nat * nat) := [(0,1); (3,4); (0,3); (1,4); (1,2); (2,3); (1,2)]%nat.
(** median.hpp:189-201 *)
Definition net7 : list (nat * nat) :=
  [(0,5); (0,3); (1,6); (2,4); (0,1); (3,5); (2,6); (2,3); (3,6); (4,5); (1,4); (1,3); (3,4)]%nat.
(** median.hpp:210-228 *)
Definition net9 : list (nat * nat) :=
  [(1,2); (4,5); (7,8); (0,1); (3,4); (6,7); (1,2); (4,5); (7,8); (0,3); (5,8); (4,7); (3,6);
   (1,4); (2,5); (4,7); (4,2); (6,4); (4,2)]%nat.
(** median.hpp:158-230: copy, run the network, return the middle element *)
Definition Opt3Find (v : list Q) : res Q := do p <- run_network net3 v; vget p 1.
Definition Opt5Find (v : list Q) : res Q := do p <- run_network net5 v; vget p 2.
Definition Opt7Find (v : list Q) : res Q := do p <- run_network net7 v; vget p 3.
Definition Opt9Find (v : list Q) : res Q := do p <- run_network net9 v; vget p 4.

(** median.hpp:46-63 *)
Definition BeersFind (v : list Q) : res Q :=
  let n := length v in
  let xwork := qsort v in
  let n2 := Nat.div2 n in
  if Nat.eqb (2 * n2) n
  then (match n2 with
        | O => UB                                   (* xwork[-1] *)
        | S p => do a <- vget xwork p; do b <- vget xwork n2; Ok ((1#2) * (a + b))
        end)
  else vget xwork n2.

(** ** FastFind, median.hpp:115-156 (Wirth's selection).  Indices are Int32, hence Z here; an access
    outside the vector is UB.  Loops are recursive on an explicit fuel; running out of fuel is
    reported as UB (a non-terminating loop), so any theorem concluding [Ok] proves termination. *)
Definition zget (a : list Q) (i : Z) : res Q :=
  if (i <? 0)%Z then UB else vget a (Z.to_nat i).
Definition zset (a : list Q) (i : Z) (x : Q) : res (list Q) :=
  if (i <? 0)%Z then UB else vset a (Z.to_nat i) x.
(** median.hpp:134-136 *)
Fixpoint scan_up (fuel : nat) (a : list Q) (x : Q) (i : Z) : res Z :=
  match fuel with
  | O => UB
  | S f => do y <- zget a i; if Qltb y x then scan_up f a x (i + 1)%Z else Ok i
  end.
(** median.hpp:137-139 *)
Fixpoint scan_down (fuel : nat) (a : list Q) (x : Q) (j : Z) : res Z :=
  match fuel with
  | O => UB
  | S f => do y <- zget a j; if Qltb x y then scan_down f a x (j - 1)%Z else Ok j
  end.
(** median.hpp:141 std::swap(a_copy[i], a_copy[j]) *)
Definition swap (a : list Q) (i j : Z) : res (list Q) :=
  do u <- zget a i; do v <- zget a j; do a1 <- zset a i v; zset a1 j u.
(** median.hpp:133-145, do { ... } while (i <= j) *)
Fixpoint partition_loop (fuel : nat) (a : list Q) (x : Q) (i j : Z) : res (list Q * Z * Z) :=
  match fuel with
  | O => UB
  | S f =>
      do i1 <- scan_up (S (length a)) a x i;
      do j1 <- scan_down (S (length a)) a x j;
      if (i1 <=? j1)%Z
      then do a1 <- swap a i1 j1;
           if (i1 + 1 <=? j1 - 1)%Z then partition_loop f a1 x (i1 + 1) (j1 - 1)
           else Ok (a1, (i1 + 1)%Z, (j1 - 1)%Z)
      else Ok (a, i1, j1)
  end.
(** median.hpp:129-153 *)
Fixpoint select_loop (fuel : nat) (a : list Q) (k l m : Z) : res (list Q) :=
  if (l <? m)%Z then
    match fuel with
    | O => UB
    | S f =>
        do x <- zget a k;
        do r <- partition_loop (S (length a)) a x l m;
        let '(a1, i, j) := r in
        let l1 := if (j <? k)%Z then i else l in
        let m1 := if (k <? i)%Z then j else m in
        select_loop f a1 k l1 m1
    end
  else Ok a.
(** median.hpp:115-156 *)
Definition FastFind (v : list Q) : res Q :=
  let n := Z.of_nat (length v) in
  let k := (if Z.odd n then n / 2 else n / 2 - 1)%Z in
  do a <- select_loop (S (length v)) v k 0 (n - 1);
  zget a k.

(** defaults.h:19 *)
Definition MEDIAN_FAST_OR_BEERS_THRESHOLD : nat := 1000.

(** median.hpp:65-104 *)
Definition Find (v : list Q) : res Q :=
  match length v with
  | 0%nat | 1%nat => vget v 0         (* *begin *)
  | 3%nat => Opt3Find v
  | 5%nat => Opt5Find v
  | 7%nat => Opt7Find v
  | 9%nat => Opt9Find v
  | n => if Nat.ltb MEDIAN_FAST_OR_BEERS_THRESHOLD n then FastFind v else BeersFind v
  end.

(** mean.hpp:39-46; the division by distance 0 (0/0 = NaN) is reported as UB: NaN is not a value of
    this model. *)
Definition qsum (v : list Q) : Q := fold_left Qplus v 0.
Definition MeanFind (v : list Q) : res Q :=
  match v with [] => UB | _ => Ok (qsum v / inject_Z (Z.of_nat (length v))) end.
