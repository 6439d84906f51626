(** Model of the redshift grid refinement (C36): common/zgridparam.cpp, common/vectorOperations.h,
    operator/linemodelresult.cpp:112-140 (updateVectors) and operator/linemodel.cpp:1099-1109. *)
From Verif Require Import Base RangeModel.
Open Scope Q_scope.

(** dest.insert(dest.begin() + pos, l) *)
Definition insert_at {A} (dest : list A) (pos : nat) (l : list A) : list A := firstn pos dest ++ l ++ skipn pos dest.
(** std::copy(l.begin(), l.end(), dest.begin() + pos) / std::fill: UB past the end of dest *)
Definition overwrite {A} (dest : list A) (pos : nat) (l : list A) : res (list A) :=
  if Nat.leb (pos + length l) (length dest) then Ok (firstn pos dest ++ l ++ skipn (pos + length l) dest) else UB.

(** vectorOperations.h:48-57; src.cend() - ndup is before the beginning when ndup > size: UB *)
Definition insertWithDuplicates {A} (dest : list A) (pos : nat) (src : list A) (ndup : nat) : res (list A) :=
  if Nat.ltb (length src) ndup then UB else
  if Nat.ltb (length dest) pos then UB else
  let ninsert := (length src - ndup)%nat in
  overwrite (insert_at dest pos (firstn ninsert src)) (pos + ninsert) (skipn ninsert src).

(** vectorOperations.h:59-67; a negative ninsert is converted to a huge unsigned: std::length_error *)
Definition insertWithDuplicates_value {A} (dest : list A) (pos count : nat) (value : A) (ndup : nat) : res (list A) :=
  if Nat.ltb (length dest) pos then UB else
  if Nat.ltb count ndup then Throw STD_length_error else
  let ninsert := (count - ndup)%nat in
  overwrite (insert_at dest pos (repeat value ninsert)) (pos + ninsert) (repeat value (count - ninsert)).

Definition set_front {A} (l : list A) (v : A) : list A := match l with [] => [] | _ :: t => v :: t end.
Definition set_back {A} (l : list A) (v : A) : list A := match l with [] => [] | _ => removelast l ++ [v] end.

(** zgridparam.cpp:73-94: (insertion index, overlapped samples, subgrid after the call, zgrid after the call) *)
Definition insertSubgrid (subgrid zgrid : list Q) : res (nat * nat * list Q * list Q) :=
  let epsilon := 1 # 100000000 in
  do sf <- front subgrid; do sb <- back subgrid;
  do zf <- front zgrid; do zb <- back zgrid;
  let (_, range_epsilon) := IntersectWith (mkRange (sf - epsilon) (sb + epsilon)) (mkRange zf zb) in
  do (imin, imax) <- getClosedIntervalIndices range_epsilon zgrid;
  let sub1 := if Qeq_bool (rbeg range_epsilon) zf then set_front subgrid zf else subgrid in
  let sub2 := if Qeq_bool (rend range_epsilon) zb then set_back sub1 zb else sub1 in
  let ndup := (imax - imin + 1)%nat in
  do z' <- insertWithDuplicates zgrid imin sub2 ndup;
  Ok (imin, ndup, sub2, z').

(** zgridparam.cpp:56-71 with the sub-grids already computed by CZGridParam::getZGrid (range.h: C06, C08) *)
Fixpoint insert_all (subs : list (list Q)) (zgrid : list Q) : res (list Q) :=
  match subs with
  | [] => Ok zgrid
  | s :: r => do (_, _, _, z') <- insertSubgrid s zgrid; insert_all r z'
  end.

(** CZGridParam (zgridparam.i), linear sampling: zgridparam.cpp:44-54 *)
Record zparam := mkZParam { zp_range : range; zp_step : Q; zp_center : option Q }.
Definition getZGrid1 (p : zparam) : res (list Q) :=
  match zp_center p with
  | Some c => spanCenteredWindow_lin (zp_range p) c (zp_step p)
  | None => SpreadOverEpsilon (zp_range p) (zp_step p) false default_epsilon
  end.
Fixpoint getZGrids (ps : list zparam) : res (list (list Q)) :=
  match ps with [] => Ok [] | p :: r => do g <- getZGrid1 p; do gs <- getZGrids r; Ok (g :: gs) end.
(** zgridparam.cpp:56-71, linear sampling (the sub-grids are computed inside the loop; computing them first gives the
    same grid, only the order of a possible exception differs) *)
Definition getZGrid (ps : list zparam) : res (list Q) :=
  match ps with
  | [] => Ok []
  | p :: r => do z <- getZGrid1 p; do subs <- getZGrids r; insert_all subs z
  end.

(** linemodel.cpp:1099-1109 and linemodelresult.cpp:112-140 for one companion array with its default value (all the
    companion arrays are updated in the same way) *)
Fixpoint update_results {A} (dflt : A) (subs : list (list Q)) (zgrid : list Q) (companion : list A) : res (list Q * list A) :=
  match subs with
  | [] => Ok (zgrid, companion)
  | s :: r =>
      do (imin, ndup, s', z') <- insertSubgrid s zgrid;
      do c' <- insertWithDuplicates_value companion imin (length s') dflt ndup;
      update_results dflt r z' c'
  end.
