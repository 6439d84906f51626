(** Model of the redshift PDF object (C77): operator/logZPdfResult.cpp:49-173 and logZPdfResult.i:40-71, with the GSL
    linear interpolation it calls (gsl_interp_linear, gsl_interp_accel).  Redshifts are exact rationals; a log-probability
    is a rational or NaN ([None]).  [grid1] is CZGridParam::getZGrid for the object's logsampling flag
    (zgridparam.cpp:44-54): [ZGridModel.getZGrid1] for the linear sampling.  The library installs a GSL error handler
    that throws (context.cpp:55-68): a GSL error is an exception. *)
From Verif Require Import Base RangeModel ZGridModel.
Open Scope Q_scope.

Notation flt := (option Q).
(** -DBL_MAX *)
Definition minus_dbl_max : Q := - inject_Z ((2 ^ 53 - 1) * 2 ^ 971).

(** logZPdfResult.i:53-63: the public members used here (zcenter is NaN for a main grid) *)
Record zpdf := mkZpdf {
  p_z : list Q; p_val : list flt;
  p_center : list (option Q); p_min : list Q; p_max : list Q; p_step : list Q }.

(** logZPdfResult.cpp:61-67 *)
Definition check_sizes (p : zpdf) : res zpdf :=
  if Nat.eqb (length (p_val p)) (length (p_z p)) then Ok p else Throw INTERNAL_ERROR.

Section Grid.
Variable grid1 : zparam -> res (list Q).

(** zgridparam.cpp:56-71 *)
Fixpoint grids (ps : list zparam) : res (list (list Q)) :=
  match ps with [] => Ok [] | q :: r => do g <- grid1 q; do gs <- grids r; Ok (g :: gs) end.
Definition list_grid (ps : list zparam) : res (list Q) :=
  match ps with
  | [] => Ok []
  | q :: r => do z <- grid1 q; do subs <- grids r; insert_all subs z
  end.

(** logZPdfResult.cpp:91-97: one parameter per zmin entry (a default one, all NaN, where zcenter is shorter: not
    modelled), reading the four lists at the indexes of zcenter *)
Fixpoint params_from (cs : list (option Q)) (mins maxs steps : list Q) : res (list zparam) :=
  match cs with
  | [] => match mins with [] => Ok [] | _ => UB end
  | c :: cr =>
      match mins, maxs, steps with
      | a :: ar, b :: br, s :: sr => do r <- params_from cr ar br sr; Ok (mkZParam (mkRange a b) s c :: r)
      | _, _, _ => UB
      end
  end.
Definition getZGridParams (p : zpdf) : res (list zparam) :=
  params_from (p_center p) (p_min p) (p_max p) (p_step p).

(** logZPdfResult.cpp:69-71 *)
Definition setZGrid (p : zpdf) : res zpdf :=
  do ps <- getZGridParams p; do z <- list_grid ps;
  Ok (mkZpdf z (p_val p) (p_center p) (p_min p) (p_max p) (p_step p)).

(** logZPdfResult.cpp:49-59, 73-89 *)
Definition construct (ps : list zparam) (vals : list flt) : res zpdf :=
  let p0 := mkZpdf [] vals (map zp_center ps) (map (fun q => rbeg (zp_range q)) ps)
              (map (fun q => rend (zp_range q)) ps) (map zp_step ps) in
  do p1 <- setZGrid p0;
  let v := match p_val p1 with [] => repeat (Some minus_dbl_max) (length (p_z p1)) | v => v end in
  check_sizes (mkZpdf (p_z p1) v (p_center p1) (p_min p1) (p_max p1) (p_step p1)).

(** gsl_interp_bsearch(x_array, x, index_lo, index_hi); fuel = index_hi - index_lo is enough *)
Fixpoint bsearch (fuel : nat) (xs : list Q) (x : Q) (lo hi : nat) : res nat :=
  match fuel with
  | O => Ok lo
  | S f =>
      if Nat.ltb (lo + 1) hi then
        let i := Nat.div (hi + lo) 2 in
        do xi <- vget xs i;
        if Qltb x xi then bsearch f xs x lo i else bsearch f xs x i hi
      else Ok lo
  end.
(** gsl_interp_accel_find: the cached interval is tried first; returns the new cache *)
Definition accel_find (cache : nat) (xs : list Q) (x : Q) : res nat :=
  do x0 <- vget xs cache;
  if Qltb x x0 then bsearch cache xs x 0 cache else
  do x1 <- vget xs (cache + 1);
  if Qltb x x1 then Ok cache else bsearch (length xs - 1 - cache) xs x cache (length xs - 1).

(** y_lo + (x - x_lo) / dx * (y_hi - y_lo); NaN as soon as one of the two values is NaN *)
Definition lin (xl xh x : Q) (yl yh : flt) : flt :=
  match yl, yh with
  | Some a, Some b => Some (a + (x - xl) / (xh - xl) * (b - a))
  | _, _ => None
  end.

(** gsl_interp_eval with gsl_interp_linear: the value and the new cache *)
Definition interp_eval (cache : nat) (xs : list Q) (ys : list flt) (x : Q) : res (flt * nat) :=
  do xmin <- front xs; do xmax <- back xs;
  if (Qltb x xmin || Qltb xmax x)%bool then Throw EXTERNAL_LIB_ERROR else
  do i <- accel_find cache xs x;
  do xl <- vget xs i; do xh <- vget xs (i + 1);
  do yl <- vget ys i; do yh <- vget ys (i + 1);
  if Qltb 0 (xh - xl) then Ok (lin xl xh x yl yh, i) else Throw EXTERNAL_LIB_ERROR.

(** gsl_interp_init: x values must be strictly increasing *)
Fixpoint all_increasing (xs : list Q) : bool :=
  match xs with
  | a :: (b :: _) as t => (Qltb a b && all_increasing t)%bool
  | _ => true
  end.

(** logZPdfResult.cpp:117-125, the loop over the target grid *)
Fixpoint interp_loop (cache : nat) (zf zb : Q) (xs : list Q) (ys : list flt) (target : list Q) : res (list flt) :=
  match target with
  | [] => Ok []
  | x :: t =>
      if (Qltb x zf || Qltb zb x)%bool then do r <- interp_loop cache zf zb xs ys t; Ok (None :: r)
      else do (y, c) <- interp_eval cache xs ys x; do r <- interp_loop c zf zb xs ys t; Ok (y :: r)
  end.

(** logZPdfResult.cpp:99-136; front()/back() of an empty list is UB, redshifts shorter than the values are read past
    their end *)
Definition interpolateOnGrid (p : zpdf) (target : list Q) : res zpdf :=
  do zf <- front (p_z p); do zb <- back (p_z p);
  do _ <- front target; do _ <- back target;
  let n := length (p_val p) in
  if Nat.ltb n 2 then Throw EXTERNAL_LIB_ERROR else
  if Nat.ltb (length (p_z p)) n then UB else
  let xs := firstn n (p_z p) in
  if negb (all_increasing xs) then Throw EXTERNAL_LIB_ERROR else
  do out <- interp_loop 0 zf zb xs (p_val p) target;
  check_sizes (mkZpdf target out (p_center p) (p_min p) (p_max p) (p_step p)).

(** logZPdfResult.i:47 *)
Definition isRegular (p : zpdf) : bool := Nat.eqb (length (p_center p)) 1.

(** std::vector::resize(1), new elements value-initialized *)
Definition resize1 {A} (d : A) (l : list A) : list A := match l with [] => [d] | a :: _ => [a] end.

(** logZPdfResult.cpp:138-163.  After [zstep.resize(1)] the statement [param.zstep = zstep[1]] reads past the end of
    the vector: [oob = None] is the C++ semantics (UB), [Some s] an implementation in which that read returns [s]. *)
Definition convertToRegular (oob : option Q) (fine : bool) (p : zpdf) : res zpdf :=
  if isRegular p then Ok p else
  do steps <-
    (if fine then
       do s1 <- (if Nat.leb (length (p_step p)) 1 then UB else vget (p_step p) 1);
       if forallb (fun s => Qeq_bool s1 s) (skipn 2 (p_step p)) then vset (p_step p) 0 s1 else Throw INTERNAL_ERROR
     else Ok (p_step p));
  let p1 := mkZpdf (p_z p) (p_val p) (resize1 (Some 0) (p_center p)) (resize1 0 (p_min p)) (resize1 0 (p_max p))
              (resize1 0 steps) in
  do ps <- getZGridParams p1;
  do param <- vget ps 0;
  do param <- (if fine then match oob with None => UB | Some s => Ok (mkZParam (zp_range param) s (zp_center param)) end
               else Ok param);
  do target <- grid1 param;
  interpolateOnGrid p1 target.

(** logZPdfResult.cpp:165-173 *)
Definition extrapolate_on_right_border (p : zpdf) (zend : Q) : res zpdf :=
  do zmax0 <- vget (p_max p) 0;
  if Qle_bool zend zmax0 then Ok p else
  do maxs <- vset (p_max p) 0 zend;
  do p1 <- setZGrid (mkZpdf (p_z p) (p_val p) (p_center p) (p_min p) maxs (p_step p));
  do lastv <- back (p_val p1);
  let n := length (p_z p1) in
  let v := firstn n (p_val p1) ++ repeat lastv (n - length (p_val p1)) in
  check_sizes (mkZpdf (p_z p1) v (p_center p1) (p_min p1) (p_max p1) (p_step p1)).

(** PdfHandler.py:105-109 *)
Definition handler_convert (oob : option Q) (fine : bool) (zgrid_max : option Q) (p : zpdf) : res zpdf :=
  do p1 <- convertToRegular oob fine p;
  match zgrid_max with
  | None => Ok p1
  | Some zm =>
      do z0 <- vget (p_max p1) 0;
      if Qltb z0 zm then extrapolate_on_right_border p1 zm else Ok p1
  end.
End Grid.
