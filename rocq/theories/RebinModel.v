(** Model of the rebinning operators (C23, C24).
    RedshiftLibrary/src/lib/spectrum/rebin/{rebin,rebinLinear,rebinNgp,rebinSpline,rebinFineGrid}.cpp
    Wavelengths and fluxes are exact rationals. The output spectrum is the list, in the order of the target
    samples, of the three values written at one target index: flux, mask and noise. *)
From Verif Require Import Base RangeModel.
Open Scope Q_scope.

(** the option [opt_error_interp] (a string in C++, rebin.cpp:77,88; rebinLinear.cpp:71,73; rebinNgp.cpp:75,78) *)
Inductive opt_error : Type := OptNo | OptRebin | OptRebinVariance | OptOther.

(** Noise values are kept symbolic, because square roots leave the rationals:
    [EVal q] is q, [EInf] is INFINITY, [EScaled e v] is e * sqrt(v), [ESqrt2 v w] is sqrt(v) * sqrt(w). *)
Inductive err : Type := EInf | EVal (q : Q) | EScaled (e v : Q) | ESqrt2 (v w : Q).

Record cell := mkCell { c_flux : Q; c_mask : bool; c_err : err }.

(** source spectrum: the three vectors of the axes *)
Record source := mkSource { s_X : list Q; s_Y : list Q; s_E : list Q }.

(** noiseaxis.cpp:59-61 (SetSize assigns 1.0), reached from fluxaxis.cpp SetSize: noise of a sample that the
    operator does not write. *)
Definition err_default : err := EVal 1.

(** rebin.cpp:75-78 and 86-89 *)
Definition outside_cell (opt : opt_error) : cell :=
  mkCell 0 false (match opt with OptRebin | OptRebinVariance => EInf | _ => err_default end).

(** rebin.cpp:100-113 *)
Definition computeXStepCompensation (Xtgt : list Q) (cursor : nat) (xSrcStep : Q) : res Q :=
  if Nat.ltb cursor (length Xtgt - 1) then
    do a <- vget Xtgt (cursor + 1);
    do b <- vget Xtgt cursor;
    Ok (xSrcStep / (a - b))
  else
    do a <- vget Xtgt cursor;
    match cursor with
    | O => UB      (* Xtgt[-1] *)
    | S p => do b <- vget Xtgt p; Ok (xSrcStep / (a - b))
    end.

(** The loop [while (cursor < count && Xtgt[cursor] <= bound) { ...; cursor++; }] shared by
    rebinLinear.cpp:63-81, rebinNgp.cpp:60-86, rebinSpline.cpp:69-85 and rebinFineGrid.cpp:115-129:
    [rem] is Xtgt from [cursor] on, the result is the list of the cells written. *)
Fixpoint scan (bound : Q) (f : nat -> Q -> res cell) (cursor : nat) (rem : list Q) : res (list cell) :=
  match rem with
  | [] => Ok []
  | x :: r =>
      if Qle_bool x bound then
        do c <- f cursor x;
        do cs <- scan bound f (S cursor) r;
        Ok (c :: cs)
      else Ok []
  end.

(** rebinLinear.cpp:65-80 *)
Definition lin_cell (opt : opt_error) (s : source) (Xtgt : list Q) (k : nat) (cursor : nat) (x : Q) : res cell :=
  do xk <- vget (s_X s) k; do xk1 <- vget (s_X s) (k + 1);
  do yk <- vget (s_Y s) k; do yk1 <- vget (s_Y s) (k + 1);
  let xSrcStep := xk1 - xk in
  let t := (x - xk) / xSrcStep in
  do e <- match opt with
          | OptRebin =>
              do ek <- vget (s_E s) k; do ek1 <- vget (s_E s) (k + 1);
              Ok (EVal (ek + (ek1 - ek) * t))
          | OptRebinVariance =>
              do ek <- vget (s_E s) k; do ek1 <- vget (s_E s) (k + 1);
              do c <- computeXStepCompensation Xtgt cursor xSrcStep;
              Ok (ESqrt2 (ek * ek * (1 - t) * (1 - t) + ek1 * ek1 * t * t) c)
          | _ => Ok err_default
          end;
  Ok (mkCell (yk + (yk1 - yk) * t) true e).

(** rebinLinear.cpp:58-84; [m] counts the values of k left (n-1-k). *)
Fixpoint lin_outer (opt : opt_error) (s : source) (Xtgt : list Q) (rend : Q)
    (m k cursor : nat) (rem : list Q) : res (list cell) :=
  match m with
  | O => Ok []
  | S m' =>
      do xk <- vget (s_X s) k;
      if Qle_bool xk rend then
        do xk1 <- vget (s_X s) (k + 1);
        do cs <- scan xk1 (lin_cell opt s Xtgt k) cursor rem;
        do cs' <- lin_outer opt s Xtgt rend m' (k + 1) (cursor + length cs) (skipn (length cs) rem);
        Ok (cs ++ cs')
      else Ok []
  end.

Definition rebinLinear (opt : opt_error) (s : source) (Xtgt : list Q) (rend : Q) (cursor : nat) (rem : list Q)
  : res (list cell) :=
  lin_outer opt s Xtgt rend (length (s_X s) - 1) 0 cursor rem.

(** rebinNgp.cpp:65-84 *)
Definition ngp_cell (opt : opt_error) (s : source) (Xtgt : list Q) (cursor : nat) (x : Q) : res cell :=
  do k <- getCloserIndex (s_X s) x;
  do xSrcStep <- (if Nat.eqb k (length (s_X s) - 1) then
                    do a <- vget (s_X s) k;
                    match k with O => UB (* Xsrc[-1] *) | S p => do b <- vget (s_X s) p; Ok (a - b) end
                  else
                    do a <- vget (s_X s) (k + 1); do b <- vget (s_X s) k; Ok (a - b));
  do y <- vget (s_Y s) k;
  do e <- match opt with
          | OptNo => Ok err_default
          | OptRebinVariance =>
              do ek <- vget (s_E s) k;
              do c <- computeXStepCompensation Xtgt cursor xSrcStep;
              Ok (EScaled ek c)
          | _ => do ek <- vget (s_E s) k; Ok (EVal ek)
          end;
  Ok (mkCell y true e).

(** rebinNgp.cpp:46-87 *)
Definition rebinNgp (opt : opt_error) (s : source) (Xtgt : list Q) (rend : Q) (cursor : nat) (rem : list Q)
  : res (list cell) := scan rend (ngp_cell opt s Xtgt) cursor rem.

(** GSL cubic spline, an external library: [gsl_eval X Y x] is any function; allocation/initialisation fails
    (the handler installed in processflow/context.cpp:49-59,67 throws EXTERNAL_LIB_ERROR) below 3 samples, the
    minimum of gsl_interp_cspline, or when the abscissas are not strictly increasing (gsl_interp_init). *)
Fixpoint sorted_strictb (l : list Q) : bool :=
  match l with
  | a :: (b :: _) as t => Qltb a b && sorted_strictb t
  | _ => true
  end.
Definition gsl_spline_init (s : source) : res unit :=
  if Nat.ltb (length (s_X s)) 3 || negb (sorted_strictb (s_X s)) then Throw EXTERNAL_LIB_ERROR else Ok tt.

Section Gsl.
Variable gsl_eval : list Q -> list Q -> Q -> Q.

(** rebinSpline.cpp:71-84; the flux is written before the option is checked, but the exception leaves compute
    before the output spectrum is updated (rebin.cpp:96), so no cell is observable. *)
Definition spline_cell (opt : opt_error) (s : source) (cursor : nat) (x : Q) : res cell :=
  match opt with
  | OptNo => Ok (mkCell (gsl_eval (s_X s) (s_Y s) x) true err_default)
  | _ => Throw INTERNAL_ERROR
  end.

(** rebinSpline.cpp:49-88 *)
Definition rebinSpline (opt : opt_error) (s : source) (Xtgt : list Q) (rend : Q) (cursor : nat) (rem : list Q)
  : res (list cell) :=
  do _ <- gsl_spline_init s;
  scan rend (spline_cell opt s) cursor rem.

(** rebin.h:88, the exact decimal 0.1 *)
Definition dLambda : Q := 1 # 10.

(** C++ conversion double -> int: truncation toward zero; outside the int range it is undefined. *)
Definition Qtrunc (q : Q) : Z := if Qle_bool 0 q then Qfloor q else Qceiling q.
Definition to_int32 (q : Q) : res Z :=
  let z := Qtrunc q in
  if ((-2147483648 <=? z) && (z <=? 2147483647))%Z then Ok z else UB.

(** rebinFineGrid.cpp:75-82, one sample of the fine grid *)
Definition fine_sample (s : source) (lmin lmax : Q) (k : nat) : Q :=
  let x := lmin + inject_Z (Z.of_nat k) * dLambda in
  if Qltb x lmin || Qltb lmax x then 0 else gsl_eval (s_X s) (s_Y s) x.

(** rebinFineGrid.cpp:49-86 *)
Definition rebinFineGrid (s : source) : res (list Q) :=
  if Nat.eqb (length (s_X s)) 0 then Throw INVALID_SPECTRUM else
  do lmin <- vget (s_X s) 0;
  do lmax <- vget (s_X s) (length (s_X s) - 1);
  do nTgt <- to_int32 ((lmax - lmin) / dLambda + 2 / dLambda);
  if (nTgt <? 0)%Z then Throw STD_length_error (* resize(negative) *) else
  do _ <- gsl_spline_init s;
  Ok (map (fine_sample s lmin lmax) (seq 0 (Z.to_nat nTgt))).

(** rebinFineGrid.cpp:117-128 *)
Definition fine_cell (opt : opt_error) (s : source) (lmin : Q) (pfg : list Q) (cursor : nat) (x : Q) : res cell :=
  do k <- to_int32 ((x - lmin) / dLambda + (1 # 2));
  do v <- (if (k <? 0)%Z then UB else vget pfg (Z.to_nat k));
  match opt with
  | OptNo => Ok (mkCell v true err_default)
  | _ => Throw INTERNAL_ERROR
  end.

(** rebinFineGrid.cpp:93-130, called with the fine grid not computed yet *)
Definition rebinFine (opt : opt_error) (s : source) (Xtgt : list Q) (rend : Q) (cursor : nat) (rem : list Q)
  : res (list cell) :=
  do pfg <- rebinFineGrid s;
  if Nat.eqb (length pfg) 0 then Throw INTERNAL_ERROR else
  do lmin <- vget (s_X s) 0;
  scan rend (fine_cell opt s lmin pfg) cursor rem.
End Gsl.

(** rebin.cpp:72-80: number of target samples skipped before the range *)
Fixpoint before_range (rbegin : Q) (Xtgt : list Q) : nat :=
  match Xtgt with
  | [] => O
  | x :: r => if Qltb x rbegin then S (before_range rbegin r) else O
  end.

(** rebin.cpp:48-98. [op] is the virtual member function rebin of the chosen operator. *)
Definition compute (op : opt_error -> source -> list Q -> Q -> nat -> list Q -> res (list cell))
    (opt : opt_error) (s : source) (rbegin rend : Q) (Xtgt : list Q) : res (list cell) :=
  do x0 <- vget (s_X s) 0;
  do xl <- vget (s_X s) (length (s_X s) - 1);
  if Qltb rbegin x0 || Qltb xl rend then Throw INTERNAL_ERROR else
  let c0 := before_range rbegin Xtgt in
  do cs <- op opt s Xtgt rend c0 (skipn c0 Xtgt);
  Ok (repeat (outside_cell opt) c0 ++ cs ++
      repeat (outside_cell opt) (length Xtgt - c0 - length cs)).

(** rebin.cpp:115-144: [create] and [convert] accept exactly the same four names *)
Inductive rebin_op : Type := OpLinear | OpFineGrid | OpSpline | OpNgp.
From Coq Require Import String.
Definition create (opt_interp : string) : res rebin_op :=
  if String.eqb opt_interp "lin" then Ok OpLinear
  else if String.eqb opt_interp "preComputedFineGrid" then Ok OpFineGrid
  else if String.eqb opt_interp "spline" then Ok OpSpline
  else if String.eqb opt_interp "ngp" then Ok OpNgp
  else Throw INVALID_PARAMETER.
