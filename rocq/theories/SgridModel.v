(** Model of the choice of the redshift grids and of the first pass
    RedshiftLibrary/src/lib/method/objectSolve.cpp:44-94 (CObjectSolve), linemodelsolve.cpp:489-607 (CLineModelSolve::Solve, the first
    passes), 609-642 (createRedshiftGrid), linemeassolve.cpp:48-70 (CLineMeasSolve::GetRedshiftSampling),
    RedshiftLibrary/src/lib/common/zgridparam.cpp:44-54, RedshiftLibrary/src/lib/operator/linemodel.cpp:162-165, 200-258.
    Linear grids over exact rationals, logarithmic ones over the reals. *)
From Coq Require Import String.
From Verif Require Import Base RBase RangeModel RangeLogModel FpcModel.
Open Scope Q_scope.

(** zgridparam.cpp:44-54 without a center *)
Definition grid_lin (r : range) (step : Q) : res (list Q) := SpreadOverEpsilon r step false default_epsilon.
Definition epsR : R := (1 / 100000000)%R.
Definition grid_log (r : rrange) (step : R) : res (list R) := SpreadOverLogZplusOneEpsilon r step false epsR.

(** common/defaults.h:36 *)
Definition MIN_GRID_COUNT : nat := 10.
(** linemodelsolve.cpp:617-641: the grid and m_coarseRedshiftStep *)
Definition coarse_or_fine {A S : Type} (grid : S -> res (list A)) (coarse fine : S) : res (list A * S) :=
  do c <- grid coarse;
  if (length c <? MIN_GRID_COUNT)%nat then do f <- grid fine; Ok (f, fine) else Ok (c, coarse).
Definition lineModel_grid_lin (r : range) (step : Q) (ratio : Z) : res (list Q * Q) :=
  coarse_or_fine (grid_lin r) (step * inject_Z ratio) step.
Definition lineModel_grid_log (r : rrange) (step : R) (ratio : Z) : res (list R * R) :=
  coarse_or_fine (grid_log r) (step * IZR ratio)%R step.

Inductive sampling := Lin | Log.
(** objectSolve.cpp:73-94; [rebin]: the range and the step of the rebinned spectra of this object, when there are *)
Definition GetRedshiftSampling (rebin : option (range * Q)) (s : sampling) (prange : range) (pstep : Q) : res (range * Q) :=
  match rebin with
  | Some (zr, st) => match s with Lin => Throw BAD_PARAMETER_VALUE | Log => Ok (zr, st) end
  | None => Ok (prange, pstep)
  end.

(** linemeassolve.cpp:48-70 *)
Definition lineMeas_range_lin (zref half step : Q) : range :=
  let h := inject_Z (Qceiling (half / step)) * step in mkRange (zref - h) (zref + h).
Definition Rceil (x : R) : Z := (- Rfloor (- x))%Z.
Definition lineMeas_range_log (zref half step : R) : rrange :=
  let h := (IZR (Rceil (half / step)) * step)%R in
  let half_r := ((exp h - 1) * (1 + zref))%R in
  let half_l := ((1 - exp (- h)) * (1 + zref))%R in
  mkRR (zref - half_l) (zref + half_r).
Definition lineMeas_grid_lin (zref half step : Q) : res (list Q) := grid_lin (lineMeas_range_lin zref half step) step.
Definition lineMeas_grid_log (zref half step : R) : res (list R) := grid_log (lineMeas_range_log zref half step) step.

(** operator/linemodel.cpp:241-258 *)
Definition isfftprocessingActive (first second : bool) (pass : option Z) (n : nat) : bool :=
  let fft := match pass with None => first | Some p => if (p =? 1)%Z then first else second end in
  if (n <? 100)%nat && fft then false else fft.

(** what the fit gives at one redshift: the line amplitudes and the amplitude of the continuum, [None] for NaN *)
Record fitted := mkF { f_amps : list (option Q); f_cont : option Q }.
(** operator/linemodel.cpp:200-211 *)
Definition cont_zero (f : fitted) : bool := match f_cont f with Some a => Qle_bool a 0 | None => false end.
Definition lines_zero (f : fitted) : bool := negb (existsb (fun a => match a with Some x => Qltb 0 x | None => false end) (f_amps f)).
(** operator/linemodel.cpp:232-239 *)
Definition AllAmplitudesAreZero (l : list bool) : bool := negb (existsb negb l).
(** operator/linemodel.cpp:162-218: the loop and the check *)
Definition first_pass_check {Z0 : Type} (fit : Z0 -> fitted) (zs : list Z0) : res (list fitted) :=
  let l := map fit zs in
  if AllAmplitudesAreZero (map (fun f => lines_zero f && cont_zero f) l) then Throw NULL_MODEL else Ok l.

(** the continuum component *)
Inductive component := NoContinuum | FromSpectrum | TplFit | TplFitAuto.
Definition with_template (c : component) : bool := match c with TplFit | TplFitAuto => true | _ => false end.
(** the empty candidates of a new operator *)
Definition no_pass : pass := mkPass [] [] [] [] [] [] [].
(** linemodelsolve.cpp:489-577: [pass c] the first pass with the continuum component c (ComputeFirstPass reads the parameter, 82-83), [cands
    r prefix] the candidates of its posterior.  The component of the second first pass (548-550) is a local variable that nothing reads. *)
Definition enableFirstpass_B (countB : Z) (c : component) : bool := (0 <? countB)%Z && with_template c && (1 <? countB)%Z.
Definition first_passes (pass_of : component -> res result) (cands : result -> string -> res (list ranked)) (countB : Z) (c : component) : res pass :=
  do r <- pass_of c;
  do zs <- cands r "FPE"%string;
  do p <- SetFirstPassCandidates r no_pass zs;
  if enableFirstpass_B countB c then
    do rb <- pass_of c;
    do zb <- cands rb "FPB"%string;
    do b <- SetFirstPassCandidates rb no_pass zb;
    Combine_firstpass_candidates r p b
  else Ok p.
