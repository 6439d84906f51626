(** Model of pylibamazed/Reliability.py, PdfHandler.py (the parameters of the grids), SubType.py and of the checks of
    CalibrationLibrary.load_reliability_model.  The conversion of the PDF to a regular grid is the subject of C77 (LogZModel.v): the grid and the
    log-probabilities are here the ones after it.
    A sub type which is not in the catalogue is an exception of the class Exception, not of the API: outcome Python.
    Simplifications: real numbers instead of floating point ones (a division by zero has the outcome of the comparison in numpy); the neural network
    is an arbitrary function. *)
From Coq Require Import String Reals.
From Verif Require Import Base RdrModel.
Open Scope string_scope.
Open Scope R_scope.

(** *** PdfHandler.py:46-54 *)
Record grid_param := mkParam { g_min : R; g_max : R; g_step : R; g_center : option R }.
(** :47, zip of the columns: as many rows as the shortest column *)
Definition rows (cols : dict (list R)) : list (dict R) :=
  match cols with
  | [] => []
  | c :: t => let n := fold_left (fun n c => Nat.min n (List.length (snd c))) t (List.length (snd c)) in
              map (fun i => map (fun c => (fst c, nth i (snd c) 0)) cols) (seq 0 n)
  end.
Definition cell (k : string) (r : dict R) : pres R := match dget k r with Some x => Val x | None => Err Python end.
(** :48-54; None: the center is NaN *)
Definition param_of (first_pass : bool) (r : dict R) : pres grid_param :=
  if first_pass then
    let! a := cell "FPZmin" r in let! b := cell "FPZmax" r in let! s := cell "FPZstep" r in Val (mkParam a b s None)
  else
    let! a := cell "zmin" r in let! b := cell "zmax" r in let! s := cell "zstep" r in let! c := cell "zcenter" r in Val (mkParam a b s (Some c)).
Definition buildPdfParams (first_pass : bool) (cols : dict (list R)) : pres (list grid_param) := pmap (param_of first_pass) (rows cols).

(** *** Reliability.py *)
Record network := mkNet { n_input : nat; predict : list R -> list R }.
Record net_params := mkNetParams { zgrid_end : R; zrange_step : R; classes : list string }.
Definition tolerance : R := 1 / 1000000.
(** a / b > 1e-6 in numpy: a / 0 is an infinity of the sign of a, or NaN *)
Definition exceeds (a b : R) : bool :=
  if Req_EM_T b 0 then (if Rlt_dec 0 a then true else false) else (if Rlt_dec tolerance (a / b) then true else false).
Definition incompatible : perr := Api "INCOMPATIBLE_PDF_MODELSHAPES".
(** :103-106: the classes after the first one, each with the probability of its index *)
Fixpoint report (cs : list string) (i : nat) (probas : list R) (d : dict R) : pres (dict R) :=
  match cs with
  | [] => Val d
  | c :: t => match nth_error probas i with Some x => report t (S i) probas (dput c x d) | None => Err Python end
  end.
(** :66-106, after the conversion of the PDF; the grid is in reverse order: its last point first *)
Definition get_probas (zgrid pdfval : list R) (model : network) (par : net_params) : pres (dict R) :=
  match rev zgrid with
  | [] => Err Python
  | ze :: before =>
      if negb (Nat.eqb (List.length pdfval) (n_input model)) then Err incompatible else
      if exceeds (ze - zgrid_end par) ze then Err incompatible else
      match before with
      | [] => Err Python
      | zb :: _ =>
          (* a last but one point at -1 makes the step infinite or NaN, and the difference NaN *)
          if negb (if Req_EM_T (zb + 1) 0 then true else false) && exceeds (exp (zrange_step par) - (ze + 1) / (zb + 1)) ((ze + 1) / (zb + 1)) then Err incompatible
          else report (tl (classes par)) 1 (predict model (map exp pdfval)) []
      end
  end.
(** :53-64 *)
Definition compute (zgrid pdfval : list R) (model : network) (par : net_params) : pres R :=
  let! d := get_probas zgrid pdfval model par in match dget "success" d with Some x => Val x | None => Err Python end.

(** *** pylibamazed/CalibrationLibrary.py:90-111; versions: the part before the first dot; Python orders strings by their characters *)
Definition newer (model_major system_major : string) : bool := (system_major <? model_major)%string.
Definition same_list (a b : list R) : bool := if list_eq_dec Req_EM_T a b then true else false.
Definition check_model (model_major system_major : string) (range solver_range : list R) (step solver_step : R) : pres unit :=
  if newer model_major system_major then Err (Api "RELIABILITY_NEEDS_TENSORFLOW") else
  if negb (same_list solver_range range) then Err incompatible else
  if Req_EM_T solver_step step then Val tt else Err incompatible.

(** *** SubType.py:52-68, CalibrationLibrary.py:490-495: [ratio] is the attribute LinesRatioName of a rank *)
Definition get_sub_type (catalog : dict (dict string)) (ratio : string) : pres string :=
  match dget ratio catalog with
  | Some conf => match dget "sub_type" conf with Some s => Val s | None => Err Python end
  | None => Err Python
  end.
Definition sub_types (catalog : dict (dict string)) (candidates : nat) (ratio : nat -> pres string) : pres (list string) :=
  pmap (fun rank => let! r := ratio rank in get_sub_type catalog r) (seq 0 candidates).
