(** Model of pylibamazed/ParametersExtender.py: the default parameters added to the converted ones, with the conditions of
    ParametersChecker.py and the accessors of ParametersAccessor.py it uses.
    Simplifications: the names of the spectrum models are strings in a list (an error otherwise); the section of defaults, which is one shared Python
    object, is copied (during the extension it is only ever overwritten with its own values). *)
From Coq Require Import String.
From Verif Require Import Base RdrModel CvtModel.
Open Scope string_scope.

(** a chain of ParametersAccessor._get_on_None (ParametersAccessor.py:215-219): None on a missing or null section, AttributeError on another type *)
Fixpoint look (path : list string) (j : option json) : pres (option json) :=
  match path with
  | [] => Val j
  | k :: t => match j with
              | None | Some JNull => look t None
              | Some (JObj d) => look t (dget k d)
              | Some _ => Err Python
              end
  end.
Definition read (path : list string) (p : dict json) : pres (option json) := look path (Some (JObj p)).
(** _get_or_create_section with create (ParametersAccessor.py:462-473, and :75-80, :143-148, :196-201), followed by section[name] = v *)
Fixpoint set_at (path : list string) (v : json) (d : dict json) : pres (dict json) :=
  match path with
  | [] => Err Python
  | [k] => Val (dput k v d)
  | k :: t => match dget k d with
              | None | Some JNull => let! s := set_at t v [] in Val (dput k (JObj s) d)
              | Some (JObj s) => let! s' := set_at t v s in Val (dput k (JObj s') d)
              | Some _ => Err Python
              end
  end.
(** ParametersAccessor.py:72-73, with the default [] *)
Fixpoint names (l : list json) : pres (list string) :=
  match l with [] => Val [] | JStr s :: t => let! r := names t in Val (s :: r) | _ :: _ => Err Python end.
Definition get_spectrum_models (p : dict json) : pres (list string) :=
  match dget "spectrumModels" p with None => Val [] | Some (JArr l) => names l | Some _ => Err Python end.
Definition is_str (s : string) (o : option json) : bool := match o with Some (JStr t) => t =? s | _ => false end.
(** o not in [None, s] *)
Definition given_but (s : string) (o : option json) : bool := match o with None | Some JNull => false | _ => negb (is_str s o) end.
(** ParametersAccessor.py:241-245 *)
Definition template_fitting_component (m : string) := [m; "redshiftSolver"; "templateFittingSolve"; "spectrum"; "component"].
(** ParametersAccessor.py:254-258 *)
Definition template_combination_component (m : string) := [m; "redshiftSolver"; "tplCombinationSolve"; "spectrum"; "component"].
(** ParametersAccessor.py:276-278 *)
Definition line_model (m : string) := [m; "redshiftSolver"; "lineModelSolve"; "lineModel"].
(** ParametersChecker.py:239-256, the body of the loop *)
Definition model_needs_removal (p : dict json) (m : string) : pres bool :=
  let! a := read (template_fitting_component m) p in
  let! b := read (template_combination_component m) p in
  let! c := read (line_model m ++ ["continuumComponent"])%list p in
  let! r := read (line_model m ++ ["continuumReestimation"])%list p in
  Val (given_but "raw" a || given_but "raw" b || (is_str "fromSpectrum" c || is_str "tplFitAuto" c) || given_but "never" r).
(** :230-237 *)
Definition model_needs_catalog_removal (p : dict json) (m : string) : pres bool :=
  let! a := read (template_fitting_component m) p in
  if given_but "raw" a then Val true else let! b := read (template_combination_component m) p in Val (given_but "raw" b).
Fixpoint any_model (f : string -> pres bool) (l : list string) : pres bool :=
  match l with [] => Val false | m :: t => let! b := f m in let! r := any_model f t in Val (b || r) end.
Definition continuum_removal_presence (p : dict json) : pres bool := let! ms := get_spectrum_models p in any_model (model_needs_removal p) ms.
Definition catalog_removal_presence (p : dict json) : pres bool := let! ms := get_spectrum_models p in any_model (model_needs_catalog_removal p) ms.
(** :471-472 *)
Definition reestimation_presence (p : dict json) (m : string) : pres bool :=
  let! f := read (line_model m ++ ["fittingMethod"])%list p in Val (is_str "hybrid" f).
(** :552-554 *)
Definition loglambda_presence (p : dict json) (m : string) : pres bool :=
  let! c := read (line_model m ++ ["continuumComponent"])%list p in
  if is_str "tplFit" c || is_str "tplFitAuto" c then
    let! f := read (line_model m ++ ["continuumFit"; "fftProcessing"])%list p in Val (match f with Some j => truthy j | None => false end)
  else Val false.
(** :267-268, ParametersAccessor.py:189-207 *)
Definition removal_section (catalog : bool) : list string := if catalog then ["templateCatalog"; "continuumRemoval"] else ["continuumRemoval"].
Definition median_presence (p : dict json) (catalog : bool) : pres bool :=
  let! m := read (removal_section catalog ++ ["method"])%list p in Val (is_str "irregularSamplingMedian" m).

(** ParametersExtender.py:48-56 *)
Definition default_section : json := JObj [("method", JStr "default"); ("medianKernelWidth", JNum (-1)); ("medianEvenReflection", JBool true)].
(** :81-84 *)
Definition extend_removal (p e : dict json) : pres (dict json) :=
  let! b := continuum_removal_presence p in if b then Val e else set_at (removal_section false) default_section e.
(** :86-91 *)
Definition extend_catalog_removal (p e : dict json) : pres (dict json) :=
  let! b := catalog_removal_presence p in if b then Val e else set_at (removal_section true) default_section e.
(** :93-99, the call with True as a model only reads *)
Fixpoint extend_reestimation (p : dict json) (ms : list string) (e : dict json) : pres (dict json) :=
  match ms with
  | [] => Val e
  | m :: t => let! b := reestimation_presence p m in
              let! e := (if b then Val e else set_at (line_model m ++ ["continuumReestimation"])%list (JStr "no") e) in
              extend_reestimation p t e
  end.
(** :101-107 *)
Fixpoint extend_loglambda (p : dict json) (ms : list string) (e : dict json) : pres (dict json) :=
  match ms with
  | [] => Val e
  | m :: t => let! b := loglambda_presence p m in
              let! e := (if b then Val e else set_at (line_model m ++ ["useLogLambdaSampling"])%list (JBool false) e) in
              extend_loglambda p t e
  end.
(** :109-116, one turn *)
Definition extend_median (p : dict json) (catalog : bool) (e : dict json) : pres (dict json) :=
  let! b := median_presence p catalog in
  if b then Val e else
    let! e := set_at (removal_section catalog ++ ["medianKernelWidth"])%list (JNum (-1)) e in
    set_at (removal_section catalog ++ ["medianEvenReflection"])%list (JBool true) e.
(** :62-79 *)
Definition extend (p : dict json) : pres (dict json) :=
  let! e := extend_removal p p in
  let! e := extend_catalog_removal p e in
  let! ms := get_spectrum_models p in
  let! e := extend_reestimation p ms e in
  let! e := extend_loglambda p ms e in
  let! e := extend_median p false e in
  extend_median p true e.
