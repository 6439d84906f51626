(** Vocabulary for C98: what is found in the parameters. *)
From Coq Require Import String.
From Verif Require Import Base RdrModel CvtModel.
Open Scope string_scope.

(** the value at a path *)
Fixpoint at_path (path : list string) (j : json) : option json :=
  match path with [] => Some j | k :: t => match field k j with Some x => at_path t x | None => None end end.
Definition value (p : dict json) (path : list string) : option json := at_path path (JObj p).
(** a parameter of the line model of a spectrum model *)
Definition line_model_parameter (m k : string) : list string := [m; "redshiftSolver"; "lineModelSolve"; "lineModel"; k].
(** the spectrum models listed by the client *)
Definition listed (p : dict json) (ms : list string) : Prop := dget "spectrumModels" p = Some (JArr (map JStr ms)) \/ (dget "spectrumModels" p = None /\ ms = []).
Definition given (o : option json) : Prop := o <> None /\ o <> Some JNull.
(** a model works on a spectrum without its continuum *)
Definition continuum_removed (p : dict json) (m : string) : Prop :=
  exists s v, In s ["templateFittingSolve"; "tplCombinationSolve"] /\ value p [m; "redshiftSolver"; s; "spectrum"; "component"] = Some v /\ v <> JNull /\ v <> JStr "raw".
Definition continuum_of_lines (p : dict json) (m : string) : Prop :=
  (exists c, value p (line_model_parameter m "continuumComponent") = Some (JStr c) /\ In c ["fromSpectrum"; "tplFitAuto"]) \/
  (exists v, value p (line_model_parameter m "continuumReestimation") = Some v /\ v <> JNull /\ v <> JStr "never").
(** the parameters are needed, and are the ones of the client *)
Definition needs_removal (p : dict json) (ms : list string) : Prop := exists m, In m ms /\ (continuum_removed p m \/ continuum_of_lines p m).
Definition needs_catalog_removal (p : dict json) (ms : list string) : Prop := exists m, In m ms /\ continuum_removed p m.
Definition hybrid (p : dict json) (m : string) : Prop := value p (line_model_parameter m "fittingMethod") = Some (JStr "hybrid").
Definition fft (p : dict json) (m : string) : Prop :=
  (exists c, value p (line_model_parameter m "continuumComponent") = Some (JStr c) /\ In c ["tplFit"; "tplFitAuto"]) /\
  exists v, value p [m; "redshiftSolver"; "lineModelSolve"; "lineModel"; "continuumFit"; "fftProcessing"] = Some v /\ truthy v = true.
Definition removal (catalog : bool) : list string := if catalog then ["templateCatalog"; "continuumRemoval"] else ["continuumRemoval"].
Definition median (p : dict json) (catalog : bool) : Prop := value p (removal catalog ++ ["method"])%list = Some (JStr "irregularSamplingMedian").
(** the entries written with a default, and the section or entry replaced *)
Inductive written (p : dict json) (ms : list string) : list string -> json -> Prop :=
| wr_removal k v : ~ needs_removal p ms -> In (k, v) [("method", JStr "default"); ("medianKernelWidth", JNum (-1)); ("medianEvenReflection", JBool true)] -> written p ms ["continuumRemoval"; k] v
| wr_catalog k v : ~ needs_catalog_removal p ms -> In (k, v) [("method", JStr "default"); ("medianKernelWidth", JNum (-1)); ("medianEvenReflection", JBool true)] ->
    written p ms ["templateCatalog"; "continuumRemoval"; k] v
| wr_reestimation m : In m ms -> ~ hybrid p m -> written p ms (line_model_parameter m "continuumReestimation") (JStr "no")
| wr_loglambda m : In m ms -> ~ fft p m -> written p ms (line_model_parameter m "useLogLambdaSampling") (JBool false)
| wr_median c k v : ~ median p c -> In (k, v) [("medianKernelWidth", JNum (-1)); ("medianEvenReflection", JBool true)] -> written p ms (removal c ++ [k])%list v.
Inductive replaced (p : dict json) (ms : list string) : list string -> Prop :=
| re_removal : ~ needs_removal p ms -> replaced p ms ["continuumRemoval"]
| re_catalog : ~ needs_catalog_removal p ms -> replaced p ms ["templateCatalog"; "continuumRemoval"]
| re_reestimation m : In m ms -> ~ hybrid p m -> replaced p ms (line_model_parameter m "continuumReestimation")
| re_loglambda m : In m ms -> ~ fft p m -> replaced p ms (line_model_parameter m "useLogLambdaSampling")
| re_median c k : ~ median p c -> In k ["medianKernelWidth"; "medianEvenReflection"] -> replaced p ms (removal c ++ [k])%list.
Definition prefix_of (a b : list string) : Prop := exists c, b = (a ++ c)%list.
(** nothing is replaced at this path, above it or below it *)
Definition untouched (p : dict json) (ms : list string) (path : list string) : Prop := forall r, replaced p ms r -> ~ prefix_of r path /\ ~ prefix_of path r.
(** the sections on the way to the parameters are absent, null or sections *)
Definition section (o : option json) : Prop := match o with None | Some JNull | Some (JObj _) => True | _ => False end.
Definition model_sections (m : string) : list (list string) :=
  let s := [m; "redshiftSolver"] in
  [[m]; s; s ++ ["templateFittingSolve"]; s ++ ["templateFittingSolve"; "spectrum"]; s ++ ["tplCombinationSolve"]; s ++ ["tplCombinationSolve"; "spectrum"];
   s ++ ["lineModelSolve"]; s ++ ["lineModelSolve"; "lineModel"]; s ++ ["lineModelSolve"; "lineModel"; "continuumFit"]]%list.
Definition in_sections (ms : list string) (q : list string) : Prop :=
  In q [["continuumRemoval"]; ["templateCatalog"]; ["templateCatalog"; "continuumRemoval"]] \/ exists m, In m ms /\ In q (model_sections m).
Definition sections (p : dict json) (ms : list string) : Prop := forall q, in_sections ms q -> section (value p q).
