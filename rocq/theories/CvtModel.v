(** Model of the conversion of the parameters (pylibamazed/ParametersConverter.py), and of the names of the
    parameters read by the library (ParametersAccessor.py, ParametersChecker.py) against the ones accepted by the
    schemas (auxdir/pylibamazed/jsonschema-v1, -v2).
    Simplification: the textual replacement of the version 1 converter is modelled on the strings of the tree.  It is
    the same for strings without quotation marks: the names have no quotation mark, no backslash and no separator, so
    a quoted name in the text is exactly a whole string, key or value.  Of a schema only the names accepted in the
    sections concerned, and the values where stated, are modelled. *)
From Coq Require Import String Ascii.
From Verif Require Import Base RdrModel.
Open Scope string_scope.

Inductive json := JNull | JBool (b : bool) | JNum (q : Q) | JStr (s : string) | JArr (l : list json) | JObj (d : list (string * json)).

(** ** Version 1 (ParametersConverter.py:82-96) *)
(** auxdir/pylibamazed/rename_params_v1_to_treed.csv, first two columns, in order (blank lines are skipped) *)
Definition renaming : list (string * string) :=
  [("fromfirstpass", "fromFirstPass"); ("retryall", "retryAll"); ("refitfirstpass", "reFitFirstPass");
   ("IrregularSamplingMedian", "irregularSamplingMedian"); ("Morton2000", "morton2000"); ("Edlen1953", "edlen1953");
   ("Edlen1966", "edlen1966"); ("Peckreeder1972", "peckreeder1972"); ("Ciddor1996", "ciddor1996");
   ("instrumentdriven", "instrumentDriven"); ("velocitydriven", "velocityDriven"); ("tplratio", "tplRatio");
   ("tplcorr", "tplCorr"); ("strongweak", "strongWeak"); ("ratiorange", "ratioRange");
   ("tplfitauto", "tplFitAuto"); ("tplfit", "tplFit"); ("nocontinuum", "noContinuum");
   ("onlyextrema", "onlyextrema"); ("bestchi2", "bestChi2"); ("strongweak", "strongWeak");
   ("balmerSingle", "balmerSingle"); ("ratiorange", "ratioRange"); ("GaussianConstantWidth", "gaussianConstantWidth");
   ("GaussianConstantResolution", "gaussianConstantResolution"); ("GaussianNISPSIM2016", "gaussianNISPSIM2016"); ("GaussianNISPVSSPSF201707", "gaussianNISPVSSPSF201707");
   ("FROMSPECTRUMDATA", "fromSpectrumData"); ("fromspectrum", "fromSpectrum"); ("GaussianVariableWidth", "gaussianVariableWidth");
   ("precomputedfinegrid", "preComputedFineGrid"); ("maxintproba", "maxIntProba"); ("additional_cols", "additionalCols");
   ("airvacuum_method", "airVacuumMethod"); ("autocorrectinput", "autoCorrectInput"); ("continuumRemoval", "continuumRemoval");
   ("ebmv", "ebmv"); ("extremaredshiftseparation", "extremaRedshiftSeparation"); ("filters", "filters");
   ("multiobsmethod", "multiObsMethod"); ("lambdarange", "lambdaRange"); ("LSF", "lsf");
   ("objects", "spectrumModels"); ("photometryBand", "photometryBand"); ("photometryTransmissionDir", "photometryTransmissionDir");
   ("smoothWidth", "smoothWidth"); ("templateCatalog", "templateCatalog"); ("method", "method");
   ("medianKernelWidth", "medianKernelWidth"); ("medianEvenReflection", "medianEvenReflection"); ("start", "start");
   ("step", "step"); ("count", "count"); ("LSFType", "lsfType");
   ("width", "width"); ("resolution", "resolution"); ("sourcesize", "sourceSize");
   ("GaussianVariablewidthFileName", "gaussianVariableWidthFileName"); ("method", "method"); ("medianKernelWidth", "medianKernelWidth");
   ("medianEvenReflection", "medianEvenReflection"); ("redshiftrange", "redshiftRange"); ("redshiftstep", "redshiftStep");
   ("redshiftsampling", "redshiftSampling"); ("template_dir", "templateDir"); ("linemeas_dzhalf", "lineMeasDzHalf");
   ("linemeas_redshiftstep", "lineMeasRedshiftStep"); ("LineMeasSolve", "lineMeasSolve"); ("fftprocessing", "fftProcessing");
   ("enablephotometry", "enablePhotometry"); ("extremacount", "extremaCount"); ("igmfit", "igmFit");
   ("interpolation", "interpolation"); ("ismfit", "ismFit"); ("overlapThreshold", "overlapThreshold");
   ("pdfcombination", "pdfCombination"); ("photometry", "photometry"); ("spectrum", "spectrum");
   ("component", "component"); ("weight", "weight"); ("extremacount", "extremaCount");
   ("igmfit", "igmFit"); ("interpolation", "interpolation"); ("ismfit", "ismFit");
   ("overlapThreshold", "overlapThreshold"); ("pdfcombination", "pdfCombination"); ("spectrum", "spectrum");
   ("component", "component"); ("absvelocityfitmax", "absVelocityFitMax"); ("absvelocityfitmin", "absVelocityFitMin");
   ("absvelocityfitstep", "absVelocityFitStep"); ("ampoffsetfit", "ampOffsetFit"); ("continuumcomponent", "continuumComponent");
   ("continuumfit", "continuumFit"); ("continuumreestimation", "continuumReestimation"); ("emvelocityfitmax", "emVelocityFitMax");
   ("emvelocityfitmin", "emVelocityFitMin"); ("emvelocityfitstep", "emVelocityFitStep"); ("enablephotometry", "enablePhotometry");
   ("euclidnhaemittersStrength", "nOfZPriorStrength"); ("extremacount", "extremaCount"); ("extremacountB", "extremaCountB");
   ("extremacutprobathreshold", "extremaCutProbaThreshold"); ("firstPass", "firstPass"); ("fittingmethod", "fittingMethod");
   ("igmfit", "igmFit"); ("improveBalmerFit", "improveBalmerFit"); ("haprior", "hAlphaPrior");
   ("lbdaoffsetfit", "lbdaOffsetFit"); ("linecatalog", "lineCatalog"); ("lineforcefilter", "lineForceFilter");
   ("lineRatioType", "lineRatioType"); ("linetypefilter", "lineTypeFilter"); ("linewidthtype", "lineWidthType");
   ("lyafit", "lyaFit"); ("lyaforcedisablefit", "lyaForceDisableFit"); ("lyaforcefit", "lyaForceFit");
   ("nsigmasupport", "nSigmaSupport"); ("pdf", "pdf"); ("pdfcombination", "pdfCombination");
   ("photometry", "photometry"); ("rules", "rules"); ("secondpasslcfittingmethod", "secondPassLcFittingMethod");
   ("skipsecondpass", "skipSecondPass"); ("secondpass", "secondPass"); ("stronglinesprior", "strongLinesPrior");
   ("tplratio_ismfit", "tplRatioIsmFit"); ("tplratio", "tplRatio"); ("tplratio_catalog", "tplRatioCatalog");
   ("useloglambdasampling", "useLogLambdaSampling"); ("velocityabsorption", "velocityAbsorption"); ("velocityemission", "velocityEmission");
   ("velocityfit", "velocityFit"); ("count", "count"); ("fftprocessing", "fftProcessing");
   ("igmfit", "igmFit"); ("ignorelinesupport", "ignoreLineSupport"); ("ismfit", "ismFit");
   ("negativethreshold", "negativeThreshold"); ("nullthreshold", "nullThreshold"); ("priors", "priors");
   ("betaA", "betaA"); ("betaTE", "betaTE"); ("betaZ", "betaZ");
   ("catalog_dirpath", "catalogDirPath"); ("fittingmethod", "fittingMethod"); ("largegridstepratio", "largeGridStepRatio");
   ("multiplecontinuumfit_disable", "multipleContinuumFitDisable"); ("tplratio_ismfit", "tplRatioIsmFit"); ("extremacount", "extremaCount");
   ("lyafit", "lyaFit"); ("asymfitmax", "asymFitMax"); ("asymfitmin", "asymFitMin");
   ("asymfitstep", "asymFitStep"); ("deltafitmax", "deltaFitMax"); ("deltafitmin", "deltaFitMin");
   ("deltafitstep", "deltaStepMax"); ("widthfitmax", "widthFitMax"); ("widthfitmin", "widthFitMin");
   ("widthfitstep", "widthFitStep"); ("margampcorr", "margAmpCorr"); ("bestzoption", "bestZOption");
   ("weight", "weight"); ("continuumfit", "continuumFit"); ("halfwindowsize", "halfWindowSize");
   ("priors", "priors"); ("betaA", "betaA"); ("betaTE", "betaTE");
   ("betaZ", "betaZ"); ("catalog_dirpath", "catalogDirPath"); ("method", "method");
   ("ampoffsetfit", "ampOffsetFit"); ("fittingmethod", "fittingMethod"); ("lbdaoffsetfit", "lbdaOffsetFit");
   ("linecatalog", "lineCatalog"); ("lineRatioType", "lineRatioType"); ("linewidthtype", "lineWidthType");
   ("nsigmasupport", "nSigmaSupport"); ("polynomialdegree", "polynomialDegree"); ("rules", "rules");
   ("velocityfit", "velocityFit"); ("reliability_model", "reliabilityModel"); ("LSF", "lsf");
   ("TemplateFittingSolve", "templateFittingSolve"); ("TplcombinationSolve", "tplCombinationSolve"); ("LineModelSolve", "lineModelSolve");
   ("linemodel", "lineModel"); ("firstpass", "firstPass"); ("secondpass", "secondPass")].
(** :86-89, on one string *)
Definition rename_with (t : list (string * string)) (s : string) : string :=
  fold_left (fun s r => if s =? fst r then snd r else s) t s.
Definition rename_str : string -> string := rename_with renaming.
(** dict of pairs: the last value of a key, at its first position *)
Definition to_dict {A} (l : list (string * A)) : dict A := fold_left (fun d e => dput (fst e) (snd e) d) l [].
(** :85-90: dumps, replacement, loads *)
Fixpoint rename (f : string -> string) (j : json) : json :=
  match j with
  | JStr s => JStr (f s)
  | JArr l => JArr (map (rename f) l)
  | JObj d => JObj (to_dict ((fix go (d : list (string * json)) := match d with [] => [] | (k, v) :: t => (f k, rename f v) :: go t end) d))
  | _ => j
  end.
(** the entries of an object *)
Definition rename_entries (f : string -> string) (d : list (string * json)) : list (string * json) :=
  map (fun e => (f (fst e), rename f (snd e))) d.

Definition dremove {A} (k : string) (d : dict A) : dict A := filter (fun e => negb (fst e =? k)) d.
(** Python truth value *)
Definition truthy (j : json) : bool :=
  match j with
  | JNull => false | JBool b => b | JNum q => negb (Qeq_bool q 0)
  | JStr s => negb (s =? "") | JArr l => negb (Nat.eqb (List.length l) 0) | JObj d => negb (Nat.eqb (List.length d) 0)
  end.
Definition redshift_methods : list string := ["lineModelSolve"; "templateFittingSolve"; "tplCombinationSolve"].
(** setdefault("stages", []).append(s); AttributeError if it is not a list *)
Definition add_stage (s : string) (d : dict json) : pres (dict json) :=
  match dget "stages" d with
  | None => Val (dput "stages" (JArr [JStr s]) d)
  | Some (JArr l) => Val (dput "stages" (JArr (l ++ [JStr s])%list) d)
  | Some _ => Err Python
  end.
(** :102-107, one method *)
Definition move_solver (rm : string) (d : dict json) : pres (dict json) :=
  match dget rm d with
  | None => Val d
  | Some v =>
      match dget "redshiftSolver" d with
      | None => Val (dput "redshiftSolver" (JObj [(rm, v)]) (dremove rm d))
      | Some (JObj s) => Val (dput "redshiftSolver" (JObj (dput rm v s)) (dremove rm d))
      | Some _ => Err Python
      end
  end.
Fixpoint move_solvers (l : list string) (d : dict json) : pres (dict json) :=
  match l with [] => Val d | rm :: t => let! d' := move_solver rm d in move_solvers t d' end.
(** :98-107 *)
Definition redshift_part (d : dict json) : pres (dict json) :=
  let method := dget "method" d in
  let d := dremove "method" d in
  let! d := match method with
            | Some (JStr m) => if smem m redshift_methods then
                                 let! d := add_stage "redshiftSolver" d in Val (dput "redshiftSolver" (JObj [("method", JStr m)]) d)
                               else Val d
            | _ => Val d
            end in
  move_solvers redshift_methods d.
(** :109-116 *)
Definition linemeas_part (d : dict json) : pres (dict json) :=
  let m := dget "linemeas_method" d in
  let d := dremove "linemeas_method" d in
  match m with
  | Some (JStr "lineMeasSolve") =>
      let! d := add_stage "lineMeasSolver" d in
      match dget "lineMeasSolve" d with
      | None => Err Python
      | Some v => Val (dput "lineMeasSolver" (JObj [("method", JStr "lineMeasSolve"); ("lineMeasSolve", v)]) (dremove "lineMeasSolve" d))
      end
  | _ => Val d
  end.
(** :118-131 *)
Definition reliability_part (d : dict json) : pres (dict json) :=
  let m := dget "enable_reliability" d in
  let d := dremove "enable_reliability" d in
  if match m with Some j => truthy j | None => false end then
    let! d := add_stage "reliabilitySolver" d in
    match dget "reliabilityModel" d with
    | None => Err Python
    | Some v => Val (dput "reliabilitySolver" (JObj [("method", JStr "deepLearningSolver"); ("deepLearningSolver", JObj [("reliabilityModel", v)])])
                          (dremove "reliabilityModel" d))
    end
  else Val (dremove "reliabilityModel" d).
(** a part, for the models of the list, on the whole tree *)
Fixpoint each_model (part : dict json -> pres (dict json)) (ms : list json) (p : dict json) : pres (dict json) :=
  match ms with
  | [] => Val p
  | JStr m :: t =>
      match dget m p with
      | Some (JObj d) => let! d' := part d in each_model part t (dput m (JObj d') p)
      | _ => Err Python
      end
  | _ :: _ => Err Python
  end.
Definition models (p : dict json) : pres (list json) :=
  match dget "spectrumModels" p with None => Val [] | Some (JArr l) => Val l | Some _ => Err Python end.
Definition convert_v1 (raw : dict json) : pres (dict json) :=
  let p := to_dict (rename_entries rename_str raw) in
  let! ms := models p in
  let! p := each_model redshift_part ms p in
  let! ms := models p in
  let! p := each_model linemeas_part ms p in
  let! ms := models p in
  each_model reliability_part ms p.

(** ** Version 2 (ParametersConverter.py:70-79) *)
Definition mark : string := "spectrumModel_".
Fixpoint contains (p s : string) : bool :=
  prefix p s || match s with EmptyString => false | String _ r => contains p r end.
(** key.replace(p, ""): all the occurrences, from the left, without overlap; [skip]: characters to drop *)
Fixpoint erase (p s : string) (skip : nat) : string :=
  match s with
  | EmptyString => EmptyString
  | String c r => match skip with
                  | S k => erase p r k
                  | O => if prefix p s then erase p r (String.length p - 1) else String c (erase p r 0)
                  end
  end.
Definition new_key (k : string) : string := erase mark k 0.
Definition rename_key (p : dict json) (k : string) : dict json :=
  if contains mark k then
    match dget k p with
    | Some v => dput (new_key k) v (dremove k p)
    | None => p
    end
  else p.
Definition convert_v2 (raw : dict json) : dict json := fold_left rename_key (dkeys raw) raw.

(** ** Reading (ParametersAccessor.py) *)
Definition field (k : string) (j : json) : option json := match j with JObj d => dget k d | _ => None end.
(** _get_on_None *)
Definition on_none (o : option json) (k : string) : option json := match o with Some j => field k j | None => None end.
(** :82-83 *)
Definition get_stages (p : dict json) (m : string) : list json :=
  match on_none (dget m p) "stages" with Some (JArr l) => l | _ => [] end.
(** :102-105 *)
Definition get_linemeas_method (p : dict json) (m : string) : option json :=
  if existsb (fun j => match j with JStr s => s =? "lineMeasSolver" | _ => false end) (get_stages p m)
  then on_none (on_none (dget m p) "lineMeasSolver") "method" else None.
(** :85-96 *)
Definition get_redshift_solver_method (p : dict json) (m : string) : option json :=
  match on_none (on_none (dget m p) "redshiftSolver") "method" with
  | Some (JStr "") | Some JNull => None
  | o => o
  end.
(** :111-112, :120-121, :187 *)
Definition get_linemeas_dzhalf (p : dict json) (m : string) : option json := on_none (dget m p) "lineMeasDzHalf".
Definition get_linemeas_redshiftstep (p : dict json) (m : string) : option json := on_none (dget m p) "lineMeasRedshiftStep".
Definition get_lsf_width_file_name (p : dict json) : option json := on_none (dget "lsf" p) "gaussianVariableWidthFileName".

(** ** Schemas: the properties accepted where additionalProperties is false *)
Definition only (names : list string) (j : json) : Prop := match j with JObj d => forall k, In k (dkeys d) -> In k names | _ => False end.
Definition requires (names : list string) (j : json) : Prop := match j with JObj d => forall k, In k names -> In k (dkeys d) | _ => False end.
(** jsonschema-v2/lsf.json *)
Definition lsf_v2 : list string := ["lsfType"; "width"; "resolution"; "sourceSize"; "gaussianVariablewidthFileName"].
Definition lsf_v1 : list string := ["LSFType"; "width"; "resolution"; "sourcesize"; "GaussianVariablewidthFileName"].
(** jsonschema-v2/spectrum_model.json, jsonschema-v2/linemeas_solver.json *)
Definition spectrum_model_v2 : list string :=
  ["redshiftRange"; "redshiftStep"; "redshiftSampling"; "templateDir"; "linemeasDzHalf"; "linemeasRedshiftStep"; "stages"; "redshiftSolver"; "lineMeasSolver"; "reliabilitySolver"].
Definition linemeas_solver_v2 : list string := ["lineModel"].
(** jsonschema-v1/objects.json *)
Definition objects_v1 : list string :=
  ["redshiftrange"; "redshiftstep"; "redshiftsampling"; "template_dir"; "linemeas_method"; "linemeas_dzhalf"; "linemeas_redshiftstep"; "method"; "enable_reliability";
   "reliability_model"; "TemplateFittingSolve"; "TplcombinationSolve"; "LineModelSolve"; "LineMeasSolve"].
(** jsonschema-v2/line_model_priors.json *)
Definition priors_v2 : list string := ["betaA"; "betaTE"; "betaZ"; "catalogDirpath"].
Definition priors_v1 : list string := ["betaA"; "betaTE"; "betaZ"; "catalog_dirpath"].
(** jsonschema-v2/lya_fit.json:23-93 *)
Definition asym_required_v2 : list string :=
  ["switchFixedToFit"; "switchFitToFixed"; "asymFitMin"; "asymFitMax"; "asymFitStep"; "widthFitMin"; "widthFitMax"; "widthFitStep"; "deltaFitMin"; "deltaFitMax"; "deltaStepMax"].
Definition asym_v2 : list string :=
  ["asymFitMin"; "asymFitMax"; "asymFitStep"; "widthFitMin"; "widthFitMax"; "widthFitStep"; "deltaFitMin"; "deltaFitMax"; "deltaStepMax"; "swicthFixedToFit"; "swicthFitToFixed"].
(** jsonschema-v2/general.json: the names of the properties; the other keys start with "spectrumModel_" *)
Definition general_v2 : list string :=
  ["version"; "calibrationDir"; "multiObsMethod"; "lambdaRange"; "airvacuumMethod"; "extremaRedshiftSeparation"; "smoothWidth"; "autoCorrectInput"; "spectrumModels";
   "photometryTransmissionDir"; "photometryBand"; "filters"; "additionalCols"; "lsf"; "ebmv"; "templateCatalog"; "continuumRemoval"].
Definition spectrum_model_ok_v2 (j : json) : Prop :=
  only spectrum_model_v2 j /\ forall s, field "lineMeasSolver" j = Some s -> only linemeas_solver_v2 s.
Definition accepted_v2 (raw : dict json) : Prop :=
  NoDup (dkeys raw) /\
  (forall k, In k (dkeys raw) -> In k general_v2 \/ prefix mark k = true) /\
  (forall k j, In (k, j) raw -> prefix mark k = true -> spectrum_model_ok_v2 j) /\
  (forall j, In ("lsf", j) raw -> only lsf_v2 j).
