(** Names of parameters (C97): the ones read by the library, and the ones accepted by the schemas, all sections together.
    Simplification: a name is one component of a path; the section where it is read or accepted is not modelled here. *)
From Coq Require Import String.
From Verif Require Import Base RdrModel CvtModel.
Open Scope string_scope.

(** the components of the literal paths given to CParameterStore::Get, GetScoped, Has and HasScoped in /repo/RedshiftLibrary (src/lib and headers),
    each name at its first file, without linematchingsolve.cpp (a method the schemas do not accept) and without redshiftSolver (a section of version 2):
    LSF.h; abstractfitter.cpp; catalog.cpp; context.cpp; continuummanager.cpp; hybridfitter.cpp; inputcontext.cpp; lbfgsbfitter.h; linemodel.cpp; linemodelfitting.cpp; linemodelsolve.cpp; lineratiomanager.cpp; lmeltlistvector.cpp; logrebinning.cpp; parameterstore.cpp; rulesmanager.cpp; spectrum.cpp; templatefittingsolve.cpp; tplratiomanager.cpp *)
Definition read_cpp : list string :=
  ["lineModel"; "velocityFit"; "emVelocityFitMin"; "emVelocityFitMax"; "absVelocityFitMin"; "absVelocityFitMax"; "velocityEmission"; "velocityAbsorption";
   "lsf"; "width"; "resolution"; "sourceSize"; "lya"; "profile"; "asymProfile"; "asymFitMin";
   "asymFitMax"; "asymFitStep"; "widthFitMin"; "widthFitMax"; "widthFitStep"; "deltaFitMin"; "deltaFitMax"; "deltaStepMax";
   "continuumComponent"; "continuumFit"; "negativeThreshold"; "nullThreshold"; "catalogDirPath"; "betaA"; "betaTE"; "betaZ";
   "lineRatioType"; "improveBalmerFit"; "fittingMethod"; "ampOffsetFit"; "lbdaOffsetFit"; "firstPass"; "multipleContinuumFitDisable"; "useLogLambdaSampling";
   "count"; "switchFixedToFit"; "switchFitToFixed"; "lineWidthType"; "rules"; "tplRatioIsmFit"; "nSigmaSupport"; "hAlphaPrior";
   "continuumReestimation"; "pdfCombination"; "extremaCount"; "extremaCountB"; "strongLinesPrior"; "nOfZPriorStrength"; "secondPass"; "halfWindowSize";
   "extremaCutProbaThreshold"; "largeGridStepRatio"; "skipSecondPass"; "lineModelSolve"; "extremaRedshiftSeparation"; "overlapThreshold"; "spectrum"; "component";
   "interpolation"; "igmFit"; "ismFit"; "fftProcessing"; "enablePhotometry"; "photometry"; "weight"; "ignoreLineSupport";
   "emVelocityFitStep"; "absVelocityFitStep"; "secondPassLcFittingMethod"; "polynomialDegree"; "lineTypeFilter"; "lineForceFilter"; "autoCorrectInput"; "lambdaRange";
   "lsfType"; "redshiftStep"; "redshiftRange"; "method"; "smoothWidth"; "continuumRemoval"; "medianKernelWidth"; "medianEvenReflection";
   "templateCatalog"].
(** the names read at the root (ParametersAccessor.py:56, :61, :64, :67, :70, :73, :144, :166, :169, :172, :197, :261) *)
Definition read_root : list string :=
  ["airVacuumMethod"; "photometryTransmissionDir"; "photometryBand"; "multiObsMethod"; "spectrumModels"; "additionalCols"; "filters"; "lsf";
   "templateCatalog"; "continuumRemoval"; "ebmv"; "lambdaRange"].
(** the names of all the properties of auxdir/pylibamazed/jsonschema-v1/*.json *)
Definition schema_v1 : list string :=
  ["method"; "medianKernelWidth"; "medianEvenReflection"; "start"; "step"; "count"; "calibrationDir"; "multiobsmethod";
   "star"; "galaxy"; "qso"; "sn"; "lambdarange"; "airvacuum_method"; "extremaredshiftseparation"; "smoothWidth";
   "autocorrectinput"; "objects"; "photometryTransmissionDir"; "photometryBand"; "filters"; "additional_cols"; "LSF"; "ebmv";
   "templateCatalog"; "continuumRemoval"; "key"; "instruction"; "value"; "fftprocessing"; "ismfit"; "igmfit";
   "ignorelinesupport"; "negativethreshold"; "nullthreshold"; "priors"; "fittingmethod"; "largegridstepratio"; "tplratio_ismfit"; "multiplecontinuumfit_disable";
   "extremacount"; "betaA"; "betaTE"; "betaZ"; "catalog_dirpath"; "continuumfit"; "halfwindowsize"; "linemodel";
   "useloglambdasampling"; "improveBalmerFit"; "linecatalog"; "linetypefilter"; "lineforcefilter"; "linewidthtype"; "velocityemission"; "velocityabsorption";
   "velocityfit"; "emvelocityfitmin"; "emvelocityfitmax"; "emvelocityfitstep"; "absvelocityfitmin"; "absvelocityfitmax"; "absvelocityfitstep"; "lbdaoffsetfit";
   "ampoffsetfit"; "skipsecondpass"; "extremacutprobathreshold"; "lineRatioType"; "rules"; "tplratio_catalog"; "continuumcomponent"; "continuumreestimation";
   "stronglinesprior"; "euclidnhaemittersStrength"; "pdfcombination"; "nsigmasupport"; "haprior"; "extremacountB"; "enablephotometry"; "photometry";
   "lya"; "firstpass"; "secondpasslcfittingmethod"; "secondpass"; "pdf"; "tplratio"; "weight"; "margampcorr";
   "polynomialdegree"; "LSFType"; "width"; "resolution"; "sourcesize"; "GaussianVariablewidthFileName"; "profile"; "asymProfile";
   "asymfitmin"; "asymfitmax"; "asymfitstep"; "widthfitmin"; "widthfitmax"; "widthfitstep"; "deltafitmin"; "deltafitmax";
   "deltafitstep"; "switchFixedToFit"; "switchFitToFixed"; "redshiftrange"; "redshiftstep"; "redshiftsampling"; "template_dir"; "linemeas_method";
   "linemeas_dzhalf"; "linemeas_redshiftstep"; "enable_reliability"; "reliability_model"; "TemplateFittingSolve"; "TplcombinationSolve"; "LineModelSolve"; "LineMeasSolve";
   "overlapThreshold"; "spectrum"; "interpolation"; "component"].
(** the names of all the properties of auxdir/pylibamazed/jsonschema-v2/*.json *)
Definition schema_v2 : list string :=
  ["method"; "medianKernelWidth"; "medianEvenReflection"; "start"; "step"; "count"; "version"; "calibrationDir";
   "multiObsMethod"; "lambdaRange"; "airvacuumMethod"; "extremaRedshiftSeparation"; "smoothWidth"; "autoCorrectInput"; "spectrumModels"; "photometryTransmissionDir";
   "photometryBand"; "filters"; "additionalCols"; "lsf"; "ebmv"; "templateCatalog"; "continuumRemoval"; "key";
   "instruction"; "value"; "fftProcessing"; "ismFit"; "igmFit"; "ignoreLineSupport"; "negativeThreshold"; "nullThreshold";
   "priors"; "fittingMethod"; "largeGridStepRatio"; "tplRatioIsmFit"; "multipleContinuumFitDisable"; "extremaCount"; "betaA"; "betaTE";
   "betaZ"; "catalogDirpath"; "continuumFit"; "halfWindowSize"; "lineModel"; "useLogLambdaSampling"; "improveBalmerFit"; "lineCatalog";
   "lineTypeFilter"; "lineForceFilter"; "lineWidthType"; "velocityEmission"; "velocityAbsorption"; "velocityFit"; "emVelocityFitMin"; "emVelocityFitMax";
   "emVelocityFitStep"; "absVelocityFitMin"; "absVelocityFitMax"; "absVelocityFitStep"; "lbdaOffsetFit"; "ampOffsetFit"; "skipSecondPass"; "extremaCutProbaThreshold";
   "lineRatioType"; "rules"; "tplRatioCatalog"; "continuumComponent"; "continuumReestimation"; "strongLinesPrior"; "euclidNHaemittersStrength"; "pdfCombination";
   "nSigmaSupport"; "haPrior"; "extremaCountB"; "enablePhotometry"; "photometry"; "lya"; "firstPass"; "secondPassLcFittingMethod";
   "secondPass"; "pdf"; "tplRatio"; "weight"; "margAmpCorr"; "polynomialDegree"; "lsfType"; "width";
   "resolution"; "sourceSize"; "gaussianVariablewidthFileName"; "profile"; "asymProfile"; "asymFitMin"; "asymFitMax"; "asymFitStep";
   "widthFitMin"; "widthFitMax"; "widthFitStep"; "deltaFitMin"; "deltaFitMax"; "deltaStepMax"; "swicthFixedToFit"; "swicthFitToFixed";
   "templateFittingSolve"; "tplCombinationSolve"; "lineModelSolve"; "deepLearningSolver"; "reliabilityModel"; "redshiftRange"; "redshiftStep"; "redshiftSampling";
   "templateDir"; "linemeasDzHalf"; "linemeasRedshiftStep"; "stages"; "redshiftSolver"; "lineMeasSolver"; "reliabilitySolver"; "overlapThreshold";
   "spectrum"; "interpolation"; "component"].
