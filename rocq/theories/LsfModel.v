(** Model of the line spread functions: RedshiftLibrary/src/lib/spectrum/LSF.cpp, LSFConstantResolution.cpp, LSFVariableWidth.cpp,
    LSF_NISPSIM_2016.cpp, LSF_NISPVSSPSF_201707.cpp and RedshiftLibrary/RedshiftLibrary/spectrum/LSF*.h.  Exact rationals (no NaN). *)
From Coq Require Import String.
From Verif Require Import Base RangeModel.
Open Scope Q_scope.

(** the classes derived from CLSF *)
Inductive lsf := ConstantWidth (w : Q) | ConstantResolution (r : Q) | NispSim2016 | NispVssPsf201707 (source : Q) | VariableWidth (lambdas widths : list Q).

(** IsValid: LSFConstantWidth.h:64, LSFConstantResolution.cpp:66-68, LSFVariableWidth.cpp:80-94, LSF_NISPSIM_2016.cpp:57, LSF_NISPVSSPSF_201707.cpp:84 *)
Definition IsValid (l : lsf) : res bool :=
  match l with
  | ConstantWidth w => Ok (Qltb 0 w)
  | ConstantResolution r => Ok (Qltb 1 r)
  | NispSim2016 | NispVssPsf201707 _ => Ok true
  | VariableWidth ax ws =>
      if Nat.eqb (length ws) 0 then Throw BAD_COUNTMATCH
      else if negb (Nat.eqb (length ax) (length ws)) then Throw BAD_COUNTMATCH
      else Ok (forallb (fun w => negb (Qle_bool w 0)) ws)
  end.
(** the constructors: LSFConstantWidth.h:51-58, LSFConstantResolution.cpp:45-54, LSFVariableWidth.cpp:48-55 (the others check nothing) *)
Definition NewLsf (l : lsf) : res lsf := do v <- IsValid l; if (v : bool) then Ok l else Throw INVALID_LSF.

(** getSpectralRange: LSF.h:123-125, LSFVariableWidth.h:62-64 (range.h:62-64 for the range of a vector) *)
Definition getSpectralRange (l : lsf) : range :=
  match l with
  | VariableWidth ax _ => match ax with [] => mkRange 0 0 | a :: t => mkRange a (last t a) end
  | _ => mkRange 200 30000
  end.
(** checkAvailability: LSF.h:120-122, LSFVariableWidth.h:59-61 *)
Definition checkAvailability (l : lsf) (lam : Q) : res bool :=
  match l with
  | VariableWidth ax ws =>
      do a <- vget ax 0; if negb (Qle_bool a lam) then Ok false
      else do b <- match length ws with O => UB | S k => vget ax k end; Ok (Qle_bool lam b)
  | _ => Ok true
  end.
(** INSTRUMENT_RESOLUTION_FACTOR, defaults.h:25 *)
Definition resolution_factor : Q := 1 / (2355#1000).
(** computeResolution, LSFConstantResolution.cpp:70-73; the Q division by zero stands for an infinity and is excluded by the theorems *)
Definition computeResolution (lam width : Q) : Q := lam / width * resolution_factor.

Section Lsf.
  (** sqrt *)
  Context (sqrtf : Q -> Q).
  (** the profile of a line: GetLineProfileVal(lambda, lambda0, sigma) of CLineProfileSYM (modelled in LProfModel.v) *)
  Context (prof : Q -> Q -> Q -> Q).
  (** GetWidth: LSFConstantWidth.h:60-62, LSFConstantResolution.cpp:56-64, LSF_NISPSIM_2016.cpp:49-55, LSF_NISPVSSPSF_201707.cpp:51-82,
      LSFVariableWidth.cpp:57-78 (getClosestLowerIndex: RangeModel.v) *)
  Definition clip (l : lsf) (lam : Q) (cliplambda : bool) : Q := if cliplambda then Clamp (getSpectralRange l) lam else lam.
  Definition GetWidth (l : lsf) (lam : Q) (cliplambda : bool) : res Q :=
    let lam := clip l lam cliplambda in
    match l with
    | ConstantWidth w => Ok w
    | ConstantResolution r => Ok (lam / r * resolution_factor)
    | NispSim2016 => Ok ((lam * (8121#10000000) + (74248#10000)) / (235#100))
    | NispVssPsf201707 src =>
        let i := lam * (3939#10000000) + (2191#1000) in
        let s := src * (134#10) / (355#1000) in Ok (sqrtf (i * i + s * s))
    | VariableWidth ax ws =>
        do ok <- checkAvailability l lam;
        if negb ok then Throw INSUFFICIENT_LSF_COVERAGE
        else
          do o <- getClosestLowerIndex ax lam;
          match o with
          | None => UB
          | Some idx =>
              do x <- vget ax idx; do w <- vget ws idx;
              if Qeq_bool x lam then Ok w
              else do y <- vget ax (S idx); do v <- vget ws (S idx);
                   let t := (lam - x) / (y - x) in Ok (w * (1 - t) + v * t)
          end
    end.
  (** GetProfileVal(lambda, lambda0), LSF.cpp:51-53: without clipping *)
  Definition GetProfileVal (l : lsf) (lam lam0 : Q) : res Q := do s <- GetWidth l lam0 false; Ok (prof lam lam0 s).
  (** getNormalizedProfileVector, LSF.cpp:62-83; a null sum is excluded by the theorems (the profile is positive) *)
  Definition qsum (l : list Q) : Q := fold_left Qplus l 0.
  Definition getNormalizedProfileVector (l : lsf) (lams : list Q) (lam0 : Q) : res (list Q) :=
    do v <- IsValid l;
    if negb v then Throw INTERNAL_ERROR
    else do s <- GetWidth l lam0 true;
         let k := map (fun x => prof x lam0 s) lams in Ok (map (fun x => x * (1 / qsum k)) k).
End Lsf.

(** TLSFArguments: LSF.h:51-97; a null pointer or one of the four classes *)
Inductive lsf_args := NullArgs | VarWidthArgs (lambdas widths : list Q) | ConstWidthArgs (w : Q) | ConstResArgs (r : Q) | NispVssArgs (src : Q).
(** CLSFFactory::Create, LSFFactory.h:57-87 and the make_LSF functions: the dynamic cast of the arguments is not checked before it is dereferenced *)
Definition Create (name : string) (a : lsf_args) : res lsf :=
  if String.eqb name "gaussianConstantWidth" then match a with ConstWidthArgs w => NewLsf (ConstantWidth w) | _ => UB end
  else if String.eqb name "gaussianConstantResolution" then match a with ConstResArgs r => NewLsf (ConstantResolution r) | _ => UB end
  else if String.eqb name "gaussianNISPSIM2016" then NewLsf NispSim2016
  else if String.eqb name "gaussianNISPVSSPSF201707" then match a with NispVssArgs s => NewLsf (NispVssPsf201707 s) | _ => UB end
  else if String.eqb name "gaussianVariableWidth" then match a with VarWidthArgs ax ws => NewLsf (VariableWidth ax ws) | _ => UB end
  else Throw STD_out_of_range.
