(** Model of the state kept by a spectrum: RedshiftLibrary/src/lib/spectrum/spectrum.cpp, RedshiftLibrary/RedshiftLibrary/spectrum/spectrum.h,
    with the part of spectrum/rebin/rebin.cpp, rebin.h, rebinFineGrid.cpp and rebinFineGrid.h which keeps a state.
    Exact rationals.  A call returns the state of the object after it (also when it throws) and its outcome. *)
From Coq Require Import String List ZArith QArith Bool.
From Verif Require Import Base FluxModel.
Import ListNotations.
Open Scope Q_scope.

(** CSpectrumFluxAxis: samples and standard errors *)
Record flux := mkFlux { f_s : list Q; f_e : list Q }.
Definition empty_flux : flux := mkFlux [] [].
(** spectrum.h:77 *)
Inductive etype := Raw | ContinuumOnly | NoContinuum.
Definition etype_eqb (a b : etype) : bool :=
  match a, b with Raw, Raw | ContinuumOnly, ContinuumOnly | NoContinuum, NoContinuum => true | _, _ => false end.
(** the names of rebin.cpp:117-131 *)
Inductive rkind := Lin | FineGrid | Spline | Ngp.
(** m_rebin (rebin.h:78-89): its kind, and what the fine grid was computed from when m_FineGridInterpolated (a wavelength axis and
    the samples of a flux axis).  The values of the grid (cubic spline of GSL, rebinFineGrid.cpp:49-86) are a function of that. *)
Record rebin := mkRebin { r_kind : rkind; r_grid : option (list Q * list Q) }.
(** the data members of CSpectrum (spectrum.h:186-213), without the name, the path, the LSF and the photometry (see [ident]).
    The width of the median window is compared and handed over only: an integer stands for the Float64. *)
Record spc := mkSpc { s_axis : list Q; s_raw : flux; s_cont : flux; s_noc : flux; s_type : etype; s_removed : bool;
                      s_method : string; s_win : Z; s_even : bool; s_rebin : rebin }.

Definition with_axis s a := mkSpc a (s_raw s) (s_cont s) (s_noc s) (s_type s) (s_removed s) (s_method s) (s_win s) (s_even s) (s_rebin s).
Definition with_raw s f := mkSpc (s_axis s) f (s_cont s) (s_noc s) (s_type s) (s_removed s) (s_method s) (s_win s) (s_even s) (s_rebin s).
Definition with_cont s f := mkSpc (s_axis s) (s_raw s) f (s_noc s) (s_type s) (s_removed s) (s_method s) (s_win s) (s_even s) (s_rebin s).
Definition with_noc s f := mkSpc (s_axis s) (s_raw s) (s_cont s) f (s_type s) (s_removed s) (s_method s) (s_win s) (s_even s) (s_rebin s).
Definition with_type s t := mkSpc (s_axis s) (s_raw s) (s_cont s) (s_noc s) t (s_removed s) (s_method s) (s_win s) (s_even s) (s_rebin s).
Definition with_removed s b := mkSpc (s_axis s) (s_raw s) (s_cont s) (s_noc s) (s_type s) b (s_method s) (s_win s) (s_even s) (s_rebin s).
Definition with_method s m := mkSpc (s_axis s) (s_raw s) (s_cont s) (s_noc s) (s_type s) (s_removed s) m (s_win s) (s_even s) (s_rebin s).
Definition with_win s w := mkSpc (s_axis s) (s_raw s) (s_cont s) (s_noc s) (s_type s) (s_removed s) (s_method s) w (s_even s) (s_rebin s).
Definition with_even s b := mkSpc (s_axis s) (s_raw s) (s_cont s) (s_noc s) (s_type s) (s_removed s) (s_method s) (s_win s) b (s_rebin s).
Definition with_rebin s r := mkSpc (s_axis s) (s_raw s) (s_cont s) (s_noc s) (s_type s) (s_removed s) (s_method s) (s_win s) (s_even s) r.

(** sequence of two steps of one call: an exception leaves the object in the state reached *)
Definition sbind {A B} (m : spc * res A) (f : spc -> A -> spc * res B) : spc * res B :=
  match m with (s, Ok a) => f s a | (s, Throw e) => (s, Throw e) | (s, UB) => (s, UB) end.

(** reset: rebin.h:69 (nothing, for lin, spline and ngp), rebinFineGrid.h:58 and rebinFineGrid.cpp:88-91 *)
Definition rebin_reset (r : rebin) : rebin := match r_kind r with FineGrid => mkRebin FineGrid None | _ => r end.
(** ResetContinuum, spectrum.cpp:285-290 *)
Definition ResetContinuum (s : spc) : spc := with_noc (with_cont (with_removed s false) empty_flux) empty_flux.
(** SetType, spectrum.cpp:429-434 *)
Definition SetType (s : spc) (t : etype) : spc :=
  if etype_eqb (s_type s) t then s else with_type (with_rebin s (rebin_reset (s_rebin s))) t.
(** isSorted of the spectral axis (spectralaxis.cpp:521-524), its cache not being modelled here (see C17): sorted, without equal neighbours *)
Fixpoint sorted_axis (l : list Q) : bool :=
  match l with x :: ((y :: _) as t) => (Qltb x y && sorted_axis t)%bool | _ => true end.
(** Subtract, fluxaxis.cpp:275-285: the errors of the left one stay *)
Definition flux_sub (a b : flux) : res flux := do d <- Subtract (f_s a) (f_s b); Ok (mkFlux d (f_e a)).
(** operator*=, axis.cpp, on the samples *)
Definition flux_scale (c : Q) (a : flux) : flux := mkFlux (map (fun x => c * x) (f_s a)) (f_e a).
(** Invert, fluxaxis.cpp:287-293 *)
Definition flux_invert (a : flux) : flux := mkFlux (FluxInvert (f_s a)) (f_e a).

(** what a continuum remover did (irregularsamplingmedian.cpp:265-397, modelled in ContModel.v): nothing ([Refused]: the axis stays
    as it was), or wrote the samples of the axis; [fitted] when it called FitBorder (193-209) before *)
Inductive removal := Refused | Wrote (fitted : bool) (samples : list Q).

(** arguments of SetFluxAxis(const &) and SetContinuumEstimationMethod(const &): a flux axis of the caller, or the reference that
    a getter of the same spectrum returned *)
Inductive farg := Val (f : flux) | OwnRaw | OwnContinuum | OwnNoContinuum.
Definition farg_get (s : spc) (a : farg) : flux :=
  match a with Val f => f | OwnRaw => s_raw s | OwnContinuum => s_cont s | OwnNoContinuum => s_noc s end.

Inductive obs := OUnit | OBool (b : bool) | OFlux (f : flux) | ORebin (axis samples : list Q).

Section Spc.
  (** the continuum remover: the wavelengths, the raw flux, the window and the reflection *)
  Context (remover : list Q -> flux -> Z -> bool -> removal).
  (** correctFluxAndNoiseAxis (fluxaxis.cpp:225-273, modelled in FluxModel.v) on the indices of [lmin, lmax] on the axis:
      whether it corrected, and the axis; it throws before it changes anything *)
  Context (corrector : list Q -> flux -> Q -> Q -> Q -> res (bool * flux)).
  (** ApplyMeanSmooth (fluxaxis.cpp:123-147, modelled in FluxModel.v) *)
  Context (smoother : Z -> list Q -> list Q).

  (** RemoveContinuum, spectrum.cpp:292-296.  With odd reflections the remover fits the border with GetLinearRegInRange
      (spectrum.cpp:389-420), which reads GetErrorAxis and GetFluxAxis: for a spectrum whose type is not raw these estimate the
      continuum again (the flag has just been cleared), with the same remover: the recursion never ends. *)
  Definition RemoveContinuum (s : spc) : spc * res unit :=
    let s := ResetContinuum s in
    match remover (s_axis s) (s_raw s) (s_win s) (s_even s) with
    | Refused => (s, Ok tt)
    | Wrote fitted l =>
        if (negb (s_even s) && fitted && negb (etype_eqb (s_type s) Raw))%bool then (s, UB)
        else (with_noc s (mkFlux l (f_e (s_raw s))), Ok tt)
    end.
  (** the first part of EstimateContinuum, spectrum.cpp:305-327 *)
  Definition estimate_noc (s : spc) : spc * res unit :=
    if String.eqb (s_method s) "irregularSamplingMedian" then RemoveContinuum s
    else if String.eqb (s_method s) "raw" then
      let n := length (s_axis s) in (with_noc s (mkFlux (repeat 0 n) (repeat 1 n)), Ok tt)
    else if String.eqb (s_method s) "zero" then (with_noc s (s_raw s), Ok tt)
    else if String.eqb (s_method s) "manual" then
      let s1 := with_noc s (s_raw s) in
      match flux_sub (s_raw s) (s_cont s) with Ok d => (with_noc s1 d, Ok tt) | Throw e => (s1, Throw e) | UB => (s1, UB) end
    else (s, Throw INTERNAL_ERROR).
  (** EstimateContinuum, spectrum.cpp:301-338 *)
  Definition EstimateContinuum (s : spc) : spc * res unit :=
    sbind (estimate_noc s) (fun s _ =>
      if String.eqb (s_method s) "manual" then (with_removed s true, Ok tt)
      else
        let s1 := with_cont s (s_raw s) in
        match flux_sub (s_raw s) (s_noc s) with
        | Ok d => (with_removed (with_cont s1 d) true, Ok tt) | Throw e => (s1, Throw e) | UB => (s1, UB) end).
  (** spectrum.h:264-290 *)
  Definition ensure_removed (s : spc) : spc * res unit := if s_removed s then (s, Ok tt) else EstimateContinuum s.
  Definition GetContinuumFluxAxis (s : spc) : spc * res flux := sbind (ensure_removed s) (fun s _ => (s, Ok (s_cont s))).
  Definition GetWithoutContinuumFluxAxis (s : spc) : spc * res flux := sbind (ensure_removed s) (fun s _ => (s, Ok (s_noc s))).
  (** GetFluxAxis, spectrum.h:224-238 *)
  Definition GetFluxAxis (s : spc) : spc * res flux :=
    match s_type s with
    | Raw => (s, Ok (s_raw s)) | ContinuumOnly => GetContinuumFluxAxis s | NoContinuum => GetWithoutContinuumFluxAxis s end.
  (** the axis GetFluxAxis_ gives a writable reference to, spectrum.h:240-255 *)
  Definition set_current (s : spc) (f : flux) : spc :=
    match s_type s with Raw => with_raw s f | ContinuumOnly => with_cont s f | NoContinuum => with_noc s f end.
  (** IsEmpty, IsValid, spectrum.h:310-318 (the conjunction stops at the first false operand) *)
  Definition IsValid (s : spc) : spc * res bool :=
    sbind (GetFluxAxis s) (fun s f =>
      if negb (Nat.eqb (length (s_axis s)) (length (f_s f))) then (s, Ok false)
      else (s, Ok (negb (Nat.eqb (length (s_axis s)) 0) && negb (Nat.eqb (length (f_s f)) 0) && sorted_axis (s_axis s))%bool)).
  Definition require_valid (s : spc) : spc * res unit :=
    sbind (IsValid s) (fun s v => if (v : bool) then (s, Ok tt) else (s, Throw INVALID_SPECTRUM)).

  (** SetSpectralAxis, spectrum.cpp:202-218 *)
  Definition SetSpectralAxis (s : spc) (a : list Q) : spc * res unit :=
    sbind (GetFluxAxis s) (fun s f =>
      if negb (Nat.eqb (length a) (length (f_s f))) then (s, Throw INVALID_SPECTRUM) else (with_axis s a, Ok tt)).
  (** the common end of the setters, spectrum.cpp:227-229, 240-242 and 255-257 *)
  Definition forget (s : spc) : spc :=
    let s := SetType (ResetContinuum s) Raw in with_rebin s (rebin_reset (s_rebin s)).
  (** SetFluxAxis(const &), spectrum.cpp:220-231: the argument is copied after ResetContinuum *)
  Definition SetFluxAxis_ref (s : spc) (a : farg) : spc * res unit :=
    if negb (Nat.eqb (length (f_s (farg_get s a))) (length (s_axis s))) then (s, Throw INVALID_SPECTRUM)
    else let s := forget s in (with_raw s (farg_get s a), Ok tt).
  (** SetFluxAxis(&&), spectrum.cpp:233-244 *)
  Definition SetFluxAxis_move (s : spc) (f : flux) : spc * res unit :=
    if (negb (Nat.eqb (length (f_s f)) (length (s_axis s))) || Nat.eqb (length (s_axis s)) 0)%bool then (s, Throw INVALID_SPECTRUM)
    else (with_raw (forget s) f, Ok tt).
  (** SetSpectralAndFluxAxes, spectrum.cpp:246-261 *)
  Definition SetSpectralAndFluxAxes (s : spc) (a : list Q) (f : flux) : spc * res unit :=
    if (negb (Nat.eqb (length (f_s f)) (length a)) || Nat.eqb (length a) 0)%bool then (s, Throw INVALID_SPECTRUM)
    else SetFluxAxis_move (with_axis (forget s) a) f.
  (** SetErrorAxis, spectrum.h:296-302 *)
  Definition SetErrorAxis (s : spc) (e : list Q) : spc * res unit :=
    sbind (GetFluxAxis s) (fun s f =>
      match setError (f_e f) e with Ok e => (set_current s (mkFlux (f_s f) e), Ok tt) | Throw x => (s, Throw x) | UB => (s, UB) end).
  (** SetMedianWinsize and SetMedianEvenReflection, spectrum.cpp:560-574 *)
  Definition SetMedianWinsize (s : spc) (w : Z) : spc :=
    with_win (if (negb (Z.eqb (s_win s) w) && String.eqb (s_method s) "irregularSamplingMedian")%bool then ResetContinuum s else s) w.
  Definition SetMedianEvenReflection (s : spc) (b : bool) : spc :=
    with_even (if (negb (Bool.eqb (s_even s) b) && String.eqb (s_method s) "irregularSamplingMedian")%bool then ResetContinuum s else s) b.
  (** SetContinuumEstimationMethod(string), spectrum.cpp:576-581 *)
  Definition SetMethod (s : spc) (m : string) : spc :=
    if String.eqb (s_method s) m then s else ResetContinuum (with_method s m).
  (** SetContinuumEstimationMethod(flux axis), spectrum.cpp:587-598 *)
  Definition SetManual (s : spc) (a : farg) : spc * res unit :=
    let s := ResetContinuum (with_method s "manual") in
    if negb (Nat.eqb (length (f_s (farg_get s a))) (length (s_axis s))) then (s, Throw INTERNAL_ERROR)
    else (with_cont s (farg_get s a), Ok tt).
  (** InitSpectrumContinuum, spectrum.cpp:263-283; the parameters are given (the parameter store is not modelled) *)
  Definition InitSpectrumContinuum (s : spc) (smooth : Z) (m : string) (w : Z) (even : bool) : spc * res unit :=
    sbind (require_valid s) (fun s _ =>
      let s := SetType s Raw in
      let s := if (0 <? smooth)%Z then with_raw s (mkFlux (smoother smooth (f_s (s_raw s))) (f_e (s_raw s))) else s in
      (SetMedianEvenReflection (SetMedianWinsize (SetMethod (ResetContinuum s) m) w) even, Ok tt)).
  (** InvertFlux, spectrum.cpp:343-350 *)
  Definition InvertFlux (s : spc) : spc :=
    let s := with_raw s (flux_invert (s_raw s)) in
    if s_removed s then with_noc (with_cont s (flux_invert (s_cont s))) (flux_invert (s_noc s)) else s.
  (** ApplyAmplitude, spectrum.cpp:634-641 *)
  Definition ApplyAmplitude (s : spc) (c : Q) : spc :=
    let s := with_raw s (flux_scale c (s_raw s)) in
    let s := if s_removed s then with_noc (with_cont s (flux_scale c (s_cont s))) (flux_scale c (s_noc s)) else s in
    with_rebin s (rebin_reset (s_rebin s)).
  (** correctSpectrum, spectrum.cpp:530-547 *)
  Definition correctSpectrum (s : spc) (lmin lmax coeff : Q) : spc * res bool :=
    sbind (require_valid s) (fun s _ =>
      sbind (GetFluxAxis s) (fun s f =>
        match corrector (s_axis s) f lmin lmax coeff with
        | Ok (c, f') => let s := set_current s f' in (if (c : bool) then ResetContinuum s else s, Ok c)
        | Throw e => (s, Throw e) | UB => (s, UB) end)).
  (** setRebinInterpMethod, spectrum.cpp:600-602 and convert, rebin.cpp:115-129: the base class is moved, with its fine grid *)
  Definition rkind_of (m : string) : option rkind :=
    if String.eqb m "lin" then Some Lin else if String.eqb m "preComputedFineGrid" then Some FineGrid
    else if String.eqb m "spline" then Some Spline else if String.eqb m "ngp" then Some Ngp else None.
  Definition setRebinInterpMethod (s : spc) (m : string) : spc * res unit :=
    match rkind_of m with
    | Some k => (with_rebin s (mkRebin k (r_grid (s_rebin s))), Ok tt)
    | None => (s, Throw INVALID_PARAMETER) end.
  (** Rebin, spectrum.cpp:619-632, compute, rebin.cpp:48-62, rebin of the fine grid, rebinFineGrid.cpp:93-106: what the new samples are
      computed from (the interpolation itself is modelled in RebinModel.v).  "no" rebinning of the errors; at least 3 samples for
      the spline of the fine grid (GSL stops the program otherwise). *)
  Definition Rebin (s : spc) (lo hi : Q) : spc * res obs :=
    sbind (require_valid s) (fun s _ =>
      match s_axis s with
      | [] => (s, UB)
      | a0 :: _ =>
          if (Qltb lo a0 || Qltb (last (s_axis s) a0) hi)%bool then (s, Throw INTERNAL_ERROR)
          else
            match r_kind (s_rebin s), r_grid (s_rebin s) with
            | FineGrid, Some (_, g) => (s, Ok (ORebin (s_axis s) g))
            | FineGrid, None =>
                sbind (GetFluxAxis s) (fun s f =>
                  (with_rebin s (mkRebin FineGrid (Some (s_axis s, f_s f))), Ok (ORebin (s_axis s) (f_s f))))
            | _, _ => sbind (GetFluxAxis s) (fun s f => (s, Ok (ORebin (s_axis s) (f_s f))))
            end
      end).

  (** the calls of the interface *)
  Inductive op :=
  | CSetFluxAxis (a : farg) | CSetFluxAxisMove (f : flux) | CSetSpectralAxis (a : list Q) | CSetAxes (a : list Q) (f : flux)
  | CSetErrorAxis (e : list Q) | CSetType (t : etype) | CSetMethod (m : string) | CSetManual (a : farg)
  | CSetWinsize (w : Z) | CSetEven (b : bool) | CInit (smooth : Z) (m : string) (w : Z) (even : bool)
  | CInvert | CAmplitude (c : Q) | CCorrect (lmin lmax coeff : Q) | CSetInterp (m : string) | CRebin (lo hi : Q)
  | CGetFlux | CGetRaw | CGetContinuum | CGetNoContinuum | CIsValid.
  Definition unit_obs (m : spc * res unit) : spc * res obs := sbind m (fun s _ => (s, Ok OUnit)).
  Definition flux_obs (m : spc * res flux) : spc * res obs := sbind m (fun s f => (s, Ok (OFlux f))).
  Definition bool_obs (m : spc * res bool) : spc * res obs := sbind m (fun s b => (s, Ok (OBool b))).
  Definition step (s : spc) (o : op) : spc * res obs :=
    match o with
    | CSetFluxAxis a => unit_obs (SetFluxAxis_ref s a)
    | CSetFluxAxisMove f => unit_obs (SetFluxAxis_move s f)
    | CSetSpectralAxis a => unit_obs (SetSpectralAxis s a)
    | CSetAxes a f => unit_obs (SetSpectralAndFluxAxes s a f)
    | CSetErrorAxis e => unit_obs (SetErrorAxis s e)
    | CSetType t => (SetType s t, Ok OUnit)
    | CSetMethod m => (SetMethod s m, Ok OUnit)
    | CSetManual a => unit_obs (SetManual s a)
    | CSetWinsize w => (SetMedianWinsize s w, Ok OUnit)
    | CSetEven b => (SetMedianEvenReflection s b, Ok OUnit)
    | CInit k m w b => unit_obs (InitSpectrumContinuum s k m w b)
    | CInvert => (InvertFlux s, Ok (OBool true))
    | CAmplitude c => (ApplyAmplitude s c, Ok OUnit)
    | CCorrect a b c => bool_obs (correctSpectrum s a b c)
    | CSetInterp m => unit_obs (setRebinInterpMethod s m)
    | CRebin a b => Rebin s a b
    | CGetFlux => flux_obs (GetFluxAxis s)
    | CGetRaw => (s, Ok (OFlux (s_raw s)))
    | CGetContinuum => flux_obs (GetContinuumFluxAxis s)
    | CGetNoContinuum => flux_obs (GetWithoutContinuumFluxAxis s)
    | CIsValid => bool_obs (IsValid s)
    end.
  (** a history: the program catches the exceptions and goes on; it stops at an undefined behaviour *)
  Fixpoint run (s : spc) (h : list op) : option spc :=
    match h with
    | [] => Some s
    | o :: t => match step s o with (_, UB) => None | (s', _) => run s' t end
    end.
  (** CSpectrum(spectral axis, flux axis), spectrum.cpp:95-115 *)
  Definition fresh_spc (a : list Q) (f : flux) : spc :=
    mkSpc a f empty_flux empty_flux Raw false "" (-1) true (mkRebin Lin None).
  Definition NewSpectrum (a : list Q) (f : flux) : res spc :=
    match require_valid (fresh_spc a f) with (s, Ok _) => Ok s | (_, Throw e) => Throw e | (_, UB) => UB end.
  (** the copy constructor, spectrum.cpp:119-136 (also the move constructor, 138-157): the copy has a rebinning of the same kind
      without fine grid, and its validity is checked *)
  Definition Copy (o : spc) : res spc :=
    match require_valid (with_rebin o (mkRebin (r_kind (s_rebin o)) None)) with
    | (s, Ok _) => Ok s | (_, Throw e) => Throw e | (_, UB) => UB end.
  (** the assignments, spectrum.cpp:163-200: nothing of the target stays in the modelled members, and the validity is not checked *)
  Definition Assign (target o : spc) : spc := with_rebin o (mkRebin (r_kind (s_rebin o)) None).
  (** the masked copy, spectrum.cpp:63-93; maskVector, axis.cpp:80-95.  A mask different from 1 drops the sample. *)
  Definition keep {A} (mask : list bool) (l : list A) : list A := map snd (filter (fun p => fst p) (combine mask l)).
  Definition mask_flux (mask : list bool) (f : flux) : res flux :=
    if negb (Nat.eqb (length mask) (length (f_s f))) then Throw INTERNAL_ERROR
    else
      let k := keep mask (f_s f) in
      match f_e f with
      | [] => Ok (mkFlux k (repeat 1 (length k)))
      | _ => if negb (Nat.eqb (length mask) (length (f_e f))) then Throw INTERNAL_ERROR else Ok (mkFlux k (keep mask (f_e f)))
      end.
  Definition MaskedCopy (o : spc) (mask : list bool) : res spc :=
    if negb (Nat.eqb (length mask) (length (s_axis o))) then Throw INTERNAL_ERROR
    else
      do raw <- mask_flux mask (s_raw o);
      let base := mkSpc (keep mask (s_axis o)) raw empty_flux empty_flux (s_type o) (s_removed o) (s_method o) (s_win o) (s_even o)
                        (mkRebin (r_kind (s_rebin o)) None) in
      if s_removed o then do c <- mask_flux mask (s_cont o); do n <- mask_flux mask (s_noc o); Ok (with_noc (with_cont base c) n)
      else Ok base.
  (** extract, spectrum.h:332-340: samples start..end included (axis.cpp extract); the indices are in range here *)
  Definition Extract (o : spc) (i j : nat) : res spc :=
    let cut {A} (l : list A) := firstn (S j - i) (skipn i l) in
    do s <- NewSpectrum (cut (s_axis o)) (mkFlux (cut (f_s (s_raw o))) (cut (f_e (s_raw o))));
    Ok (with_even (with_win (with_method s (s_method o)) (s_win o)) (s_even o)).
End Spc.

(** what identifies a spectrum: name, observation identifier, LSF and photometry (spectrum.h:187-198), and what the copies do
    with them: spectrum.cpp:119-136 (constructors), 163-200 (assignments), spectrum.h:332-340 (extract) *)
Record ident := mkIdent { i_name : string; i_obs : string; i_lsf : option Z; i_phot : option Z }.
Definition copy_ident (o : ident) : ident := o.
Definition assign_ident (target o : ident) : ident := mkIdent (i_name o) (i_obs target) (i_lsf o) (i_phot target).
Definition extract_ident (o : ident) : ident := mkIdent (i_name o) "" (i_lsf o) None.
