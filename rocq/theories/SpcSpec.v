(** Specification of the components of a spectrum (C56). *)
From Coq Require Import String List ZArith QArith Bool.
From Verif Require Import Base SpcModel.
Import ListNotations.
Open Scope Q_scope.

(** same number of samples, equal values *)
Definition veq (a b : list Q) : Prop := Forall2 Qeq a b.
(** the continuum and the continuum-free flux add up to the raw flux, sample by sample *)
Definition decomposed (raw cont noc : flux) : Prop :=
  length (f_s cont) = length (f_s raw) /\ length (f_s noc) = length (f_s raw) /\
  forall i x y z, nth_error (f_s raw) i = Some x -> nth_error (f_s cont) i = Some y -> nth_error (f_s noc) i = Some z -> x == y + z.
(** the samples of the continuum-free flux which a method other than the manual one gives for a raw flux (a refusal of the remover goes
    unnoticed for a spectrum without sample only) *)
Definition estimate (remover : list Q -> flux -> Z -> bool -> removal) (method : string) (axis : list Q) (raw : flux) (win : Z) (even : bool)
           (noc : list Q) : Prop :=
  (method = "irregularSamplingMedian"%string /\ ((exists b, remover axis raw win even = Wrote b noc) \/ (remover axis raw win even = Refused /\ f_s raw = [] /\ noc = []))) \/
  (method = "raw"%string /\ noc = map (fun _ => 0) (f_s raw)) \/ (method = "zero"%string /\ noc = f_s raw).
(** the calls which neither change the wavelengths alone nor the errors alone *)
Definition keeps_setup (o : op) : bool := match o with CSetSpectralAxis _ | CSetErrorAxis _ => false | _ => true end.
(** the call does not hand the spectrum a reference to its own data *)
Definition no_alias (o : op) : bool := match o with CSetFluxAxis (Val _) | CSetManual (Val _) => true | CSetFluxAxis _ | CSetManual _ => false | _ => true end.
(** the calls after which a precomputed fine grid is still right: the settings of the continuum may change only while the spectrum
    shows its raw flux *)
Definition grid_safe (s : spc) (o : op) : Prop :=
  match o with
  | CSetFluxAxis _ | CSetFluxAxisMove _ | CSetAxes _ _ | CSetErrorAxis _ | CSetType _ | CAmplitude _ | CRebin _ _
  | CGetFlux | CGetRaw | CGetContinuum | CGetNoContinuum | CIsValid => True
  | CSetMethod _ | CSetManual _ | CSetWinsize _ | CSetEven _ => s_type s = Raw
  | CSetInterp m => m = "preComputedFineGrid"%string
  | CSetSpectralAxis _ | CInit _ _ _ _ | CInvert | CCorrect _ _ _ => False
  end.

(** the components are k times what the settings give for some raw flux, of which the raw flux is k times (k = 1 and the raw flux
    itself when the spectrum was not scaled since) *)
Definition up_to_date (remover : list Q -> flux -> Z -> bool -> removal) (s : spc) : Prop :=
  s_method s <> "manual"%string ->
  exists k raw0 n0, veq (f_s (s_raw s)) (map (fun x => k * x) (f_s raw0)) /\ f_e (s_raw s) = f_e raw0 /\
    estimate remover (s_method s) (s_axis s) raw0 (s_win s) (s_even s) n0 /\ veq (f_s (s_noc s)) (map (fun x => k * x) n0).
(** a history of calls which are all safe for the fine grid where they are made *)
Fixpoint safe_run (step : spc -> op -> spc * res obs) (s : spc) (h : list op) : Prop :=
  match h with [] => True | o :: t => grid_safe s o /\ match step s o with (_, UB) => True | (s', _) => safe_run step s' t end end.
(** what is assumed of the correction of the invalid samples and of the smoothing (see C15 and C14 for their models) *)
Definition honest (corrector : list Q -> flux -> Q -> Q -> Q -> res (bool * flux)) : Prop :=
  forall a f l1 l2 c f', corrector a f l1 l2 c = Ok (false, f') -> f' = f.
Definition keeps_size (corrector : list Q -> flux -> Q -> Q -> Q -> res (bool * flux)) (smoother : Z -> list Q -> list Q) : Prop :=
  (forall a f l1 l2 c b f', corrector a f l1 l2 c = Ok (b, f') -> length (f_s f') = length (f_s f)) /\ (forall k l, length (smoother k l) = length l).
(** the flux axis that the type of the spectrum selects, when it is there *)
Definition shown (s : spc) : flux := match s_type s with Raw => s_raw s | ContinuumOnly => s_cont s | NoContinuum => s_noc s end.
(** everything but the two estimated axes and the flag *)
Definition same_data (s s' : spc) : Prop :=
  s_axis s' = s_axis s /\ s_raw s' = s_raw s /\ s_type s' = s_type s /\ s_method s' = s_method s /\ s_win s' = s_win s /\
  s_even s' = s_even s /\ s_rebin s' = s_rebin s.
(** the fine grid kept by the spectrum was computed from the samples g *)
Definition grid_of (s : spc) (g : list Q) : Prop := r_kind (s_rebin s) = FineGrid /\ exists a, r_grid (s_rebin s) = Some (a, g).
