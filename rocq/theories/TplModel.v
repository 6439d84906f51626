(** Model of the extinction of a template: RedshiftLibrary/src/lib/spectrum/template/template.cpp and
    RedshiftLibrary/RedshiftLibrary/spectrum/template/template.h.  The CSpectrum part is reduced to the wavelengths and the flux of the current component
    (GetFluxAxis_(); the state machine of the components is SpcModel.v); flux errors, names and categories are left out.  Exact rationals;
    Int32 indices do not overflow. *)
From Verif Require Import Base RangeModel AxisModel CalzModel MeikModel.
Open Scope Q_scope.

(** template.h:152-170; [t_no] empty: extinction disabled (template.h:125) *)
Record tpl := mkTpl { t_axis : list Q; t_flux : list Q; t_no : list Q; t_dust : Z; t_igm : Z; t_zi : Z; t_ks : Z; t_ke : Z; t_ie : Z;
  t_cd : list Q; t_cm : list Q; t_cal : option calz; t_mei : option meik }.
(** the constructor with axes, template.cpp:58-65: the sizes are checked by CSpectrum (spectrum.cpp) *)
Definition NewTpl (axis flux : list Q) : res tpl :=
  if negb (Nat.eqb (length axis) (length flux)) then Throw INVALID_SPECTRUM
  else Ok (mkTpl axis flux [] (-1) (-1) (-1) (-1) (-1) (-1) [] [] None None).

Definition enabled (t : tpl) : bool := negb (Nat.eqb (length (t_no t)) 0).
Definition with_flux t f := mkTpl (t_axis t) f (t_no t) (t_dust t) (t_igm t) (t_zi t) (t_ks t) (t_ke t) (t_ie t) (t_cd t) (t_cm t) (t_cal t) (t_mei t).
Definition with_no t n := mkTpl (t_axis t) (t_flux t) n (t_dust t) (t_igm t) (t_zi t) (t_ks t) (t_ke t) (t_ie t) (t_cd t) (t_cm t) (t_cal t) (t_mei t).
Definition with_dust t d := mkTpl (t_axis t) (t_flux t) (t_no t) d (t_igm t) (t_zi t) (t_ks t) (t_ke t) (t_ie t) (t_cd t) (t_cm t) (t_cal t) (t_mei t).
Definition with_igm t i := mkTpl (t_axis t) (t_flux t) (t_no t) (t_dust t) i (t_zi t) (t_ks t) (t_ke t) (t_ie t) (t_cd t) (t_cm t) (t_cal t) (t_mei t).
Definition with_cd t c := mkTpl (t_axis t) (t_flux t) (t_no t) (t_dust t) (t_igm t) (t_zi t) (t_ks t) (t_ke t) (t_ie t) c (t_cm t) (t_cal t) (t_mei t).
Definition with_cm t c := mkTpl (t_axis t) (t_flux t) (t_no t) (t_dust t) (t_igm t) (t_zi t) (t_ks t) (t_ke t) (t_ie t) (t_cd t) c (t_cal t) (t_mei t).
Definition with_axis t a := mkTpl a (t_flux t) (t_no t) (t_dust t) (t_igm t) (t_zi t) (t_ks t) (t_ke t) (t_ie t) (t_cd t) (t_cm t) (t_cal t) (t_mei t).
Definition with_tables t c m := mkTpl (t_axis t) (t_flux t) (t_no t) (t_dust t) (t_igm t) (t_zi t) (t_ks t) (t_ke t) (t_ie t) (t_cd t) (t_cm t) c m.

(** the loops of template.cpp:215-226 and 254-271: [coef lam] computes the new coefficient of a sample, [comb f c o] the flux from the unextincted flux,
    the new coefficient and the other one.  Coefficients and fluxes written before an exception stay. *)
Fixpoint apply_loop (coef : Q -> res Q) (comb : Q -> Q -> Q -> Q) (axis no other : list Q) (k n : nat) (cs fl : list Q) : (list Q * list Q) * res unit :=
  match n with
  | O => ((cs, fl), Ok tt)
  | S n =>
      match (do lam <- vget axis k; coef lam) with
      | Throw e => ((cs, fl), Throw e) | UB => ((cs, fl), UB)
      | Ok c =>
          match (do cs' <- vset cs k c; do f <- vget no k; do o <- vget other k; do fl' <- vset fl k (comb f c o); Ok (cs', fl')) with
          | Throw e => ((cs, fl), Throw e) | UB => ((cs, fl), UB)
          | Ok (cs', fl') => apply_loop coef comb axis no other (S k) n cs' fl'
          end
      end
  end.
(** number of turns of the loop from a to b included *)
Definition turns (a b : Z) : nat := Z.to_nat (b + 1 - a).

(** ApplyDustCoeff, template.cpp:198-228: the state after the call and what it returns *)
Definition ApplyDustCoeff (t : tpl) (k : Z) : tpl * res bool :=
  match enabled t, t_cal t with
  | true, Some cal =>
      if Z.eqb (t_dust t) k then (t, Ok true)
      else
        let t := with_dust t k in
        let '((cd, fl), r) := apply_loop (fun lam => if (-1 <? k)%Z then GetDustCoeff cal k lam else Ok 1) (fun f c o => f * o * c)
                                (t_axis t) (t_no t) (t_cm t) (Z.to_nat (t_ks t)) (turns (t_ks t) (t_ke t)) (t_cd t) (t_flux t) in
        (with_flux (with_cd t cd) fl, do _ <- r; Ok true)
  | _, _ => (t, Throw INTERNAL_ERROR)
  end.
(** the coefficient of a sample, template.cpp:255-266 *)
Definition igm_coef (m : meik) (zi idx : Z) (lam : Q) : res Q :=
  if (-1 <? idx)%Z then getCorrectionIdx m zi idx (if Qle_bool (mk_min m) lam then getWaveIndex m lam else 0) else Ok 1.
(** ApplyMeiksinCoeff, template.cpp:234-273 *)
Definition ApplyMeiksinCoeff (t : tpl) (idx : Z) : tpl * res bool :=
  match enabled t, t_mei t with
  | true, Some m =>
      if Z.eqb (t_igm t) idx then (t, Ok (negb (Z.eqb (t_ie t) (-1))))
      else
        let t := with_igm t idx in
        if Z.eqb (t_ie t) (-1) then (t, Ok false)
        else
          let '((cm, fl), r) := apply_loop (igm_coef m (t_zi t) idx) (fun f c o => f * c * o)
                                  (t_axis t) (t_no t) (t_cd t) (Z.to_nat (t_ks t)) (turns (t_ks t) (t_ie t)) (t_cm t) (t_flux t) in
          (with_flux (with_cm t cm) fl, do _ <- r; Ok true)
  | _, _ => (t, Throw INTERNAL_ERROR)
  end.
(** GetIgmEndIndex, template.cpp:362-379: upper_bound of Lyman alpha among the samples kstart..kend; a range with kstart > kend + 1 is undefined *)
Definition GetIgmEndIndex (axis : list Q) (ks ke : Z) : res Z :=
  if (ke + 1 <? ks)%Z then UB
  else let it := upper_bound (firstn (turns ks ke) (skipn (Z.to_nat ks) axis)) lya in
       Ok (match it with O => (-1)%Z | S i => (ks + Z.of_nat i)%Z end).
(** the end of InitIsmIgmConfig, template.cpp:345-359 *)
Definition init_end (t : tpl) : tpl * res unit :=
  let t := if enabled t then with_flux t (t_no t) else with_no t (t_flux t) in
  (with_cd (with_cm t (repeat 1 (length (t_axis t)))) (repeat 1 (length (t_axis t))), Ok tt).
(** InitIsmIgmConfig, template.cpp:308-360; a null pointer ([None]) keeps the table already there *)
Definition InitIsmIgmConfig (t : tpl) (ks ke : Z) (z : Q) (cal : option calz) (mei : option meik) : tpl * res unit :=
  let t := with_tables t (match cal with None => t_cal t | _ => cal end) (match mei with None => t_mei t | _ => mei end) in
  let n := Z.of_nat (length (t_axis t)) in
  match t_cal t, t_mei t with
  | None, None => (t, Throw INTERNAL_ERROR)
  | _, _ =>
      if ((ks <? 0) || (n <=? ks))%Z then (t, Throw INTERNAL_ERROR)
      else if ((ke <? 0) || (n <=? ke))%Z then (t, Throw INTERNAL_ERROR)
      else
        let reset (zi ie : Z) := mkTpl (t_axis t) (t_flux t) (t_no t) (-1) (-1) zi ks ke ie (t_cd t) (t_cm t) (t_cal t) (t_mei t) in
        match t_mei t with
        | None => init_end (reset (t_zi t) (-1)%Z)
        | Some m =>
            match getRedshiftIndex m z with
            | Throw e => (reset (t_zi t) (-1)%Z, Throw e) | UB => (t, UB)
            | Ok zi =>
                match GetIgmEndIndex (t_axis t) ks ke with
                | Throw e => (reset zi (-1)%Z, Throw e) | UB => (t, UB)
                | Ok ie => if (Z.eqb zi (-1) && negb (Z.eqb ie (-1)))%bool then (reset zi ie, Throw INTERNAL_ERROR) else init_end (reset zi ie)
                end
            end
        end
  end.
(** template.cpp:285-292 *)
Definition InitIsmIgmConfig_all (t : tpl) (z : Q) cal mei : tpl * res unit := InitIsmIgmConfig t 0 (Z.of_nat (length (t_axis t)) - 1) z cal mei.
(** template.cpp:294-306 *)
Definition InitIsmIgmConfig_range (t : tpl) (r : range) (z : Q) cal mei : tpl * res unit :=
  match getClosedIntervalIndices r (t_axis t) with
  | Ok (a, b) => InitIsmIgmConfig t (Z.of_nat a) (Z.of_nat b) z cal mei
  | Throw e => (t, Throw e) | UB => (t, UB)
  end.
(** DisableIsmIgm, template.h:235-241 *)
Definition DisableIsmIgm (t : tpl) : tpl := if enabled t then with_no (with_flux t (t_no t)) [] else t.
(** ApplyAmplitude, template.cpp:381-386, and that of CSpectrum, which a call through a CSpectrum reaches (not virtual): SpcModel.v *)
Definition BaseAmplitude (t : tpl) (a : Q) : tpl := with_flux t (map (fun x => a * x) (t_flux t)).
Definition ApplyAmplitude (t : tpl) (a : Q) : tpl :=
  let t := BaseAmplitude t a in if enabled t then with_no t (map (fun x => a * x) (t_no t)) else t.
(** the setters, template.h:175-205, on a spectrum of raw type (spectrum.cpp:202-261: SpcModel.v).  SetFluxAxis(const &). *)
Definition SetFluxAxis (t : tpl) (f : list Q) : tpl * res unit :=
  let t := with_no t [] in if negb (Nat.eqb (length f) (length (t_axis t))) then (t, Throw INVALID_SPECTRUM) else (with_flux t f, Ok tt).
Definition SetSpectralAxis (t : tpl) (a : list Q) : tpl * res unit :=
  let t := with_no t [] in if negb (Nat.eqb (length a) (length (t_flux t))) then (t, Throw INVALID_SPECTRUM) else (with_axis t a, Ok tt).
(** the constructor with a mask, template.cpp:93-131: the indices are searched in the masked wavelengths; m_Igm_kend keeps its default -1 *)
Definition MaskedCopy (t : tpl) (mask : list Q) : res tpl :=
  do axis <- maskVector mask (t_axis t); do fl <- maskVector mask (t_flux t);
  let c no (ks ke : Z) cd cm := mkTpl axis fl no (t_dust t) (t_igm t) (t_zi t) ks ke (-1) cd cm (t_cal t) (t_mei t) in
  if negb (enabled t) then Ok (c [] (-1)%Z (-1)%Z [] [])
  else
    do lb <- zget (t_axis t) (t_ks t); do le <- zget (t_axis t) (t_ke t);
    match getClosedIntervalIndices (mkRange lb le) axis with
    | UB => UB
    | Throw CRANGE_VECTBORDERS_OUTSIDERANGE => Ok (c [] (-1)%Z (-1)%Z [] [])
    | Throw e => Throw e
    | Ok (a, b) => do no <- maskVector mask (t_no t); do cd <- maskVector mask (t_cd t); do cm <- maskVector mask (t_cm t);
                   Ok (c no (Z.of_nat a) (Z.of_nat b) cd cm)
    end.
(** GetIsmCoeff, GetIgmCoeff: template.h:243-255 *)
Definition GetIsmCoeff (t : tpl) : res Z := if enabled t then Ok (t_dust t) else Throw INTERNAL_ERROR.
Definition GetIgmCoeff (t : tpl) : res Z := if enabled t then Ok (t_igm t) else Throw INTERNAL_ERROR.
(** GetIsmIdxList and GetIgmIdxList, template.cpp:396-446; a negative size of a std::vector is a length_error *)
Definition idx_list (opt : bool) (fit : Z) (count : option (res Z)) : res (list Z) :=
  if negb opt then Ok [(-1)%Z]
  else match count with
       | None => Throw INTERNAL_ERROR
       | Some n => if Z.eqb fit (-1)
                   then do n <- n; if (n <? 0)%Z then Throw STD_length_error else Ok (map Z.of_nat (seq 0 (Z.to_nat n)))
                   else Ok [fit]
       end.
Definition GetIsmIdxList (t : tpl) (opt : bool) (fit : Z) : res (list Z) := idx_list opt fit (option_map (fun c => Ok (cz_n c)) (t_cal t)).
Definition GetIgmIdxList (t : tpl) (opt : bool) (fit : Z) : res (list Z) := idx_list opt fit (option_map getIdxCount (t_mei t)).

(** a program: calls on one template, stopped by the first exception *)
Inductive call := Init (ks ke : Z) (z : Q) (cal : option calz) (mei : option meik) | Dust (k : Z) | Igm (k : Z) | Amp (a : Q) | Disable.
Definition step (t : tpl) (c : call) : tpl * res unit :=
  match c with
  | Init ks ke z cal mei => InitIsmIgmConfig t ks ke z cal mei
  | Dust k => let (t, r) := ApplyDustCoeff t k in (t, do _ <- r; Ok tt)
  | Igm k => let (t, r) := ApplyMeiksinCoeff t k in (t, do _ <- r; Ok tt)
  | Amp a => (ApplyAmplitude t a, Ok tt)
  | Disable => (DisableIsmIgm t, Ok tt)
  end.
Fixpoint run (t : tpl) (cs : list call) : res tpl :=
  match cs with
  | [] => Ok t
  | c :: cs => match step t c with (t, Ok _) => run t cs | (_, Throw e) => Throw e | (_, UB) => UB end
  end.
(** the same calls by a caller which catches the exceptions *)
Fixpoint run_catch (t : tpl) (cs : list call) : res tpl :=
  match cs with
  | [] => Ok t
  | c :: cs => match step t c with (_, UB) => UB | (t, _) => run_catch t cs end
  end.
