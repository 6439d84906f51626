(** Model of the photometric bands, of the photometric data and of the template fit with photometry:
    RedshiftLibrary/src/lib/photometry/photometricband.cpp:50-135, photometricdata.cpp:45-70, RedshiftLibrary/RedshiftLibrary/photometry/photometricband.h:50-85, photometricdata.h:50-73,
    RedshiftLibrary/src/lib/operator/templatefittingwithphot.cpp:46-92 and 158-345, templatefittingBase.cpp:60-88.
    Exact rationals, the logarithms in the reals; the wavelengths, fluxes and errors are finite and the wavelengths are not null.  Rebinning the template on the bands
    (templatefittingwithphot.cpp:94-138) is not modelled: the rebinned templates are given ([tpl], TplModel.v).  Overflow is not modelled. *)
From Coq Require Import String Reals Qreals.
From Verif Require Import Base F64 SortLib RangeModel TplModel TFitModel DetModel.
Open Scope Q_scope.

(** std::map<string, A>: the pairs by increasing key *)
Definition smap (A : Type) : Type := list (string * A).
Fixpoint mput {A} (replace : bool) (k : string) (v : A) (m : smap A) : smap A :=
  match m with
  | [] => [(k, v)]
  | (k', v') :: t => if String.eqb k k' then (if replace then (k, v) :: t else m)
                     else if String.ltb k k' then (k, v) :: m else (k', v') :: mput replace k v t
  end.
(** at() *)
Fixpoint mget {A} (m : smap A) (k : string) : res A :=
  match m with [] => Throw STD_out_of_range | (k', v) :: t => if String.eqb k k' then Ok v else mget t k end.
Definition keys {A} (m : smap A) : list string := map fst m.

(** ** CPhotometricBand, photometricband.cpp:50-80 *)
(** GSL_CONST_MKSA_SPEED_OF_LIGHT (2.99792458e8) * 1e10 *)
Definition light : Q := inject_Z 2997924580000000000.
Record band := mkBand { b_trans : list Q; b_lam : list Q; b_freq : list Q; b_sum : Q; b_min : Q }.
(** the two loops :70-79 and :104-112: the products of the values and of the wavelengths, averaged between two samples, times the frequency step *)
Fixpoint trapz (g lam freq : list Q) : Q :=
  match g, lam, freq with
  | g0 :: ((g1 :: _) as g'), l0 :: ((l1 :: _) as l'), f0 :: ((f1 :: _) as f') => (g1 * l1 + g0 * l0) / 2 * (f0 - f1) + trapz g' l' f'
  | _, _, _ => 0
  end.
(** std::min_element of a non empty vector *)
Fixpoint min_elt (a : Q) (l : list Q) : Q := match l with [] => a | h :: t => min_elt (if Qltb h a then h else a) t end.
(** the constructor; *min_element of an empty vector is undefined *)
Definition NewBand (trans lam : list Q) : res band :=
  if negb (Nat.eqb (List.length trans) (List.length lam)) then Throw INTERNAL_ERROR
  else match lam with
       | [] => UB
       | l0 :: t => let freq := map (fun l => light / l) lam in Ok (mkBand trans lam freq (trapz trans lam freq) (min_elt l0 t))
       end.
Fixpoint map2 (f : Q -> Q -> Q) (a b : list Q) : list Q := match a, b with x :: a, y :: b => f x y :: map2 f a b | _, _ => [] end.
(** IntegrateFlux, photometricband.cpp:82-118 *)
Definition IntegrateFlux (b : band) (flux : list Q) : res f64 :=
  if negb (Nat.eqb (List.length flux) (List.length (b_trans b))) then Throw INTERNAL_ERROR
  else let nu := map2 (fun f l => f * l * l / light) flux (b_lam b) in
       let out := map2 (fun f t => f * t) nu (b_trans b) in
       Ok (ratio_of (trapz out (b_lam b) (b_freq b)) (b_sum b)).

(** ** CPhotBandCatalog, photometricband.h:76-83 (map::insert keeps the band already there), photometricband.cpp:120-138 *)
Definition catalog := smap band.
Definition Add (c : catalog) (name : string) (b : band) : catalog := mput false name b c.
Definition GetNameList {A} (m : smap A) : list string := keys m.
(** at() of a key of the map; std::sort by increasing first wavelength (SortLib.v: the order between equal wavelengths is not specified) *)
Definition GetNameListSortedByLambda (c : catalog) : list string := map fst (isort (fun p q => Qltb (b_min (snd p)) (b_min (snd q))) c).

(** ** CPhotometricData, photometricdata.cpp:45-62: operator[] replaces the value already there.  The inverse variance is computed when it is used: 1 / 0 is not finite. *)
Record pdat := mkDat { p_flux : Q; p_err : Q }.
Fixpoint fill (names : list string) (flux err : list Q) (m : smap pdat) : smap pdat :=
  match names, flux, err with
  | n :: names, f :: flux, e :: err => fill names flux err (mput true n (mkDat f e) m)
  | _, _, _ => m
  end.
Definition NewData (names : list string) (flux err : list Q) : res (smap pdat) :=
  if (negb (Nat.eqb (List.length names) (List.length flux)) || negb (Nat.eqb (List.length names) (List.length err)))%bool then Throw INTERNAL_ERROR
  else Ok (fill names flux err []).

(** ** COperatorTemplateFittingPhot *)
(** checkInputPhotometry, templatefittingwithphot.cpp:74-92 *)
Definition checkInputPhotometry (cat : option catalog) (data : option (smap pdat)) : res unit :=
  match cat with
  | None | Some [] => Throw MISSING_PHOTOMETRIC_TRANSMISSION
  | Some c => match data with
              | None => Throw MISSING_PHOTOMETRIC_DATA
              | Some d => if forallb (fun n => existsb (String.eqb n) (GetNameList d)) (GetNameList c) then Ok tt else Throw MISSING_PHOTOMETRIC_DATA
              end
  end.
(** the constructor, :46-72: m_sortedBandNames.  [spectra]: the photometric data of each spectrum. *)
Definition NewPhot (spectra : list (option (smap pdat))) (cat : option catalog) : res (list string) :=
  match spectra with
  | _ :: _ :: _ => Throw MULTIOBS_WITH_PHOTOMETRY_NOTIMPLEMENTED
  | [] => do _ <- (match cat with None | Some [] => Throw MISSING_PHOTOMETRIC_TRANSMISSION | Some _ => UB end : res unit); UB
  | [d] => do _ <- checkInputPhotometry cat d; match cat with None => UB | Some c => Ok (GetNameListSortedByLambda c) end
  end.
(** init_fast_igm_processing, :158-173: m_BandIgmEnd, as a position in the sorted names (their number: end) *)
Fixpoint BandIgmEnd (tpls : smap tpl) (names : list string) : res nat :=
  match names with
  | [] => Ok 0%nat
  | n :: names => do t <- mget tpls n; do ie <- tpl_igm_end t; if Z.eqb ie (-1) then Ok 0%nat else do k <- BandIgmEnd tpls names; Ok (S k)
  end.
(** the loop of ComputePhotCrossProducts, :264-301.  [i]: the position in the sorted names.  The sums are [None] when one of them is not finite (null transmission). *)
Section Loop.
  Context (cat : catalog) (tpls : smap tpl) (data : smap pdat) (w : Q) (fast : bool) (bend : nat).
  Fixpoint phot_loop (i : nat) (names : list string) (acc : option cross) (saved : option (option cross)) : res (option cross * option (option cross)) :=
    match names with
    | [] => Ok (acc, saved)
    | n :: names =>
        let saved := match saved with None => if (fast && Nat.eqb i bend)%bool then Some acc else None | _ => saved end in
        do b <- mget cat n; do t <- mget tpls n; do v <- IntegrateFlux b (t_flux t); do d <- mget data n;
        if Qeq_bool (p_err d) 0 then Throw INTERNAL_ERROR
        else
          let one := 1 / (p_err d * p_err d) in
          let o := one * w * w in
          let s := p_flux d * p_flux d * one * w * w in
          phot_loop (S i) names (match acc, v with Some c, Fin f => Some (mkCross (c_x c + p_flux d * f * o) (c_t c + f * f * o) (c_s c + s)) | _, _ => None end) saved
    end.
End Loop.
Definition omap2 (f : cross -> cross -> cross) (a b : option cross) : option cross := match a, b with Some x, Some y => Some (f x y) | _, _ => None end.
(** ComputePhotCrossProducts, :242-324: the photometric sums, the sums with the spectroscopic ones [spc] and the sums kept for the next igm indices *)
Definition ComputePhotCrossProducts (cat : catalog) (tpls : smap tpl) (data : smap pdat) (w : Q) (fast : bool) (bend : nat) (sorted : list string)
    (kM kE : nat) (kept : list (option cross)) (spc : cross) : res (option cross * option cross * list (option cross)) :=
  let names := if (fast && Nat.ltb 0 kM)%bool then firstn bend sorted else sorted in
  do p <- phot_loop cat tpls data w fast bend 0 names (Some czero) None;
  let igm := match snd p with Some s => s | None => Some czero end in
  do q <- (if fast then if Nat.eqb kM 0 then do kept' <- vset kept kE (omap2 csub (fst p) igm); Ok (fst p, kept')
                        else do s <- vget kept kE; Ok (omap2 cadd (fst p) s, kept)
           else Ok (fst p, kept));
  Ok (fst q, omap2 cadd (Some spc) (fst q), snd q).
(** ComputeAmplitudeAndChi2, :229-240: the photometric part of the chi square, for the sums [c] of the photometry *)
Definition chi2_phot (c : cross) (ampl : Q) : Q := c_s c + c_t c * ampl * ampl - 2 * ampl * c_x c.
(** getIntegratedFluxes, :331-345 *)
Fixpoint getIntegratedFluxes (cat : catalog) (tpls : smap tpl) (amp : Q) (names : list string) (m : smap f64) : res (smap f64) :=
  match names with
  | [] => Ok m
  | n :: names => do b <- mget cat n; do t <- mget tpls n; do v <- IntegrateFlux b (t_flux t);
                  getIntegratedFluxes cat tpls amp names (mput true n (match v with Fin x => Fin (x * amp) | _ => v end) m)
  end.

(** ** EstimateLikelihoodCstLog *)
(** templatefittingBase.cpp:75-86 for one spectrum; the errors are positive (a validated spectrum, C62) *)
Fixpoint sum_ln (l : list Q) : R := match l with [] => 0%R | e :: t => (ln (Q2R e) + sum_ln t)%R end.
Definition spectrum_cst (axis err : list Q) (r : range) : res R :=
  do p <- getClosedIntervalIndices r axis;
  let e := firstn (S (snd p) - fst p) (skipn (fst p) err) in
  if Nat.ltb (List.length err) (S (snd p)) then UB
  else Ok (- INR (S (snd p) - fst p) * / 2 * ln (2 * PI) - sum_ln e)%R.
Fixpoint BaseCstLog (l : list (list Q * list Q * range)) : res R :=
  match l with [] => Ok 0%R | (a, e, r) :: t => do x <- spectrum_cst a e r; do y <- BaseCstLog t; Ok (x + y)%R end.
(** templatefittingwithphot.cpp:314-328 *)
Fixpoint sum_ln_err (data : smap pdat) (w : Q) (names : list string) : res R :=
  match names with [] => Ok 0%R | n :: t => do d <- mget data n; do y <- sum_ln_err data w t; Ok (ln (Q2R (p_err d * w)) + y)%R end.
Definition PhotCstLog (l : list (list Q * list Q * range)) (cat : catalog) (data : smap pdat) (w : Q) : res R :=
  do base <- BaseCstLog l;
  do s <- sum_ln_err data w (keys cat);
  Ok (base - (INR (List.length cat) * / 2 * ln (2 * PI) - s))%R.
