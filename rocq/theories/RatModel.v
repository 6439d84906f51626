(** Model of the fit of the line model at one redshift: the loop over the continuum candidates and the line ratio catalogues
    RedshiftLibrary/src/lib/linemodel/linemodelfitting.cpp:314-432 (prepareAndLoadContinuum, fit),
    RedshiftLibrary/src/lib/linemodel/tplratiomanager.cpp:73-76, 90-160, 264-280, 366-592 (CTplratioManager),
    RedshiftLibrary/src/lib/linemodel/rulesmanager.cpp:56-60, lineratiomanager.cpp:173-195, 218-285,
    RedshiftLibrary/src/lib/linemodel/continuummanager.cpp:64-120 (LoadFitContinuum),
    RedshiftLibrary/RedshiftLibrary/linemodel/elementparam.h:115-194.
    Exact rationals, no overflow; NaN and the infinities are kept for the merits and the amplitudes.  The fitters (C66-C69),
    the spectrum of a model (C70), the rules (C37...), the Lya profiles and the line statistics are parameters. *)
From Verif Require Import Base RangeModel AxisModel MeikModel EfitModel F64.
Open Scope Q_scope.

(** a + b, exact (no overflow) *)
Definition fadd (a b : f64) : f64 :=
  match a, b with
  | NaN, _ | _, NaN => NaN
  | PInf, NInf | NInf, PInf => NaN
  | PInf, _ | _, PInf => PInf
  | NInf, _ | _, NInf => NInf
  | Fin x, Fin y => Fin (x + y)
  end.
(** a Float64 which may be NaN *)
Notation num := (option Q).
Definition undefIdx : Z := (-1)%Z.

(** TAsymParams: sigma, alpha, delta *)
Record asym := mkAsym { a_sigma : num; a_alpha : num; a_delta : num }.
Definition asym_nan : asym := mkAsym None None None.
(** TLineModelElementParam, with the verdicts of CLMEltListVector on its lines: the absorption lines (sign factor -1), the lines
    outside the range of all the spectra, whether the whole element is, whether it has lines with an asymmetric profile, the limit of
    the absorption; then the nominal amplitudes, the fitted ones, their errors, m_sumCross, m_sumGauss, the asymmetry parameters
    and the IGM index of the asymmetric lines (all the asymmetric lines of an element share them) *)
Record elt := mkElt {
  e_abs : list bool; e_out : list bool; e_allout : bool; e_hasasym : bool; e_limit : Q;
  e_nom : list Q; e_amp : list num; e_std : list num; e_cross : num; e_gauss : num; e_asym : asym; e_igm : Z }.
Definition e_size (e : elt) : nat := length (e_abs e).
Definition with_nom (e : elt) (n : list Q) : elt :=
  mkElt (e_abs e) (e_out e) (e_allout e) (e_hasasym e) (e_limit e) n (e_amp e) (e_std e) (e_cross e) (e_gauss e) (e_asym e) (e_igm e).
Definition with_amps (e : elt) (a s : list num) : elt :=
  mkElt (e_abs e) (e_out e) (e_allout e) (e_hasasym e) (e_limit e) (e_nom e) a s (e_cross e) (e_gauss e) (e_asym e) (e_igm e).
Definition with_sums (e : elt) (c g : num) : elt :=
  mkElt (e_abs e) (e_out e) (e_allout e) (e_hasasym e) (e_limit e) (e_nom e) (e_amp e) (e_std e) c g (e_asym e) (e_igm e).
Definition with_prof (e : elt) (p : asym) (i : Z) : elt :=
  mkElt (e_abs e) (e_out e) (e_allout e) (e_hasasym e) (e_limit e) (e_nom e) (e_amp e) (e_std e) (e_cross e) (e_gauss e) p i.

(** elementparam.h:115-127: NaN and undefIdx without an asymmetric line *)
Definition GetAsymfitParams (e : elt) : asym := if e_hasasym e then e_asym e else asym_nan.
Definition GetSymIgmIdx (e : elt) : Z := if e_hasasym e then e_igm e else undefIdx.
(** elementparam.h:128-148 on all the asymmetric lines *)
Definition SetAsymfitParams (e : elt) (p : asym) : elt := if e_hasasym e then with_prof e p (e_igm e) else e.
Definition SetSymIgmIdx (e : elt) (i : Z) : elt := if e_hasasym e then with_prof e (e_asym e) i else e.

Definition nmul (a : num) (q : Q) : num := match a with Some x => Some (x * q) | None => None end.
(** elementparam.h:160-171: the amplitude of one line *)
Definition setFittedAmplitude (e : elt) (i : nat) (A nom : Q) : res Q :=
  do neg <- vget (e_abs e) i;
  let f := A * nom in
  Ok (if neg && Qltb 0 (e_limit e) && Qltb (e_limit e) f then e_limit e else f).
(** elementparam.h:173-194: one line *)
Definition set_line (e : elt) (A : Q) (AStd : num) (i : nat) : res (num * num) :=
  do o <- vget (e_out e) i;
  if (o : bool) then Ok (None, None)
  else do n <- vget (e_nom e) i; do f <- setFittedAmplitude e i A n; Ok (Some f, nmul AStd n).
Definition setAmplitudes (e : elt) (A AStd : num) : res elt :=
  match A with
  | None => Ok (with_amps e (repeat None (e_size e)) (repeat None (e_size e)))
  | Some a =>
      if e_allout e then Ok (with_amps e (repeat None (e_size e)) (repeat None (e_size e)))
      else do l <- mapr (set_line e a AStd) (seq 0 (e_size e)); Ok (with_amps e (map fst l) (map snd l))
  end.

(** what is kept of one element for one ratio, tplratiomanager.h:99-117 *)
Record saved := mkSaved { v_amp : num; v_err : num; v_dtm : num; v_mtm : num; v_asym : asym; v_igm : Z; v_lprior : f64 }.
(** one entry of the tables m_MeritTplratio, m_PriorMeritTplratio, m_ScaleMargCorrTplratio, ... *)
Record row := mkRow { w_merit : f64; w_prior : f64; w_scale : num; w_strong : bool; w_ha : bool; w_nl : Z; w_elts : list saved }.
(** one catalogue of line ratios: ISM index, nominal amplitude of every line of every element *)
Record ratio := mkRatio { g_ism : Z; g_nom : list (list Q) }.
(** CPriorHelper::SPriorTZE, the fields read here *)
Record prior := mkPrior { p_bTE : Q; p_TE : Q; p_bA : Q; p_A : Q; p_bZ : Q; p_Z : Q; p_mean : Q; p_sigma : Q }.
(** one spectrum of the observation for getLeastSquareMerit *)
Record obs := mkObs { o_axis : list Q; o_err : list Q; o_range : range }.

(** the lineRatioType; tplCorr is not modelled *)
Inductive kind := TplRatio | Rules.
(** the continuum component: none, taken from the spectrum, fitted with templates *)
Inductive component := NoContinuum | FromSpectrum | TplFit.

(** lineratiomanager.cpp:237-240: samples imin <= j < imax of one spectrum; a null error is a division by zero: out of the model *)
Definition sample_merit (er y m : list Q) (acc : Q) (j : nat) : res Q :=
  do a <- vget y j; do b <- vget m j; do e <- vget er j;
  if Qeq_bool e 0 then UB else Ok (acc + (a - b) * (a - b) / (e * e)).
Definition obs_merit (o : obs) (y m : list Q) (acc : Q) : res Q :=
  do imin <- GetIndexAtWaveLength (o_axis o) (rbeg (o_range o));
  do imax <- GetIndexAtWaveLength (o_axis o) (rend (o_range o));
  rfold (sample_merit (o_err o) y m) (seq imin (imax - imin)) acc.
(** lineratiomanager.cpp:218-285: all the spectra, then the terms of the continuum fit *)
Fixpoint all_obs (os : list obs) (ys ms : list (list Q)) (acc : Q) : res Q :=
  match os with
  | [] => Ok acc
  | o :: t =>
      match ys, ms with
      | y :: ys', m :: ms' => do a <- obs_merit o y m acc; all_obs t ys' ms' a
      | _, _ => UB
      end
  end.
Definition getLeastSquareMerit (os : list obs) (ys ms : list (list Q)) (fitSum : num) : res f64 :=
  do a <- all_obs os ys ms 0;
  Ok (match fitSum with Some f => Fin (a + f) | None => NaN end).

(** tplratiomanager.cpp:474-523: the term of the amplitude of one element: its first line which is not null (the NaN amplitudes are not
    set aside here) nor outside; [None]: no such line; [Some None]: NaN *)
Fixpoint prior_line (outs : list bool) (noms : list Q) (amps : list num) : res (option num) :=
  match outs, noms, amps with
  | o :: os, n :: ns, a :: l =>
      if (match a with Some x => Qle_bool x 0 | None => false end) || o then prior_line os ns l
      else match a with
           | None => Ok (Some None)
           | Some x => if Qeq_bool n 0 then UB else Ok (Some (Some (x / n)))
           end
  | _, _, _ => Ok None
  end.
Definition prior_elt (p : prior) (acc : f64) (e : elt) : res f64 :=
  do r <- prior_line (e_out e) (e_nom e) (e_amp e);
  Ok (match r with
      | None => acc
      | Some None => NaN
      | Some (Some x) => fadd acc (Fin (p_bA p * (x - p_mean p) * (x - p_mean p) / (p_sigma p * p_sigma p)))
      end).
Definition computelogLinePriorMerit (ps : list prior) (r : nat) (es : list elt) : res f64 :=
  if Nat.eqb (length ps) 0 then Ok (Fin 0)
  else
    do p <- vget ps r;
    let m := Fin (-2 * p_bTE p * p_TE p + -2 * p_bA p * p_A p + -2 * p_bZ p * p_Z p) in
    if Qle_bool (p_sigma p) 0 then Ok m else rfold (prior_elt p) es m.

(** tplratiomanager.cpp:409-462: the first line of the element with a positive amplitude in the range: amplitude and error divided by the
    nominal amplitude *)
Fixpoint save_line (outs : list bool) (noms : list Q) (amps stds : list num) : res (option (Q * num)) :=
  match outs, noms, amps, stds with
  | o :: os, n :: ns, a :: l, s :: ss =>
      match a with
      | Some x =>
          if Qle_bool x 0 || o then save_line os ns l ss
          else if Qeq_bool n 0 then UB else Ok (Some (x / n, nmul s (/ n)))
      | None => save_line os ns l ss
      end
  | _, _, _, _ => Ok None
  end.
Definition save_elt (p : f64) (e : elt) : res saved :=
  do r <- save_line (e_out e) (e_nom e) (e_amp e) (e_std e);
  Ok (match r with
      | Some (a, s) => mkSaved (Some a) s (e_cross e) (e_gauss e) (GetAsymfitParams e) (GetSymIgmIdx e) p
      | None => mkSaved (Some 0) None None None asym_nan undefIdx p
      end).

(** tplratiomanager.cpp:264-280, for one element *)
Definition set_nominal (rows : list (list Q)) (i : nat) (e : elt) : res elt :=
  do l <- vget rows i; do n <- mapr (vget l) (seq 0 (e_size e)); Ok (with_nom e n).
Fixpoint set_nominals (rows : list (list Q)) (i : nat) (es : list elt) : res (list elt) :=
  match es with
  | [] => Ok []
  | e :: t => do x <- set_nominal rows i e; do r <- set_nominals rows (S i) t; Ok (x :: r)
  end.
Definition SetNominalAmplitudes (cat : list ratio) (r : Z) (es : list elt) : res (list elt) :=
  if (r <? 0)%Z || (Z.of_nat (length cat) <=? r)%Z then Throw INTERNAL_ERROR
  else do g <- vget cat (Z.to_nat r); set_nominals (g_nom g) 0 es.

(** what a fit depends on.  C: the continuum as the fitters see it *)
Record env (C : Type) := mkEnv {
  (** the continuum as the fitters see it; the candidates of the fit store at this redshift *)
  store : list C;
  (** m_fitContinuum_option: true when the candidates come from the fit store (1), false when the values are already set (2) *)
  fromStore : bool;
  comp : component;
  knd : kind;
  cat : list ratio;
  priors : list prior;
  (** m_forcedisableTplratioISMfit *)
  noIsm : bool;
  (** m_opt_haprior > 0 *)
  haprior : bool;
  (** m_fittingmethod == "svdlc" *)
  svdlc : bool;
  (** isContinuumComponentTplfitxx() && !m_forcedisableMultipleContinuumfit ? m_opt_fitcontinuum_maxN : 1 *)
  multiple : bool;
  maxN : nat;
  spectra : list obs;
  (** the flux of the spectra, the flux of the models once refreshed, getFitSum *)
  spcflux : C -> list (list Q);
  modelflux : C -> list elt -> list (list Q);
  fitSum : C -> num;
  (** setLyaProfile: asymmetry parameters and IGM index of the element for one ratio (undefIdx with the rules) *)
  lya : C -> Z -> elt -> asym * Z;
  (** m_fitter->fit and the rules *)
  fitter : C -> list elt -> res (list elt);
  rules : list elt -> res (list elt);
  (** getScaleMargCorrection, GetModelStrongEmissionLinePresent, GetModelHaStrongest over the spectra *)
  scale : list elt -> num;
  strong : list elt -> bool;
  haStrongest : list elt -> bool }.
Arguments store {C}. Arguments fromStore {C}. Arguments comp {C}. Arguments knd {C}. Arguments cat {C}. Arguments priors {C}. Arguments noIsm {C}. Arguments haprior {C}. Arguments svdlc {C}. Arguments multiple {C}. Arguments maxN {C}. Arguments spectra {C}. Arguments spcflux {C}. Arguments modelflux {C}. Arguments fitSum {C}. Arguments lya {C}. Arguments fitter {C}. Arguments rules {C}. Arguments scale {C}. Arguments strong {C}. Arguments haStrongest {C}. 

Section Fit.
  Context {C : Type}.
  Variable v : env C.

  Definition nContinuum : nat := match (comp v) with TplFit => if (multiple v) then (maxN v) else 1%nat | _ => 1%nat end.

  (** continuummanager.cpp:64-120, for one spectrum; a rank out of the store is refused (C42) *)
  Definition LoadFitContinuum (k : Z) (c : C) : res C :=
    if (fromStore v) then if (k <? 0)%Z then Throw INTERNAL_ERROR
                      else match nth_error (store v) (Z.to_nat k) with Some x => Ok x | None => Throw INTERNAL_ERROR end
    else Ok c.
  (** linemodelfitting.cpp:314-333 *)
  Definition prepareAndLoadContinuum (k : nat) (c : C) : res C :=
    match (comp v) with TplFit => LoadFitContinuum (Z.of_nat k) c | _ => Ok c end.

  (** lineratiomanager.cpp:90-171 *)
  Definition setLyaProfile (c : C) (r : Z) (es : list elt) : list elt :=
    map (fun e => let '(p, i) := (lya v) c r e in with_prof e p i) es.
  (** tplratiomanager.cpp:606-626 *)
  Definition setTplratioModel (c : C) (r : Z) (es : list elt) : res (list elt) :=
    do es' <- SetNominalAmplitudes (cat v) r es; Ok (setLyaProfile c r es').

  (** tplratiomanager.cpp:384-464 *)
  Definition updateTplratioResults (old : row) (m p : f64) (es : list elt) : res row :=
    do l <- mapr (save_elt p) es;
    let st := (strong v) es in
    let ha := if (haprior v) then (if st then (haStrongest v) es else false) else w_ha old in
    Ok (mkRow m p ((scale v) es) st ha 0 l).

  (** state of the loops: the elements, the tables, m_savedIdxFitted, the loaded continuum, bestMerit, savedIdxContinuumFitted, and
      the two solutions handed back (copies of the elements and of the continuum) *)
  Record fstate := mkF { f_es : list elt; f_tab : list row; f_saved : Z; f_c : C; f_best : f64; f_k : Z; f_sol : option (list elt * C) }.

  (** linemodelfitting.cpp:391: bestMerit + bestMeritPrior > _merit + _meritprior, where both priors are always 0 *)
  Definition better (m best : f64) : bool := flt (fadd m (Fin 0)) (fadd best (Fin 0)).
  (** linemodelfitting.cpp:391-406 *)
  Definition keep_best (k : nat) (r : Z) (m : f64) (s : fstate) : fstate :=
    if better m (f_best s)
    then mkF (f_es s) (f_tab s) r (f_c s) m (Z.of_nat k) (Some (f_es s, f_c s))
    else s.

  Definition merit_of (c : C) (es : list elt) : res f64 :=
    getLeastSquareMerit (spectra v) ((spcflux v) c) ((modelflux v) c es) ((fitSum v) c).

  (** tplratiomanager.cpp:118-128: the ratio is not fitted, the results of the one before are copied (135-160, every field) *)
  Definition skipped (r : nat) : res bool :=
    if (noIsm v) && Nat.ltb 0 r then do g <- vget (cat v) r; Ok (0 <? g_ism g)%Z else Ok false.
  Definition duplicateTplratioResult (r : nat) (t : list row) : res (list row) :=
    do w <- vget t (r - 1); do old <- vget t r; vset t r w.

  (** tplratiomanager.cpp:527-546 *)
  Definition computeMerit_ratio (r : nat) (s : fstate) : res (f64 * fstate) :=
    do m <- merit_of (f_c s) (f_es s);
    do p <- computelogLinePriorMerit (priors v) r (f_es s);
    do w <- vget (f_tab s) r;
    if flt (fadd m p) (fadd (w_merit w) (w_prior w))
    then do w' <- updateTplratioResults w m p (f_es s);
         do t <- vset (f_tab s) r w';
         Ok (m, mkF (f_es s) t (f_saved s) (f_c s) (f_best s) (f_k s) (f_sol s))
    else Ok (m, s).
  (** rulesmanager.cpp:56-60 *)
  Definition computeMerit_rules (s : fstate) : res (f64 * fstate) :=
    do es <- (rules v) (f_es s);
    do m <- merit_of (f_c s) es;
    Ok (m, mkF es (f_tab s) (f_saved s) (f_c s) (f_best s) (f_k s) (f_sol s)).

  Definition set_es (s : fstate) (es : list elt) : fstate := mkF es (f_tab s) (f_saved s) (f_c s) (f_best s) (f_k s) (f_sol s).
  (** linemodelfitting.cpp:381-409: one ratio *)
  Definition ratio_step (k : nat) (s : fstate) (r : nat) : res fstate :=
    match (knd v) with
    | TplRatio =>
        do sk <- skipped r;
        if (sk : bool)
        then do t <- duplicateTplratioResult r (f_tab s);
             Ok (mkF (f_es s) t (f_saved s) (f_c s) (f_best s) (f_k s) (f_sol s))
        else
          do es1 <- setTplratioModel (f_c s) (Z.of_nat r) (f_es s);
          do es2 <- (fitter v) (f_c s) es1;
          do ms <- computeMerit_ratio r (set_es s es2);
          let '(m, s') := ms in
          Ok (keep_best k (Z.of_nat r) m s')
    | Rules =>
        do es2 <- (fitter v) (f_c s) (setLyaProfile (f_c s) undefIdx (f_es s));
        do ms <- computeMerit_rules (set_es s es2);
        let '(m, s') := ms in
        Ok (keep_best k (f_saved s') m s')
    end.
  (** prepareFit, tplratiomanager.cpp:73-76 and 90-116 (the priors are given; they are refused with several elements) and
      lineratiomanager.h:74 *)
  Definition nratio : nat := match (knd v) with TplRatio => length (cat v) | Rules => 1%nat end.
  Definition reset_row (w : row) : row := mkRow PInf (Fin 0) (w_scale w) (w_strong w) (w_ha w) (w_nl w) (w_elts w).
  Definition prepareFit (es : list elt) (t : list row) : res (list row) :=
    match (knd v) with
    | Rules => Ok t
    | TplRatio => if negb (Nat.eqb (length (priors v)) 0) && Nat.ltb 1 (length es) then Throw INTERNAL_ERROR
                  else Ok (map reset_row t)
    end.
  (** linemodelfitting.cpp:374-410: one continuum *)
  Definition continuum_step (s : fstate) (k : nat) : res fstate :=
    do c <- prepareAndLoadContinuum k (f_c s);
    rfold (ratio_step k) (seq 0 nratio) (mkF (f_es s) (f_tab s) (f_saved s) c (f_best s) (f_k s) (f_sol s)).

  (** tplratiomanager.cpp:548-592: one element *)
  Definition reset_elt (e : elt) (v : saved) : res elt :=
    do e1 <- setAmplitudes e (v_amp v) (v_err v);
    let e2 := with_sums e1 (v_dtm v) (v_mtm v) in
    Ok (SetSymIgmIdx (SetAsymfitParams e2 (v_asym v)) (v_igm v)).
  Fixpoint reset_elts (es : list elt) (vs : list saved) : res (list elt) :=
    match es with
    | [] => Ok []
    | e :: t => match vs with
                | [] => UB
                | v :: u => do x <- reset_elt e v; do y <- reset_elts t u; Ok (x :: y)
                end
    end.
  Definition resetToBestRatio (s : fstate) : res fstate :=
    do es <- setTplratioModel (f_c s) (f_saved s) (f_es s);
    do w <- vget (f_tab s) (Z.to_nat (f_saved s));
    do es' <- reset_elts es (w_elts w);
    Ok (set_es s es').

  (** linemodelfitting.cpp:352-432.  The result is the best merit (f_best) with the state of the object and the solutions *)
  Definition fit (es : list elt) (tab : list row) (c : C) (enableLogging : bool) : res fstate :=
    do t <- prepareFit es tab;
    do s <- rfold continuum_step (seq 0 nContinuum) (mkF es t undefIdx c PInf undefIdx None);
    if negb enableLogging then Ok s
    else
      do s1 <- (match (comp v) with
                | TplFit => if negb (svdlc v) && Nat.ltb 1 nContinuum
                            then do c' <- LoadFitContinuum (f_k s) (f_c s);
                                 Ok (mkF (f_es s) (f_tab s) (f_saved s) c' (f_best s) (f_k s) (f_sol s))
                            else Ok s
                | _ => Ok s
                end);
      match (knd v) with
      | TplRatio => do s2 <- resetToBestRatio s1;
                    Ok (mkF (f_es s2) (f_tab s2) (f_saved s2) (f_c s2) (f_best s2) (f_k s2) (Some (f_es s2, f_c s2)))
      | Rules => Ok s1
      end.
End Fit.
