(** Model of the fit of a template at one redshift: RedshiftLibrary/src/lib/operator/templatefitting.cpp:80-380, templatefittingBase.cpp:206-212 and
    RedshiftLibrary/RedshiftLibrary/operator/templatefitting.h:60-105.  The template rebinned on an observation is a [tpl] (TplModel.v).
    Exact rationals: the flux and its errors are finite, as a validated spectrum has them (C62); the square root is a function given.
    The photometric sums (always null here) and the logs are left out. *)
From Verif Require Import Base RangeModel AxisModel CalzModel MeikModel TplModel.
Open Scope Q_scope.

(** TCrossProductResult, templatefitting.h:60-78 *)
Record cross := mkCross { c_x : Q; c_t : Q; c_s : Q }.
Definition czero : cross := mkCross 0 0 0.
Definition cadd (a b : cross) : cross := mkCross (c_x a + c_x b) (c_t a + c_t b) (c_s a + c_s b).
Definition csub (a b : cross) : cross := mkCross (c_x a - c_x b) (c_t a - c_t b) (c_s a - c_s b).

(** one observation: flux and errors of the spectrum, the additional mask (m_maskBuilder), the first and last samples fitted (m_kStart, m_kEnd:
    getClosedIntervalIndices) and the rebinned template m_templateRebined_bf *)
Record obs := mkObs { o_y : list Q; o_e : list Q; o_mask : list N; o_ks : nat; o_ke : nat; o_tpl : tpl }.
Definition with_tpl (o : obs) (t : tpl) : obs := mkObs (o_y o) (o_e o) (o_mask o) (o_ks o) (o_ke o) t.

(** the loop of templatefitting.cpp:252-290: [n] samples from [j].  [saved]: the sums when the first sample above the igm is met.
    Unchecked reads; a null error gives an infinite weight, refused at once. *)
Fixpoint cross_loop (y e t : list Q) (mask : list N) (fast : bool) (kigm : Z) (j n : nat) (acc : cross) (saved : option cross) : res (cross * option cross) :=
  match n with
  | O => Ok (acc, saved)
  | S n =>
      let saved := match saved with None => if (fast && (kigm <? Z.of_nat j)%Z)%bool then Some acc else None | _ => saved end in
      do m <- vget mask j;
      if N.eqb m 0 then cross_loop y e t mask fast kigm (S j) n acc saved
      else
        do ej <- vget e j; do yj <- vget y j; do tj <- vget t j;
        if Qeq_bool ej 0 then Throw INTERNAL_ERROR
        else let err2 := 1 / (ej * ej) in
             cross_loop y e t mask fast kigm (S j) n (mkCross (c_x acc + yj * tj * err2) (c_t acc + tj * tj * err2) (c_s acc + yj * yj * err2)) saved
  end.
(** CTemplate::GetIgmEndIndex(), template.h:246-251 *)
Definition tpl_igm_end (t : tpl) : res Z := match enabled t, t_mei t with true, Some _ => Ok (t_ie t) | _, _ => Throw INTERNAL_ERROR end.
(** ComputeCrossProducts, templatefitting.cpp:219-312: [out] are the sums outside the igm kept for this observation (m_sum*_outsideIGM) *)
Definition ComputeCrossProducts (fast : bool) (kM kE : nat) (out : list cross) (o : obs) : res (cross * list cross) :=
  do kigm <- (if fast then tpl_igm_end (o_tpl o) else Ok (-1)%Z);
  let kend := if (fast && Nat.ltb 0 kM)%bool then kigm else Z.of_nat (o_ke o) in
  do p <- cross_loop (o_y o) (o_e o) (t_flux (o_tpl o)) (o_mask o) fast kigm (o_ks o) (turns (Z.of_nat (o_ks o)) kend) czero None;
  let igm := match snd p with Some s => s | None => czero end in
  do q <- (if fast then if Nat.eqb kM 0 then do out' <- vset out kE (csub (fst p) igm); Ok (fst p, out')
                        else do s <- vget out kE; Ok (cadd (fst p) s, out)
           else Ok (fst p, out));
  if Qeq_bool (c_t (fst q)) 0 then Throw INTERNAL_ERROR else Ok q.
(** the sum over the observations, templatefitting.cpp:172-175 *)
Fixpoint sum_obs (fast : bool) (kM kE : nat) (os : list obs) (outs : list (list cross)) (acc : cross) : res (cross * list (list cross)) :=
  match os, outs with
  | [], _ => Ok (acc, [])
  | o :: os, out :: outs =>
      do p <- ComputeCrossProducts fast kM kE out o;
      do q <- sum_obs fast kM kE os outs (cadd acc (fst p));
      Ok (fst q, snd p :: snd q)
  | _ :: _, [] => UB
  end.

(** SPriorTZE, priorhelper.h *)
Record prior := mkPrior { p_asigma : Q; p_amean : Q; p_betaA : Q; p_betaTE : Q; p_betaZ : Q; p_lTE : Q; p_lA : Q; p_lZ : Q }.
Definition no_prior : prior := mkPrior 0 0 0 0 0 0 0 0.
(** TFittingResult, templatefitting.h:79-88 *)
Record fit := mkFit { f_chi2 : Q; f_ampl : Q; f_err : Q; f_sig : Q; f_logprior : Q; f_cross : cross }.
(** one row of the intermediate tables: chi2, E(B-V) and igm index *)
Definition entry : Type := (Q * Q * Z)%type.
(** the best fit: TFittingResult, E(B-V) and igm index *)
Record best := mkBest { b_fit : fit; b_ebmv : Q; b_igm : Z }.

Section Sqrt.
  Context (sqrtf : Q -> Q).
  (** m_continuum_null_amp_threshold *)
  Context (thr : Q).
  (** ComputeAmplitudeAndChi2, templatefitting.cpp:314-365; applyPositiveAndNonNullConstraint, templatefittingBase.cpp:206-212 *)
  Definition ComputeAmplitudeAndChi2 (c : cross) (p : prior) : fit :=
    let apply := (Qltb 0 (p_asigma p) && Qltb 0 (p_betaA p))%bool in
    let '(ampl, err, sig, chi) :=
      if Qeq_bool (c_t c) 0 then (0, 0, 0, c_s c)
      else
        let bss2 := p_betaA p / (p_asigma p * p_asigma p) in
        let a0 := if apply then (c_x c + p_amean p * bss2) / (c_t c + bss2) else c_x c / c_t c in
        let err := if apply then sqrtf (c_t c) / (c_t c + bss2) else sqrtf (1 / c_t c) in
        let sig := a0 / err in
        let a := if Qltb sig thr then 0 else a0 in
        (a, err, sig, c_s c + c_t c * a * a - 2 * a * c_x c) in
    if apply then
      let lp := 0 - 2 * p_betaTE p * p_lTE p - 2 * p_betaA p * p_lA p - 2 * p_betaZ p * p_lZ p
                + p_betaA p * (ampl - p_amean p) * (ampl - p_amean p) / (p_asigma p * p_asigma p) in
      mkFit (chi + lp) ampl err sig lp c
    else mkFit chi ampl err sig 0 c.

  (** the loop on the dust, templatefitting.cpp:158-198.  [ap]: the templates' call for each observation (ApplyDustCoeff). *)
  Fixpoint each_tpl (f : tpl -> tpl * res bool) (os : list obs) : res (list obs * bool) :=
    match os with
    | [] => Ok ([], false)
    | o :: os => match f (o_tpl o) with
                 | (t, Ok b) => do q <- each_tpl f os; Ok (with_tpl o t :: fst q, (b || snd q)%bool)
                 | (_, Throw e) => Throw e | (_, UB) => UB end
    end.
  Record state := mkSt { s_obs : list obs; s_out : list (list cross); s_best : option best }.
  Section Loops.
    Context (fast dust ext : bool) (cal : option calz) (priors : list prior) (apply_priore : bool).
    Definition better (f : fit) (b : option best) : bool := match b with None => true | Some b => Qltb (f_chi2 f) (f_chi2 (b_fit b)) end.
    Fixpoint ism_loop (kM : nat) (igm : Z) (skip : bool) (el : list Z) (kE : nat) (st : state) : res (state * list entry) :=
      match el with
      | [] => Ok (st, [])
      | k :: el =>
          do p <- (if dust then match cal with None => UB | Some c => do q <- each_tpl (fun t => ApplyDustCoeff t k) (s_obs st); Ok (GetEbmvValue c k, fst q) end
                   else Ok (-(1), s_obs st));
          let (ebmv, os) := p in
          do pr <- (if apply_priore then zget priors k else Ok no_prior);
          do c <- sum_obs fast kM kE os (s_out st) czero;
          let f := ComputeAmplitudeAndChi2 (fst c) pr in
          let b := if better f (s_best st) then Some (mkBest f ebmv (if skip then (-1)%Z else igm)) else s_best st in
          do r <- ism_loop kM igm skip el (S kE) (mkSt os (snd c) b);
          Ok (fst r, (f_chi2 f, ebmv, igm) :: snd r)
      end.
    (** the loop on the igm, templatefitting.cpp:120-199; the tables are kept by column (one per igm index).  When the igm changes nothing the
        first column is copied to the others and the loop stops (123-137). *)
    Fixpoint igm_loop (el ml : list Z) (kM : nat) (skip : bool) (col0 : list entry) (st : state) : res (state * list (list entry)) :=
      match ml with
      | [] => Ok (st, [])
      | m :: ml =>
          if (Nat.ltb 0 kM && skip)%bool then Ok (st, map (fun _ => col0) (m :: ml))
          else
            do p <- (if ext then do q <- each_tpl (fun t => ApplyMeiksinCoeff t m) (s_obs st); Ok (fst q, if (snd q && Nat.eqb kM 0)%bool then false else skip)
                     else Ok (s_obs st, skip));
            let (os, skip) := p in
            do r <- ism_loop kM m skip el 0 (mkSt os (s_out st) (s_best st));
            do q <- igm_loop el ml (S kM) skip (if Nat.eqb kM 0 then snd r else col0) (fst r);
            Ok (fst q, snd r :: snd q)
      end.
  End Loops.
  (** the initialisation of the templates, templatefitting.cpp:107-113 *)
  Fixpoint init_all (z : Q) (cal : option calz) (mei : option meik) (os : list obs) : res (list obs) :=
    match os with
    | [] => Ok []
    | o :: os => match InitIsmIgmConfig (o_tpl o) (Z.of_nat (o_ks o)) (Z.of_nat (o_ke o)) z cal mei with
                 | (t, Ok _) => do r <- init_all z cal mei os; Ok (with_tpl o t :: r)
                 | (_, Throw e) => Throw e | (_, UB) => UB end
    end.
  (** igmIsInRange, templatefitting.cpp:210-217: the first wavelengths of the ranges fitted *)
  Definition igmIsInRange (begins : list Q) : bool := existsb (fun b => Qle_bool b lya) begins.
  (** BasicFit, templatefitting.cpp:80-208, from the rebinned templates (RebinTemplate is not modelled) on: the best fit, and the tables by column *)
  Definition BasicFit (z : Q) (begins : list Q) (opt_ext dust : bool) (cal : option calz) (mei : option meik) (priors : list prior) (ml el : list Z) (os : list obs)
    : res (best * list (list entry)) :=
    match el with
    | [] => UB
    | _ =>
        let fast := Nat.ltb 1 (length ml) in
        let apply := match priors, cal with [], _ | _, None => false | _, Some c => Z.eqb (Z.of_nat (length priors)) (cz_n c) end in
        let ext := (opt_ext && igmIsInRange begins)%bool in
        do os <- (if (dust || ext)%bool then init_all z cal mei os else Ok os);
        do r <- igm_loop fast dust ext cal priors apply el ml 0 true [] (mkSt os (map (fun _ => repeat czero (length el)) os) None);
        match s_best (fst r) with None => Throw INVALID_MERIT_VALUES | Some b => Ok (b, snd r) end
    end.
  (** SNRCalculation, templatefittingresult.cpp:87-97; [None] is NaN *)
  Definition SNRCalculation (dtm mtm : Q) : option Q := if Qle_bool mtm 0 then None else if Qle_bool dtm 0 then Some 0 else Some (dtm / sqrtf mtm).
End Sqrt.
