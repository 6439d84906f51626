(** Template fitting on a logarithmic grid with the FFT:
    RedshiftLibrary/src/lib/operator/templatefittinglog.cpp, FitAllz (441-593), FitRangez (610-915),
    FindTplSpectralIndex (926-978); templatefittingBase.cpp:206-212 (applyPositiveAndNonNullConstraint).

    Numbers are reals (rounding, NaN and infinities are not modelled, except where said).  One
    spectrum (index 0), as in the code.  The corrected template flux is an argument [flux kstart kend
    zref igm ism]: the state of the template after InitIsmIgmConfig(kstart, kend, zref),
    ApplyMeiksinCoeff(igm) and ApplyDustCoeff(ism) (None: correction not applied); these corrections
    are the subject of C57, C59 and C60.  [ebmvValue]/[ebmvIndex]: GetEbmvValue/GetEbmvIndex of the
    Calzetti correction.  DBL_MAX (initial best merit) is represented by the absence of a best fit. *)
From Verif Require Import Base RBase FftModel.
Open Scope R_scope.

(** the fitted values at one redshift (bestChi2, bestFitAmp, ... lines 737-745); the sigma is None
    when it is +inf in the code (only after the amplitude prior, 533) *)
Record cell := mkCell {
  c_chi2 : R; c_amp : R; c_err : R; c_sigma : option R; c_dtm : R; c_mtm : R; c_snr : R;
  c_ebmv : R; c_igm : Z }.

(** lines 826-839 *)
Definition fitShift (thr dtd dtm mtm : R) : R * R * R * R :=
  if Reqb mtm 0 then (dtd, 0, 0, 0)
  else
    let amp0 := dtm / mtm in
    let err := sqrt (1 / mtm) in
    let sigma := amp0 / err in
    let amp := if Rltb sigma thr then 0 else amp0 in
    (dtd - 2 * dtm * amp + mtm * amp * amp, amp, err, sigma).

(** lines 851-870: the candidate for the best fit at one shift *)
Definition mkBestCell (thr dtd dtm mtm : R) (ebmv : R) (igm : Z) : cell :=
  let '(chi2, amp, err, sigma) := fitShift thr dtd dtm mtm in
  mkCell chi2 amp err (Some sigma) dtm mtm (if Rltb 0 mtm then dtm / sqrt mtm else -1) ebmv igm.

Definition improve (best : option cell) (c : cell) : option cell :=
  match best with
  | None => Some c
  | Some b => if Rltb (c_chi2 c) (c_chi2 b) then Some c else Some b
  end.
Fixpoint improveAll (bests : list (option cell)) (cs : list cell) : list (option cell) :=
  match bests, cs with
  | b :: bs, c :: cs => improve b c :: improveAll bs cs
  | _, _ => []
  end.

(** iterators first/last of lines 786-788 *)
Definition crop (l : list R) (a b : nat) : res (list R) :=
  if (length l <? b + 1)%nat then UB else Ok (firstn (b + 1 - a) (skipn a l)).

Section Fit.
  Context (thr : R).                       (* m_continuum_null_amp_threshold *)
  Context (enIGM enISM : bool).            (* m_enableIGM, m_enableISM *)
  Context (ebmvValue : Z -> R).
  Context (flux : nat -> nat -> R -> option Z -> option Z -> list R).

  Section Range.
    Context (kstart kend : nat) (zref : R) (enable : bool) (dataOverErr2 inv_err2 : list R) (dtd : R).

    (** the loop on the dust, lines 770-885; returns also chi2[k] of each dust value *)
    Fixpoint ismLoop (st : fft) (igm : Z) (ebs : list Z) (bests : list (option cell))
      : res (fft * list (option cell) * list (list R)) :=
      match ebs with
      | [] => Ok (st, bests, [])
      | e :: ebs' =>
          do tpl <- crop (flux kstart kend zref (if enable then Some igm else None)
                            (if enISM then Some e else None)) kstart kend;
          do (st1, dtm) <- EstimateXtY st dataOverErr2 tpl 0;
          do (st2, mtm) <- EstimateXtY st1 inv_err2 (map (fun x => x * x) tpl) 1;
          if negb (length mtm =? length dtm)%nat then Throw INTERNAL_ERROR
          else
            let ebmv := if enISM then ebmvValue e else -1 in
            let cells := map (fun dm => mkBestCell thr dtd (fst dm) (snd dm) ebmv (if enable then igm else (-1)%Z))
                             (combine dtm mtm) in
            do (st3, bests', cols) <- ismLoop st2 igm ebs' (improveAll bests cells);
            Ok (st3, bests', map c_chi2 cells :: cols)
      end.

    (** the loop on the igm, lines 757-886 *)
    Fixpoint igmLoop (st : fft) (ms ebs : list Z) (bests : list (option cell))
      : res (list (option cell) * list (list (list R))) :=
      match ms with
      | [] => Ok (bests, [])
      | m :: ms' =>
          do (st1, bests1, cols) <- ismLoop st m ebs bests;
          do (bests2, colss) <- igmLoop st1 ms' ebs bests1;
          Ok (bests2, cols :: colss)
      end.
  End Range.

  (** lines 692-704: the largest relative difference between the redshift grid (reversed, [zrev]) and
      the one of the template samples.  [zrev[t]] beyond the end is UB. *)
  Fixpoint gridCheck (s0 : R) (zrev tplLambda : list R) (kstart t todo : nat) (worst : R) : res R :=
    match todo with
    | O => Ok worst
    | S m =>
        do l <- vget tplLambda (t + kstart);
        do z <- vget zrev t;
        let v := (s0 - l) / l in
        let e := Rabs (z - v) / (1 + v) in
        gridCheck s0 zrev tplLambda kstart (S t) m (if Rltb worst e then e else worst)
    end.

  (** ChiSquareIntermediate, lines 842-850 and 899-910, after the reversal: [redshift][dust][igm].
      [cols]: chi2 by igm, dust and shift; when the igm is disabled by the wavelengths the first
      column is written for every igm index *)
  Definition intermediate (nshifts nISM nIGMFinal : nat) (override : bool) (cols : list (list (list R)))
    : list (list (list R)) :=
    map (fun t =>
           map (fun kism =>
                  map (fun kigm => nth (nshifts - 1 - t) (nth kism (nth (if override then 0 else kigm) cols []) []) 0)
                      (seq 0 nIGMFinal))
               (seq 0 nISM))
        (seq 0 nshifts).

  (** RESTLAMBDA_LYA, defaults.h:27 *)
  Definition LYA : R := 1216.

  (** FitRangez (610-915).  [j1 j2]: contents of the freshly allocated FFT buffers *)
  Definition FitRangez (j1 j2 : list complex) (spcLambda data inv_err2 tplLambda : list R)
      (kstart kend : nat) (zs : list R) (MeiksinList EbmvList : list Z) (dtd : R)
    : res (list (option cell) * list (list (list R))) :=
    let nSpc := length spcLambda in
    let nTpl := (kend + 1 - kstart)%nat in
    if negb (length data =? nSpc)%nat then UB
    else if negb (length inv_err2 =? nSpc)%nat then UB
    else
      do zref <- vget zs 0;
      if (nTpl + 1 <? nSpc)%nat then Throw STD_length_error
      else
        let nshifts := (nTpl + 1 - nSpc)%nat in
        let nPad := (2 * ((nTpl + 1) / 2))%nat in
        let st := InitFFT nPad j1 j2 in
        do s0 <- vget spcLambda 0;
        do worst <- gridCheck s0 (rev zs) tplLambda kstart 0 nshifts 0;
        if Rltb (5 / 10000000) worst then Throw INTERNAL_ERROR
        else if negb (length zs =? nshifts)%nat then Throw INTERNAL_ERROR
        else
          let nIGM := length MeiksinList in
          do l0 <- vget tplLambda kstart;
          let override := (Rltb LYA l0 && (1 <? nIGM)%nat)%bool in
          let ms := if override then firstn 1 MeiksinList else MeiksinList in
          let enable := (enIGM && negb override)%bool in
          let products := map (fun dw => fst dw * snd dw) (combine data inv_err2) in
          do (bests, cols) <- igmLoop kstart kend zref enable products inv_err2 dtd
                                st ms EbmvList (repeat None nshifts);
          Ok (rev bests, intermediate nshifts (length EbmvList) nIGM override cols).

  (** round() then conversion to Int32, half away from zero *)
  Definition Rround (x : R) : Z := if Rltb x 0 then (- Rfloor (- x + / 2))%Z else Rfloor (x + / 2).

  (** FindTplSpectralIndex (934-978).  GetLambdaRange (spectralaxis.cpp:223-227): first and last
      sample, (0,0) with fewer than two samples (a division by zero follows: not modelled, UB) *)
  Definition lambdaRange (l : list R) : res (R * R) :=
    if (length l <? 2)%nat then UB else Ok (nth 0 l 0, nth (length l - 1) l 0).
  Definition FindTplSpectralIndex (spcLambda tplLambda : list R) (logstep : R) (zbegin zend : R) : res (Z * Z) :=
    do (sb, se) <- lambdaRange spcLambda;
    do (tb, te) <- lambdaRange tplLambda;
    let tplsize := Z.of_nat (length tplLambda) in
    let zmax := (sb - tb) / tb in
    let offset_left := ln ((zmax + 1) / (zend + 1)) / logstep in
    do ilbdamin <- Rto_int32 (IZR (Rround offset_left));
    let zmin := (se - te) / te in
    let offset_right := ln ((zbegin + 1) / (zmin + 1)) / logstep in
    do ilbdamax <- Rto_int32 (IZR (tplsize - 1) - IZR (Rround offset_right));
    if ((tplsize <=? ilbdamax) || (ilbdamin <? 0))%Z%bool then Throw INTERNAL_ERROR
    else if (ilbdamax <? ilbdamin)%Z then Throw INTERNAL_ERROR
    else Ok (ilbdamin, ilbdamax).

  (** SPriorTZE, priorhelper.h *)
  Record ptze := mkPrior { p_betaTE : R; p_lTE : R; p_betaA : R; p_lA : R; p_betaZ : R; p_lZ : R;
                           p_amean : R; p_asigma : R }.

  (** lines 513-579: the prior of the best fit of one redshift; returns the updated values and logprior.
      The amplitude without betaA and with a null template is NaN or infinite and so is logPa: throw *)
  Definition applyPrior (dtd : R) (c : cell) (p : ptze) : res (cell * R) :=
    let base := - 2 * p_betaTE p * p_lTE p + - 2 * p_betaA p * p_lA p + - 2 * p_betaZ p * p_lZ p in
    if (Rltb 0 (p_asigma p) && Rltb 0 (p_amean p))%bool then
      let bss2 := p_betaA p / (p_asigma p * p_asigma p) in
      do (amp0, err) <-
        (if Rltb 0 (p_betaA p)
         then Ok ((c_dtm c + p_amean p * bss2) / (c_mtm c + bss2), sqrt (c_mtm c) / (c_mtm c + bss2))
         else if Reqb (c_mtm c) 0 then Throw INTERNAL_ERROR
         else Ok (c_dtm c / c_mtm c, sqrt (1 / c_mtm c)));
      let sigma := if Reqb (c_mtm c) 0 then None else Some (amp0 / err) in
      let amp := match sigma with Some s => if Rltb s thr then 0 else amp0 | None => amp0 end in
      let chi2 := dtd + c_mtm c * amp * amp - 2 * amp * c_dtm c in
      let logPa := p_betaA p * (amp - p_amean p) * (amp - p_amean p) / (p_asigma p * p_asigma p) in
      let logprior := base + logPa in
      Ok (mkCell (chi2 + logprior) amp err sigma (c_dtm c) (c_mtm c) (c_snr c) (c_ebmv c) (c_igm c), logprior)
    else
      Ok (mkCell (c_chi2 c + base) (c_amp c) (c_err c) (c_sigma c) (c_dtm c) (c_mtm c) (c_snr c) (c_ebmv c) (c_igm c), base).

  Context (ebmvIndex : R -> res nat).

  (** one redshift of the global result: best fit, logprior, ChiSquareIntermediate *)
  Record row := mkRow { r_best : option cell; r_logprior : R; r_inter : list (list R) }.

  (** the rows of a range copied to the global result, lines 498-590.  [done]: redshift index *)
  Fixpoint copyRange (dtd : R) (logpriorze : list (list ptze)) (result : list (option row)) (idx : nat)
      (bests : list (option cell)) (inter : list (list (list R))) : res (list (option row)) :=
    match bests, inter with
    | [], _ => Ok result
    | _ :: _, [] => UB
    | b :: bests', t :: inter' =>
        if (length result <=? idx)%nat then Throw INTERNAL_ERROR
        else
          do (b', logprior) <-
            (if (0 <? length logpriorze)%nat then
               match b with
               | None => UB       (* no best fit: E(B-V) is NaN, not modelled *)
               | Some c =>
                   do kism <- (if Reqb (c_ebmv c) (-1) then Ok 0%nat else ebmvIndex (c_ebmv c));
                   do ps <- vget logpriorze idx;
                   do p <- vget ps kism;
                   do (c', lp) <- applyPrior dtd c p;
                   Ok (Some c', lp)
               end
             else Ok (b, 0));
          do result' <- vset result idx (Some (mkRow b' logprior t));
          copyRange dtd logpriorze result' (S idx) bests' inter'
    end.

  (** FitAllz (441-593).  [ranges]: the index ranges of FindZRanges (C82), begin and end (end may be
      begin - 1); [junk k]: contents of the buffers allocated for range k *)
  Fixpoint rangesLoop (junk : nat -> list complex * list complex) (spcLambda data inv_err2 tplLambda : list R)
      (logstep : R) (zs : list R) (MeiksinList EbmvList : list Z) (logpriorze : list (list ptze)) (dtd : R)
      (ranges : list (nat * Z)) (k : nat) (result : list (option row)) : res (list (option row)) :=
    match ranges with
    | [] => Ok result
    | (b, e) :: ranges' =>
        if (e <? 0)%Z then UB
        else
          let e' := Z.to_nat e in
          do zb <- vget zs b;
          do ze <- vget zs e';
          let sub := firstn (e' + 1 - b) (skipn b zs) in
          do (kmin, kmax) <- FindTplSpectralIndex spcLambda tplLambda logstep zb ze;
          do (bests, inter) <- FitRangez (fst (junk k)) (snd (junk k)) spcLambda data inv_err2 tplLambda
                                 (Z.to_nat kmin) (Z.to_nat kmax) sub MeiksinList EbmvList dtd;
          do result' <- copyRange dtd logpriorze result b bests inter;
          rangesLoop junk spcLambda data inv_err2 tplLambda logstep zs MeiksinList EbmvList logpriorze dtd
                     ranges' (S k) result'
    end.

  (** lines 452-462 *)
  Definition invErr2 (err : list R) : list R := map (fun e => 1 / (e * e)) err.
  Fixpoint sumDtD (data w : list R) : R :=
    match data, w with
    | d :: data', v :: w' => d * d * v + sumDtD data' w'
    | _, _ => 0
    end.

  Definition FitAllz (junk : nat -> list complex * list complex) (spcLambda data err tplLambda : list R)
      (logstep : R) (zs : list R) (MeiksinList EbmvList : list Z) (logpriorze : list (list ptze))
      (ranges : list (nat * Z)) : res (list (option row)) :=
    if (length data <? length err)%nat then UB
    else
      let w := invErr2 err in
      let dtd := sumDtD data w in
      rangesLoop junk spcLambda data w tplLambda logstep zs MeiksinList EbmvList logpriorze dtd
                 ranges 0 (repeat None (length zs)).
End Fit.
