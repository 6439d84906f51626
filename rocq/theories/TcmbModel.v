(** Model of the fit of a linear combination of templates: RedshiftLibrary/src/lib/operator/tplcombination.cpp:75-705 (BasicFit, RebinTemplate, Compute, ComputeSpectrumModel,
    GetNormFactor) and RedshiftLibrary/src/lib/method/tplcombinationsolve.cpp:150-258 (the options of the components, checkTemplates).
    Exact rationals: the flux and its errors are finite and the errors are not null, as a validated spectrum has them (C62).  The square root and GSL's least squares are given functions.
    The templates share the tables of dust and igm (CTemplateCatalog::SetIsmIgmCorrection, C43).  Logs, timers, the identity template of BasicFit, the tables of amplitudes (never read),
    CstLog and the memory of a throwing fit are left out; so are the arguments never used: forcedAmplitude, the priors, the values of the additional masks. *)
From Coq Require Import Qabs.
From Verif Require Import Base RangeModel AxisModel RebinModel CalzModel MeikModel TplModel SvdModel SortLib.
Open Scope Q_scope.

(** RebinTemplate, tplcombination.cpp:374-438: one template after the other; the range common to all, the overlap of the last *)
Fixpoint rebin_loop (lr spcr : range) (axis : list Q) (thr : Q) (ts : list source) (all : range) (ov : Q) : res (list (list Q) * range * Q) :=
  match ts with
  | [] => Ok ([], all, ov)
  | s :: ts =>
      do tr <- ClampLambdaRange (s_X s) lr;
      let ir := snd (Intersect tr spcr (mkRange 0 0)) in
      let all := snd (IntersectWith all ir) in
      do cells <- compute rebinLinear OptNo s (rbeg ir) (rend ir) axis;
      do ov <- IntersectMaskAndComputeOverlapFraction_axis axis lr (map (fun c => if c_mask c then 1%N else 0%N) cells);
      if (Qltb ov thr || Qle_bool ov 0)%bool then Throw OVERLAPFRACTION_NOTACCEPTABLE
      else do r <- rebin_loop lr spcr axis thr ts all ov; let '(fs, all, ov) := r in Ok (map c_flux cells :: fs, all, ov)
  end.
(** the axis in the rest frame, the fluxes of the rebinned templates, the common range, the overlap *)
Definition RebinTemplate (axis : list Q) (ts : list source) (z : Q) (lr : range) (thr : Q) : res (list Q * list (list Q) * range * Q) :=
  let lr := mkRange (rbeg lr / (1 + z)) (rend lr / (1 + z)) in
  do ax <- ShiftByWaveLength axis (1 + z) nShiftBackward;
  do spcr <- ClampLambdaRange ax lr;
  do r <- rebin_loop lr spcr ax thr ts spcr 0;
  let '(fs, all, ov) := r in Ok (ax, fs, all, ov).

(** a call on every template: the templates and the answers *)
Fixpoint each (f : tpl -> tpl * res bool) (ts : list tpl) : res (list tpl * list bool) :=
  match ts with
  | [] => Ok ([], [])
  | t :: ts => match f t with
               | (t, Ok b) => do q <- each f ts; Ok (t :: fst q, b :: snd q)
               | (_, Throw e) => Throw e | (_, UB) => UB end
  end.
(** tplcombination.cpp:132-134; the tables were set by BasicFit_preallocateBuffers (75-90) *)
Fixpoint init_each (ks ke : nat) (z : Q) (cal : option calz) (mei : option meik) (ts : list tpl) : res (list tpl) :=
  match ts with
  | [] => Ok []
  | t :: ts => match InitIsmIgmConfig t (Z.of_nat ks) (Z.of_nat ke) z cal mei with
               | (t, Ok _) => do r <- init_each ks ke z cal mei ts; Ok (t :: r)
               | (_, Throw e) => Throw e | (_, UB) => UB end
  end.

(** one fit: amplitudes, their errors and significances, the covariance written in the result, the signal to noise ratio, the chi square *)
Record fitted := mkFitted { f_amp : list Q; f_err : list Q; f_sig : list Q; f_cov : list (list Q); f_snr : Q; f_chi : Q }.
Record best := mkBest { b_chi : Q; b_snr : Q; b_igm : Z; b_ebmv : Q }.
(** one cell of the tables: chi square, E(B-V), igm index *)
Definition cell : Type := (Q * Q * Z)%type.
(** the result of a fit: what was kept of the best fit, of the last fit, the tables (one column per igm index) and the overlap *)
Record result := mkResult { r_best : best; r_last : fitted; r_cols : list (list cell); r_overlap : Q }.

Section Fit.
  Variable sqrtf : Q -> Q.
  (** gsl_multifit_wlinear: the solution, the covariance, the sum of squares *)
  Variable solve : nat -> list obs -> list Q * list (list Q) * Q.
  Variable dblmin : Q.

  (** GetNormFactor, tplcombination.cpp:695-705: n samples from kStart *)
  Fixpoint norm_loop (flux : list Q) (k n : nat) (m : Q) : res Q :=
    match n with
    | O => Ok m
    | S n => do y <- vget flux k; norm_loop flux (S k) n (if Qltb m (Qabs y) then Qabs y else m)
    end.
  (** the data, lines 191-199, and the matrix, 245-251: one row per sample *)
  Definition rows (flux err : list Q) (ks n : nat) (nf : Q) (ts : list tpl) : res (list obs) :=
    mapr (fun i => do y <- vget flux i; do e <- vget err i; do r <- mapr (fun t => vget (t_flux t) i) ts;
                   let ei := e / nf in Ok (mkObs (1 / (ei * ei)) (y / nf) r)) (seq ks n).
  Definition diag (m : list (list Q)) (n : nat) : list Q := map (fun i => nth i (nth i m []) 0) (seq 0 n).
  Fixpoint qsum (l : list Q) : Q := match l with [] => 0 | x :: t => x + qsum t end.
  (** lines 262-322.  GSL refuses fewer samples than unknowns; the logs of lines 283-288 read the second amplitude and the second row of the covariance: with one template the
      error handler (processflow/context.cpp:52-59) throws *)
  Definition fit_one (nddl : nat) (nf : Q) (rs : list obs) : res fitted :=
    if Nat.ltb (length rs) nddl then Throw EXTERNAL_LIB_ERROR
    else
      let '(c, cov, chi) := solve nddl rs in
      if Nat.ltb nddl 2 then Throw EXTERNAL_LIB_ERROR
      else
        let d := diag cov nddl in
        Ok (mkFitted (map (fun a => a * nf) c) (map (fun v => sqrtf v * nf) d) (map (fun p => fst p / sqrtf (snd p)) (combine c d)) cov
                     (sqrtf (qsum (map (fun a => a * a) c) / qsum d)) chi).

  Section Loops.
    Variables (flux err : list Q) (ks ke : nat) (nf : Q) (ext dust : bool) (cal : option calz).
    (** the first wavelength of the common range, and the redshift *)
    Variables (begin z : Q).
    Record state := mkState { s_tpls : list tpl; s_best : option best; s_last : option fitted }.
    (** lines 330-337: a strictly smaller chi square *)
    Definition keep (f : fitted) (igm : Z) (ebmv : Q) (b : option best) : option best :=
      match b with
      | Some b' => if Qltb (f_chi f) (b_chi b') then Some (mkBest (f_chi f) (f_snr f) igm ebmv) else b
      | None => Some (mkBest (f_chi f) (f_snr f) igm ebmv)
      end.
    (** lines 231-357; [igm]: the index written, undefIdx when the igm is not applied *)
    Fixpoint ism_loop (igm : Z) (el : list Z) (st : state) : res (state * list cell) :=
      match el with
      | [] => Ok (st, [])
      | k :: el =>
          do p <- (if dust then match cal with None => UB | Some c => do q <- each (fun t => ApplyDustCoeff t k) (s_tpls st); Ok (GetEbmvValue c k, fst q) end
                   else Ok (-(1), s_tpls st));
          let (ebmv, ts) := p in
          do rs <- rows flux err ks (S ke - ks) nf ts;
          do f <- fit_one (length ts) nf rs;
          do r <- ism_loop igm el (mkState ts (keep f igm ebmv (s_best st)) (Some f));
          Ok (fst r, (f_chi f, ebmv, igm) :: snd r)
      end.
    (** lines 200-358; [done]: the columns already computed, last first; when the igm has no effect the first column is copied to all and the loop stops *)
    Fixpoint igm_loop (el ml : list Z) (useless : bool) (done : list (list cell)) (st : state) : res (state * list (list cell)) :=
      match ml with
      | [] => Ok (st, rev done)
      | m :: ml' =>
          if useless then match rev done with [] => UB | c0 :: _ => Ok (st, repeat c0 (length done + length ml)) end
          else
            do p <- (if ext then
                       if Qltb lya (begin / (1 + z)) then Ok (s_tpls st, false)
                       else do q <- each (fun t => ApplyMeiksinCoeff t m) (s_tpls st); Ok (fst q, forallb (fun b => b) (snd q))
                     else Ok (s_tpls st, false));
            let (ts, applied) := p in
            do r <- ism_loop (if applied then m else (-1)%Z) el (mkState ts (s_best st) (s_last st));
            igm_loop el ml' (ext && negb applied) (snd r :: done) (fst r)
      end.
  End Loops.

  (** BasicFit, tplcombination.cpp:96-372 *)
  Definition BasicFit (axis flux err : list Q) (ts : list source) (lr : range) (z thr : Q) (ext dust : bool) (mask : list N) (cal : option calz) (mei : option meik) (ml el : list Z) : res result :=
    if negb (Nat.eqb (length mask) (length flux)) then Throw INTERNAL_ERROR
    else
      do rb <- RebinTemplate axis ts z lr thr;
      let '(ax, fs, cur, ov) := rb in
      match fs with
      | [] => UB
      | _ =>
        do k <- getClosedIntervalIndices cur ax;
        let (ks, ke) := k in
        do tpls <- mapr (NewTpl ax) fs;
        do tpls <- (if (ext || dust)%bool then init_each ks ke z cal mei tpls else Ok tpls);
        match el with
        | [] => UB
        | _ =>
          do nf <- norm_loop flux ks (S ke - ks) dblmin;
          do r <- igm_loop flux err ks ke nf ext dust cal (rbeg cur) z el ml false [] (mkState tpls None None);
          match s_best (fst r), s_last (fst r) with
          | Some b, Some f => Ok (mkResult b f (snd r) ov)
          | _, _ => Throw INVALID_MERIT_VALUES
          end
        end
      end.

  (** ComputeSpectrumModel, tplcombination.cpp:584-659: the wavelengths and the flux *)
  Fixpoint add_flux (amps : list Q) (fs : list (list Q)) (ext : list Q) (k : nat) (acc : Q) : res Q :=
    match fs with
    | [] => Ok acc
    | f :: fs => do a <- vget amps 0; do t <- vget f k; do e <- vget ext k; add_flux (tl amps) fs ext k (acc + a * t * e)
    end.
  Definition ComputeSpectrumModel (axis : list Q) (ts : list source) (z ebmv : Q) (igm : Z) (amps : list Q) (lr : range) (thr : Q) (cal : option calz) (mei : option meik) : res (list Q * list Q) :=
    do rb <- RebinTemplate axis ts z lr thr;
    let '(ax, fs, cur, ov) := rb in
    match fs with
    | [] => UB
    | _ =>
      do k <- getClosedIntervalIndices cur ax;
      let (ks, ke) := k in
      do id <- NewTpl ax (repeat 1 (length ax));
      do id <- (if (Qltb 0 ebmv || (-1 <? igm)%Z)%bool then match InitIsmIgmConfig id (Z.of_nat ks) (Z.of_nat ke) z cal mei with (t, Ok _) => Ok t | (_, Throw e) => Throw e | (_, UB) => UB end else Ok id);
      do id <- (if Qltb 0 ebmv then match cal with
                                    | None => UB
                                    | Some c => do i <- GetEbmvIndex c ebmv; if Z.eqb i (-1) then Ok id else match ApplyDustCoeff id i with (t, Ok _) => Ok t | (_, Throw e) => Throw e | (_, UB) => UB end
                                    end
                else Ok id);
      do id <- (if (-1 <? igm)%Z then match ApplyMeiksinCoeff id igm with (t, Ok _) => Ok t | (_, Throw e) => Throw e | (_, UB) => UB end else Ok id);
      do flux <- mapr (fun k => add_flux amps fs (t_flux id) k 0) (seq 0 (length axis));
      do ax' <- ShiftByWaveLength axis (1 + z) nShiftForward;
      Ok (ax', flux)
    end.

  (** Compute, tplcombination.cpp:447-582: the redshifts sorted, one result for each.  The overlap warning reads the first sorted redshift: undefined without a redshift *)
  Definition Compute (axis flux err : list Q) (ts : list source) (lr : range) (zs : list Q) (thr : Q) (masks : list (list N)) (ext dust : bool) (cal : option calz) (mei : option meik) (fitE fitM : Z)
    : res (list Q * list result) :=
    match ts with
    | [] => UB
    | _ =>
      if (dust && match cal with None => true | _ => false end || ext && match mei with None => true | _ => false end)%bool then Throw INTERNAL_ERROR
      else
        let order := isort (fun a b => (Qltb (fst a) (fst b) || Qeq_bool (fst a) (fst b) && Nat.ltb (snd a) (snd b))%bool) (combine zs (seq 0 (length zs))) in
        do ml <- idx_list ext fitM (option_map getIdxCount mei);
        do el <- idx_list dust fitE (option_map (fun c => Ok (cz_n c)) cal);
        if (negb (Nat.eqb (length masks) (length zs)) && negb (Nat.eqb (length masks) 0))%bool then Throw INTERNAL_ERROR
        else
          do clr <- ClampLambdaRange axis lr;
          do rs <- mapr (fun p => do m <- (if Nat.eqb (length masks) (length zs) then vget masks (snd p) else Ok (repeat 1%N (length axis)));
                                  BasicFit axis flux err ts clr (fst p) thr ext dust m cal mei ml el) order;
          match zs with [] => UB | _ => Ok (map fst order, rs) end
    end.
End Fit.

(** tplcombinationsolve.cpp:156-205: the fit of each component, in the order raw, without continuum, continuum; the dust is not fitted without continuum.
    The options given to the operator: the component, igm, dust *)
Inductive component := Raw | NoContinuum | ContinuumOnly.
Inductive spc_type := One (c : component) | All.
Fixpoint component_loop (cs : list component) (dust ext : bool) : list (component * bool * bool) :=
  match cs with
  | [] => []
  | c :: cs => let dust := match c with NoContinuum => false | _ => dust end in (c, ext, dust) :: component_loop cs dust ext
  end.
Definition SolveOptions (t : spc_type) (ext dust : bool) : list (component * bool * bool) :=
  component_loop (match t with One c => [c] | All => [Raw; NoContinuum; ContinuumOnly] end) dust ext.

(** checkTemplates, tplcombinationsolve.cpp:218-241: the axes of the templates *)
Fixpoint axis_check (ref cur : list Q) : res unit :=
  match ref, cur with
  | [], _ => Ok tt
  | a :: ref, b :: cur => if Qltb (1 # 100000000) (Qabs (a - b)) then Throw INTERNAL_ERROR else axis_check ref cur
  | _ :: _, [] => UB
  end.
Fixpoint check_all (ref : list Q) (ts : list (list Q)) : res unit :=
  match ts with
  | [] => Ok tt
  | t :: ts => if negb (Nat.eqb (length ref) (length t)) then Throw INTERNAL_ERROR else do _ <- axis_check ref t; check_all ref ts
  end.
Definition checkTemplates (ts : list (list Q)) : res unit := match ts with [] => Throw BAD_TEMPLATECATALOG | r :: _ => check_all r ts end.
