(** Model of the redshift probability density: RedshiftLibrary/src/lib/operator/pdfz.cpp (COperatorPdfz),
    src/lib/operator/logZPdfResult.cpp (normalisation checks), src/lib/statistics/zprior.cpp (CZPrior) and
    src/lib/statistics/pdfcandidatesz.cpp:264-288 (integral of one candidate).
    Values are real numbers: rounding, underflow and overflow are not modelled.  [lowest] and [highest] stand for
    -DBL_MAX and DBL_MAX. *)
From Verif Require Import Base RBase RangeModel.
Open Scope R_scope.

(** std::log of a positive number.  A null or negative argument (-inf or NaN in C++) leaves the model: it is
    reported as UB, and the theorems show it does not happen. *)
Definition rlog (x : R) : res R := if Rltb 0 x then Ok (ln x) else UB.

(** pdfz.cpp:281-290: weight of sample [k] in the trapezoid rule *)
Definition lse_zstep (z : list R) (k : nat) : res R :=
  if Nat.eqb k 0 then do b <- vget z (k + 1); do a <- vget z k; Ok ((b - a) * (1 / 2))
  else if Nat.eqb k (length z - 1) then do b <- vget z k; do a <- vget z (k - 1); Ok ((b - a) * (1 / 2))
  else do b <- vget z (k + 1); do a <- vget z (k - 1); Ok ((b - a) * (1 / 2)).

(** pdfz.cpp:280-295, [n] samples from index [k].  log of a null or negative step is -inf or NaN: the comparison is
    then false. *)
Fixpoint lse_factor (v z : list R) (k n : nat) (logfactor : R) : res R :=
  match n with
  | O => Ok logfactor
  | S m =>
      do s <- lse_zstep z k; do x <- vget v k;
      lse_factor v z (S k) m (if (Rltb 0 s && Rltb logfactor (x + ln s))%bool then x + ln s else logfactor)
  end.
(** pdfz.cpp:299-305 *)
Fixpoint lse_sum (v z : list R) (logfactor : R) (k n : nat) (previous sum : R) : res R :=
  match n with
  | O => Ok sum
  | S m =>
      do x <- vget v k; do b <- vget z k; do a <- vget z (k - 1);
      let e := exp (x - logfactor) in
      lse_sum v z logfactor (S k) m e (sum + (e + previous) / 2 * (b - a))
  end.
(** COperatorPdfz::logSumExpTrick, pdfz.cpp:270-311 *)
Definition logSumExpTrick (lowest : R) (v z : list R) : res R :=
  if Nat.ltb (length z) 2 then Throw INTERNAL_ERROR else
  do L <- lse_factor v z 0 (length z) lowest;
  do v0 <- vget v 0;
  do s <- lse_sum v z L 1 (length z - 1) (exp (v0 - L)) 0;
  if Reqb s 0 then Throw INTERNAL_ERROR else
  do l <- rlog s; Ok (L + l).

(** pdfz.cpp:352-353; logZPrior[i] past its end is UB *)
Fixpoint with_prior (merits prior : list R) (lsp : R) : res (list R) :=
  match merits, prior with
  | [], _ => Ok []
  | _ :: _, [] => UB
  | m :: ms, p :: ps => do t <- with_prior ms ps lsp; Ok ((-(1/2) * m + p - lsp) :: t)
  end.
(** COperatorPdfz::ComputePdf, pdfz.cpp:322-363: (logPdf, logEvidence).  In the last loop (361-362) the samples read
    have been read by logSumExpTrick. *)
Definition ComputePdf (lowest : R) (merits z : list R) (cstLog : R) (prior : list R) : res (list R * R) :=
  if Nat.ltb (length z) 1 then Throw INTERNAL_ERROR
  else if Nat.eqb (length z) 1 then Ok ([1], 1)
  else if negb (Nat.eqb (length prior) (length z)) then Throw INTERNAL_ERROR
  else
    do lsp <- logSumExpTrick lowest prior z;
    do xi <- with_prior merits prior lsp;
    do lse <- logSumExpTrick lowest xi z;
    let logEvidence := cstLog + lse in
    Ok (map (fun x => x + cstLog - logEvidence) (firstn (length z) xi), logEvidence).

Definition sumR (l : list R) : R := fold_right Rplus 0 l.
(** std::max_element; the list is not empty where it is called *)
Fixpoint max_from (m : R) (l : list R) : R :=
  match l with [] => m | x :: t => max_from (if Rltb m x then x else m) t end.
(** COperatorPdfz::ComputeEvidenceAll, pdfz.cpp:376-392: the marginalised log evidence *)
Definition ComputeEvidenceAll (evs : list R) : res R :=
  match evs with
  | [] => UB
  | e :: t => let m := max_from e t in
              do l <- rlog (fold_left (fun s x => s + exp (x - m)) evs 0); Ok (m + l)
  end.

(** ChisquareArray (pdfz.h) without the candidate windows *)
Record chisq := mkChisq { cq_z : list R; cq_cst : R; cq_chi2 : list (list R); cq_zpriors : list (list R);
                          cq_mpriors : list R }.

(** pdfz.cpp:394-420; merits are real numbers here (no NaN) *)
Definition validateChisquareArray (c : chisq) : res unit :=
  if negb (Nat.eqb (length (cq_chi2 c)) (length (cq_zpriors c))) then Throw INTERNAL_ERROR
  else if (Nat.ltb (length (cq_chi2 c)) 1 || Nat.ltb (length (cq_zpriors c)) 1 || Nat.ltb (length (cq_z c)) 1)%bool
  then Throw INTERNAL_ERROR else Ok tt.

Fixpoint logs (l : list R) : res (list R) :=
  match l with [] => Ok [] | x :: t => do y <- rlog x; do r <- logs t; Ok (y :: r) end.
(** pdfz.cpp:434-462: log of the model priors *)
Definition logPriorModel (c : chisq) : res (list R) :=
  match cq_mpriors c with
  | [] => do p <- rlog (1 / INR (length (cq_chi2 c))); Ok (repeat p (length (cq_chi2 c)))
  | _ =>
      if negb (Nat.eqb (length (cq_mpriors c)) (length (cq_chi2 c))) then Throw INTERNAL_ERROR else
      do lp <- logs (cq_mpriors c);
      let sumPriors := fold_left (fun s x => s + exp x) lp 0 in
      if (Rltb (11 / 10) sumPriors || Rltb sumPriors (9 / 10))%bool then Throw INTERNAL_ERROR else Ok lp
  end.
(** the loop pdfz.cpp:468-470 *)
Fixpoint all_pdfs (lowest : R) (z : list R) (cst : R) (ms ps : list (list R)) : res (list (list R * R)) :=
  match ms, ps with
  | m :: ms', p :: ps' =>
      do r <- ComputePdf lowest m z cst p; do t <- all_pdfs lowest z cst ms' ps'; Ok (r :: t)
  | _, _ => Ok []
  end.
(** COperatorPdfz::ComputeAllPdfs, pdfz.cpp:422-477: (pdfs, log evidences with prior, marginalised log evidence) *)
Definition ComputeAllPdfs (lowest : R) (c : chisq) : res (list (list R) * list R * R) :=
  do _ <- validateChisquareArray c;
  do lp <- logPriorModel c;
  do r <- all_pdfs lowest (cq_z c) (cq_cst c) (cq_chi2 c) (cq_zpriors c);
  let evs := map (fun q => fst q + snd q) (combine (map snd r) lp) in
  do marg <- ComputeEvidenceAll evs;
  Ok (map fst r, evs, marg).

(** pdfz.cpp:511-515 *)
Definition logadd (add val : R) : res R :=
  let m := Rmaxb add val in do l <- rlog (exp (val - m) + exp (add - m)); Ok (m + l).
(** pdfz.cpp:509-517, one model *)
Fixpoint add_model (logW : R) (pdf post : list R) : res (list R) :=
  match post, pdf with
  | [], _ => Ok []
  | _ :: _, [] => UB
  | v :: vs, p :: ps => do x <- logadd (p + logW) v; do t <- add_model logW ps vs; Ok (x :: t)
  end.
Fixpoint add_models (marg : R) (pdfs : list (list R)) (evs post : list R) : res (list R) :=
  match pdfs, evs with
  | p :: ps, e :: es => do post' <- add_model (e - marg) p post; add_models marg ps es post'
  | _, _ => Ok post
  end.
(** COperatorPdfz::Marginalize, pdfz.cpp:479-528 (the counters nSum always reach the number of models):
    (posterior, log evidence).  The initial vector is the one of createPdfResult, pdfz.cpp:180-181. *)
Definition Marginalize (lowest : R) (c : chisq) : res (list R * R) :=
  do (pdfs, evs, marg) <- ComputeAllPdfs lowest c;
  do post <- add_models marg pdfs evs (repeat lowest (length (cq_z c)));
  Ok (post, marg).

(** pdfz.cpp:643-648, one model; meritResults[km][k] past its end is UB *)
Fixpoint min_model (best m : list R) : res (list R) :=
  match best, m with
  | [], _ => Ok []
  | _ :: _, [] => UB
  | b :: bs, x :: xs => do t <- min_model bs xs; Ok ((if Rltb x b then x else b) :: t)
  end.
Fixpoint min_models (best : list R) (ms : list (list R)) : res (list R) :=
  match ms with [] => Ok best | m :: t => do b <- min_model best m; min_models b t end.
(** CZPrior::GetConstantLogZPrior without normalisation, zprior.cpp:57-64 and zprior.h:61 *)
Definition constantLogZPrior (n : nat) : list R := repeat 0 n.
(** COperatorPdfz::BestChi2, pdfz.cpp:610-659 *)
Definition BestChi2 (lowest highest : R) (c : chisq) : res (list R * R) :=
  do _ <- ComputeAllPdfs lowest c;
  do chi2Min <- min_models (repeat highest (length (cq_z c))) (cq_chi2 c);
  ComputePdf lowest chi2Min (cq_z c) (cq_cst c) (constantLogZPrior (length (cq_z c))).

(** pdfz.cpp:556-559, one model; both vectors have the size of the grid *)
Definition max_model (pdf post : list R) : list R := map (fun q => Rmaxb (fst q) (snd q)) (combine pdf post).
(** pdfz.cpp:567-571 *)
Fixpoint dz_extrema (z : list R) (mn mx : R) : R * R :=
  match z with
  | x :: ((y :: _) as t) => dz_extrema t (Rminb mn (y - x)) (Rmaxb mx (y - x))
  | _ => (mn, mx)
  end.
(** COperatorPdfz::BestProba, pdfz.cpp:536-608.  With a null step the quotient of line 573 is infinite or NaN. *)
Definition BestProba (lowest highest : R) (c : chisq) : res (list R) :=
  do _ <- validateChisquareArray c;
  do r <- all_pdfs lowest (cq_z c) (cq_cst c) (cq_chi2 c) (cq_zpriors c);
  let post := fold_left (fun p q => max_model (fst q) p) r (repeat lowest (length (cq_z c))) in
  let (mn, mx) := dz_extrema (cq_z c) highest lowest in
  let zstep := (mx + mn) / 2 in
  if (if Reqb zstep 0 then negb (Reqb (mx - mn) 0) else Rltb (5 / 100) (Rabs (mx - mn) / zstep))%bool
  then Throw INTERNAL_ERROR else
  let m := max_from lowest post in
  do l <- rlog (fold_left (fun s x => s + exp (x - m)) post 0);
  do lz <- rlog zstep;
  Ok (map (fun x => x - (m + l + lz)) post).

(** CLogZPdfResult::getSumTrapez, logZPdfResult.cpp:184-198 *)
Definition getSumTrapez (lowest : R) (v z : list R) : res R :=
  if negb (Nat.eqb (length v) (length z)) then Throw INTERNAL_ERROR
  else if Nat.ltb (length z) 2 then Ok 0
  else do l <- logSumExpTrick lowest v z; Ok (exp l).
Definition min_max (x : R) (l : list R) : R * R := (fold_left Rminb l x, fold_left Rmaxb l x).
(** CLogZPdfResult::isPdfValid and checkPdfSum, logZPdfResult.cpp:200-238, on real values (no NaN); minmax_element of
    an empty vector is end(), dereferenced: UB *)
Definition isPdfValid (lowest : R) (v z : list R) : res unit :=
  if Nat.ltb (length z) 2 then Throw INTERNAL_ERROR else
  match v with
  | [] => UB
  | x :: t =>
      let (mn, mx) := min_max x t in
      if Reqb mn mx then Throw FLAT_ZPDF else
      do s <- getSumTrapez lowest v z;
      if Rltb (1 / 10) (Rabs (s - 1)) then Throw PDF_NORMALIZATION_FAILED else Ok tt
  end.

(** CPdfCandidatesZ::getCandidateSumTrapez, pdfcandidatesz.cpp:264-288: (ValSumProbaZmin, ValSumProbaZmax, ValSumProba).
    The grid is rational, to reuse the model of getEnclosingIntervalIndices (range.h). *)
Fixpoint is_sortedQ (l : list Q) : bool :=
  match l with x :: ((y :: _) as t) => negb (Qltb y x) && is_sortedQ t | _ => true end.
Definition sub {A} (l : list A) (i j : nat) : list A := firstn (j + 1 - i) (skipn i l).
Definition getCandidateSumTrapez (lowest : R) (zgrid : list Q) (logpdf : list R) (zrange : range) (zc : Q)
  : res (R * R * R) :=
  if negb (is_sortedQ zgrid) then Throw INTERNAL_ERROR else
  do (kmin, kmax) <- getEnclosingIntervalIndices_value zrange zgrid zc;
  if Nat.leb (length logpdf) kmax then UB else
  let zin := map Q2R (sub zgrid kmin kmax) in
  do zmin <- front zin; do zmax <- back zin;
  do l <- logSumExpTrick lowest (sub logpdf kmin kmax) zin;
  Ok (zmin, zmax, exp l).

(** ** CZPrior, zprior.cpp *)
(** NormalizePrior, zprior.cpp:50-54 *)
Definition NormalizePrior (lowest : R) (z prior : list R) : res (list R) :=
  do l <- logSumExpTrick lowest prior z; Ok (map (fun x => x - l) prior).
Definition normalize_if (normalize : bool) (lowest : R) (z prior : list R) : res (list R) :=
  if normalize then NormalizePrior lowest z prior else Ok prior.
(** zprior.cpp:57-64; a negative size is std::length_error *)
Definition GetConstantLogZPrior (normalize : bool) (lowest : R) (z : list R) (n : nat) : res (list R) :=
  normalize_if normalize lowest z (repeat 0 n).
(** zprior.cpp:66-81 *)
Definition GetStrongLinePresenceLogZPrior (normalize : bool) (lowest : R) (z : list R) (presence : list bool) (pen : R)
  : res (list R) :=
  do la <- rlog pen;
  normalize_if normalize lowest z (map (fun b : bool => if b then 0 else la) presence).
(** zprior.cpp:83-100 *)
Definition GetNLinesSNRAboveCutLogZPrior (normalize : bool) (lowest : R) (z : list R) (nlines : list Z) (pen : R)
  : res (list R) :=
  do la <- rlog pen;
  normalize_if normalize lowest z (map (fun k => if (2 <=? k)%Z then 0 else la) nlines).
(** zprior.cpp:117-119 *)
Definition nhaPolynomial (z : R) : R :=
  - (54.7422088727874) * z ^ 6 + 1203.94994364807 * z ^ 5 - 10409.6716744981 * z ^ 4 + 44240.3837462642 * z ^ 3
  - 92914.84430357 * z ^ 2 + 79004.76406 * z - 2288.98457865.
(** zprior.cpp:125-129: the log prior before the shift; [None] is -inf (polynomial exactly null).  [dblmin] is DBL_MIN *)
Definition nhaLog (dblmin a z : R) : option R :=
  let v := nhaPolynomial z in
  let v := if Rltb v 0 then dblmin else v in
  if Reqb v 0 then None else Some (ln v * a).
Definition maxP_of (lowest : R) (l : list (option R)) : R :=
  fold_left (fun m o => match o with Some v => Rmaxb m v | None => m end) l lowest.
(** GetEuclidNhaLogZPrior, zprior.cpp:102-158 *)
Definition GetEuclidNhaLogZPrior (normalize : bool) (lowest dblmin : R) (z redshifts : list R) (a : R) : res (list R) :=
  if Rleb a 0 then Throw INTERNAL_ERROR else
  let l := map (nhaLog dblmin a) redshifts in
  let m := maxP_of lowest l in
  let cut := - ln (10 ^ 12) in
  normalize_if normalize lowest z (map (fun o => match o with Some v => Rmaxb (v - m) cut | None => cut end) l).
(** zprior.cpp:160-181 *)
Definition CombineLogZPrior (normalize : bool) (lowest : R) (z p1 p2 : list R) : res (list R) :=
  if negb (Nat.eqb (length p1) (length p2)) then Throw INTERNAL_ERROR else
  normalize_if normalize lowest z (map (fun q => fst q + snd q) (combine p1 p2)).
