(** Model of the array of merits given to the redshift PDF (C79): operator/linemodelresult.cpp:318-466 (line counts and
    flags, extreme merits), method/linemodelsolve.cpp:189-309 (redshift priors), 311-398 (BuildChisquareArray) and 400-464
    (fillChisquareArrayForTplRatio).
    A merit is a rational or NaN ([None]); rounding, overflow and infinite merits are not modelled.  Redshift priors are
    real numbers (PdfModel).  The parallel vectors of a CLineModelSolution are one list of [lsol] (LmrModel). *)
From Coq Require Import String.
From Verif Require Import Base RBase RangeModel MeikModel PdfModel LmrModel.
Open Scope Q_scope.

(** what is read of a rest line: CLine::GetName, IsStrong, IsEmission *)
Record rline := mkRline { k_name : string; k_strong : bool; k_em : bool }.
(** CLineMap: restLineList.at(id) throws std::out_of_range *)
Definition rest_at (rest : nat -> option rline) (id : nat) : res rline :=
  match rest id with Some k => Ok k | None => Throw STD_out_of_range end.
Definition halpha_em : string := "Halpha".

(** a / b >= t on doubles; b is not a negative zero *)
Definition ge_ratio (a b : flt) (t : Q) : bool :=
  match a, b with
  | Some x, Some y => if Qeq_bool y 0 then Qltb 0 x else Qle_bool t (x / y)
  | _, _ => false
  end.
(** linemodelresult.cpp:335: noise <= 0 is false for NaN *)
Definition no_noise (n : flt) : bool := match n with Some x => Qle_bool x 0 | None => false end.

Section Rest.
Variable rest : nat -> option rline.

(** linemodelresult.cpp:318-348 *)
Fixpoint nlines_loop (snrThres fitThres : Q) (l : list lsol) (seen : list Z) (n : nat) : res nat :=
  match l with
  | [] => Ok n
  | a :: t =>
      if existsb (Z.eqb (l_elt a)) seen then nlines_loop snrThres fitThres t seen n else
      do k <- rest_at rest (l_id a);
      if (negb (k_strong k) || negb (k_em k))%bool then nlines_loop snrThres fitThres t seen n else
      if no_noise (l_noise a) then nlines_loop snrThres fitThres t seen n else
      if (ge_ratio (l_amp a) (l_noise a) snrThres && ge_ratio (l_amp a) (l_rms a) fitThres)%bool
      then nlines_loop snrThres fitThres t (seen ++ [l_elt a])%list (S n)
      else nlines_loop snrThres fitThres t seen n
  end.
Definition getNLinesOverCutThreshold (r : lmres) (i : nat) (snrThres fitThres : Q) : res nat :=
  do s <- vget (r_sol r) i; nlines_loop snrThres fitThres s [] 0.

Definition pos_amp (a : flt) : bool := match a with Some x => Qltb 0 x | None => false end.
(** linemodelresult.cpp:356-384 and linemodelsolution.cpp:68-72 *)
Fixpoint strong_present (filter : Z) (l : list lsol) : res bool :=
  match l with
  | [] => Ok false
  | a :: t =>
      do k <- rest_at rest (l_id a);
      if (negb (k_strong k) || (Z.eqb filter 1 && negb (k_em k)) || (Z.eqb filter 2 && k_em k))%bool then strong_present filter t else
      if (negb (l_out a) && pos_amp (l_amp a))%bool then Ok true else strong_present filter t
  end.
Definition getStrongLinesPresence (filter : Z) (sols : list (list lsol)) : res (list bool) := mapr (strong_present filter) sols.

(** linemodelresult.cpp:402-432; the largest amplitude so far and its name *)
Fixpoint strongest_loop (l : list lsol) (ampMax : Q) (tag : string) : res (Q * string) :=
  match l with
  | [] => Ok (ampMax, tag)
  | a :: t =>
      do k <- rest_at rest (l_id a);
      if (negb (k_em k) || l_out a)%bool then strongest_loop t ampMax tag else
      match l_amp a with
      | Some x => if Qltb ampMax x then strongest_loop t x (k_name k) else strongest_loop t ampMax tag
      | None => strongest_loop t ampMax tag
      end
  end.
Definition strongest_is_ha (l : list lsol) : res bool :=
  do (m, tag) <- strongest_loop l (- dbl_max) "undefined"%string; Ok (Qltb 0 m && String.eqb tag halpha_em)%bool.
Definition getStrongestLineIsHa (sols : list (list lsol)) : res (list bool) := mapr strongest_is_ha sols.

(** linemodelresult.cpp:434-452 *)
Definition getMinChiSquare (r : lmres) : res Q :=
  do vs <- mapr (fun i => vget (r_chi2 r) i) (seq 0 (length (r_z r)));
  Ok (fold_left (fun m v => match v with Some x => if Qltb x m then x else m | None => m end) vs dbl_max).
Definition getMaxChiSquare (r : lmres) : res Q :=
  do vs <- mapr (fun i => vget (r_chi2 r) i) (seq 0 (length (r_z r)));
  Ok (fold_left (fun m v => match v with Some x => if Qltb m x then x else m | None => m end) vs (- dbl_max)).

(** *** redshift priors *)
(** m_opt_stronglinesprior, m_opt_haPrior, m_opt_euclidNHaEmittersPriorStrength *)
Record zopts := mkZopts { zo_strong : R; zo_ha : R; zo_nha : R }.
(** linemodelsolve.cpp:213: hardcoded *)
Definition nlines_factor : R := (-1)%R.

Section Prior.
Variables (lowest dblmin : R).

(** linemodelsolve.cpp:239-309; the CZPrior object does not normalise and has no redshifts (zprior.h:61) *)
Definition BuildZpriors (r : lmres) (o : zopts) (kTplRatio : option nat) : res (list R) :=
  do p1 <- (if Rltb 0 (zo_strong o) then
              do pres <- match kTplRatio with None => getStrongLinesPresence 1 (r_sol r) | Some k => vget (r_strong r) k end;
              GetStrongLinePresenceLogZPrior false lowest [] pres (zo_strong o)
            else GetConstantLogZPrior false lowest [] (length (r_z r)));
  do p2 <- (if Rltb 0 (zo_ha o) then
              do pres <- match kTplRatio with None => getStrongestLineIsHa (r_sol r) | Some k => vget (r_ha r) k end;
              do p <- GetStrongLinePresenceLogZPrior false lowest [] pres (zo_ha o);
              CombineLogZPrior false lowest [] p1 p
            else Ok p1);
  do p3 <- (if Rltb 0 (zo_nha o) then
              do p <- GetEuclidNhaLogZPrior false lowest dblmin [] (map Q2R (r_z r)) (zo_nha o);
              CombineLogZPrior false lowest [] p2 p
            else Ok p2);
  if Rltb 0 nlines_factor then
    do n <- match kTplRatio with None => UB (* NLinesAboveSnrCut, not modelled *) | Some k => vget (r_nl r) k end;
    do p <- GetNLinesSNRAboveCutLogZPrior false lowest [] n nlines_factor;
    CombineLogZPrior false lowest [] p3 p
  else Ok p3.

(** *** the array: pdfz.h ChisquareArray *)
Record charr := mkCharr { a_z : list Q; a_chi2 : list (list flt); a_zp : list (list R); a_prior : list Q; a_cst : flt }.

Definition fadd (a b : flt) : flt := match a, b with Some x, Some y => Some (x + y) | _, _ => None end.
(** std::max(0., a - b): 0 when the difference is NaN *)
Definition max0 (a b : flt) : Q := match a, b with Some x, Some y => if Qltb 0 (x - y) then x - y else 0 | _, _ => 0 end.

(** linemodelsolve.cpp:400-464 *)
Definition tplratio_row (r : lmres) (k : nat) : res (list flt) :=
  do c <- vget (r_rchi2 r) k;
  if negb (Nat.eqb (length (r_pl r)) (length (r_rchi2 r))) then Ok c else
  do p <- vget (r_pl r) k;
  if negb (Nat.eqb (length p) (length (r_z r))) then Ok c else
  if Nat.ltb (length c) (length (r_z r)) then UB else
  Ok (map (fun q => fadd (fst q) (snd q)) (combine c p) ++ skipn (length (r_z r)) c)%list.
Definition fillChisquareArrayForTplRatio (r : lmres) (o : zopts) : res (list (list flt) * list (list R) * list Q) :=
  let ks := seq 0 (length (r_rchi2 r)) in
  do zps <- mapr (fun k => BuildZpriors r o (Some k)) ks;
  do rows <- mapr (tplratio_row r) ks;
  Ok (rows, zps, r_prior r).

(** linemodelsolve.cpp:377-388: one more model, the k-th with another continuum *)
Definition push_model (zsize : nat) (c0 : list flt) (k : nat) (c : list flt) (st : list (list flt) * list (list R) * list Q)
  : res (list (list flt) * list (list R) * list Q) :=
  let '(chi2, zp, mp) := st in
  do z <- vget zp k;
  do base <- vget chi2 k;
  do row <- mapr (fun iz => do b <- vget base iz; do x <- vget c iz; do y <- vget c0 iz; Ok (fadd b (Some (max0 x y)))) (seq 0 zsize);
  do mp' <- match mp with [] => Ok mp | _ => do m <- vget mp k; Ok (mp ++ [m])%list end;
  Ok ((chi2 ++ [row])%list, (zp ++ [z])%list, mp').
Fixpoint rloop {A S} (f : A -> S -> res S) (l : list A) (s : S) : res S :=
  match l with [] => Ok s | a :: t => do s' <- f a s; rloop f t s' end.

Inductive comb := CbestChi2 | Cbestproba | Cmarg | Cother.
(** linemodelsolve.cpp:311-398; zstep, zgridParams and parentCandidates are copied and not modelled *)
Definition BuildChisquareArray (pc : comb) (tplRatio : bool) (r : lmres) (o : zopts) (cst : flt) : res charr :=
  match pc with
  | Cother => Throw BAD_PARAMETER_VALUE
  | CbestChi2 => do z <- BuildZpriors r o None; Ok (mkCharr (r_z r) [r_chi2 r] [z] [] cst)
  | _ =>
      do (rows, zps, mp) <- (if tplRatio then fillChisquareArrayForTplRatio r o
                             else do z <- BuildZpriors r o None; Ok ([r_chi2 r], [z], []));
      match r_cont r with
      | [] => Ok (mkCharr (r_z r) rows zps mp cst)
      | c0 :: cs =>
          let mp := map (fun p => p / inject_Z (Z.of_nat (length (r_cont r)))) mp in
          do (rows, zps, mp) <- rloop (fun k => rloop (push_model (length (r_z r)) c0 k) cs) (seq 0 (length rows)) (rows, zps, mp);
          Ok (mkCharr (r_z r) rows zps mp cst)
      end
  end.
End Prior.
End Rest.
