(** Model of the table of results of the line model and of the two passes that fill it (C78): operator/linemodelresult.cpp
    (Init 64-110, updateVectors 112-140, SetChisquareTplContinuumResult 142-154, SetChisquareTplratioResult 166-200, the
    getters 226-311), operator/linemodel.cpp:165-216 (main loop of the first pass), 1099-1110
    (updateRedshiftGridAndResults) and 1398-1560 (RecomputeAroundCandidates).
    A double is a rational or NaN ([None]).  The fit itself is an oracle: the n-th call, made at redshift z, returns
    [fitf n z]; nothing is assumed about it, so the state of the fitting manager between the calls is covered. *)
From Verif Require Import Base RangeModel ZGridModel MeikModel.
Open Scope Q_scope.

Notation flt := (option Q).
(** DBL_MAX *)
Definition dbl_max : Q := inject_Z ((2 ^ 53 - 1) * 2 ^ 971).

(** one line of a CLineModelSolution (linemodelsolution.i:40-92): line id, element id, amplitude, its uncertainty, rms of the
    residual under the line, outside-lambda-range flag *)
Record lsol := mkLsol { l_id : nat; l_elt : Z; l_amp : flt; l_noise : flt; l_rms : flt; l_out : bool }.

(** linemodelresult.h:97-134; the continuum solution is an opaque tag, [None] the default one *)
Record lmres := mkLmres {
  r_z : list Q; r_chi2 : list flt; r_marg : list flt; r_sol : list (list lsol); r_csol : list (option nat);
  r_cchi2 : list flt; r_cmarg : list flt; r_cont : list (list flt);
  r_rchi2 : list (list flt); r_rmarg : list (list flt); r_strong : list (list bool); r_ha : list (list bool);
  r_nl : list (list Z); r_prior : list Q; r_pl : list (list flt) }.
Definition empty_res : lmres := mkLmres [] [] [] [] [] [] [] [] [] [] [] [] [] [] [].

(** linemodelresult.cpp:64-110; in the second branch StrongHalphaELPresentTplratios is not cleared *)
Definition Init (r : lmres) (z : list Q) (nTemplates nTplratios : nat) (priors : list Q) : res lmres :=
  if negb (Nat.eqb (length priors) nTplratios) then Throw INTERNAL_ERROR else
  let n := length z in
  let cont := repeat (repeat (Some dbl_max) n) nTemplates in
  if Nat.ltb 0 nTplratios then
    Ok (mkLmres z (repeat None n) (repeat None n) (repeat [] n) (repeat None n) (repeat None n) (repeat None n) cont
          (repeat (repeat (Some dbl_max) n) nTplratios) (repeat (repeat (Some 0) n) nTplratios)
          (repeat (repeat false n) nTplratios) (repeat (repeat false n) nTplratios)
          (repeat (repeat 0%Z n) nTplratios) priors (repeat (repeat (Some 0) n) nTplratios))
  else
    Ok (mkLmres z (repeat None n) (repeat None n) (repeat [] n) (repeat None n) (repeat None n) (repeat None n) cont
          [] [] [] (r_ha r) [] [] []).

(** the loop of updateVectors over the [n] first vectors of a list of vectors; fewer vectors are read past the end *)
Fixpoint ins_first {A} (n : nat) (cols : list (list A)) (idx count : nat) (d : A) (ndup : nat) : res (list (list A)) :=
  match n with
  | O => Ok cols
  | S m =>
      match cols with
      | [] => UB
      | c :: t =>
          do c' <- insertWithDuplicates_value c idx count d ndup;
          do t' <- ins_first m t idx count d ndup; Ok (c' :: t')
      end
  end.

(** linemodelresult.cpp:112-140 *)
Definition updateVectors (r : lmres) (idx ndup count : nat) : res lmres :=
  do chi2 <- insertWithDuplicates_value (r_chi2 r) idx count None ndup;
  do marg <- insertWithDuplicates_value (r_marg r) idx count None ndup;
  do sol <- insertWithDuplicates_value (r_sol r) idx count [] ndup;
  do csol <- insertWithDuplicates_value (r_csol r) idx count None ndup;
  do cchi2 <- insertWithDuplicates_value (r_cchi2 r) idx count None ndup;
  do cmarg <- insertWithDuplicates_value (r_cmarg r) idx count None ndup;
  do cont <- ins_first (length (r_cont r)) (r_cont r) idx count (Some dbl_max) ndup;
  let n := length (r_rchi2 r) in
  do rchi2 <- ins_first n (r_rchi2 r) idx count (Some dbl_max) ndup;
  do rmarg <- ins_first n (r_rmarg r) idx count (Some 0) ndup;
  do strong <- ins_first n (r_strong r) idx count false ndup;
  do ha <- ins_first n (r_ha r) idx count false ndup;
  do nl <- ins_first n (r_nl r) idx count 0%Z ndup;
  do pl <- ins_first n (r_pl r) idx count (Some 0) ndup;
  Ok (mkLmres (r_z r) chi2 marg sol csol cchi2 cmarg cont rchi2 rmarg strong ha nl (r_prior r) pl).

(** v[k][i] = vals[k] for every k *)
Fixpoint set_cells {A} (cols : list (list A)) (vals : list A) (i : nat) : res (list (list A)) :=
  match vals with
  | [] => Ok cols
  | v :: vt =>
      match cols with
      | [] => UB
      | c :: ct => do c' <- vset c i v; do r <- set_cells ct vt i; Ok (c' :: r)
      end
  end.

(** what the template-ratio manager exposes after a fit (tplratiomanager.h: GetChisquareTplratio, ...) *)
Record rout := mkRout { q_chi2 : list flt; q_marg : list flt; q_strong : list bool; q_ha : list bool; q_nl : list Z; q_pl : list flt }.

(** linemodelresult.cpp:166-200; the size of getHaELPresentTplratio is not tested *)
Definition SetChisquareTplratioResult (r : lmres) (i : nat) (q : rout) : res lmres :=
  let n := length (q_chi2 q) in
  if Nat.ltb n 1 then Ok r else
  if Nat.leb (length (r_z r)) i then Throw INTERNAL_ERROR else
  if negb (Nat.eqb n (length (r_rchi2 r)) && Nat.eqb n (length (q_marg q)) && Nat.eqb n (length (q_strong q)) &&
           Nat.eqb n (length (q_nl q)) && Nat.eqb n (length (q_pl q)))%bool then Throw INTERNAL_ERROR else
  if Nat.ltb (length (q_ha q)) n then UB else
  do rchi2 <- set_cells (r_rchi2 r) (q_chi2 q) i;
  do rmarg <- set_cells (r_rmarg r) (q_marg q) i;
  do strong <- set_cells (r_strong r) (q_strong q) i;
  do ha <- set_cells (r_ha r) (firstn n (q_ha q)) i;
  do nl <- set_cells (r_nl r) (q_nl q) i;
  do pl <- set_cells (r_pl r) (q_pl q) i;
  Ok (mkLmres (r_z r) (r_chi2 r) (r_marg r) (r_sol r) (r_csol r) (r_cchi2 r) (r_cmarg r) (r_cont r)
        rchi2 rmarg strong ha nl (r_prior r) pl).

(** linemodelresult.cpp:142-154; [merits] are the merits kept by the store at that redshift, by rank (C42) *)
Definition SetChisquareTplContinuumResult (r : lmres) (i : nat) (merits : list flt) : res lmres :=
  do cont <- set_cells (r_cont r) merits i;
  Ok (mkLmres (r_z r) (r_chi2 r) (r_marg r) (r_sol r) (r_csol r) (r_cchi2 r) (r_cmarg r) cont
        (r_rchi2 r) (r_rmarg r) (r_strong r) (r_ha r) (r_nl r) (r_prior r) (r_pl r)).

(** everything read after one call of fit(): [o_cont = None] when the merits of the continuum templates are not copied
    (no template continuum, or second pass with the fit values of the first), [o_ratio = None] without template ratios *)
Record out := mkOut { o_chi2 : flt; o_sol : list lsol; o_csol : option nat; o_marg : flt; o_cont : option (list flt);
  o_ratio : option rout; o_cchi2 : flt; o_cmarg : flt }.

(** linemodel.cpp:168-198 and 1511-1558: the body of the two loops *)
Definition store (r : lmres) (i : nat) (o : out) : res lmres :=
  do chi2 <- vset (r_chi2 r) i (o_chi2 o);
  do sol <- vset (r_sol r) i (o_sol o);
  do csol <- vset (r_csol r) i (o_csol o);
  do marg <- vset (r_marg r) i (o_marg o);
  let r1 := mkLmres (r_z r) chi2 marg sol csol (r_cchi2 r) (r_cmarg r) (r_cont r)
        (r_rchi2 r) (r_rmarg r) (r_strong r) (r_ha r) (r_nl r) (r_prior r) (r_pl r) in
  do r2 <- match o_cont o with None => Ok r1 | Some m => SetChisquareTplContinuumResult r1 i m end;
  do r3 <- match o_ratio o with None => Ok r2 | Some q => SetChisquareTplratioResult r2 i q end;
  do cchi2 <- vset (r_cchi2 r3) i (o_cchi2 o);
  do cmarg <- vset (r_cmarg r3) i (o_cmarg o);
  Ok (mkLmres (r_z r3) (r_chi2 r3) (r_marg r3) (r_sol r3) (r_csol r3) cchi2 cmarg (r_cont r3)
        (r_rchi2 r3) (r_rmarg r3) (r_strong r3) (r_ha r3) (r_nl r3) (r_prior r3) (r_pl r3)).

Section Fit.
Variable fitf : nat -> Q -> out.

(** linemodel.cpp:165-209, from index [i], [n] redshifts to go *)
Fixpoint first_loop (n i : nat) (r : lmres) : res lmres :=
  match n with
  | O => Ok r
  | S m => do z <- vget (r_z r) i; do r' <- store r i (fitf i z); first_loop m (S i) r'
  end.
Definition first_pass (r : lmres) : res lmres := first_loop (length (r_z r)) 0 r.

(** linemodel.cpp:1099-1109: the sub-grids are modified by the insertion *)
Fixpoint update_grid (exts : list (list Q)) (grid : list Q) (r : lmres) : res (list (list Q) * list Q * lmres) :=
  match exts with
  | [] => Ok ([], grid, r)
  | s :: t =>
      do (imin, ndup, s', g') <- insertSubgrid s grid;
      do r' <- updateVectors r imin ndup (length s');
      do (t', g2, r2) <- update_grid t g' r';
      Ok (s' :: t', g2, r2)
  end.
(** linemodel.cpp:1110 *)
Definition set_z (r : lmres) (z : list Q) : lmres :=
  mkLmres z (r_chi2 r) (r_marg r) (r_sol r) (r_csol r) (r_cchi2 r) (r_cmarg r) (r_cont r)
    (r_rchi2 r) (r_rmarg r) (r_strong r) (r_ha r) (r_nl r) (r_prior r) (r_pl r).

(** linemodel.cpp:1505-1559: the redshifts of one window; [c] numbers the calls of fit() *)
Fixpoint window_loop (zs : list Q) (c : nat) (r : lmres) : res (nat * lmres) :=
  match zs with
  | [] => Ok (c, r)
  | z :: t =>
      do iz <- getIndex (r_z r) z;
      do zi <- vget (r_z r) iz;
      do r' <- store r iz (fitf c zi);
      window_loop t (S c) r'
  end.
(** linemodel.cpp:1410-1560: the candidates with their windows; 1480: the candidate is looked up in the grid; 1500-1501:
    front() and back() of the window *)
Fixpoint recompute (cands : list (Q * list Q)) (c : nat) (r : lmres) : res (nat * lmres) :=
  match cands with
  | [] => Ok (c, r)
  | (Zc, s) :: t =>
      do _ <- getIndex (r_z r) Zc;
      do _ <- front s; do _ <- back s;
      do (c', r') <- window_loop s c r;
      recompute t c' r'
  end.

(** the first pass, the refinement of the grid and the second pass.  [cands] are the candidates of the first pass with
    their windows (linemodel.cpp:578-592); 1402-1404: no candidate is an error *)
Definition two_passes (z : list Q) (nT nR : nat) (priors : list Q) (cands : list (Q * list Q)) : res lmres :=
  do r0 <- Init empty_res z nT nR priors;
  do r1 <- first_pass r0;
  do (exts, grid, r2) <- update_grid (map snd cands) z r1;
  let r3 := set_z r2 grid in
  if Nat.ltb (length cands) 1 then Throw INTERNAL_ERROR else
  do (_, r4) <- recompute (combine (map fst cands) exts) (length z) r3;
  Ok r4.
End Fit.

(** *** the getters: linemodelresult.cpp:226-311 *)
(** it->at(index_z) for every vector *)
Definition at_all {A} (cols : list (list A)) (k : nat) : res (list A) :=
  mapr (fun c => match nth_error c k with Some x => Ok x | None => Throw STD_out_of_range end) cols.
(** nothing when the index is past the redshifts, otherwise the k-th element of every vector *)
Definition get_all {A} (nz : nat) (cols : list (list A)) (k : nat) : res (list A) :=
  if Nat.leb nz k then Ok [] else mapr (fun c => vget c k) cols.
Definition getChisquareTplContinuumResult (r : lmres) (k : nat) : res (list flt) := at_all (r_cont r) k.
Definition getChisquareTplratioResult (r : lmres) (k : nat) : res (list flt) := at_all (r_rchi2 r) k.
Definition getScaleMargCorrTplratioResult (r : lmres) (k : nat) := get_all (length (r_z r)) (r_rmarg r) k.
Definition getStrongELPresentTplratioResult (r : lmres) (k : nat) := get_all (length (r_z r)) (r_strong r) k.
Definition getHaELPresentTplratioResult (r : lmres) (k : nat) := get_all (length (r_z r)) (r_ha r) k.
Definition getNLinesAboveSNRTplratioResult (r : lmres) (k : nat) := get_all (length (r_z r)) (r_nl r) k.
Definition getPriorLinesTplratioResult (r : lmres) (k : nat) := get_all (length (r_z r)) (r_pl r) k.
