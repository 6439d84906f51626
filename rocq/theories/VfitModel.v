(** Model of the parameters of the second pass of the line model and of its fits:
    RedshiftLibrary/src/lib/operator/linemodel.cpp:1119-1547 (EstimateSecondPassParameters, fitVelocity,
    RecomputeAroundCandidates) and RedshiftLibrary/src/lib/linemodel/linemodelfitting.cpp:1011-1042.
    m_enableWidthFitByGroups is the constant false (RedshiftLibrary/RedshiftLibrary/operator/linemodel.h:98): the branches of the groups
    are left out.  There is at least one element, and all have the same two velocities.
    Redshifts and velocities are exact rationals, [None] is NaN; a merit of DBL_MAX or more is [PInf]. *)
From Verif Require Import Base RangeModel F64.
Open Scope Q_scope.

(** the continuum injected in the continuum manager: none of ours, the store of the second pass of candidate i, the store of the first
    pass, the continuum of the first pass of candidate i *)
Inductive injected := Untouched | Store2 (i : nat) | Store1 | Values (i : nat).
(** m_fitter: the one of the user, or one of the two used to fit the velocities *)
Inductive fitter := Own | Hybrid | Individual.
(** all that a fit depends on: the fitter, the flag of SetForcedisableTplratioISMfit, the continuum, the number of reestimations of the
    continuum *)
Record setup := mkS { u_fitter : fitter; u_noism : bool; u_cont : injected; u_reest : nat }.
(** one call of CLineModelFitting::fit *)
Record run := mkRun { r_setup : setup; r_z : Q; r_va : option Q; r_ve : option Q }.

(** CLineModelFitting::fit (modelled by C86): the merit of a run, and the velocities after it: only the fitter of the user can change
    them (linemodel/gaussianfit/lbfgsbfitter.cpp); an exception in a fit leaves all the functions below and is not modelled *)
Record env := mkEnv { e_merit : run -> f64; e_moved : run -> option Q * option Q }.

(** the objects changed: m_fittingManager (velocities, fitter, flag, continuum), m_result (ChiSquare and LineModelSolutions, the latter
    by the run it holds the solution of), m_firstpass_extremaResult (Alv, Elv) *)
Record state := mkSt { s_va : option Q; s_ve : option Q; s_fitter : fitter; s_noism : bool; s_cont : injected;
  s_chi : list f64; s_sol : list run; s_alv : list (option Q); s_elv : list (option Q) }.

Definition with_va (s : state) v := mkSt v (s_ve s) (s_fitter s) (s_noism s) (s_cont s) (s_chi s) (s_sol s) (s_alv s) (s_elv s).
Definition with_ve (s : state) v := mkSt (s_va s) v (s_fitter s) (s_noism s) (s_cont s) (s_chi s) (s_sol s) (s_alv s) (s_elv s).
Definition with_fitter (s : state) f := mkSt (s_va s) (s_ve s) f (s_noism s) (s_cont s) (s_chi s) (s_sol s) (s_alv s) (s_elv s).
Definition with_noism (s : state) b := mkSt (s_va s) (s_ve s) (s_fitter s) b (s_cont s) (s_chi s) (s_sol s) (s_alv s) (s_elv s).
Definition with_cont (s : state) c := mkSt (s_va s) (s_ve s) (s_fitter s) (s_noism s) c (s_chi s) (s_sol s) (s_alv s) (s_elv s).
Definition with_chi (s : state) l := mkSt (s_va s) (s_ve s) (s_fitter s) (s_noism s) (s_cont s) l (s_sol s) (s_alv s) (s_elv s).
Definition with_sol (s : state) l := mkSt (s_va s) (s_ve s) (s_fitter s) (s_noism s) (s_cont s) (s_chi s) l (s_alv s) (s_elv s).
Definition with_alv (s : state) l := mkSt (s_va s) (s_ve s) (s_fitter s) (s_noism s) (s_cont s) (s_chi s) (s_sol s) l (s_elv s).
Definition with_elv (s : state) l := mkSt (s_va s) (s_ve s) (s_fitter s) (s_noism s) (s_cont s) (s_chi s) (s_sol s) (s_alv s) l.

(** the limits of a velocity: lineModel.absVelocityFitMin, Max, Step (or em) *)
Record limits := mkL { l_inf : Q; l_sup : Q; l_step : Q }.
(** lineModel.continuumReestimation *)
Inductive reest := ReNo | ReOnlyExtrema | ReAlways.
(** parameters: velocityFit, the limits, lineRatioType = tplRatio, m_opt_firstpass_forcedisableTplratioISMfit,
    continuumComponent = tplFit or tplFitAuto, m_continnuum_fit_option, continuumReestimation *)
Record config := mkCfg { k_fit : bool; k_abs : limits; k_em : limits; k_tplratio : bool; k_noism1 : bool;
  k_tplfit : bool; k_option : nat; k_reest : reest }.

(** CLineModelFitting::fit with the solution stored at index idx of m_result *)
Definition fit (e : env) (s : state) (n : nat) (z : Q) (idx : nat) : res (f64 * state) :=
  let r := mkRun (mkS (s_fitter s) (s_noism s) (s_cont s) n) z (s_va s) (s_ve s) in
  do l <- vset (s_sol s) idx r;
  let '(va, ve) := match s_fitter s with Own => e_moved e r | _ => (s_va s, s_ve s) end in
  Ok (e_merit e r, with_ve (with_va (with_sol s l) va) ve).

(** linemodel.cpp:1289-1296 *)
Definition velfitlist (l : limits) : res (list Q) :=
  if Qeq_bool (l_step l) 0 then UB
  else do n <- to_int32 ((l_sup l - l_inf l) / l_step l);
       Ok (map (fun i => l_inf l + inject_Z (Z.of_nat i) * l_step l) (seq 0 (Z.to_nat n))).

(** iLineType == 0 is the absorption *)
Definition set_vel (absorption : bool) (s : state) (v : Q) : state :=
  if absorption then with_va s (Some v) else with_ve s (Some v).
Definition get_vel (absorption : bool) (s : state) : option Q := if absorption then s_va s else s_ve s.

(** meritMin, vOptim, z_vOptim *)
Record best := mkB { b_merit : f64; b_v : option Q; b_z : option Q }.
(** linemodel.cpp:1310-1345: the loop over the velocities at one redshift *)
Fixpoint vloop (e : env) (a : bool) (n Zidx : nat) (z : Q) (vs : list Q) (b : best) (s : state) : res (best * state) :=
  match vs with
  | [] => Ok (b, s)
  | v :: t =>
      do (m, s) <- fit e (set_vel a s v) n z Zidx;
      vloop e a n Zidx z t (if flt m (b_merit b) then mkB m (get_vel a s) (Some z) else b) s
  end.
(** linemodel.cpp:1308-1346: the loop over the redshifts, given by their indices *)
Fixpoint zloop (e : env) (zs : list Q) (a : bool) (n Zidx : nat) (ks : list nat) (vs : list Q) (b : best) (s : state) : res (best * state) :=
  match ks with
  | [] => Ok (b, s)
  | k :: t => do z <- vget zs k; do (b, s) <- vloop e a n Zidx z vs b s; zloop e zs a n Zidx t vs b s
  end.
(** linemodel.cpp:1248-1388: one type of lines *)
Definition line_type (e : env) (zs : list Q) (a : bool) (n Zidx cand : nat) (ks : list nat) (l : limits) (s : state) : res state :=
  do vs <- velfitlist l;
  do (b, s) <- zloop e zs a n Zidx ks vs (mkB PInf None None) s;
  match b_v b with
  | None => Ok s
  | Some v =>
      do c <- vset (s_chi s) Zidx (b_merit b);
      let s := set_vel a (with_chi s c) v in
      if a then do x <- vset (s_alv s) cand (Some v); Ok (with_alv s x)
      else do x <- vset (s_elv s) cand (Some v); Ok (with_elv s x)
  end.
(** linemodel.cpp:1193-1397; ext is ExtendedRedshifts.  Zidx - 6 cannot be the larger of the two when negative: it is 0 here. *)
Definition fitVelocity (e : env) (c : config) (zs : list Q) (ext : list (list Q)) (Zidx cand n : nat) (s : state) : res state :=
  do w <- vget ext cand; do z_front <- front w; do z_back <- back w;
  do idx_begin <- getIndex zs z_front; do idx_end <- getIndex zs z_back;
  let lower := Nat.max idx_begin (Zidx - 6) in
  let higher := Nat.min idx_end (Zidx + 6) in
  let ks := seq lower (S higher - lower) in
  let saved := s_fitter s in
  let s := with_fitter s Hybrid in
  let s := if k_tplratio c then with_noism (with_fitter s Individual) (k_noism1 c) else s in
  do s <- line_type e zs true n Zidx cand ks (k_abs c) s;
  do s <- line_type e zs false n Zidx cand ks (k_em c) s;
  let s := with_fitter s saved in
  Ok (if k_tplratio c then with_noism s false else s).

(** linemodel.cpp:1141-1154 *)
Definition inject (c : config) (i : nat) (s : state) : state :=
  if k_tplfit c then
    (if (Nat.eqb (k_option c) 0 || Nat.eqb (k_option c) 3)%bool then with_cont s (Store2 i) else with_cont s (Values i))
  else s.
(** linemodel.cpp:1130-1185: one candidate *)
Definition estimate_one (e : env) (c : config) (zs : list Q) (ext : list (list Q)) (i : nat) (z : Q) (s : state) : res state :=
  let s := inject c i s in
  do idx <- getIndex zs z;
  let n := match k_reest c with ReAlways => 1%nat | _ => 0%nat end in
  do zi <- vget zs idx;
  do (_, s) <- fit e s n zi idx;
  if k_fit c then fitVelocity e c zs ext idx i n s
  else do el <- vset (s_elv s) i (s_ve s); do al <- vset (s_alv s) i (s_va s); Ok (with_alv (with_elv s el) al).
(** linemodel.cpp:1119-1186, the candidates by their redshifts, the first of index i *)
Fixpoint EstimateSecondPassParameters (e : env) (c : config) (zs : list Q) (ext : list (list Q)) (i : nat) (cs : list Q) (s : state) : res state :=
  match cs with
  | [] => Ok s
  | z :: t => do s <- estimate_one e c zs ext i z s; EstimateSecondPassParameters e c zs ext (S i) t s
  end.

(** linemodel.cpp:1511-1545: the redshifts of one window; of the values stored only ChiSquare and the solution are kept here *)
Fixpoint window_loop (e : env) (zs : list Q) (n : nat) (w : list Q) (s : state) : res state :=
  match w with
  | [] => Ok s
  | z :: t =>
      do iz <- getIndex zs z; do zi <- vget zs iz;
      do (m, s) <- fit e s n zi iz; do l <- vset (s_chi s) iz m;
      window_loop e zs n t (with_chi s l)
  end.
(** linemodel.cpp:1457-1484, tplfit_option = o *)
Definition inject2 (c : config) (o i : nat) (s : state) : state :=
  if k_tplfit c then
    (if Nat.eqb o 2 then with_cont s (Values i)
     else if (Nat.eqb o 0 || Nat.eqb o 3)%bool then with_cont s (Store2 i)
     else if Nat.eqb o 1 then with_cont s Store1 else s)
  else s.
(** linemodel.cpp:1411-1546: one candidate *)
Definition recompute_one (e : env) (c : config) (o : nat) (zs : list Q) (ext : list (list Q)) (i : nat) (z : Q) (s : state) : res state :=
  do ve <- vget (s_elv s) i; do va <- vget (s_alv s) i;
  let s := inject2 c o i (with_va (with_ve s ve) va) in
  do _ <- getIndex zs z;
  let n := match k_reest c with ReAlways => 1%nat | ReOnlyExtrema => 8%nat | ReNo => 0%nat end in
  do w <- vget ext i; do _ <- front w;
  window_loop e zs n w s.
Fixpoint recompute_loop (e : env) (c : config) (o : nat) (zs : list Q) (ext : list (list Q)) (i : nat) (cs : list Q) (s : state) : res state :=
  match cs with
  | [] => Ok s
  | z :: t => do s <- recompute_one e c o zs ext i z s; recompute_loop e c o zs ext (S i) t s
  end.
(** linemodel.cpp:1399-1547 *)
Definition RecomputeAroundCandidates (e : env) (c : config) (o : nat) (zs : list Q) (ext : list (list Q)) (cs : list Q) (s : state) : res state :=
  match cs with [] => Throw INTERNAL_ERROR | _ => recompute_loop e c o zs ext 0 cs s end.
