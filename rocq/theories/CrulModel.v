(** Model of CRules (RedshiftLibrary/src/lib/line/rules.cpp), the rules a solution of the line matching must follow; tags of line/linetags.h:56-69.
    The fluxes are those of DetModel (ComputeFluxes); the lines those of MatchModel. *)
From Coq Require Import String.
From Verif Require Import Base F64 RangeModel AxisModel RulesModel MatchModel DetModel.
Open Scope Q_scope.

Definition oIIIa_em : string := "[OIII]a".
Definition oIIIb_em : string := "[OIII]b".
Definition halpha_em : string := "Halpha".
Definition hbeta_em : string := "Hbeta".
(** the object: rules.h:75-79 *)
Record crules := mkRules { u_spc : spc; u_rest : list rest; u_lo : Q; u_hi : Q; u_win : Q }.

(** rules.cpp:224-228.  [begin + winsize ? m_winsize : 0.] is [(begin + winsize) ? m_winsize : 0.]; the flag is 0 or 1 in the sum.  None: NaN *)
Definition bound (u : crules) (border : Q) (winsize : bool) : Q := if Qeq_bool (border + (if winsize then 1 else 0)) 0 then 0 else u_win u.
Definition isLineInsideRange (u : crules) (lambda : option Q) (winsize : bool) : bool :=
  match lambda with
  | None => false
  | Some l => (Qle_bool (bound u (u_lo u) winsize) l && Qle_bool l (bound u (u_hi u) winsize))%bool
  end.
(** rules.cpp:213-222 *)
Definition getRestLineLambda (u : crules) (tag : string) : option Q := option_map r_pos (find (fun r => contains tag (r_name r)) (u_rest u)).
Definition at_z (l : option Q) (z : Q) : option Q := option_map (fun p => p * (1 + z)) l.
(** std::max on doubles: the first when the comparison is false *)
Definition fmax (a b : f64) : f64 := if flt a b then b else a.

(** rules.cpp:110-117 and 125-133: ratio and deviation in the window of a line *)
Definition line_fluxes (u : crules) (z : Q) (r : rest) : res (f64 * Q) :=
  let lambda := r_pos r * (1 + z) in
  do (a, b) <- GetIndexesAtWaveLengthRange (sp_lam (u_spc u)) (mkRange (lambda - u_win u / 2) (lambda + u_win u / 2));
  do (ratio, _, noise) <- ComputeFluxes (u_spc u) (u_win u) (Z.of_nat a, Z.of_nat b) [];
  Ok (ratio, noise).
(** rules.cpp:106-121 *)
Fixpoint weak_loop (u : crules) (z : Q) (s : list sol) (snr : f64) (noise : Q) : res (f64 * Q) :=
  match s with
  | [] => Ok (snr, noise)
  | x :: t => do (r, n) <- line_fluxes u z (s_r x); weak_loop u z t (fmax snr r) (if Qltb noise n then n else noise)
  end.
(** rules.cpp:123-137 *)
Fixpoint strong_loop (u : crules) (z : Q) (l : list rest) (snr : f64) (noise : Q) : res bool :=
  match l with
  | [] => Ok true
  | x :: t => do (r, n) <- line_fluxes u z x; if (flt r snr && Qltb n noise)%bool then Ok false else strong_loop u z t snr noise
  end.
(** rules.cpp:79-139 *)
Definition checkRule01 (u : crules) (z : Q) (s : list sol) : res bool :=
  if existsb (fun x => r_strong (s_r x)) s then Ok true
  else
    let strong := filter_rest (Some true) (Some true) (u_rest u) in
    match filter (fun r => isLineInsideRange u (Some (r_pos r * (1 + z))) false) strong with
    | [] => Ok true
    | _ => do (snr, noise) <- weak_loop u z s (Fin 0) 0; strong_loop u z strong snr noise
    end.
(** rules.cpp:145-173 *)
Definition count_named (tag : string) (s : list sol) : nat := List.length (filter (fun x => contains tag (r_name (s_r x))) s).
Definition checkRule02 (u : crules) (z : Q) (s : list sol) : bool :=
  let founda := count_named oIIIa_em s in
  let foundb := if isLineInsideRange u (at_z (getRestLineLambda u oIIIa_em) z) true then count_named oIIIb_em s else 0%nat in
  negb (Nat.eqb foundb 1 && Nat.eqb founda 0).
(** rules.cpp:179-211 *)
Definition checkRule03 (u : crules) (z : Q) (s : list sol) : bool :=
  let foundHbeta := if isLineInsideRange u (at_z (getRestLineLambda u halpha_em) z) true then count_named hbeta_em s else 0%nat in
  let foundHalpha := count_named halpha_em s in
  negb (Nat.eqb foundHbeta 1 && negb (Nat.eqb foundHalpha 1)).
(** rules.cpp:54-73 *)
Definition check (u : crules) (z : Q) (s : list sol) : res Z :=
  do r1 <- checkRule01 u z s;
  Ok ((if (r1 : bool) then 0 else 1) + (if checkRule02 u z s then 0 else 10) + (if checkRule03 u z s then 0 else 100))%Z.
(** linematchingresult.cpp:264-294, with the outcomes of the rules *)
Fixpoint filter_sets (u : crules) (l : list (list sol)) : res (list (list sol) * list (list sol) * list Z) :=
  match l with
  | [] => Ok ([], [], [])
  | s :: t =>
    do k <- check u (mean_z s) s;
    do (kept, removed, codes) <- filter_sets u t;
    Ok (if (k <=? 0)%Z then (s :: kept, removed, codes) else (kept, s :: removed, k :: codes))
  end.
