(** Model of the statistics of the whole line model
    RedshiftLibrary/src/lib/linemodel/linemodelfitting.cpp:299-312, 462-698, 1051-1175 (CLineModelFitting),
    RedshiftLibrary/RedshiftLibrary/linemodel/continuummanager.h:82-89.
    Exact rationals; the logarithm, the square root and log(2 pi) are parameters.  A null error is a division by zero: out of the model
    (UB).  The spectra, the fluxes with and without continuum, the continuum, the model spectrum and the supports of the lines are given. *)
From Verif Require Import Base RangeModel AxisModel EfitModel F64.
Open Scope Q_scope.

(** one spectrum of the observation with what the fit has left: wavelengths, range of the fit, flux, flux without its continuum, errors,
    continuum of the model, model, indexes under the lines of the elements which are inside the range (C68) *)
Record spc := mkSpc {
  s_axis : list Q; s_range : range; s_raw : list Q; s_noc : list Q; s_err : list Q; s_cont : list Q; s_model : list Q; s_sup : list nat }.
(** the continuum component, and whether it is a fitted template (isContinuumComponentTplfitxx) *)
Inductive component := NoContinuum | FromSpectrum | TplFit.
Definition isTpl (c : component) : bool := match c with TplFit => true | _ => false end.
(** the continuum fit: amplitude, <d,m>, <m,m>, log prior (continuummanager.h:82-89) *)
Record cfit := mkCfit { c_amp : Q; c_dtm : Q; c_mtm : Q; c_lp : Q }.
Definition getTerm1 (c : cfit) : Q := c_amp c * c_amp c * c_mtm c.
Definition getTerm2 (c : cfit) : Q := -2 * c_amp c * c_dtm c.

(** the loops "for j = imin; j < imax" with imin and imax the indexes of the bounds of the range *)
Definition window_loop {A} (f : A -> nat -> res A) (o : spc) (acc : A) : res A :=
  do imin <- GetIndexAtWaveLength (s_axis o) (rbeg (s_range o));
  do imax <- GetIndexAtWaveLength (s_axis o) (rend (s_range o));
  rfold f (seq imin (imax - imin)) acc.
(** x * x / (e * e) added *)
Definition add_w (x e acc : Q) : res Q := if Qeq_bool e 0 then UB else Ok (acc + x * x / (e * e)).

(** linemodelfitting.cpp:462-479, of the first spectrum *)
Definition getOutsideLinesMask (o : spc) : res (list bool) :=
  rfold (fun m i => vset m i false) (s_sup o) (repeat true (length (s_axis o))).
(** linemodelfitting.cpp:503-512 *)
Definition std_step (mask : list bool) (v : list Q) (acc : Q * nat) (i : nat) : res (Q * nat) :=
  do b <- vget mask i;
  if (b : bool) then do x <- vget v i; Ok (fst acc + x * x, S (snd acc)) else Ok acc.
(** linemodelfitting.cpp:485-517; [None]: NaN *)
Definition getOutsideLinesSTD (sqrtf : Q -> Q) (os : list spc) (which : Z) : res (option Q) :=
  if negb (which =? 1)%Z && negb (which =? 2)%Z then Throw INTERNAL_ERROR
  else match os with
  | [] => UB
  | o :: _ =>
      do mask <- getOutsideLinesMask o;
      do r <- window_loop (std_step mask (if (which =? 1)%Z then s_noc o else s_err o)) o (0, 0%nat);
      Ok (match snd r with
          | O => None
          | n => Some (sqrtf (fst r / inject_Z (Z.of_nat n)))
          end)
  end.

(** linemodelfitting.cpp:522-540: one spectrum *)
Definition cont_step (o : spc) (acc : Q) (j : nat) : res Q :=
  do y <- vget (s_raw o) j; do c <- vget (s_cont o) j; do e <- vget (s_err o) j; add_w (y - c) e acc.
(** linemodelfitting.cpp:519-545 *)
Definition getLeastSquareContinuumMerit (os : list spc) (comp : component) (c : cfit) : res Q :=
  do f <- rfold (fun acc o => window_loop (cont_step o) o acc) os 0;
  Ok (if isTpl comp then f + c_lp c else f).
(** linemodelfitting.cpp:547-562 *)
Definition getLeastSquareContinuumMeritFast (dtd : Q) (comp : component) (c : cfit) : Q :=
  if isTpl comp then dtd + (getTerm1 c + getTerm2 c) + c_lp c else dtd.

(** linemodelfitting.cpp:567-588 *)
Definition computeSpcNSamples (os : list spc) : res nat :=
  rfold (fun n o =>
    do imin <- GetIndexAtWaveLength (s_axis o) (rbeg (s_range o));
    do imax <- GetIndexAtWaveLength (s_axis o) (rend (s_range o));
    Ok (n + Z.abs_nat (Z.of_nat imax - Z.of_nat imin))%nat) os 0%nat.

(** linemodelfitting.cpp:1088-1115 *)
Definition dtd_step (noContinuum : bool) (o : spc) (acc : Q) (j : nat) : res Q :=
  do y <- vget (if noContinuum then s_noc o else s_raw o) j; do e <- vget (s_err o) j; add_w y e acc.
Definition EstimateDTransposeD (os : list spc) (noContinuum : bool) : res Q :=
  rfold (fun acc o => window_loop (dtd_step noContinuum o) o acc) os 0.
(** linemodelfitting.cpp:1118-1142 *)
Definition mtm_step (o : spc) (acc : Q) (j : nat) : res Q :=
  do y <- vget (s_model o) j; do e <- vget (s_err o) j; add_w y e acc.
Definition EstimateMTransposeM (os : list spc) : res Q :=
  rfold (fun acc o => window_loop (mtm_step o) o acc) os 0.

(** linemodelfitting.cpp:1151-1175; [ln] the logarithm, [ln2pi] = log(2 pi) *)
Definition cst_one (ln : Q -> Q) (ln2pi : Q) (acc : Q) (o : spc) : res Q :=
  do b <- getClosedIntervalIndices (s_range o) (s_axis o);
  let n := Z.abs (Z.of_nat (snd b) - Z.of_nat (fst b) + 1) in
  do s <- rfold (fun a j => do e <- vget (s_err o) j; Ok (a + ln e)) (seq (fst b) (S (snd b) - fst b)) 0;
  Ok (acc + (- inject_Z n * (1 # 2) * ln2pi - s)).
Definition EstimateLikelihoodCstLog (ln : Q -> Q) (ln2pi : Q) (os : list spc) : res Q :=
  rfold (cst_one ln ln2pi) os 0.

(** the values kept between two calls: range they were computed for, <d,d>, constant of the likelihood (linemodelfitting.h:244-247) *)
Record cache := mkCache { h_range : range; h_dtd : Q; h_cst : Q }.
Definition range_ne (a b : range) : bool := negb (Qeq_bool (rbeg a) (rbeg b) && Qeq_bool (rend a) (rend b)).
(** linemodelfitting.cpp:299-312 *)
Definition initDtd (ln : Q -> Q) (ln2pi : Q) (os : list spc) (comp : component) : res cache :=
  match os with
  | [] => UB
  | o :: _ =>
      do d <- EstimateDTransposeD os (negb (isTpl comp));
      do c <- EstimateLikelihoodCstLog ln ln2pi os;
      Ok (mkCache (s_range o) d c)
  end.
(** linemodelfitting.cpp:1051-1060, 1068-1077 and 363-364: computed again only when the range of the first spectrum has changed *)
Definition refresh (ln : Q -> Q) (ln2pi : Q) (os : list spc) (comp : component) (h : cache) : res cache :=
  match os with
  | [] => UB
  | o :: _ => if range_ne (h_range h) (s_range o) then initDtd ln ln2pi os comp else Ok h
  end.
(** what a caller may do, in any order: change the component (linemodelfitting.cpp:1144-1146), ask for one of the two values or fit
    (all call [refresh] first), or force the computation (operator/linemodel.cpp:1775) *)
Inductive action := SetComponent (c : component) | Ask | Force.
Definition act (ln : Q -> Q) (ln2pi : Q) (os : list spc) (s : component * cache) (a : action) : res (component * cache) :=
  match a with
  | SetComponent c => Ok (c, snd s)
  | Ask => do h <- refresh ln ln2pi os (fst s) (snd s); Ok (fst s, h)
  | Force => do h <- initDtd ln ln2pi os (fst s); Ok (fst s, h)
  end.
(** linemodelfitting.cpp:1051-1060 *)
Definition getDTransposeD (ln : Q -> Q) (ln2pi : Q) (os : list spc) (s : component * cache) : res Q :=
  do h <- refresh ln ln2pi os (fst s) (snd s); Ok (h_dtd h).

(** linemodelfitting.cpp:677-698: sum of the flux of the lines and of the squared errors, both bounds included *)
Definition snr_step (o : spc) (acc : Q * Q) (i : nat) : res (Q * Q) :=
  do m <- vget (s_model o) i; do c <- vget (s_cont o) i; do e <- vget (s_err o) i;
  Ok (fst acc + (m - c), snd acc + e * e).
Definition getSNROnRange (o : spc) (r : nat * nat) : res (Q * Q) :=
  if (Z.of_nat (snd r) - Z.of_nat (fst r) <? 1)%Z then Ok (0, 0)
  else do s <- rfold (snr_step o) (seq (fst r) (S (snd r) - fst r)) (0, 0); Ok (Qabs (fst s), snd s).

(** the support of one line, bounds included, and whether the line is strong *)
Record support := mkSup { p_beg : nat; p_end : nat; p_strong : bool }.
(** linemodelfitting.cpp:625-642: the supports which overlap the current one, which grows on the way, are taken into it; the others stay *)
Definition overlaps (a b : support) : bool := (Nat.max (p_beg a) (p_beg b) <? Nat.min (p_end a) (p_end b))%nat.
Definition join (a b : support) : support :=
  mkSup (Nat.min (p_beg a) (p_beg b)) (Nat.max (p_end a) (p_end b)) (p_strong a || p_strong b).
Fixpoint absorb (cur : support) (l : list support) : support * list support :=
  match l with
  | [] => (cur, [])
  | b :: t => if overlaps cur b then absorb (join cur b) t
              else (fst (absorb cur t), b :: snd (absorb cur t))
  end.
(** linemodelfitting.cpp:612-647; [n] bounds the number of rounds, the length of the list is enough *)
Fixpoint merge (n : nat) (l : list support) : list support :=
  match n, l with
  | S n', a :: t => fst (absorb a t) :: merge n' (snd (absorb a t))
  | _, _ => []
  end.
(** linemodelfitting.cpp:596-610: the lines inside the range of the emission elements which are inside the range *)
Record sline := mkSline { l_out : bool; l_sup : support }.
Record selt := mkSelt { e_emission : bool; e_lines : list sline }.
Definition line_supports (el : list selt) : list support :=
  flat_map (fun e => if e_emission e then flat_map (fun l => if l_out l then [] else [l_sup l]) (e_lines e) else []) el.
(** a Float64 division by a square root *)
Definition snr (sqrtf : Q -> Q) (s v : Q) : f64 :=
  if Qeq_bool (sqrtf v) 0 then (if Qeq_bool s 0 then NaN else if Qltb 0 s then PInf else NInf) else Fin (s / sqrtf v).
(** linemodelfitting.cpp:650-664 *)
Definition cumul_step (o : spc) (acc : (Q * Q) * (Q * Q)) (p : support) : res ((Q * Q) * (Q * Q)) :=
  do r <- getSNROnRange o (p_beg p, p_end p);
  let '((f, v), (sf, sv)) := acc in
  Ok ((f + fst r, v + snd r), if p_strong p then (sf + fst r, sv + snd r) else (sf, sv)).
(** linemodelfitting.cpp:592-672, of the first spectrum *)
Definition getCumulSNRStrongEL (sqrtf : Q -> Q) (os : list spc) (el : list selt) : res (f64 * f64) :=
  match os with
  | [] => UB
  | o :: _ =>
      let l := line_supports el in
      do r <- rfold (cumul_step o) (merge (length l) l) ((0, 0), (0, 0));
      let '((f, v), (sf, sv)) := r in
      Ok (snr sqrtf f v, snr sqrtf sf sv)
  end.
(** any sequence of these *)
Fixpoint history ln ln2pi os (s : component * cache) (l : list action) : res (component * cache) :=
  match l with [] => Ok s | a :: t => do s' <- act ln ln2pi os s a; history ln ln2pi os s' t end.
