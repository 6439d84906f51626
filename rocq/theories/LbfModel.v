(** Model of the L-BFGS-B fitter of a group of overlapping elements:
    RedshiftLibrary/src/lib/linemodel/gaussianfit/lbfgsbfitter.cpp (CLbfgsbFitter), with the element functions it
    uses (linemodel/elementparam.h, element.cpp, lmeltlistvector.cpp).
    One observation; the group is the whole list of elements.  Wavelengths, fluxes, parameters are exact rationals
    (overflow and rounding are not modelled); an amplitude is [None] for NaN; standard deviations are [f64].
    Not modelled but parameters of the environment: the outside flag of a line (C65), the profile of a line (C53),
    the linear fit used as first guess (C69), the minimiser of LBFGSpp (any strategy choosing the next point from
    the values seen so far, stopping or failing), the line width, the residual noise, the pixel size, the square
    root. *)
From Verif Require Import Base F64 PolyModel.
Open Scope Q_scope.

(** line type, emission or absorption: GetElementType() and IsEmission() agree *)
Inductive kind := Em | Ab.
Definition same_kind (a b : kind) : bool := match a, b with Em, Em | Ab, Ab => true | _, _ => false end.

(** what is read of a catalogue line: rest position, nominal amplitude, catalogue offset (km/s) *)
Record line := mkLine { l_pos : Q; l_nom : Q; l_off : Q }.
(** TLineModelElementParam (elementparam.h:61-110) with the outside flags of the element *)
Record elt := mkElt { kd : kind; limit : Q; lines : list line; velE : Q; velA : Q; offs : list Q;
                      poly : Q * Q * Q; out : bool; outs : list bool; amps : list (option Q); stds : list f64 }.

(** options and parameters: lbfgsbfitter.h:129-160, abstractfitter.h:169-170 *)
Record conf := mkConf { c_vel : bool; c_off : bool; c_poly : bool; minE : Q; maxE : Q; minA : Q; maxA : Q;
                        iniE : Q; iniA : Q; offMin : Q; offMax : Q }.
Definition speed_of_light : Q := 299792458 # 1000.

(** f64 products and quotients by a finite number (no overflow, no signed zero) *)
Definition xmul (a : f64) (q : Q) : f64 :=
  match a with
  | NaN => NaN
  | Fin s => Fin (s * q)
  | PInf => if Qeq_bool q 0 then NaN else if Qltb q 0 then NInf else PInf
  | NInf => if Qeq_bool q 0 then NaN else if Qltb q 0 then PInf else NInf
  end.
Definition xdiv (a : f64) (q : Q) : f64 :=
  match a with
  | NaN => NaN
  | Fin s => if Qeq_bool q 0 then (if Qeq_bool s 0 then NaN else if Qltb s 0 then NInf else PInf) else Fin (s / q)
  | PInf => if Qltb q 0 then NInf else PInf
  | NInf => if Qltb q 0 then PInf else NInf
  end.
(** finite / f64 *)
Definition qdiv (v : Q) (a : f64) : f64 :=
  match a with NaN => NaN | PInf | NInf => Fin 0 | Fin s => xdiv (Fin v) s end.

(** ** elements *)
(** elementparam.h:160-174 setFittedAmplitude *)
Definition fitted (e : elt) (A nom : Q) : Q :=
  let v := A * nom in
  match kd e with Ab => if Qltb 0 (limit e) && Qltb (limit e) v then limit e else v | Em => v end.
(** elementparam.h:176-199 setAmplitudes, the loop over the lines *)
Fixpoint line_amps (e : elt) (A : Q) (ls : list line) (os : list bool) : list (option Q) :=
  match ls, os with
  | l :: ls, o :: os => (if o : bool then None else Some (fitted e A (l_nom l))) :: line_amps e A ls os
  | _, _ => []
  end.
Fixpoint line_stds (S : f64) (ls : list line) (os : list bool) : list f64 :=
  match ls, os with
  | l :: ls, o :: os => (if o : bool then NaN else xmul S (l_nom l)) :: line_stds S ls os
  | _, _ => []
  end.
Definition with_amps (e : elt) (a : list (option Q)) (s : list f64) : elt :=
  mkElt (kd e) (limit e) (lines e) (velE e) (velA e) (offs e) (poly e) (out e) (outs e) a s.
(** lmeltlistvector.cpp:257-262 and elementparam.h:176-199; [None] is NaN *)
Definition set_amplitudes (e : elt) (A : option Q) (S : f64) : elt :=
  match A with
  | None => with_amps e (map (fun _ => None) (lines e)) (map (fun _ => NaN) (lines e))
  | Some a => if out e then with_amps e (map (fun _ => None) (lines e)) (map (fun _ => NaN) (lines e))
              else with_amps e (line_amps e a (lines e) (outs e)) (line_stds S (lines e) (outs e))
  end.
Definition set_velE (e : elt) (v : Q) : elt :=
  mkElt (kd e) (limit e) (lines e) v (velA e) (offs e) (poly e) (out e) (outs e) (amps e) (stds e).
Definition set_velA (e : elt) (v : Q) : elt :=
  mkElt (kd e) (limit e) (lines e) (velE e) v (offs e) (poly e) (out e) (outs e) (amps e) (stds e).
Definition set_offs (e : elt) (o : list Q) : elt :=
  mkElt (kd e) (limit e) (lines e) (velE e) (velA e) o (poly e) (out e) (outs e) (amps e) (stds e).
Definition set_poly (e : elt) (p : Q * Q * Q) : elt :=
  mkElt (kd e) (limit e) (lines e) (velE e) (velA e) (offs e) p (out e) (outs e) (amps e) (stds e).
Definition set_out (e : elt) (o : list bool) : elt :=
  mkElt (kd e) (limit e) (lines e) (velE e) (velA e) (offs e) (poly e) (forallb (fun b => b) o) o (amps e) (stds e).
(** elementparam.h:113-115 *)
Definition velocity (e : elt) : Q := match kd e with Em => velE e | Ab => velA e end.

(** element.cpp:525-554: the first line inside the range with a non-null nominal amplitude *)
Fixpoint first_value {A} (nan : A) (f : A -> Q -> A) (ls : list line) (os : list bool) (v : list A) : A :=
  match ls, os, v with
  | l :: ls, o :: os, x :: v => if negb o && negb (Qeq_bool (l_nom l) 0) then f x (l_nom l) else first_value nan f ls os v
  | _, _, _ => nan
  end.
Definition GetElementAmplitude (e : elt) : option Q :=
  if out e then None
  else first_value None (fun a n => match a with Some v => Some (v / n) | None => None end) (lines e) (outs e) (amps e).
Definition GetElementError (e : elt) : f64 :=
  if out e then NaN else first_value NaN xdiv (lines e) (outs e) (stds e).
(** elementparam.cpp:262-266: std::max_element of a non-empty list *)
Definition max_nominal (e : elt) : res Q :=
  match lines e with [] => UB | l :: ls => Ok (fold_left (fun m l => Qmaxb m (l_nom l)) ls (l_nom l)) end.

(** ** the parameter vector (lbfgsbfitter.cpp:363-406) *)
(** nddl, the line type ([None] = nType_All), the positions ([None] = undefIdx) *)
Record layout := mkLay { nddl : nat; ltype : option kind; vA : option nat; vE : option nat; iOff : option nat; iPoly : option nat }.
Definition same_type (t : option kind) (k : kind) : bool := match t with Some a => same_kind a k | None => false end.
(** :382-389, the body of the loop; [p] is velocity_param_idx *)
Definition type_step (p : nat) (a : nat * nat * option kind * option nat * option nat) (k : kind) :=
  let '(nd, pi, t, ia, ie) := a in
  if same_type t k then a else (S nd, S pi, None, Some p, Some (S p)).
Definition make_layout (c : conf) (kinds : list kind) : res layout :=
  match kinds with
  | [] => Throw INTERNAL_ERROR                                                   (* :359-360 *)
  | k0 :: _ =>
      let m := length kinds in
      let '(nd, pi, t, ia, ie) :=
        if c_vel c then                                                          (* :367-390 *)
          fold_left (type_step m) kinds
            (S m, S m, Some k0, match k0 with Ab => Some m | Em => None end, match k0 with Em => Some m | Ab => None end)
        else (m, m, None, None, None) in
      let '(nd, pi, io) := if c_off c then (S nd, S pi, Some pi) else (nd, pi, None) in   (* :394-397 *)
      let '(nd, ip) := if c_poly c then ((nd + 3)%nat, Some pi) else (nd, None) in          (* :406-410 *)
      Ok (mkLay nd t ia ie io ip)
  end.

(** a vector under construction: [None] is an uninitialised component *)
Definition put {A} (v : list (option A)) (i : option nat) (x : A) : res (list (option A)) :=
  match i with Some i => vset v i (Some x) | None => UB end.
(** handing the vector to the solver reads every component *)
Fixpoint defined {A} (v : list (option A)) : res (list A) :=
  match v with
  | [] => Ok []
  | Some x :: t => do r <- defined t; Ok (x :: r)
  | None :: _ => UB
  end.
Fixpoint puts {A} (v : list (option A)) (i : nat) (l : list A) : res (list (option A)) :=
  match l with [] => Ok v | x :: t => do v' <- put v (Some i) x; puts v' (S i) t end.

Section Fitter.
Context (c : conf).
(** spectral axis, flux without continuum, continuum, noise *)
Context (axis flux cont err : list Q).
(** outside flag and profile of a line, given its velocity and its offset (km/s) *)
Context (outside_of : kind -> line -> Q -> Q -> bool) (profile : kind -> line -> Q -> Q -> Q -> res Q).
(** svdfitter.cpp fitAmplitudesLinSolvePositive: amplitude and error of the i-th element, polynomial *)
Context (svd : list elt -> res ((nat -> option Q * f64) * (Q * Q * Q))).

(** LBFGSpp: the next action from the bounds, the guess and the evaluations done *)
Inductive action := Eval (x : list Q) | Done (x : list Q) | Fail.
Context (solver : list (f64 * f64) -> list Q -> list (list Q * Q) -> action).
Context (width : elt -> res Q) (noise : list elt -> nat -> f64) (meanres : elt -> nat -> Q) (root : Q -> Q) (sqrtpi : Q).

(** element.cpp:267-393 prepareSupport, the flags only (the samples fitted are not recomputed) *)
Fixpoint line_outs (k : kind) (v : Q) (ls : list line) (os : list Q) : list bool :=
  match ls, os with l :: ls, o :: os => outside_of k l v o :: line_outs k v ls os | _, _ => [] end.
Definition prepareSupport (e : elt) : elt := set_out e (line_outs (kd e) (velocity e) (lines e) (offs e)).

(** element.cpp:636-680 getModelAtLambda *)
Fixpoint model_lines (k : kind) (v x cx : Q) (ls : list line) (os : list Q) (ou : list bool) (am : list (option Q)) (acc : Q) : res Q :=
  match ls, os, ou, am with
  | l :: ls, o :: os, b :: ou, a :: am =>
      if b : bool then model_lines k v x cx ls os ou am acc
      else match a with
           | None => model_lines k v x cx ls os ou am acc
           | Some a => if Qltb a 0 then model_lines k v x cx ls os ou am acc
                       else do p <- profile k l v o x;
                            model_lines k v x cx ls os ou am (acc + match k with Em => a * p | Ab => cx * (- a * p) end)
           end
  | _, _, _, _ => Ok acc
  end.
Definition getModelAtLambda (e : elt) (x cx : Q) : res Q :=
  if out e then Ok 0 else model_lines (kd e) (velocity e) x cx (lines e) (offs e) (outs e) (amps e) 0.

(** :134-208 unpack; [d] is the shift x[lbdaOffset] * normLbdaOffset *)
Definition shifted (l : line) (d : Q) : Q :=
  let o := l_off l / speed_of_light in (o + (1 + o) * d) * speed_of_light.
Definition shift (e : elt) (d : Q) : elt := set_offs e (map (fun l => shifted l d) (lines e)).
Definition oget (x : list Q) (i : option nat) : res Q := match i with Some i => vget x i | None => UB end.
Fixpoint mapi_res {A B} (f : nat -> A -> res B) (i : nat) (l : list A) : res (list B) :=
  match l with [] => Ok [] | a :: t => do b <- f i a; do r <- mapi_res f (S i) t; Ok (b :: r) end.
(** :138-142 *)
Definition unpack_amp (x : list Q) (i : nat) (e : elt) : res elt := do a <- vget x i; Ok (set_amplitudes e (Some a) (Fin 0)).
(** :144-160 *)
Definition unpack_vel (lay : layout) (x : list Q) (_ : nat) (e : elt) : res elt :=
  match kd e with
  | Em => do v <- oget x (vE lay); Ok (set_velE e (v * maxE c))
  | Ab => do v <- oget x (vA lay); Ok (set_velA e (v * maxE c))
  end.
Definition norm_offset : Q := offMax c / speed_of_light.
Definition ocoeff (x : list Q) (i : option nat) (k : nat) : res Q := oget x (match i with Some i => Some (i + k)%nat | None => None end).
Definition npoly_of (np : npolynom) (lay : layout) (x : list Q) : res npolynom :=
  do p0 <- ocoeff x (iPoly lay) 0; do p1 <- ocoeff x (iPoly lay) 1; do p2 <- ocoeff x (iPoly lay) 2;
  Ok (mkNPoly p0 p1 p2 (x0red np) (scale np)).
Definition unpack (lay : layout) (np : npolynom) (st : list elt) (x : list Q) : res (list elt * npolynom) :=
  do st <- mapi_res (unpack_amp x) 0 st;
  do st <- (if c_vel c then mapi_res (unpack_vel lay x) 0 st else Ok st);
  do st <- (if c_off c then do d <- oget x (iOff lay); Ok (map (fun e => shift e (d * norm_offset)) st) else Ok st);
  let st := map prepareSupport st in
  do p <- (if c_poly c then npoly_of np lay x else Ok np);
  Ok (st, p).

(** :210-240 ComputeLeastSquare: the sum over the elements at one sample *)
Fixpoint sum_elts (st : list elt) (x cx acc : Q) : res Q :=
  match st with [] => Ok acc | e :: t => do m <- getModelAtLambda e x cx; sum_elts t x cx (acc + m) end.
Fixpoint least_square (nf : Q) (st : list elt) (p : npolynom) (xs : list nat) (acc : Q) : res Q :=
  match xs with
  | [] => Ok acc
  | i :: t =>
      do xi <- vget axis i; do fl <- vget flux i; do er <- vget err i; do cx <- vget cont i;
      let yi := fl * nf in let ei := er * nf in
      do f <- sum_elts st xi cx 0;
      let f := if c_poly c then f + ngetValue p xi else f in
      least_square nf st p t (acc + (f * f - 2 * yi * f) / (ei * ei))
  end.
(** :73-84 *)
Fixpoint data_square (nf : Q) (xs : list nat) (acc : Q) : res Q :=
  match xs with
  | [] => Ok acc
  | i :: t => do fl <- vget flux i; do er <- vget err i;
              let yi := fl * nf in let ei := er * nf in data_square nf t (acc + yi * yi / (ei * ei))
  end.
(** :88-100 operator() *)
Definition evaluate (lay : layout) (np : npolynom) (nf s0 : Q) (xs : list nat) (st : list elt) (x : list Q) : res (list elt * Q) :=
  do r <- unpack lay np st x;
  let (st', p) := r in
  do v <- least_square nf st' p xs s0; Ok (st', v).

(** :599-618: the solver evaluates points; [None] for an exception of the library, which also covers a solver
    stopped after [n] evaluations *)
Fixpoint minimize (n : nat) (lay : layout) (np : npolynom) (nf s0 : Q) (xs : list nat) (b : list (f64 * f64)) (g : list Q)
    (hist : list (list Q * Q)) (st : list elt) : res (list elt * option (list Q)) :=
  match solver b g hist with
  | Done x => Ok (st, Some x)
  | Fail => Ok (st, None)
  | Eval x => match n with
              | O => Ok (st, None)
              | S k => do r <- evaluate lay np nf s0 xs st x;
                       let (st', v) := r in minimize k lay np nf s0 xs b g (hist ++ [(x, v)])%list st'
              end
  end.

(** :442-461 *)
Definition amp_bound (e : elt) : res (f64 * f64) :=
  match kd e with
  | Em => Ok (Fin 0, PInf)
  | Ab => if Qltb 0 (limit e) then do m <- max_nominal e; Ok (Fin 0, xdiv (Fin (limit e)) m) else Ok (Fin 0, PInf)
  end.
Definition velA_bound : f64 * f64 := (Fin (minA c / maxE c), Fin (maxA c / maxE c)).
Definition velE_bound : f64 * f64 := (Fin (minE c / maxE c), Fin (maxE c / maxE c)).
(** :438-494 (lb and ub are always written together) *)
Definition make_bounds (lay : layout) (st : list elt) : res (list (option (f64 * f64))) :=
  do bs <- mapi_res (fun _ e => amp_bound e) 0 st;
  do v <- puts (repeat None (nddl lay)) 0 bs;
  do v <- (if c_vel c then
             match ltype lay with
             | None => do v <- put v (vA lay) velA_bound; put v (vE lay) velE_bound
             | Some Ab => put v (vA lay) velA_bound
             | Some Em => put v (vE lay) velE_bound
             end
           else Ok v);
  do v <- (if c_off c then
             put v (iOff lay) (Fin (offMin c / speed_of_light / norm_offset), Fin (offMax c / speed_of_light / norm_offset))
           else Ok v);
  if c_poly c then match iPoly lay with Some i => puts v i (repeat (NInf, PInf) 3) | None => UB end else Ok v.

(** :502-510 *)
Definition start_velocity (e : elt) : elt := match kd e with Ab => set_velA e (iniA c) | Em => set_velE e (iniE c) end.
Definition apply_svd (r : nat -> option Q * f64) (p : Q * Q * Q) (i : nat) (e : elt) : res elt :=
  let e := set_amplitudes e (fst (r i)) (snd (r i)) in Ok (if c_poly c then set_poly e p else e).
(** :514-527: guess of the amplitudes and largest signal to noise ratio; [nf] is [None] when infinite (null flux) *)
Fixpoint amp_guess (nf : option Q) (es : list elt) (snr : f64) : res (list Q * f64) :=
  match es with
  | [] => Ok ([], snr)
  | e :: t =>
      match GetElementAmplitude e, nf with
      | None, _ => Throw INTERNAL_ERROR
      | Some a, None => (* a * inf: NaN if a = 0; otherwise infinite, and its ratio to the error is NaN *)
                        if Qeq_bool a 0 then Throw INTERNAL_ERROR
                        else do r <- amp_guess nf t snr; Ok (0 :: fst r, snd r)
      | Some a, Some f =>
          let v := a * f in
          let s := qdiv v (xmul (GetElementError e) f) in
          do r <- amp_guess nf t (if flt snr s then s else snr);
          Ok (v :: fst r, snd r)
      end
  end.

(** :540-563 *)
Definition make_guess (lay : layout) (np : npolynom) (nf : Q) (st : list elt) (ga : list Q) : res (list (option Q)) :=
  do v <- puts (repeat None (nddl lay)) 0 ga;
  do v <- (if c_poly c then
             match iPoly lay, st with
             | Some i, e :: _ => let '(a0, a1, a2) := poly e in
                 let q := setCoeffs np (a0 * nf) (a1 * nf) (a2 * nf) in puts v i [n0 q; n1 q; n2 q]
             | _, _ => UB
             end
           else Ok v);
  do v <- (if c_vel c then
             match ltype lay with
             | None => do v <- put v (vA lay) (iniA c / maxE c); put v (vE lay) (iniE c / maxE c)
             | Some Ab => put v (vA lay) (iniA c / maxE c)
             | Some Em => put v (vE lay) (iniE c / maxE c)
             end
           else Ok v);
  if c_off c then put v (iOff lay) 0 else Ok v.

(** :620-682 *)
Definition store_amp (nf : Q) (x : list Q) (i : nat) (e : elt) : res elt :=
  do a <- vget x i; Ok (set_amplitudes e (Some (a / nf)) NaN).
Definition store_vel (lay : layout) (x : list Q) (st : list elt) : res (list elt) :=
  match ltype lay with
  | None => do a <- oget x (vA lay); do e <- oget x (vE lay);
            Ok (map (fun k => match kd k with Ab => set_velA k (a * maxE c) | Em => set_velE k (e * maxE c) end) st)
  | Some Ab => do a <- oget x (vA lay); Ok (map (fun k => set_velA k (a * maxE c)) st)
  | Some Em => do e <- oget x (vE lay); Ok (map (fun k => set_velE k (e * maxE c)) st)
  end.
Definition store (lay : layout) (np : npolynom) (nf : Q) (st : list elt) (x : list Q) : res (list elt) :=
  do st <- mapi_res (store_amp nf x) 0 st;
  do st <- (if c_vel c then store_vel lay x st else Ok st);
  do st <- (if c_off c then do d <- oget x (iOff lay); Ok (map (fun e => shift e (d * norm_offset)) st) else Ok st);
  if c_poly c then
    do q <- npoly_of np lay x;
    let '(a0, a1, a2) := getCoeffs q in Ok (map (fun e => set_poly e (a0 / nf, a1 / nf, a2 / nf)) st)
  else Ok st.

(** :712-727: the mean pixel size over the lines inside the range *)
Fixpoint pix_sum (e : elt) (i : nat) (os : list bool) (acc : Q) (n : nat) : Q * nat :=
  match os with
  | [] => (acc, n)
  | o :: t => if o : bool then pix_sum e (S i) t acc n else pix_sum e (S i) t (acc + meanres e i) (S n)
  end.
Definition pixsize (e : elt) : Q := let (p, n) := pix_sum e 0 (outs e) 0 0 in p / inject_Z (Z.of_nat n).
(** :728-738 *)
Fixpoint div_stds (s : list f64) (ls : list line) : list f64 :=
  match s, ls with a :: s, l :: ls => xdiv a (l_nom l) :: div_stds s ls | _, _ => [] end.
Definition amp_std (st0 : list elt) (i : nat) (e : elt) (sigma : Q) : f64 :=
  xmul (noise st0 i) (root (3 / (2 * sigma * pixsize e * sqrtpi))).
(** :699-739; [st0] is the group when the model spectrum is recomputed; the first element outside ends the loop *)
Fixpoint snr_loop (st0 : list elt) (nf : Q) (x : list Q) (i : nat) (es : list elt) : res (list elt) :=
  match es with
  | [] => Ok []
  | e :: t =>
      do a <- vget x i;
      if out e then Ok (set_amplitudes e None NaN :: t)
      else do sigma <- width e;
           let e1 := set_amplitudes e (Some (a / nf)) (amp_std st0 i e sigma) in
           do r <- snr_loop st0 nf x (S i) t;
           Ok (with_amps e1 (amps e1) (div_stds (stds e1) (lines e1)) :: r)
  end.

(** :421-427: the sample with the largest absolute flux *)
Fixpoint max_flux (xs : list nat) (m : Q) : res Q :=
  match xs with [] => Ok m | i :: t => do f <- vget flux i; max_flux t (Qmaxb m (Qabs f)) end.
(** :62-69 the normalised polynomial *)
Definition make_poly (xs : list nat) : res npolynom :=
  match xs with
  | [] => UB
  | i :: _ => do a <- vget axis i; do b <- vget axis (last xs i);
              Ok (construct ((1 # 2) * (b + a)) ((1 # 2) * (b - a)) 0 0 0)
  end.

(** :356-739 fitAmplitudesLinSolvePositive; [xs] is getSupportIndexes of the group (C68) *)
Definition fit (fuel : nat) (xs : list nat) (st : list elt) : res (list elt) :=
  do lay <- make_layout c (map kd st);
  match xs with
  | [] => Throw INTERNAL_ERROR
  | i0 :: _ =>
      if Nat.ltb (length xs) (nddl lay) then                                   (* :412-430 *)
        Ok (map (fun e => let e := set_amplitudes e (Some 0) PInf in if c_poly c then set_poly e (0, 0, 0) else e) st)
      else
        do np <- (if c_poly c then make_poly xs else Ok (mkNPoly 0 0 0 0 0));
        do peak <- max_flux xs 0;
        do b <- make_bounds lay st;
        let st1 := map start_velocity st in
        do r <- svd st1;
        do st2 <- mapi_res (apply_svd (fst r) (snd r)) 0 st1;
        let nf := if Qeq_bool peak 0 then None else Some (1 / peak) in
        do gs <- amp_guess nf st2 NInf;
        if flt (snd gs) (Fin 1) then Ok st2                                    (* :531-533 *)
        else
          match nf with
          | None => UB (* not reached: without flux the ratio stays at -infinity *)
          | Some nf =>
              do s0 <- data_square nf xs 0;
              do g <- make_guess lay np nf st2 (fst gs);
              do b <- defined b; do g <- defined g;
              do m <- minimize fuel lay np nf s0 xs b g [] st2;
              let x := match snd m with Some x => x | None => g end in
              do st3 <- store lay np nf (fst m) x;
              let st4 := map prepareSupport st3 in
              snr_loop st4 nf x 0 st4
          end
  end.

(** :349-354: the flag is not used *)
Definition fitAmplitudesLinSolveAndLambdaOffset (fuel : nat) (xs : list nat) (st : list elt) (enableOffsetFitting : bool) : res (list elt) :=
  fit fuel xs st.
(** :327-339: the velocities before the supports are prepared (C65); the lambda offsets are reset to the catalogue *)
Definition resetSupport (e : elt) : elt :=
  let e := if c_vel c then set_velA (set_velE e (maxE c)) (maxA c) else e in
  prepareSupport (set_offs e (map l_off (lines e))).
End Fitter.
