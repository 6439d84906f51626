(** Model of the line profiles: RedshiftLibrary/src/lib/line/lineprofileSYM.cpp, lineprofileLOR.cpp, lineprofileASYM.cpp,
    lineprofileASYMFIT.cpp (the IGM profile is in SymIgmModel.v).  Real arithmetic, no rounding; a division by zero is only
    meaningful under the hypotheses of the theorems (non null widths).  NaN parameters are [None]; a result [Ok None] is NaN. *)
From Coq Require Import String.
From Coquelicot Require Import Coquelicot.
From Verif Require Import Base RBase.
Open Scope R_scope.

(** std::erf (C standard, 7.12.8.1) *)
Definition erf (x : R) : R := 2 / sqrt PI * RInt (fun t => exp (- (t * t))) 0 x.

(** lineprofileSYM.cpp:51-60 *)
Definition sym_val (x x0 sigma : R) : R := let xsurc := (x - x0) / sigma in exp (- (1 / 2) * xsurc * xsurc).
(** lineprofileSYM.cpp:62-65 *)
Definition sym_flux (x0 sigma A : R) : R := A * sigma * sqrt (2 * PI).
(** lineprofileSYM.cpp:67-76 *)
Definition sym_deriv_x0 (x x0 sigma : R) : R :=
  let xsurc := (x - x0) / sigma in xsurc / sigma * exp (- (1 / 2) * xsurc * xsurc).
(** lineprofileSYM.cpp:78-88 *)
Definition sym_deriv_sigma (x x0 sigma : R) : R :=
  let xsurc := (x - x0) / sigma in let xsurc2 := xsurc * xsurc in xsurc2 / sigma * exp (- (1 / 2) * xsurc2).

(** lineprofileLOR.cpp:48-57 *)
Definition lor_val (x x0 sigma : R) : R := let xsurc := (x - x0) / sigma in 1 / (1 + xsurc * xsurc).
(** lineprofileLOR.cpp:63-66 *)
Definition lor_flux (x0 sigma A : R) : R := A * sigma * PI.
(** lineprofileLOR.cpp:68-77 *)
Definition lor_deriv_x0 (x x0 sigma : R) : res R := Throw INTERNAL_ERROR.
Definition lor_deriv_sigma (x x0 sigma : R) : res R := Throw INTERNAL_ERROR.
(** lineprofileLOR.cpp:59-61; lineprofile.h:112 for the symmetric profiles *)
Definition lor_support (nsigma : R) : R := nsigma * 2.
Definition sym_support (nsigma : R) : R := nsigma.

(** ** ASYM: members of lineprofileASYM.h:107-111; [ap_fit] distinguishes CLineProfileASYMFIT *)
Record aprof := mkAsym { ap_nsigma : R; ap_coeff : option R; ap_alpha : option R; ap_delta : option R;
  ap_centering : string; ap_const : R; ap_fit : bool }.
Definition aparams : Type := (option R * option R * option R)%type.
(** lineprofileASYM.cpp:46-59 and lineprofileASYMFIT.cpp:46-49 *)
Definition asym_new (fit : bool) (nsigma : R) (p : aparams) (centering : string) : aprof :=
  let '(c, a, d) := p in
  mkAsym nsigma c a d centering (if (String.eqb centering "mean" || String.eqb centering "mode")%bool then 5 / 2 else 1) fit.
(** GetAsymParams, lineprofileASYM.cpp:177-179 *)
Definition GetAsymParams (p : aprof) : aparams := (ap_coeff p, ap_alpha p, ap_delta p).
(** conversions, lineprofileASYM.cpp:61-68 and lineprofileASYMFIT.cpp:51-57 *)
Definition cloneToASYMFIT (p : aprof) : aprof := asym_new true (ap_nsigma p) (GetAsymParams p) (ap_centering p).
Definition cloneToASYM (p : aprof) : aprof := asym_new false (ap_nsigma p) (GetAsymParams p) (ap_centering p).
(** SetAsymParams: lineprofileASYMFIT.cpp:59-69 (the warning is not modelled); no effect on the other profiles (lineprofile.h:125) *)
Definition SetAsymParams (p : aprof) (q : aparams) : aprof :=
  if ap_fit p then let '(c, a, d) := q in mkAsym (ap_nsigma p) c a d (ap_centering p) (ap_const p) true else p.
(** resetParams, lineprofileASYMFIT.cpp:71-75; no effect on ASYM (lineprofile.h:127) *)
Definition resetParams (p : aprof) : aprof :=
  if ap_fit p then mkAsym (ap_nsigma p) (Some 2) (Some 0) (Some 0) (ap_centering p) (ap_const p) true else p.
(** isValid, lineprofileASYM.cpp:181-187: alpha is tested twice and delta never *)
Definition isnan (x : option R) : bool := match x with None => true | Some _ => false end.
Definition asym_isValid (p : aprof) : bool := negb (isnan (ap_coeff p) || isnan (ap_alpha p) || isnan (ap_alpha p)).

(** centre of the profile in units of the width, GetXSurc, lineprofileASYM.cpp:73-97; an unknown method gives 0 *)
Definition asym_m0 (centering : string) (alpha : R) : R :=
  let delta := alpha / sqrt (1 + alpha * alpha) in
  let muz := delta * sqrt (2 / PI) in
  if String.eqb centering "none" then 0
  else if String.eqb centering "mean" then muz
  else if String.eqb centering "mode" then
    let sigmaz := sqrt (1 - muz * muz) in
    let gamma1 := (4 - PI) / 2 * (delta * sqrt (2 / PI)) ^ 3 / Rpower (1 - 2 * delta * delta / PI) (3 / 2) in
    muz - gamma1 * sigmaz / 2 - 1 / 2 * exp (- 2 * PI / alpha)
  else 0.
(** GetXSurc, lineprofileASYM.cpp:70-104: (m0, sigma, xsurc); a NaN delta is a true condition, and a NaN xsurc otherwise *)
Definition GetXSurc (p : aprof) (coeff alpha xc sigma : R) : res (R * R * option R) :=
  if (String.eqb (ap_centering p) "none" && match ap_delta p with Some d => negb (Reqb d 0) | None => true end)%bool
  then Throw INTERNAL_ERROR else
  let sigma' := sigma * coeff in
  let m0 := asym_m0 (ap_centering p) alpha in
  let xc' := xc + sigma' * m0 in
  Ok (m0, sigma', match ap_delta p with Some d => Some ((xc' + d) / sigma') | None => None end).
Definition with_valid {A} (p : aprof) (f : R -> R -> res A) : res A :=
  if asym_isValid p then match ap_coeff p, ap_alpha p with Some c, Some a => f c a | _, _ => Throw INTERNAL_ERROR end
  else Throw INTERNAL_ERROR.
(** lineprofileASYM.cpp:106-117 *)
Definition asym_val (p : aprof) (x x0 sigma : R) : res (option R) :=
  with_valid p (fun coeff alpha =>
    do (_, _, xs) <- GetXSurc p coeff alpha (x - x0) sigma;
    Ok (option_map (fun xsurc => exp (- (1 / 2) * xsurc * xsurc) * (1 + erf (alpha / sqrt 2 * xsurc))) xs)).
(** lineprofileASYM.cpp:119-126: [None] when the coefficient is NaN *)
Definition asym_support (p : aprof) : option R := option_map (fun c => ap_nsigma p * c * ap_const p) (ap_coeff p).
Definition asym_flux (p : aprof) (x0 sigma A : R) : option R := option_map (fun c => A * sigma * c * sqrt (2 * PI)) (ap_coeff p).
(** lineprofileASYM.cpp:128-145 *)
Definition asym_deriv_x0 (p : aprof) (x x0 sigma : R) : res (option R) :=
  with_valid p (fun coeff alpha =>
    let alpha2 := alpha * alpha in
    do (_, sigma, xs) <- GetXSurc p coeff alpha (x - x0) sigma;
    Ok (option_map (fun xsurc =>
      let xsurc2 := xsurc * xsurc in
      xsurc / sigma * exp (- (1 / 2) * xsurc2) * (1 + erf (alpha / sqrt 2 * xsurc))
      - alpha / sqrt (2 * PI) / sigma * exp (- (1 + alpha2) / 2 * xsurc2)) xs)).
(** lineprofileASYM.cpp:147-175 *)
Definition asym_deriv_sigma (p : aprof) (x x0 sigma : R) : res (option R) :=
  with_valid p (fun coeff alpha =>
    let alpha2 := alpha * alpha in
    do (muz, sigma, xs) <- GetXSurc p coeff alpha (x - x0) sigma;
    if (String.eqb (ap_centering p) "none" && negb (Reqb muz 0))%bool then Throw INTERNAL_ERROR else
    Ok (option_map (fun xsurc =>
      let xsurc2 := xsurc * xsurc in
      let valSym := exp (- (1 / 2) * xsurc2) in
      let valAsym := 1 + erf (alpha / sqrt 2 * xsurc) in
      let valSymD := coeff * (xsurc2 / sigma - muz * xsurc / sigma) * exp (- (1 / 2) * xsurc2) in
      let valAsymD := coeff * alpha * sqrt 2 / (sigma * sqrt PI) * (muz - xsurc) * exp (- (1 / 2) * xsurc2 * alpha2) in
      valSym * valAsymD + valSymD * valAsym) xs)).
