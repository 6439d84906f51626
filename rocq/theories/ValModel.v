(** Model of the validation of an input spectrum: RedshiftLibrary/src/lib/spectrum/spectrum.cpp:440-547, 646-690.  The type of the
    spectrum is raw, as it is on input (the flux and error axes are the raw ones); the cache of isSorted is that of C17. *)
From Verif Require Import Base F64 RangeModel AxisModel FluxModel SpcModel.
Open Scope Q_scope.

(** the wavelengths, the flux and noise samples, and the availability test of the LSF if there is one (LSF.h, checkAvailability) *)
Record vspc := mkV { v_axis : list Q; v_flux : list f64; v_noise : list f64; v_lsf : option (Q -> bool) }.
(** IsValid, spectrum.h:304-311 *)
Definition ValidAxes (s : vspc) : bool :=
  (Nat.eqb (length (v_axis s)) (length (v_flux s)) && negb (Nat.eqb (length (v_axis s)) 0 || Nat.eqb (length (v_flux s)) 0) && sorted_axis (v_axis s))%bool.
(** flux[i] != 0: true of a NaN *)
Definition nonzero (x : f64) : bool := match x with Fin q => negb (Qeq_bool q 0) | _ => true end.
(** the loop of spectrum.cpp:464-475: (number of invalid samples, all zero), [n] samples from [i]; unchecked reads *)
Fixpoint flux_loop (fl : list f64) (i n : nat) (st : nat * bool) : res (nat * bool) :=
  match n with
  | O => Ok st
  | S k =>
      do v <- vget (checkFlux fl) i; do x <- vget fl i;
      flux_loop fl (S i) k ((if (v : bool) then fst st else S (fst st)), (if nonzero x then false else snd st))
  end.
(** ValidateFlux, spectrum.cpp:440-488 *)
Definition ValidateFlux (s : vspc) (lmin lmax : Q) : res unit :=
  if Nat.eqb (length (v_flux s)) 0 then Throw INVALID_SPECTRUM_FLUX
  else
    do iMin <- GetIndexAtWaveLength (v_axis s) lmin; do iMax <- GetIndexAtWaveLength (v_axis s) lmax;
    do st <- flux_loop (v_flux s) iMin (iMax - iMin) (O, true);
    if Nat.ltb 0 (fst st) then Throw INVALID_SPECTRUM_FLUX else if snd st then Throw INVALID_SPECTRUM_FLUX else Ok tt.
(** the loop of spectrum.cpp:513-518 *)
Fixpoint noise_loop (no : list f64) (i n : nat) (c : nat) : res nat :=
  match n with O => Ok c | S k => do v <- vget (checkNoise no) i; noise_loop no (S i) k (if (v : bool) then c else S c) end.
(** ValidateNoise, spectrum.cpp:490-528 *)
Definition ValidateNoise (s : vspc) (lmin lmax : Q) : res unit :=
  if Nat.eqb (length (v_noise s)) 0 then Throw INVALID_NOISE
  else
    do iMin <- GetIndexAtWaveLength (v_axis s) lmin; do iMax <- GetIndexAtWaveLength (v_axis s) lmax;
    do c <- noise_loop (v_noise s) iMin (iMax - iMin) O;
    if Nat.ltb 0 c then Throw INVALID_NOISE else Ok tt.
(** correctSpectrum, spectrum.cpp:530-547, with its default coefficient (spectrum.h:146) *)
Definition CorrectSpectrum (s : vspc) (lmin lmax : Q) : res (vspc * bool) :=
  if ValidAxes s then
    do iMin <- GetIndexAtWaveLength (v_axis s) lmin; do iMax <- GetIndexAtWaveLength (v_axis s) lmax;
    do r <- correctFluxAndNoiseAxis (v_flux s) (v_noise s) (Z.of_nat iMin) (Z.of_nat iMax) 10;
    let '(b, fl, no, _) := r in Ok (mkV (v_axis s) fl no (v_lsf s), b)
  else Throw INVALID_SPECTRUM.
(** ValidateSpectrum, spectrum.cpp:646-690: the spectrum afterwards and the outcome *)
Definition ValidateSpectrum (s : vspc) (r : range) (correct : bool) : vspc * res unit :=
  if negb (ValidAxes s) then (s, Throw INVALID_SPECTRUM)
  else
    match ClampLambdaRange (v_axis s) r with
    | Throw e => (s, Throw e) | UB => (s, UB)
    | Ok c =>
        let lmin := rbeg c in let lmax := rend c in
        match (if correct then CorrectSpectrum s lmin lmax else Ok (s, false)) with
        | Throw e => (s, Throw e) | UB => (s, UB)
        | Ok (s1, _) =>
            (s1, do _ <- ValidateFlux s1 lmin lmax;
                 do _ <- ValidateNoise s1 lmin lmax;
                 match v_lsf s1 with
                 | None => Ok tt
                 | Some av => if (negb (av lmin) || negb (av lmax))%bool then Throw INVALID_LSF else Ok tt end)
        end
    end.
