(** Model of the Gaussian line profile with intergalactic extinction: RedshiftLibrary/src/lib/line/lineprofileSYMIGM.cpp and
    RedshiftLibrary/RedshiftLibrary/line/lineprofileSYMIGM.h.  Real arithmetic; a NaN is [None]. *)
From Coquelicot Require Import Coquelicot.
From Verif Require Import Base RBase LProfModel.
Open Scope R_scope.

(** members of lineprofileSYMIGM.h:94-97; TSymIgmParams, lineprofile.h:76-83.  -1 is undefIdx. *)
Record sprof := mkS { s_has : bool; s_z : option R; s_idx : Z; s_fit : bool }.
Definition sparams : Type := (Z * option R)%type.
Definition NewSymIgm (has : bool) : sprof := mkS has None (-1) false.
Definition SetSymIgmParams (s : sprof) (p : sparams) : sprof := mkS (s_has s) (snd p) (fst p) (s_fit s).
Definition GetSymIgmParams (s : sprof) : sparams := (s_idx s, s_z s).
Definition SetSymIgmFit (s : sprof) (b : bool) : sprof := mkS (s_has s) (s_z s) (s_idx s) b.
(** resetParams, lineprofileSYMIGM.cpp:160-163 *)
Definition resetParams (s : sprof) : sprof := if s_fit s then SetSymIgmParams s ((-1)%Z, None) else s.
(** GetIgmIdx, lineprofileSYMIGM.h:81-83 *)
Definition GetIgmIdx (s : sprof) : Z := if Z.eqb (s_idx s) (-1) then 3%Z else s_idx s.

(** the trapezoidal rule on all the samples (integrateFluxes_usingTrapez with the whole range of indices, see C61) *)
Fixpoint trapz (xs ys : list R) : R :=
  match xs, ys with
  | x0 :: ((x1 :: _) as xt), y0 :: ((y1 :: _) as yt) => (x1 - x0) * (1 / 2) * (y1 + y0) + trapz xt yt
  | _, _ => 0
  end.
Fixpoint mapres {A B} (f : A -> res B) (l : list A) : res (list B) :=
  match l with [] => Ok [] | x :: t => do y <- f x; do r <- mapres f t; Ok (y :: r) end.

(** RESTLAMBDA_LYA and N_SIGMA_SUPPORT, defaults.h *)
Definition rest_lya : R := 1216.
Definition nsigma_support : R := 8.

Section SymIgm.
  (** the Meiksin object (C59): getCorrection, getCorrectionAndDerivLbdaRest and getWaveAndCorrectionVector, their redshift and wavelength
      possibly NaN; and getIdxCount *)
  Context (corr : option R -> Z -> option R -> res R) (corrd : option R -> Z -> option R -> res (R * R)).
  Context (waves : option (R * R) -> option R -> Z -> res (list R * list R)) (count : Z).

  Definition rest (s : sprof) (x : R) : option R := match s_z s with Some z => Some (x / (1 + z)) | None => None end.
  (** getIGMCorrection, lineprofileSYMIGM.cpp:169-172 *)
  Definition getIGMCorrection (s : sprof) (x : R) : res R := corr (s_z s) (GetIgmIdx s) (rest s x).
  (** getIGMCorrectionAndDerivX0, lineprofileSYMIGM.cpp:174-186 *)
  Definition getIGMCorrectionAndDerivX0 (s : sprof) (x x0 : R) : res (R * option R) :=
    do p <- corrd (s_z s) (GetIgmIdx s) (rest s x);
    Ok (fst p, match rest s x with Some xr => Some (- xr / x0 * snd p) | None => None end).
  (** CheckMeiksinInit, lineprofileSYMIGM.cpp:56-60 *)
  Definition check {A} (s : sprof) (r : res A) : res A := if s_has s then r else Throw INTERNAL_ERROR.
  (** GetLineProfileVal, lineprofileSYMIGM.cpp:62-71 *)
  Definition symigm_val (s : sprof) (x x0 sigma : R) : res R := check s (do t <- getIGMCorrection s x; Ok (sym_val x x0 sigma * t)).
  (** GetLineProfileDerivX0, lineprofileSYMIGM.cpp:125-140; None: NaN *)
  Definition symigm_deriv_x0 (s : sprof) (x x0 sigma : R) : res (option R) :=
    check s (do p <- getIGMCorrectionAndDerivX0 s x x0;
             Ok (match snd p with Some d => Some (sym_deriv_x0 x x0 sigma * fst p + sym_val x x0 sigma * d) | None => None end)).
  (** GetLineProfileDerivSigma, lineprofileSYMIGM.cpp:142-151 *)
  Definition symigm_deriv_sigma (s : sprof) (x x0 sigma : R) : res R := check s (do t <- getIGMCorrection s x; Ok (sym_deriv_sigma x x0 sigma * t)).
  (** GetLineFlux, lineprofileSYMIGM.cpp:84-122, with a redshift; the check of an empty list never fails (C59: getWaveAndCorrectionVector
      throws then); zip: both lists have the same size *)
  Definition symigm_flux (s : sprof) (z x0 sigma A : R) : res R :=
    check s (
      let x0r := x0 / (1 + z) in let w := sigma / (1 + z) * nsigma_support in
      let lo := x0r - w / 2 in let hi := x0r + w / 2 in
      if Rltb rest_lya lo then Ok (sym_flux x0 sigma A)
      else
        do p <- waves (Some (lo, hi)) (Some z) (GetIgmIdx s);
        let xr := fst p in
        match xr with
        | [] => Throw INTERNAL_ERROR
        | _ =>
            do g <- mapres (fun x => symigm_val s x x0 sigma) (map (fun x => x * (1 + z)) xr);
            if Nat.ltb (length xr) 2 then Throw INTERNAL_ERROR
            else Ok (A * trapz xr (map (fun q => fst q * snd q) (combine g (snd p))))
        end).
  (** getIGMIdxCount, lineprofileSYMIGM.cpp:165-167: no check of the pointer *)
  Definition getIGMIdxCount (s : sprof) : res Z := if s_has s then Ok count else UB.
End SymIgm.

(** calls which change the parameters *)
Inductive pcall := PSet (p : sparams) | PFit (b : bool) | PReset.
Definition pstep (s : sprof) (c : pcall) : sprof := match c with PSet p => SetSymIgmParams s p | PFit b => SetSymIgmFit s b | PReset => resetParams s end.
