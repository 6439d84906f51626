(** Model of the intergalactic extinction: RedshiftLibrary/src/lib/spectrum/fluxcorrectionmeiksin.cpp and
    RedshiftLibrary/RedshiftLibrary/spectrum/fluxcorrectionmeiksin.h.  Exact rationals; Int32 indices do not overflow. *)
From Verif Require Import Base RangeModel AxisModel CalzModel.
Open Scope Q_scope.

(** MeiksinCorrection, fluxcorrectionmeiksin.h:53-60: the wavelengths and the extinction curves of one redshift bin *)
Record mcurves := mkMC { mc_lbda : list Q; mc_corr : list (list Q) }.
(** CSpectrumFluxCorrectionMeiksin, fluxcorrectionmeiksin.h:113-124 *)
Record meik := mkMeik { mk_zbins : list Q; mk_raw : list mcurves; mk_cor : list mcurves; mk_min : Q; mk_rawsize : Z; mk_fine : Z; mk_range : range; mk_convolved : bool }.
(** RESTLAMBDA_LYA, IGM_RAW_STEP, IGM_OVERSAMPLING: defaults.h:27-30; m_finegridstep, fluxcorrectionmeiksin.h:124 *)
Definition lya : Q := 1216.
Definition raw_step : Q := 5 # 100.
Definition fine_step : Q := raw_step / 1.

(** the constructor, fluxcorrectionmeiksin.cpp:48-55 (at() twice) *)
Definition NewMeiksin (curves : list mcurves) (zbins : list Q) : res meik :=
  match curves with
  | [] => Throw STD_out_of_range
  | c :: _ => match mc_lbda c with
              | [] => Throw STD_out_of_range
              | l :: _ => Ok (mkMeik zbins curves [] l (Z.of_nat (length (mc_lbda c))) (-1) (mkRange 0 0) false) end
  end.
(** getIdxCount, fluxcorrectionmeiksin.h:75-77 *)
Definition getIdxCount (m : meik) : res Z := do c <- vget (mk_raw m) 0; Ok (Z.of_nat (length (mc_corr c))).
(** getRedshiftIndex, fluxcorrectionmeiksin.cpp:113-121; -1 is undefIdx *)
Definition getRedshiftIndex (m : meik) (z : Q) : res Z :=
  do o <- getClosestLowerIndex (mk_zbins m) z;
  let i := match o with Some i => Z.of_nat i | None => (-1)%Z end in
  Ok (if Z.eqb i (Z.of_nat (length (mk_zbins m)) - 1) then (i - 1)%Z else i).
(** getWaveIndex, fluxcorrectionmeiksin.cpp:124-128 *)
Definition getWaveIndex (m : meik) (w : Q) : Z := Z.min (mk_fine m - 1) (Z.max 0 (Qround_away ((w - mk_min m) / fine_step))).
(** getCorrection with indices, fluxcorrectionmeiksin.h:85-87 *)
Definition getCorrectionIdx (m : meik) (zIdx idx l : Z) : res Q :=
  do c <- zget (mk_cor m) zIdx; do k <- zget (mc_corr c) idx; zat k l.
(** getCorrection, fluxcorrectionmeiksin.cpp:57-71 *)
Definition getCorrection (m : meik) (z : Q) (idx : Z) (lam : Q) : res Q :=
  if Qltb lya lam then Ok 1
  else if Z.eqb idx (-1) then Throw INTERNAL_ERROR
  else do zIdx <- getRedshiftIndex m z;
       if Z.eqb zIdx (-1) then Ok 1 else getCorrectionIdx m zIdx idx (getWaveIndex m lam).
(** getCorrectionDerivLbdaRest, fluxcorrectionmeiksin.cpp:91-101.  [None]: the division 0/0, a NaN. *)
Definition getDerivIdx (m : meik) (zIdx idx l : Z) : res (option Q) :=
  let i0 := Z.max 0 (l - 1) in let i1 := Z.min (mk_fine m - 1) (l + 1) in
  do c <- zget (mk_cor m) zIdx; do k <- zget (mc_corr c) idx;
  do k1 <- zat k i1; do k0 <- zat k i0; do l1 <- zat (mc_lbda c) i1; do l0 <- zat (mc_lbda c) i0;
  Ok (if Qeq_bool (l1 - l0) 0 then None else Some ((k1 - k0) / (l1 - l0))).
(** getCorrectionAndDerivLbdaRest, fluxcorrectionmeiksin.cpp:73-89 *)
Definition getCorrectionAndDeriv (m : meik) (z : Q) (idx : Z) (lam : Q) : res (Q * option Q) :=
  if Qltb lya lam then Ok (1, Some 0)
  else if Z.eqb idx (-1) then Throw INTERNAL_ERROR
  else do zIdx <- getRedshiftIndex m z;
       if Z.eqb zIdx (-1) then Ok (1, Some 0)
       else do v <- getCorrectionIdx m zIdx idx (getWaveIndex m lam); do d <- getDerivIdx m zIdx idx (getWaveIndex m lam); Ok (v, d).
(** getWaveRangeIndices, fluxcorrectionmeiksin.cpp:179-194: clamped to the grid *)
Definition getWaveRangeIndices (m : meik) (r : range) (raw : bool) : Z * Z :=
  let step := if raw then raw_step else fine_step in
  let size := if raw then mk_rawsize m else mk_fine m in
  (Z.min (size - 1) (Z.max 0 (Qceiling ((rbeg r - mk_min m) / step))), Z.min (size - 1) (Z.max 0 (Qfloor ((rend r - mk_min m) / step)))).
(** getWaveVector, fluxcorrectionmeiksin.cpp:165-177 *)
Definition getWaveVector (m : meik) (i j : Z) (raw : bool) : list Q :=
  if (j - i <? 0)%Z then []
  else map (fun k => mk_min m + (if raw then raw_step else fine_step) * inject_Z (i + Z.of_nat k)) (seq 0 (Z.to_nat (j - i + 1))).
(** a loop which stops at the first failure *)
Fixpoint mapr {A B} (f : A -> res B) (l : list A) : res (list B) :=
  match l with [] => Ok [] | x :: t => do y <- f x; do r <- mapr f t; Ok (y :: r) end.
(** getWaveAndCorrectionVector, fluxcorrectionmeiksin.cpp:131-155; SpreadOver(1) of integers: range.h:145-159 *)
Definition getWaveAndCorrectionVector (m : meik) (r : range) (z : Q) (idx : Z) : res (list Q * list Q) :=
  let (i, j) := getWaveRangeIndices m r false in
  let wave := getWaveVector m i j false in
  match wave with
  | [] => Throw INTERNAL_ERROR
  | _ =>
      do zIdx <- getRedshiftIndex m z;
      if Z.eqb zIdx (-1) then Ok (wave, map (fun _ => 1) wave)
      else do c <- mapr (fun k => getCorrectionIdx m zIdx idx (i + Z.of_nat k)) (seq 0 (Z.to_nat (j - i + 1))); Ok (wave, c)
  end.

Section Lsf.
  (** the LSF (LsfModel.v): the width at a clipped wavelength, the support of its profile, the normalized profile on wavelengths *)
  Context (width : Q -> res Q) (nsigma : Q) (kernel : list Q -> Q -> res (list Q)).
  (** sum of the products, fluxcorrectionmeiksin.cpp:236-237: arr is indexed without check *)
  Fixpoint dot (k : list Q) (arr : list Q) (i : nat) (acc : Q) : res Q :=
    match k with [] => Ok acc | x :: t => do a <- vget arr i; dot t arr (S i) (acc + x * a) end.
  (** one turn of the loop of fluxcorrectionmeiksin.cpp:217-238; the checks 225-227 never fail as the indices are clamped *)
  Definition convolve_at (m : meik) (arr lambdas fine : list Q) (zc : Q) (i : nat) : res Q :=
    do l0 <- vget fine i;
    do w <- width (l0 * (1 + zc));
    let half := w * (nsigma / 2 / (1 + zc)) in
    let (b, e) := getWaveRangeIndices m (mkRange (l0 - half) (l0 + half)) true in
    if ((b <? 0) || (mk_rawsize m <=? e))%Z then Throw INTERNAL_ERROR
    else if (e - b <? 0)%Z then Throw INTERNAL_ERROR
    else
      do ls <- mapr (fun k => vget lambdas k) (seq (Z.to_nat b) (Z.to_nat (e - b + 1)));
      do k <- kernel (map (fun v => v * (1 + zc)) ls) (l0 * (1 + zc));
      dot k arr (Z.to_nat b) 0.
  (** ConvolveByLSFOneCurve, fluxcorrectionmeiksin.cpp:199-241; a division by 1 + z = 0 is not modelled.  [fine]: not empty. *)
  Definition ConvolveByLSFOneCurve (m : meik) (arr lambdas fine : list Q) (zb ze : Q) : res (list Q) :=
    match arr with
    | [] => Throw INTERNAL_ERROR
    | _ =>
        let zeros := repeat 0 (length fine) in
        let conv := mkRange (rbeg (mk_range m) / (1 + ze)) (rend (mk_range m) / (1 + zb)) in
        let frange := match fine with [] => mkRange 0 0 | a :: t => mkRange a (last t a) end in
        let (overlap, conv) := IntersectWith conv frange in
        if negb overlap then Ok zeros
        else
          let (i0, i1) := getWaveRangeIndices m conv false in
          let zc := (zb + ze) / 2 in
          mapr (fun k => if ((i0 <=? Z.of_nat k) && (Z.of_nat k <=? i1))%Z then convolve_at m arr lambdas fine zc k else Ok 0) (seq 0 (length fine))
    end.
  (** the curves of one bin, fluxcorrectionmeiksin.cpp:262-273: the convolved curves are appended to those already there *)
  Definition convolve_bin (m : meik) (fine : list Q) (i : nat) (old : mcurves) : res mcurves :=
    do zb <- vget (mk_zbins m) i; do ze <- vget (mk_zbins m) (S i);
    do c <- vget (mk_raw m) i;
    do l <- mapr (fun a => ConvolveByLSFOneCurve m a (mc_lbda c) fine zb ze) (mc_corr c);
    Ok (mkMC fine (mc_corr old ++ l)).
  (** m_corrections.resize(n), 259 *)
  Definition resized (l : list mcurves) (n : nat) : list mcurves := firstn n l ++ repeat (mkMC [] []) (n - length l).
  (** convolveByLSF, fluxcorrectionmeiksin.cpp:246-277 *)
  Definition convolveByLSF (m : meik) (r : range) : res meik :=
    do c0 <- vget (mk_raw m) 0;
    do bk <- back (mc_lbda c0);
    do fine <- SpreadOverEpsilon (mkRange (mk_min m) bk) fine_step false default_epsilon;
    let m1 := mkMeik (mk_zbins m) (mk_raw m) (mk_cor m) (mk_min m) (mk_rawsize m) (Z.of_nat (length fine)) r (mk_convolved m) in
    let n := length (mk_raw m) in
    do cs <- mapr (fun p => convolve_bin m1 fine (fst p) (snd p)) (combine (seq 0 n) (resized (mk_cor m) n));
    Ok (mkMeik (mk_zbins m) (mk_raw m) cs (mk_min m) (mk_rawsize m) (Z.of_nat (length fine)) r true).
End Lsf.
