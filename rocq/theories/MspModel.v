(** Model of the spectrum of the model and of what is measured with it: RedshiftLibrary/src/lib/linemodel/spectrummodel.cpp:78-124, 126-280, 319-375, 419-640,
    650-672 and linemodelfitting.cpp:1173-1243.  Exact rationals; a spectrum is a function of the sample; None is NaN.
    An element is what it adds to a sample under its windows (C66: addToSpectrumModel adds the lines once to each sample of its support), its windows
    (getTheoreticalSupport), its type, and whether it is listed by getValidElementIndices (C68: in the range, not disabled, of positive amplitude).
    The amplitude offsets (C68) are a function of the list of elements; [] stands for all of them. *)
From Coq Require Import String Qabs.
From Verif Require Import Base MeikModel IntegModel.
Open Scope Q_scope.

Definition spec := nat -> Q.
Record elt := mkElt { e_em : bool; e_win : list (Z * Z); e_add : Q -> nat -> Q; e_lit : bool }.
(** m_SpectrumModel, m_ContinuumFluxAxis, m_SpcFluxAxis, m_spcFluxAxisNoContinuum *)
Record mst := mkM { m_model : spec; m_cont : spec; m_spc : spec; m_noc : spec }.
Definition set_model (s : mst) (f : spec) : mst := mkM f (m_cont s) (m_spc s) (m_noc s).
Definition in_win (rs : list (Z * Z)) (t : nat) : bool := existsb (fun p => (fst p <=? Z.of_nat t)%Z && (Z.of_nat t <=? snd p)%Z) rs.
(** addToSpectrumModel and initSpectrumModel *)
Definition drawE (cont : spec) (e : elt) (flux : spec) : spec := fun t => if in_win (e_win e) t then flux t + e_add e (cont t) t else flux t.
Definition initE (cont : spec) (e : elt) (flux : spec) : spec := fun t => if in_win (e_win e) t then cont t else flux t.
Definition type_ok (flt : option bool) (e : elt) : bool := match flt with None => true | Some b => Bool.eqb b (e_em e) end.

Section Msp.
  Variable es : list elt.
  (** m_enableAmplitudeOffsets and addToSpectrumAmplitudeOffset *)
  Variable offs : option (list nat -> nat -> Q).
  Variable axis : nat -> Q.

  (** spectrummodel.cpp:99-123 *)
  Definition refreshModel (flt : option bool) (s : mst) : mst :=
    let f0 := match offs with Some o => fun t => m_cont s t + o [] t | None => m_cont s end in
    set_model s (fold_left (fun f e => if type_ok flt e then drawE (m_cont s) e f else f) es f0).
  (** spectrummodel.cpp:86-97 and 129-141, without line index *)
  Definition refreshUnder (idx : list nat) (s : mst) : res mst :=
    do l <- mapr (vget es) idx;
    let f1 := fold_left (fun f e => initE (m_cont s) e f) l (m_model s) in
    Ok (set_model s (fold_left (fun f e => drawE (m_cont s) e f) l f1)).
  (** spectrummodel.cpp:650-672 *)
  Fixpoint getModel_loop (cont : spec) (flt : option bool) (l : list elt) (f : spec) : spec :=
    match l with
    | [] => f
    | e :: t => let f1 := initE cont e f in getModel_loop cont flt t (if type_ok flt e then drawE cont e f1 else f1)
    end.
  Definition getModel (idx : list nat) (flt : option bool) (s : mst) : res spec :=
    do l <- mapr (vget es) idx; Ok (getModel_loop (m_cont s) flt l (fun _ => 0)).

  (** spectrummodel.cpp:78-83 *)
  Definition initModelWithContinuum (s : mst) : mst := mkM (m_cont s) (m_cont s) (m_spc s) (fun t => m_spc s t - m_cont s t).
  (** spectrummodel.cpp:424-456; [raw], [icont], [inoc]: raw flux, continuum and flux without continuum of the input spectrum *)
  Definition setContinuumComponent (raw icont inoc : spec) (c : string) (s : mst) : mst :=
    let s1 := if String.eqb c "noContinuum" then mkM (fun _ => 0) (fun _ => 0) raw raw else s in
    let s2 := if String.eqb c "fromSpectrum" then mkM icont icont raw inoc else s1 in
    if String.eqb c "tplFit" || String.eqb c "tplFitAuto" then mkM (fun _ => 0) (fun _ => 0) raw (m_noc s2) else s2.
  (** spectrummodel.cpp:473-478 *)
  Fixpoint poly_loop (coef : Q) (x lb acc : Q) (cs : list Q) : Q :=
    match cs with [] => acc | c :: t => poly_loop coef x (lb * x) (acc + coef * c * lb) t end.
  (** spectrummodel.cpp:458-482; [grid]: m_observeGridContinuumFlux, read only if alpha is not 1 *)
  Definition setContinuumFromTplFit (grid icont : spec) (alpha amp : Q) (cs : list Q) (s : mst) : mst :=
    let c := fun t => let a := if Qeq_bool alpha 1 then 0 else (1 - alpha) * grid t * amp in
                      let b := if Qeq_bool alpha 0 then a else a + alpha * icont t in
                      if Qeq_bool alpha 1 then b else poly_loop (1 - alpha) (axis t) 1 b cs in
    mkM (m_model s) c (m_spc s) (fun t => m_spc s t - c t).
  (** spectrummodel.cpp:182-203: the flux whose continuum is estimated *)
  Definition nothingUnderLines (enhance : Q) (s : mst) : spec :=
    fun t => let l := m_model s t - m_cont s t in m_spc s t - (if Qltb 0 enhance then l * enhance else l).

  (** spectrummodel.cpp:262-294: [wins] are the windows of the elements *)
  Definition one_weight (t : nat) (r : Z * Z) : Q :=
    if (fst r <? Z.of_nat t)%Z && (Z.of_nat t <? snd r)%Z then
      let lo := axis (Z.to_nat (fst r)) in let hi := axis (Z.to_nat (snd r)) in
      if Qltb 0 (hi - lo) then 1 - Qabs ((axis t - lo) - (hi - axis t)) / (hi - lo) else 0
    else 0.
  Definition weighting (t : nat) (wins : list (Z * Z)) : Q :=
    fold_left (fun m r => if Qltb m (one_weight t r) then one_weight t r else m) wins 0.
  (** spectrummodel.cpp:213-260; the spectrum returned and the state left *)
  Definition linesRemoved (flt : option bool) (s : mst) : spec * mst :=
    let s1 := match flt with Some b => refreshModel (Some (negb b)) s | None => s end in
    let fac := m_model s1 in
    let s2 := refreshModel flt s1 in
    let lit := filter (fun e => e_lit e && type_ok flt e) es in
    let wins := flat_map e_win lit in
    (fun t => let y := m_spc s t - m_model s2 t + m_cont s t in
              if in_win wins t then let alpha := (9 # 10) * weighting t wins in (1 - alpha) * y + alpha * fac t else y, s2).
  (** spectrummodel.cpp:360-375: the sum and the number of samples, and the state left *)
  Fixpoint sq_loop (f c : spec) (t n : nat) (acc : Q * nat) : Q * nat :=
    match n with O => acc | S k => let d := f t - c t in sq_loop f c (S t) k (fst acc + d * d, S (snd acc)) end.
  Definition continuumResidual (b e : nat) (s : mst) : (Q * nat) * mst :=
    let (f, s2) := linesRemoved None s in (sq_loop f (m_cont s2) b (S e - b) (0, O), s2).
  (** spectrummodel.cpp:320-346: the weighted sum, the weights, their squares; [poly] is the polynomial of the element *)
  Fixpoint wsum_loop (s : mst) (poly : Q -> Q) (t : nat) (ws : list Q) (acc : Q * Q * Q) : Q * Q * Q :=
    match ws with
    | [] => acc
    | w :: k => let c := match offs with Some _ => m_cont s t + poly (axis t) | None => m_cont s t end in
                wsum_loop s poly (S t) k (fst (fst acc) + w * c, snd (fst acc) + w, snd acc + w * w)
    end.
  Definition continuumWeightedSum (s : mst) (poly : Q -> Q) (b : nat) (ws : list Q) : Q * Q * Q := wsum_loop s poly b ws (0, 0, 0).

  (** spectrummodel.cpp:523-549 *)
  Definition continuumUnderLines (rs : list (Z * Z)) (idx : list nat) (sub : bool) (s : mst) : res spec :=
    do f <- (if sub then getModel idx (Some false) s else Ok (m_cont s));
    Ok (fun t => if in_win rs t then match offs with Some o => f t + o idx t | None => f t end else 0).
  (** spectrummodel.cpp:507-510 *)
  Definition minus_continuum (rs : list (Z * Z)) (c flux : spec) : spec :=
    fold_left (fun f r => fun t => if in_win [r] t then f t - c t else f t) rs flux.
  (** spectrummodel.cpp:492-518 for n samples; [rs]: getlambdaIndexesUnderLines, [err]: the error of the observed flux *)
  Definition directIntegration (n : nat) (err : spec) (rs : list (Z * Z)) (idx sub_idx : list nat) (sub : bool) (s : mst) : res (Q * Q) :=
    if negb (Nat.eqb (List.length idx) (List.length sub_idx)) then Throw INTERNAL_ERROR
    else match rs with
         | [] => Throw INTERNAL_ERROR
         | _ => do c <- continuumUnderLines rs idx sub s;
                integrate (map axis (seq 0 n)) (map (minus_continuum rs c (m_spc s)) (seq 0 n)) (map err (seq 0 n)) rs
         end.
End Msp.

(** ** the mean of the continuum under a line, linemodelfitting.cpp:1173-1222: one item for each spectrum in whose range the line is;
    the sums of continuumWeightedSum and of continuumResidual *)
Record csums := mkC { c_sum : Q; c_w : Q; c_w2 : Q; c_res : Q; c_n : nat }.
Definition meanContinuum (sqrtf : Q -> Q) (l : list csums) : option Q * option Q :=
  let t := fold_left (fun a b => mkC (c_sum a + c_sum b) (c_w a + c_w b) (c_w2 a + c_w2 b) (c_res a + c_res b) (c_n a + c_n b)) l (mkC 0 0 0 0 0) in
  if Qeq_bool (c_w t) 0 then (None, None)
  else (Some (c_sum t / c_w t), if Nat.leb 10 (c_n t) then Some (sqrtf (c_res t / inject_Z (Z.of_nat (c_n t))) * sqrtf (c_w2 t) / c_w t) else None).
(** linemodelfitting.cpp:1224-1243: the flux and the SNR; one item for each spectrum *)
Definition fluxAndSnr (sqrtf : Q -> Q) (l : list (Q * Q)) : option (Q * Q) :=
  let t := fold_left (fun a b => (fst a + fst b, snd a + snd b)) l (0, 0) in
  if Qle_bool (snd t) 0 then None else Some (fst t, Qabs (fst t) / sqrtf (snd t)).

(** ** spectrummodel.cpp:558-643: the strong lines above a signal to noise ratio *)
Section Snr.
  Variable sqrtf : Q -> Q.
  (** the first line of the catalog of a name: its id and whether it is of emission *)
  Variable find : string -> option (nat * bool).
  (** findElementIndex and the range: the element and the line in it, None if there is none or if it is outside *)
  Variable place : nat -> option (nat * nat).
  (** getFluxDirectIntegration: elements, lines, subtraction of the absorption *)
  Variable di : list nat -> list nat -> bool -> res (Q * Q).
  Variable cut : Q.
  (** the tags, the names, and the list in which the line is accumulated: none, OII, CIII *)
  Definition strong_tags : list (string * string * nat) :=
    [("Halpha", "Ha", 0%nat); ("[OIII]a", "OIIIa", 0%nat); ("Hbeta", "Hb", 0%nat); ("LyAE", "Lya", 0%nat);
     ("[OII]3726", "OII", 1%nat); ("[OII]3729", "OII", 1%nat); ("[CIII]1907", "CIII", 2%nat); ("[CIII]1909", "CIII", 2%nat)]%string.
  Definition above (fe : Q * Q) : bool := Qltb 0 (snd fe) && Qltb cut (Qabs (fst fe) / sqrtf (snd fe)).
  (** [acc k]: the elements and lines accumulated in the list k *)
  Fixpoint snr_loop (tags : list (string * string * nat)) (acc : nat -> list (nat * nat)) (out : list string) : res (list string) :=
    match tags with
    | [] => Ok out
    | (tag, name, k) :: t =>
      match find tag with
      | Some (id, true) =>
        match place id with
        | Some p =>
          let l := match k with O => [p] | _ => (acc k ++ [p])%list end in
          do fe <- di (map fst l) (map snd l) (Nat.eqb k 0);
          snr_loop t (fun j => if Nat.eqb j k then l else acc j) (if above fe then (if existsb (String.eqb name) out then out else (out ++ [name])%list) else out)
        | None => snr_loop t acc out
        end
      | _ => snr_loop t acc out
      end
    end.
  Definition getLinesAboveSNR : res (list string) := snr_loop strong_tags (fun _ => []) [].
End Snr.
