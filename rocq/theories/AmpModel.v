(** Model of the fit of the amplitude of one element (and of its wavelength offset):
    RedshiftLibrary/src/lib/linemodel/element.cpp:884-941 (computeCrossProducts), abstractfitter.cpp:245-415
    (fitAmplitude, setLambdaOffset, GetLambdaOffsetSteps, fitAmplitudeAndLambdaOffset, getLeastSquareMeritFast),
    elementparam.h:160-194 (setFittedAmplitude, setAmplitudes), lmeltlistvector.cpp:99-114, 257-262, 289-297.
    Exact rationals, NaN = None.  A null error (an infinite weight) is out of the model: the outcome is UB. *)
From Verif Require Import Base RangeModel AxisModel ElemModel EfitModel.
Open Scope Q_scope.

(** one observation: its line spread function (availability, width of a line), the supports of the element on it, the axis,
    the flux without continuum, its error and the continuum *)
Record aobs := mkAobs { a_avail : Q -> bool; a_width : Q -> Q; a_s : support; a_axis : list Q; a_y : list Q; a_e : list Q; a_c : list Q }.
(** TLineModelElementParam: lines, m_FittedAmplitudesStd, m_sumCross, m_sumGauss, m_dtmFree *)
Record eparam := mkEp { p_lines : list eline; p_std : list (option Q); p_cross : option Q; p_gauss : option Q; p_dtm : option Q }.

(** CLMEltListVector::computeOutsideLambdaRange and computeOutsideLambdaRangeLine: out of the range of all the spectra *)
Definition globalOutside (os : list aobs) : bool := forallb (fun o => s_allout (a_s o)) os.
Definition globalOutsideLine (os : list aobs) (k : nat) : bool := forallb (fun o => s_out (a_s o) k) os.

Section Amp.
  Variable prof : nat -> Q -> Q -> Q -> Q.
  Variable sqrtf : Q -> Q.
  (** m_absLinesLimit, elementparam.h:93-95 *)
  Variable absLimit : Q.

  (** element.cpp:916-930: the signal of amplitude one on the support h *)
  Definition nominal_flux (o : aobs) (z x c : Q) (i : nat) (l : eline) : res Q :=
    do p <- GetLineProfileAtRedshift (a_avail o) (a_width o) prof i l z x;
    Ok (if el_neg l then sign l * c * el_nom l * p else sign l * el_nom l * p).
  (** element.cpp:908-936: one sample of the support h; the accumulators are num, m_dtmFree and m_sumGauss *)
  Definition cross_sample (o : aobs) (ls : list eline) (z : Q) (h : nat) (acc : Z * Q * Q) (i : Z) : res (Z * Q * Q) :=
    let '(num, dtm, mtm) := acc in
    do c <- zget (a_c o) i;
    do y <- zget (a_y o) i;
    do x <- zget (a_axis o) i;
    do yg <- sum_lines (fun k => s_out (a_s o) k || inactive (a_s o) (Some h) k) (nominal_flux o z x c) 0 ls 0;
    do e <- zget (a_e o) i;
    if Qeq_bool e 0 then UB
    else let err2 := 1 / (e * e) in
         Ok ((num + 1)%Z, dtm + yg * y * err2, mtm + yg * yg * err2).
  (** element.cpp:884-941 *)
  Definition computeCrossProducts (o : aobs) (ls : list eline) (z : Q) (line_index : option nat) (acc : Z * Q * Q) : res (Z * Q * Q) :=
    rfold (fun acc h => if s_out (a_s o) h then Ok acc
                        else if inactive (a_s o) line_index h then Ok acc
                        else rfold (cross_sample o ls z h) (zrange (sn (s_state (a_s o)) h) (en (s_state (a_s o)) h)) acc)
          (seq 0 (s_size (a_s o))) acc.

  Definition set_efit (l : eline) (f : option Q) : eline := mkEline (el_s l) (el_neg l) (el_nom l) f.
  (** elementparam.h:160-171 *)
  Definition limited (l : eline) (A : Q) : Q :=
    let f := A * el_nom l in
    if el_neg l && Qltb 0 absLimit && Qltb absLimit f then absLimit else f.
  (** elementparam.h:173-194, with an amplitude which is a number and an element in the range *)
  Fixpoint set_amps (os : list aobs) (A : Q) (i : nat) (ls : list eline) : list eline :=
    match ls with
    | [] => []
    | l :: t => set_efit l (if globalOutsideLine os i then None else Some (limited l A)) :: set_amps os A (S i) t
    end.
  Fixpoint set_stds (os : list aobs) (S_ : Q) (i : nat) (ls : list eline) : list (option Q) :=
    match ls with
    | [] => []
    | l :: t => (if globalOutsideLine os i then None else Some (S_ * el_nom l)) :: set_stds os S_ (S i) t
    end.
  Definition unset (ls : list eline) : list eline := map (fun l => set_efit l None) ls.

  (** abstractfitter.cpp:245-314 *)
  Definition fitAmplitude (p : eparam) (os : list aobs) (z : Q) (line_index : option nat) : res eparam :=
    if globalOutside os then Ok (mkEp (p_lines p) (p_std p) None None None)
    else
      do r <- rfold (fun acc o => computeCrossProducts o (p_lines p) z line_index acc) os (0%Z, 0, 0);
      let '(num, dtm, mtm) := r in
      if (num =? 0)%Z || Qeq_bool mtm 0
      then Ok (mkEp (unset (p_lines p)) (map (fun _ => None) (p_lines p)) None None None)
      else
        let cross := Qmaxb 0 dtm in
        let A := cross / mtm in
        let Astd := 1 / sqrtf mtm in
        Ok (mkEp (set_amps os A 0 (p_lines p)) (set_stds os Astd 0 (p_lines p)) (Some cross) (Some mtm) (Some dtm)).

  (** abstractfitter.cpp:387-415, on one element *)
  Definition getLeastSquareMeritFast (p : eparam) : option Q :=
    match GetParamAmplitude (p_lines p), p_gauss p, p_cross p with
    | Some a, Some mtm, Some dtm => Some (a * a * mtm + - (2) * a * dtm)
    | _, _, _ => None
    end.

  (** ** offsets.  [enabled] : IsOffsetFitEnabled of each line *)
  Definition set_offset (l : eline) (v : Q) : eline :=
    mkEline (mkSline (l_pos (el_s l)) v (l_delta (el_s l)) (l_nsigma (el_s l))) (el_neg l) (el_nom l) (el_fit l).
  (** elementparam.cpp:268-273 *)
  Fixpoint SetAllOffsetsEnabled (enabled : list bool) (v : Q) (ls : list eline) : list eline :=
    match ls, enabled with
    | l :: t, b :: e => (if b then set_offset l v else l) :: SetAllOffsetsEnabled e v t
    | _, _ => ls
    end.
  (** defaults.h:47-48, abstractfitter.h:169-171, km/s *)
  Definition offset_min : Q := -400.
  Definition offset_max : Q := 400.
  Definition offset_step : Q := 25.
  (** abstractfitter.cpp:316-324 *)
  Definition setLambdaOffset (enabled : list bool) (count : Z) (p : eparam) : eparam :=
    mkEp (SetAllOffsetsEnabled enabled (offset_min + offset_step * inject_Z count) (p_lines p)) (p_std p) (p_cross p) (p_gauss p) (p_dtm p).
  (** abstractfitter.cpp:326-350 *)
  Definition HasLambdaOffsetFitting (enabled : list bool) (enableOffsetFitting : bool) : bool := enableOffsetFitting && existsb (fun b => b) enabled.
  Definition GetLambdaOffsetSteps (atLeastOne : bool) : Z :=
    if atLeastOne then Qfloor ((offset_max - offset_min) / offset_step + (1 # 2)) else 1.
  (** abstractfitter.cpp:375-393: the loop on the offsets; best is (bestMerit, idxBestMerit), None before any valid merit *)
  Fixpoint offset_loop (enabled : list bool) (os : list aobs) (z : Q) (li : option nat) (n : nat) (iO : Z) (p : eparam) (best : option (Q * Z))
    : res (eparam * option (Q * Z)) :=
    match n with
    | O => Ok (p, best)
    | S m => do p1 <- fitAmplitude (setLambdaOffset enabled iO p) os z li;
             let best' := match getLeastSquareMeritFast p1 with
                          | Some fit => match best with
                                        | None => Some (fit, iO)
                                        | Some (b, _) => if Qltb fit b then Some (fit, iO) else best
                                        end
                          | None => best
                          end in
             offset_loop enabled os z li m (iO + 1)%Z p1 best'
    end.
  (** abstractfitter.cpp:360-406 *)
  Definition fitAmplitudeAndLambdaOffset (p : eparam) (enabled : list bool) (os : list aobs) (z : Q) (li : option nat) (enableOffsetFitting : bool) : res eparam :=
    let atLeastOne := HasLambdaOffsetFitting enabled enableOffsetFitting in
    if negb atLeastOne then fitAmplitude p os z li
    else
      do r <- offset_loop enabled os z li (Z.to_nat (GetLambdaOffsetSteps true)) 0 p None;
      let '(p1, best) := r in
      match best with
      | None => Ok p1
      | Some (_, i) => fitAmplitude (setLambdaOffset enabled i p1) os z li
      end.
End Amp.
