(** Model of the synthesis of the lines of an element, of the model spectrum, and of the fit of the amplitude of
    one element: RedshiftLibrary/src/lib/linemodel/element.cpp, spectrummodel.cpp and abstractfitter.cpp.
    Exact rationals; a NaN amplitude is [None].  The width of a line (an LSF width combined with a velocity width),
    the availability of the LSF and the profile of each line (index of the line, wavelength, centre, width) are
    parameters; the values they give are numbers, so the tests of NaN at element.cpp:577-583 and 655-660 never
    throw. *)
From Verif Require Import Base RangeModel AxisModel ElemModel.
Open Scope Q_scope.

(** m_Lines[i], m_SignFactors[i] == -1, m_NominalAmplitudes[i], m_FittedAmplitudes[i] (elementparam.h:70-90) *)
Record eline := mkEline { el_s : sline; el_neg : bool; el_nom : Q; el_fit : option Q }.

(** accesses to an axis, CSpectrumAxis::operator[] (axis.h), unchecked *)
Definition zget {A} (l : list A) (i : Z) : res A := if (i <? 0)%Z then UB else vget l (Z.to_nat i).
Definition zset {A} (l : list A) (i : Z) (x : A) : res (list A) := if (i <? 0)%Z then UB else vset l (Z.to_nat i) x.
(** for (i = a; i <= b; i++) *)
Definition zrange (a b : Z) : list Z := map (fun k => (a + Z.of_nat k)%Z) (seq 0 (Z.to_nat (b - a + 1))).
(** a loop *)
Fixpoint rfold {A B} (f : B -> A -> res B) (l : list A) (b : B) : res B :=
  match l with [] => Ok b | x :: t => do b' <- f b x; rfold f t b' end.

Section Efit.
  Variable avail : Q -> bool.
  Variable width : Q -> Q.
  Variable prof : nat -> Q -> Q -> Q -> Q.

  (** element.cpp:454-467 getObservedPositionAndLineWidth and 509-523 GetLineProfileAtRedshift *)
  Definition GetLineProfileAtRedshift (i : nat) (l : eline) (redshift x : Q) : res Q :=
    let mu := GetObservedPosition (el_s l) redshift false in
    if negb (avail mu) then Throw INTERNAL_ERROR else Ok (prof i x mu (width mu)).
  Definition sign (l : eline) : Q := if el_neg l then -1 else 1.

  (** a sum over the lines of an element, skipping those of [skip]; [i] is the index of the first one *)
  Fixpoint sum_lines (skip : nat -> bool) (f : nat -> eline -> res Q) (i : nat) (ls : list eline) (acc : Q) : res Q :=
    match ls with
    | [] => Ok acc
    | l :: t => if skip i then sum_lines skip f (S i) t acc
                else do y <- f i l; sum_lines skip f (S i) t (acc + y)
    end.

  (** element.cpp:640-653: what one line adds *)
  Definition line_flux (z x c : Q) (i : nat) (l : eline) : res Q :=
    match el_fit l with
    | None => Ok 0
    | Some A => if Qltb A 0 then Ok 0
                else do p <- GetLineProfileAtRedshift i l z x;
                     let fluxval := sign l * A * p in
                     Ok (if el_neg l then c * fluxval else fluxval)
    end.
  (** line_index != undefIdx && !m_LineIsActiveOnSupport[line_index][index] *)
  Definition inactive (s : support) (line_index : option nat) (i : nat) : bool :=
    match line_index with Some j => negb (ac (s_state s) j i) | None => false end.
  (** element.cpp:620-664; adding a null contribution stands for `continue' *)
  Definition getModelAtLambda (s : support) (ls : list eline) (lambda z c : Q) (line_index : option nat) : res Q :=
    if s_allout s then Ok 0
    else sum_lines (fun i => s_out s i || inactive s line_index i) (line_flux z lambda c) 0 ls 0.
  (** element.cpp:666-689 *)
  Definition GetModelDerivAmplitudeAtLambda (s : support) (ls : list eline) (lambda z c : Q) : res Q :=
    if s_allout s then Ok 0
    else sum_lines (s_out s) (fun i l => do p <- GetLineProfileAtRedshift i l z lambda;
                                         let fluxval := sign l * el_nom l * p in
                                         Ok (if el_neg l then c * fluxval else fluxval)) 0 ls 0.
  (** element.cpp:728-757 *)
  Definition GetModelDerivContinuumAmpAtLambda (s : support) (ls : list eline) (lambda z c : Q) : res Q :=
    if s_allout s then Ok 0
    else sum_lines (s_out s) (fun i l => if negb (el_neg l) then Ok 0
                                         else match el_fit l with
                                              | None => Ok 0
                                              | Some A => do p <- GetLineProfileAtRedshift i l z lambda; Ok (sign l * c * A * p)
                                              end) 0 ls 0.

  (** element.cpp:552-588 *)
  Definition add_sample (s : support) (ls : list eline) (axis cont : list Q) (z : Q) (h : nat) (flux : list Q) (i : Z) : res (list Q) :=
    do lambda <- zget axis i;
    do c <- zget cont i;
    do y <- getModelAtLambda s ls lambda z c (Some h);
    do v <- zget flux i;
    zset flux i (v + y).
  Definition addToSpectrumModel (s : support) (ls : list eline) (axis flux cont : list Q) (z : Q) (line_index : option nat) : res (list Q) :=
    if s_allout s then Ok flux
    else rfold (fun flux h => if s_out s h then Ok flux
                              else if inactive s line_index h then Ok flux
                              else rfold (add_sample s ls axis cont z h) (zrange (sn (s_state s) h) (en (s_state s) h)) flux)
               (seq 0 (s_size s)) flux.
  (** element.cpp:808-828 *)
  Definition init_sample (cont : list Q) (flux : list Q) (i : Z) : res (list Q) := do c <- zget cont i; zset flux i c.
  Definition initSpectrumModel (s : support) (flux cont : list Q) (line_index : option nat) : res (list Q) :=
    if s_allout s then Ok flux
    else rfold (fun flux h => if s_out s h then Ok flux
                              else if inactive s line_index h then Ok flux
                              else rfold (init_sample cont) (zrange (sn (s_state s) h) (en (s_state s) h)) flux)
               (seq 0 (s_size s)) flux.

  (** one element of the list: its support, its lines, its type (emission or not) *)
  Record element := mkElement { x_s : support; x_ls : list eline; x_em : bool }.
  (** spectrummodel.cpp:79-84 and 100-126 (reinitModel sets the model to the continuum), without amplitude offsets;
      [filter] = None is nType_All, Some true emission, Some false absorption *)
  Definition selected (filter : option bool) (e : element) : bool :=
    match filter with None => true | Some b => Bool.eqb b (x_em e) end.
  Definition refreshModel (es : list element) (axis cont : list Q) (z : Q) (filter : option bool) : res (list Q) :=
    rfold (fun flux e => if selected filter e then addToSpectrumModel (x_s e) (x_ls e) axis flux cont z None else Ok flux) es cont.
  (** spectrummodel.cpp:89-98 and 132-145, on the elements [es] designated by the indices *)
  Definition refreshModelUnderElements (es : list element) (axis model cont : list Q) (z : Q) (line_index : option nat) : res (list Q) :=
    do m <- rfold (fun flux e => initSpectrumModel (x_s e) flux cont line_index) es model;
    rfold (fun flux e => addToSpectrumModel (x_s e) (x_ls e) axis flux cont z line_index) es m.

  (** element.cpp:487-503: the mean of the observed positions of the lines in the range *)
  Fixpoint sum_pos (s : support) (z : Q) (asym : bool) (i : nat) (ls : list eline) (mu : Q) (n : nat) : Q * nat :=
    match ls with
    | [] => (mu, n)
    | l :: t => if s_out s i then sum_pos s z asym (S i) t mu n
                else sum_pos s z asym (S i) t (mu + GetObservedPosition (el_s l) z asym) (S n)
    end.
  Definition GetMeanObservedPosition (s : support) (ls : list eline) (z : Q) (asym : bool) : res Q :=
    let '(mu, n) := sum_pos s z asym 0 ls 0 0 in
    if Nat.eqb n 0 then Throw INTERNAL_ERROR else Ok (mu / inject_Z (Z.of_nat n)).

  (** element.cpp:529-541: the fitted over the nominal amplitude of the first line in the range whose nominal amplitude is not null *)
  Fixpoint first_amp (s : support) (i : nat) (ls : list eline) : option Q :=
    match ls with
    | [] => None
    | l :: t => if negb (s_out s i) && negb (Qeq_bool (el_nom l) 0)
                then match el_fit l with Some f => Some (f / el_nom l) | None => None end
                else first_amp s (S i) t
    end.
  Definition GetElementAmplitude (s : support) (ls : list eline) : option Q :=
    if s_allout s then None else first_amp s 0 ls.
  (** elementparam.h:215-224: the same on the first line with a fitted amplitude *)
  Fixpoint GetParamAmplitude (ls : list eline) : option Q :=
    match ls with
    | [] => None
    | l :: t => match el_fit l with
                | Some f => if Qeq_bool (el_nom l) 0 then GetParamAmplitude t else Some (f / el_nom l)
                | None => GetParamAmplitude t
                end
    end.

  (** element.cpp:154-174; [poly] is the value of the polynomial at a wavelength, None when amplitude offsets are off *)
  Definition GetContinuumAtCenterProfile (l : eline) (axis : list Q) (z : Q) (cont : list Q) (poly : option (Q -> Q)) : res (option Q) :=
    let mu := GetObservedPosition (el_s l) z true in
    do i <- GetIndexAtWaveLength axis mu;
    if (Z.of_nat (length cont) - 1 <? Z.of_nat i)%Z then Ok None
    else do c <- vget cont i;
         match poly with
         | None => Ok (Some c)
         | Some f => do x <- vget axis i; Ok (Some (c + f x))
         end.
End Efit.
