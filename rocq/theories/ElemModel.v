(** Model of the supports of one line-model element:
    RedshiftLibrary/src/lib/linemodel/element.cpp (CLineModelElement::GetObservedPosition, EstimateIndexRange,
    EstimateTheoreticalSupport, computeOutsideLambdaRange, prepareSupport, getSupport,
    getTheoreticalSupport, getSupportSubElt).
    Wavelengths are exact rationals; the width of a line (the LSF width combined with the velocity width, a square
    root) and the availability of the LSF are parameters of the functions that use them.  The vectors
    m_StartNoOverlap, m_EndNoOverlap, m_LineIsActiveOnSupport, m_OutsideLambdaRangeList (all of length GetSize())
    are represented by functions of the line index: every access of the modelled loops is at an index below
    GetSize(). *)
From Verif Require Import Base RangeModel AxisModel.
Open Scope Q_scope.

(** defaults.h:20-21, km/s *)
Definition speed_of_light : Q := 299792458 # 1000.
(** element.cpp:57-58 *)
Definition overlap_threshold : Q := 33 # 100.

(** What the support code reads of a line: m_Lines[i].GetPosition(), m_Offsets[i],
    m_Lines[i].GetProfile()->GetDelta() and ->GetNSigmaSupport(). *)
Record sline := mkSline { l_pos : Q; l_off : Q; l_delta : Q; l_nsigma : Q }.

(** element.cpp:472-485 *)
Definition GetObservedPosition (l : sline) (redshift : Q) (doAsymfitdelta : bool) : Q :=
  let dzOffset := l_off l / speed_of_light in
  let mu := l_pos l * (1 + redshift) * (1 + dzOffset) in
  if doAsymfitdelta then mu - l_delta l else mu.

(** element.cpp:225-254: the begin and end indices (Int32); [end < begin] means an empty range *)
Definition EstimateIndexRange (axis : list Q) (mu : Q) (lambdaRange : range) (winsize : Q) : res (Z * Z) :=
  let start0 := mu - winsize / 2 in
  let lambda_start := if Qltb start0 (rbeg lambdaRange) then rbeg lambdaRange else start0 in
  do b <- GetIndexAtWaveLength axis lambda_start;
  let end0 := mu + winsize / 2 in
  let lambda_end := if Qltb (rend lambdaRange) end0 then rend lambdaRange else end0 in
  do e <- GetIndexAtWaveLength axis lambda_end;
  do xe <- vget axis e;
  let e1 := if Qltb (rend lambdaRange) xe then (Z.of_nat e - 1)%Z else Z.of_nat e in
  let e2 := if (e1 <? Z.of_nat b)%Z then (Z.of_nat b - 1)%Z else e1 in
  Ok (Z.of_nat b, e2).

(** element.cpp:179-220: [None] when the LSF is not available at the line (nothing but the outside flag is
    written), otherwise the support and the outside flag. *)
Definition EstimateTheoreticalSupport (avail : Q -> bool) (width : Q -> Q) (l : sline) (axis : list Q)
    (redshift : Q) (lambdaRange : range) (max_offset : Q) : res (option (Z * Z) * bool) :=
  let mu := GetObservedPosition l redshift true in
  if negb (avail mu) then Ok (None, true)
  else
    let sigma := width mu in
    let winsize := l_nsigma l * sigma + 2 * (max_offset / speed_of_light) * mu in
    do se <- EstimateIndexRange axis mu lambdaRange winsize;
    let '(b, e) := se in
    if (e <? b)%Z then Ok (Some (b, e), true)
    else
      let minLineOverlap := overlap_threshold * winsize in
      do startLbda <- vget axis (Z.to_nat b);
      do endLbda <- vget axis (Z.to_nat e);
      Ok (Some (b, e), Qle_bool (rend lambdaRange - minLineOverlap) startLbda ||
                       Qle_bool endLbda (rbeg lambdaRange + minLineOverlap)).

(** m_StartNoOverlap, m_EndNoOverlap, m_LineIsActiveOnSupport *)
Record supst := mkSup { sn : nat -> Z; en : nat -> Z; ac : nat -> nat -> bool }.
Definition upd {A} (f : nat -> A) (i : nat) (v : A) : nat -> A := fun k => if Nat.eqb k i then v else f k.
Definition upd2 (a : nat -> nat -> bool) (i j : nat) : nat -> nat -> bool :=
  fun k l => if (Nat.eqb k i && Nat.eqb l j)%bool then true else a k l.

(** max - min < 0 (element.cpp:321-323, 385-387) *)
Definition overlapping (x1 x2 y1 y2 : Z) : bool := (Z.max x1 y1 - Z.min x2 y2 <? 0)%Z.

(** element.cpp:333-360 *)
Definition activate (n : nat) (out : nat -> bool) (i j : nat) (a : nat -> nat -> bool) : nat -> nat -> bool :=
  let a1 := upd2 (upd2 a i j) j i in
  let a2 := fold_left (fun (a : nat -> nat -> bool) i2 => if out i2 then a else if a i i2 then upd2 (upd2 a i2 j) j i2 else a) (seq 0 n) a1 in
  fold_left (fun (a : nat -> nat -> bool) j2 => if out j2 then a else if a j j2 then upd2 (upd2 a j2 i) i j2 else a) (seq 0 n) a2.

(** element.cpp:304-361, body of the loop on [j] *)
Definition merge_step (n : nat) (out : nat -> bool) (i : nat) (st : supst) (j : nat) : supst :=
  if out j then st
  else if (en st j <? sn st j)%Z then st
  else if Nat.eqb i j then st
  else
    let x1 := sn st i in let x2 := en st i in let y1 := sn st j in let y2 := en st j in
    if overlapping x1 x2 y1 y2
    then let e := Z.max x2 y2 in
         mkSup (upd (upd (sn st) i (Z.min x1 y1)) j e) (upd (upd (en st) i e) j (e - 1)%Z)
               (activate n out i j (ac st))
    else st.
(** element.cpp:297-362, body of the loop on [i] *)
Definition merge_row (n : nat) (out : nat -> bool) (st : supst) (i : nat) : supst :=
  if out i then st
  else if (en st i <? sn st i)%Z then st
  else fold_left (merge_step n out i) (seq 0 n) st.
(** element.cpp:297-362 *)
Definition merge_pass (n : nat) (out : nat -> bool) (st : supst) : supst :=
  fold_left (merge_row n out) (seq 0 n) st.
(** element.cpp:363-392 *)
Definition has_duplicates (n : nat) (out : nat -> bool) (st : supst) : bool :=
  existsb (fun i => negb (out i) &&
    existsb (fun j => negb (out j) && negb (Nat.eqb i j) && overlapping (sn st i) (en st i) (sn st j) (en st j))
            (seq 0 n)) (seq 0 n).
(** element.cpp:288-393: the while loop; [fuel] is ncmpt - icmpt *)
Fixpoint merge_loop (fuel n : nat) (out : nat -> bool) (st : supst) : supst :=
  match fuel with
  | O => st
  | S k => let st' := merge_pass n out st in
           if has_duplicates n out st' then merge_loop k n out st' else st'
  end.

(** What prepareSupport leaves in the element *)
Record support := mkSupport
  { s_size : nat; s_theo : nat -> Z * Z; s_out : nat -> bool; s_allout : bool; s_state : supst }.

Fixpoint estimate_all (avail : Q -> bool) (width : Q -> Q) (ls : list sline) (axis : list Q)
    (redshift : Q) (lambdaRange : range) (max_offset : Q) : res (list (option (Z * Z) * bool)) :=
  match ls with
  | [] => Ok []
  | l :: t => do r <- EstimateTheoreticalSupport avail width l axis redshift lambdaRange max_offset;
              do rs <- estimate_all avail width t axis redshift lambdaRange max_offset;
              Ok (r :: rs)
  end.

(** undefIdx *)
Definition undefIdx : Z := (-1)%Z.

(** element.cpp:267-393 prepareSupport *)
Definition prepareSupport (avail : Q -> bool) (width : Q -> Q) (ls : list sline) (axis : list Q)
    (redshift : Q) (lambdaRange : range) (max_offset : Q) : res support :=
  let n := length ls in
  do rs <- estimate_all avail width ls axis redshift lambdaRange max_offset;
  let theo := fun i => match nth_error rs i with Some (Some p, _) => p | _ => (undefIdx, undefIdx) end in
  let out := fun i => match nth_error rs i with Some (_, o) => o | None => true end in
  (* computeOutsideLambdaRange, element.cpp:256-260 *)
  let allout := forallb out (seq 0 n) in
  let st0 := mkSup (fun i => fst (theo i)) (fun i => snd (theo i)) (fun i j => Nat.eqb i j) in
  Ok (mkSupport n theo out allout (merge_loop 20 n out st0)).

(** element.cpp:401-413 *)
Definition getSupport (s : support) : list (Z * Z) :=
  if s_allout s then []
  else flat_map (fun i => if s_out s i then [] else [(sn (s_state s) i, en (s_state s) i)]) (seq 0 (s_size s)).
(** element.cpp:415-428 *)
Definition getTheoreticalSupport (s : support) : list (Z * Z) :=
  if s_allout s then []
  else flat_map (fun i => if s_out s i then [] else [s_theo s i]) (seq 0 (s_size s)).
(** element.cpp:436-440 and element.h isLineActiveOnSupport *)
Definition getSupportSubElt (s : support) (i : nat) : Z * Z := (sn (s_state s) i, en (s_state s) i).
Definition isLineActiveOnSupport (s : support) (i j : nat) : bool := ac (s_state s) i j.
