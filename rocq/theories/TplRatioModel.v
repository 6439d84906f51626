(** Model of CLineCatalogsTplRatio (RedshiftLibrary/src/lib/line/catalogsTplRatio.cpp).  Exact rationals; a line-ratio
    catalog is the list of the nominal amplitudes of its lines, in the order of their identifiers, with its prior. *)
From Verif Require Import Base.
Open Scope Q_scope.

(** loop catalogsTplRatio.cpp:255-263: (sumCross, sumTPL2) over [n] lines from [i]; the sums sumLM and sumTPL are unused *)
Fixpoint cross_loop (lm err tpl : list Q) (i n : nat) (cross tpl2 : Q) : res (Q * Q) :=
  match n with
  | O => Ok (cross, tpl2)
  | S m =>
      do e <- vget err i; do a <- vget lm i; do t <- vget tpl i;
      let err2 := 1 / (e * e) in
      cross_loop lm err tpl (S i) m (cross + a * t * err2) (tpl2 + t * t * err2)
  end.
(** loop 271-279: (fit, ampsCorrected) *)
Fixpoint fit_loop (lm err tpl : list Q) (ampl : Q) (i n : nat) (fit : Q) : res (Q * list Q) :=
  match n with
  | O => Ok (fit, [])
  | S m =>
      do e <- vget err i; do a <- vget lm i; do t <- vget tpl i;
      let err2 := 1 / (e * e) in
      let diff := a - ampl * t in
      do (f, l) <- fit_loop lm err tpl ampl (S i) m (fit + diff * diff * err2);
      Ok (f, t * ampl :: l)
  end.
(** computeFitValue, catalogsTplRatio.cpp:227-282: [None] is NaN (some error is 0: the weights are infinite and the sums
    are not numbers); otherwise the fit value and the corrected amplitudes *)
Definition computeFitValue (lm err tpl : list Q) : res (option (Q * list Q)) :=
  if existsb (fun e => Qeq_bool e 0) (firstn (length lm) err) then Ok None else
  do (cross, tpl2) <- cross_loop lm err tpl 0 (length lm) 0 0;
  if (Qeq_bool cross 0 || Qeq_bool tpl2 0)%bool then Ok (Some (-1, []))
  else do r <- fit_loop lm err tpl (cross / tpl2) 0 (length lm) 0; Ok (Some r).

(** catalogsTplRatio.cpp:211-220: advancing the iterator past the end is UB *)
Fixpoint select (amps : list Q) (valid : list nat) : res (list Q) :=
  match valid with [] => Ok [] | i :: t => do a <- vget amps i; do r <- select amps t; Ok (a :: r) end.
(** getFitForOneCatalog, catalogsTplRatio.cpp:199-225 *)
Definition getFitForOneCatalog (valid : list nat) (lm err : list Q) (amps : list Q) : res (option (Q * list Q)) :=
  match lm with [] => Ok None | _ => do tpl <- select amps valid; computeFitValue lm err tpl end.

(** catalogsTplRatio.cpp:168-180: state (coeffMin, bestFitAmplitudes, bestTplRatio), [None] = not assigned *)
Definition best_state : Type := (Q * list Q * option nat)%type.
Fixpoint best_loop (valid : list nat) (lm err : list Q) (icat : nat) (cats : list (list Q)) (st : best_state) : res best_state :=
  match cats with
  | [] => Ok st
  | c :: r =>
      do f <- getFitForOneCatalog valid lm err c;
      let '(cm, amps, b) := st in
      let st' := match f with
                 | Some (fit, corr) =>
                     if (Qltb 0 fit && (Qltb fit cm || Qeq_bool cm (-1)))%bool then (fit, corr, Some icat) else st
                 | None => st
                 end in
      best_loop valid lm err (S icat) r st'
  end.
(** mask, catalogsTplRatio.cpp:160-166 *)
Fixpoint mask_loop (lm err : list Q) (i n : nat) : res (list bool) :=
  match n with
  | O => Ok []
  | S m => do a <- vget lm i; do e <- vget err i; do r <- mask_loop lm err (S i) m;
           Ok (negb (Qltb a 0 || Qle_bool e 0) :: r)
  end.
(** loop 191-194 on amplitudesCorrected, just cleared (187) *)
Fixpoint fill_loop (mask : list bool) (best corrected : list Q) (i n : nat) : res (list Q) :=
  match n with
  | O => Ok corrected
  | S m =>
      do b <- vget mask i;
      do c <- (if b : bool then do x <- vget best i; vset corrected i x else Ok corrected);
      fill_loop mask best c (S i) m
  end.
(** GetBestFit, catalogsTplRatio.cpp:147-197: (coeffMin, amplitudesCorrected, bestTplRatio) *)
Definition GetBestFit (cats : list (list Q)) (valid : list nat) (lm err : list Q) : res (Q * list Q * option nat) :=
  do mask <- mask_loop lm err 0 (length valid);
  do (cm, best, b) <- best_loop valid lm err 0 cats (-1, [], None);
  if Qltb cm 0 then Ok (cm, [], b)
  else do c <- fill_loop mask best [] 0 (length valid); Ok (cm, c, b).
