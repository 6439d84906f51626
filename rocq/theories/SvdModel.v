(** Model of the joint fit of the amplitudes of elements:
    RedshiftLibrary/src/lib/linemodel/svdfitter.cpp:74-319 (fitAmplitudesLinSolve, fitAmplitudesLinSolvePositive, fitAmplitudesLinSolveAndLambdaOffset),
    hybridfitter.cpp:178-323 (improveBalmerFit, from the joint fit on), spectrummodel.cpp:387-421 and spectrummodel.h:134-160 (the residual), for one observation.
    Exact rationals, NaN or infinite = None.  The elements, the samples and the offsets are numbers.  The elements are in the range. *)
From Coq Require Import Qabs.
From Verif Require Import Base MeikModel.
Open Scope Q_scope.

(** one row of the linear problem: weight, observation, values of the columns *)
Record obs := mkObs { o_w : Q; o_y : Q; o_row : list Q }.
(** the amplitudes of the elements and their uncertainties, the polynomials, the index of the wavelength offset (None: not fitted) *)
Record sst := mkSst { s_amp : nat -> option Q; s_std : nat -> option Q; s_poly : nat -> Q * Q * Q; s_off : option nat }.
Definition upd {A} (f : nat -> A) (i : nat) (v : A) : nat -> A := fun j => if Nat.eqb j i then v else f j.
(** lmeltlistvector.cpp:257-262 *)
Definition SetElementAmplitude (s : sst) (e : nat) (a sd : option Q) : sst := mkSst (upd (s_amp s) e a) (upd (s_std s) e sd) (s_poly s) (s_off s).
Definition SetPolynomCoeffs (s : sst) (e : nat) (p : Q * Q * Q) : sst := mkSst (s_amp s) (s_std s) (upd (s_poly s) e p) (s_off s).

Section Svd.
  (** samples: wavelength, flux without continuum, error, continuum *)
  Variables (axis flux err cont : nat -> Q).
  (** getModelAtLambda of an element of amplitude one at a sample, for an offset *)
  Variable col : option nat -> nat -> nat -> Q.
  (** getSupportIndexes (C68) *)
  Variable supp : list nat -> list nat.
  (** gsl_multifit_wlinear: the solution and the diagonal of the covariance *)
  Variable solve : nat -> list obs -> list Q * list Q.
  Variable sqrtf : Q -> Q.
  (** fitAmplitude (C67): the amplitude and its uncertainty, for an offset and an element *)
  Variable single : option nat -> nat -> option Q * option Q.
  Variable dblmin : Q.
  (** m_enableAmplitudeOffsets *)
  Variable offs : bool.

  (** svdfitter.cpp:145-151 *)
  Definition maxabs (xs : list nat) : Q := fold_left (fun m i => if Qltb m (Qabs (flux i)) then Qabs (flux i) else m) xs dblmin.
  (** svdfitter.cpp:156-182 *)
  Definition make_row (o : option nat) (fit : list nat) (nf : Q) (i : nat) : obs :=
    let ei := err i * nf in
    mkObs (1 / (ei * ei)) (flux i * nf) (map (fun e => col o e i) fit ++ (if offs then [1; axis i; axis i * axis i] else [])).
  (** svdfitter.cpp:199-209: the amplitudes are written one after the other *)
  Fixpoint set_all (s : sst) (fit : list nat) (a sd : list Q) : sst :=
    match fit, a, sd with
    | e :: fit', x :: a', d :: sd' => set_all (SetElementAmplitude s e (Some x) (Some d)) fit' a' sd'
    | _, _, _ => s
    end.
  Definition set_poly (s : sst) (es : list nat) (p : Q * Q * Q) : sst := fold_left (fun s e => SetPolynomCoeffs s e p) es s.
  Record solved := mkSolved { r_s : sst; r_amps : list Q; r_errs : list (option Q); r_pos : bool }.
  (** svdfitter.cpp:74-228; [idx] is IdxToFit.  gsl_vector_get beyond the size is out of the model: the solution has nddl values *)
  Definition fitAmplitudesLinSolve (o : option nat) (es idx : list nat) (s : sst) : res solved :=
    match es with
    | [] => Throw INTERNAL_ERROR
    | _ =>
      let xs := supp es in
      match xs with
      | [] => Throw INTERNAL_ERROR
      | _ =>
        do fit <- match idx with [] => Ok es | _ => mapr (vget es) idx end;
        let nddl := (length fit + if offs then 3 else 0)%nat in
        if Nat.ltb (length xs) nddl then
          let s1 := fold_left (fun s e => SetElementAmplitude s e (Some 0) None) es s in
          Ok (mkSolved (if offs then set_poly s1 es (0, 0, 0) else s1) (map (fun _ => 0) es) (map (fun _ => None) es) true)
        else
          let s1 := fold_left (fun s e => SetElementAmplitude s e (Some 1) (Some 0)) fit s in
          let nf := 1 / maxabs xs in
          let (c, var) := solve nddl (map (make_row o fit nf) xs) in
          let a := map (fun v => v / nf) (firstn (length fit) c) in
          let sd := map (fun v => sqrtf v / nf) (firstn (length fit) var) in
          let s2 := set_all s1 fit a sd in
          let s3 := if offs then set_poly s2 es (nth (length fit) c 0 / nf, nth (length fit + 1) c 0 / nf, nth (length fit + 2) c 0 / nf) else s2 in
          Ok (mkSolved s3 a (map Some sd) (forallb (fun v => negb (Qltb v 0)) a))
      end
    end.

  (** svdfitter.cpp:244-252: the negative amplitudes are set to zero; the indices of the others are kept *)
  Fixpoint clip (s : sst) (i : nat) (es : list nat) (a : list Q) (sd : list (option Q)) : sst * list nat :=
    match es, a, sd with
    | e :: es', x :: a', d :: sd' =>
      if Qltb x 0 then clip (SetElementAmplitude s e (Some 0) d) (S i) es' a' sd'
      else let (s', l) := clip s (S i) es' a' sd' in (s', i :: l)
    | _, _, _ => (s, [])
    end.
  Definition fitSingle (o : option nat) (s : sst) (e : nat) : sst := let (a, d) := single o e in SetElementAmplitude s e a d.
  (** svdfitter.cpp:262-271 *)
  Fixpoint refit (o : option nat) (es : list nat) (s : sst) (pos : list nat) (a : list Q) (sd : list (option Q)) : res sst :=
    match pos, a, sd with
    | i :: pos', x :: a', d :: sd' =>
      do e <- vget es i;
      refit o es (if Qltb 0 x then fitSingle o s e else SetElementAmplitude s e (Some 0) d) pos' a' sd'
    | _, _, _ => Ok s
    end.
  (** svdfitter.cpp:233-275 *)
  Definition fitAmplitudesLinSolvePositive (o : option nat) (es : list nat) (s : sst) : res sst :=
    do r <- fitAmplitudesLinSolve o es [] s;
    if r_pos r then Ok (r_s r)
    else
      let (s1, pos) := clip (r_s r) 0 es (r_amps r) (r_errs r) in
      match pos with
      | [] => Ok s1
      | i :: t =>
        if negb offs && (match t with [] => true | _ => false end) then do e <- vget es i; Ok (fitSingle o s1 e)
        else do r2 <- fitAmplitudesLinSolve o es pos s1;
             if r_pos r2 then Ok (r_s r2) else refit o es (r_s r2) pos (r_amps r2) (r_errs r2)
      end.

  (** the flux of the model at a sample, after refreshModelUnderElements (C66): the continuum and the elements; a negative or unset amplitude is not drawn *)
  Definition drawn_amp (a : option Q) : Q := match a with Some v => if Qltb v 0 then 0 else v | None => 0 end.
  Fixpoint drawn_lines (o : option nat) (es : list nat) (s : sst) (i : nat) : Q :=
    match es with [] => 0 | e :: t => drawn_amp (s_amp s e) * col o e i + drawn_lines o t s i end.
  (** spectrummodel.cpp:408-419, weighted; [ref] is the observed flux, with or without continuum *)
  Fixpoint residual (o : option nat) (es : list nat) (s : sst) (ref : nat -> Q) (xs : list nat) (acc : Q * Q) : Q * Q :=
    match xs with
    | [] => acc
    | i :: t => let diff := ref i - (cont i + drawn_lines o es s i) in
                let w := 1 / (err i * err i) in
                residual o es s ref t (fst acc + diff * diff * w, snd acc + w)
    end.
  (** spectrummodel.h:134-160 with one observation: None is NaN *)
  Definition rms (fit_err : Q * Q) : option Q :=
    if Qeq_bool (fst fit_err) 0 then None else if Qeq_bool (snd fit_err) 0 then None else Some (sqrtf (fst fit_err / snd fit_err)).
  (** svdfitter.cpp:303: without the continuum in the observed flux, but with it in the model *)
  Definition merit (o : option nat) (es : list nat) (s : sst) : option Q := rms (residual o es s flux (supp es) (0, 0)).
  Definition setLambdaOffset (s : sst) (o : nat) : sst := mkSst (s_amp s) (s_std s) (s_poly s) (Some o).
  (** svdfitter.cpp:287-309; [best]: the smallest merit (None: DBL_MAX, to which no merit is assumed to be equal or larger) and its offset *)
  Fixpoint offset_loop (es : list nat) (n i : nat) (s : sst) (best : option (Q * nat)) : res (sst * option (Q * nat)) :=
    match n with
    | O => Ok (s, best)
    | S m => do s1 <- fitAmplitudesLinSolvePositive (Some i) es (setLambdaOffset s i);
             let best' := match merit (Some i) es s1 with
                          | None => best
                          | Some v => match best with Some (b, _) => if Qltb v b then Some (v, i) else best | None => Some (v, i) end
                          end in
             offset_loop es m (S i) s1 best'
    end.
  (** svdfitter.cpp:277-319; [n] offsets, [enabled]: at least one offset to fit *)
  Definition fitAmplitudesLinSolveAndLambdaOffset (n : nat) (es : list nat) (enabled : bool) (s : sst) : res sst :=
    if enabled then
      do r <- offset_loop es n 0 s None;
      match snd r with
      | None => Ok (fst r)
      | Some (_, i) => fitAmplitudesLinSolvePositive (Some i) es (setLambdaOffset (fst r) i)
      end
    else fitAmplitudesLinSolvePositive (s_off s) es s.

  (** ** hybridfitter.cpp:269-321: the joint fit of an absorption line, an emission line and other elements, kept if the residual under the absorption line has not grown.
      [nom e k]: the nominal amplitude of the line k of e; a fitted amplitude is the amplitude of the element times the nominal one.
      [more]: the elements of the other lines, sorted without duplicates, [ids]: the lines in them, in the order of the tags *)
  Variable nom : nat -> nat -> Q.
  Definition restored (s : sst) (e read back : nat) : option Q :=
    match s_amp s e with Some a => Some (a * nom e read / nom e back) | None => None end.
  Definition restored_std (s : sst) (e read back : nat) : option Q :=
    match s_std s e with Some a => Some (a * nom e read / nom e back) | None => None end.
  Fixpoint restore_more (s0 s : sst) (more ids : list nat) : res sst :=
    match more with
    | [] => Ok s
    | e :: more' => match ids with
                    | [] => UB
                    | k :: ids' => restore_more s0 (SetElementAmplitude s e (restored s0 e 0 k) (restored_std s0 e 0 k)) more' ids'
                    end
    end.
  (** [err_init]: the residual before; [err_after]: the residual of the model refreshed under the elements *)
  Definition balmer (o : option nat) (eA lA eE lE : nat) (more ids : list nat) (err_init : option Q) (err_after : sst -> option Q) (s : sst) : res sst :=
    do r <- fitAmplitudesLinSolve o (eA :: eE :: more) [] s;
    let s1 := r_s r in
    match err_after s1, err_init with
    | Some b, Some a => if Qltb a b then
        let s2 := SetElementAmplitude s1 eA (restored s eA lA lA) (restored_std s eA lA lA) in
        let s3 := SetElementAmplitude s2 eE (restored s eE lE lE) (restored_std s eE lE lE) in
        restore_more s s3 more ids
      else Ok s1
    | _, _ => Ok s1
    end.
End Svd.
