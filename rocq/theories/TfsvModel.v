(** Model of the template fitting method: RedshiftLibrary/src/lib/method/templatefittingsolve.cpp:62-489, and of the parts of
    RedshiftLibrary/src/lib/method/tplcombinationsolve.cpp that differ (:83-104 the component, :262-428 the array and the candidates).
    The templates of the state are those of the sampling used, all of them not null, with the names of the templates not log sampled.  The fit of a template (COperatorTemplateFitting::Compute and its variants, C64, C76, C81), the pdf (COperatorPdfz::Compute, C35, C49) and the model of a template
    (ComputeSpectrumModel) are given functions.  A chi square is None when it is not below DBL_MAX (NaN, infinite); the other values are only copied.  The store starts without
    result for this method; the log messages and the "pdf", "candidatesresult" entries are left out. *)
From Coq Require Import String.
From Verif Require Import Base PhotModel.
Open Scope Q_scope.

(** CSpectrum::EType; the component asked *)
Inductive etype := Raw | NoContinuum | ContinuumOnly.
Inductive spc_type := One (c : etype) | All.
(** templatefittingsolve.cpp:126-142 *)
Definition ParseComponent (s : string) : res spc_type :=
  if String.eqb s "raw" then Ok (One Raw)
  else if String.eqb s "nocontinuum" then Ok (One NoContinuum)
  else if String.eqb s "continuum" then Ok (One ContinuumOnly)
  else if String.eqb s "all" then Ok All
  else Throw INTERNAL_ERROR.
(** tplcombinationsolve.cpp:88-101 *)
Definition ParseComponentCombination (s : string) : res spc_type :=
  if String.eqb s "raw" then Ok (One Raw)
  else if String.eqb s "noContinuum" then Ok (One NoContinuum)
  else if String.eqb s "continuum" then Ok (One ContinuumOnly)
  else if String.eqb s "all" then Ok All
  else Throw INTERNAL_ERROR.
(** the scope read by the pdf and the candidates, templatefittingsolve.cpp:124-139: that of the raw spectrum for "all" *)
Definition scope_of (t : spc_type) : etype := match t with One c => c | All => Raw end.
Definition components (t : spc_type) : list etype := match t with One c => [c] | All => [Raw; NoContinuum; ContinuumOnly] end.

(** CTemplateFittingResult: the values at one redshift (set_at_redshift, operator/templatefittingresult.cpp:68-87), the redshifts, the table [redshift][dust][igm], the constant *)
Record row := mkRow { r_chi : option Q; r_phot : Q; r_amp : Q; r_err : Q; r_ebmv : Q; r_igm : Z; r_dtm : Q; r_mtm : Q; r_snr : Q; r_prior : Q }.
Record fitresult := mkFit { fr_zs : list Q; fr_rows : list row; fr_tab : list (list (list Q)); fr_cst : Q }.
(** ChisquareArray *)
Record array := mkArray { a_zs : list Q; a_chi : list (list Q); a_prior : list (list Q); a_cst : Q }.
(** the values of a candidate: its name and redshift, the template *)
Record cand := mkCand { k_id : string; k_z : Q; k_tpl : string; k_merit : Q; k_phot : Q; k_igm : Z; k_ebmv : Q; k_amp : Q; k_err : Q; k_dtm : Q; k_mtm : Q; k_snr : Q; k_prior : Q }.
(** the types of the spectra and of the templates, the sampling of the catalogue, the results of each component by template name *)
Record state := mkState { s_spcs : list etype; s_tpls : list (string * etype); s_log : bool; s_raw : smap fitresult; s_nocont : smap fitresult; s_cont : smap fitresult }.
Definition results (c : etype) (s : state) : smap fitresult := match c with Raw => s_raw s | NoContinuum => s_nocont s | ContinuumOnly => s_cont s end.

Fixpoint retype (j : nat) (t : etype) (l : list (string * etype)) : list (string * etype) :=
  match l, j with [], _ => [] | p :: l, O => (fst p, t) :: l | p :: l, S j => p :: retype j t l end.
(** SetType of the spectra and of the template j *)
Definition set_types (sp : list etype) (j : nat) (t : etype) (s : state) : state := mkState sp (retype j t (s_tpls s)) (s_log s) (s_raw s) (s_nocont s) (s_cont s).
Definition set_log (b : bool) (s : state) : state := mkState (s_spcs s) (s_tpls s) b (s_raw s) (s_nocont s) (s_cont s).
Definition set_results (c : etype) (m : smap fitresult) (s : state) : state :=
  match c with
  | Raw => mkState (s_spcs s) (s_tpls s) (s_log s) m (s_nocont s) (s_cont s)
  | NoContinuum => mkState (s_spcs s) (s_tpls s) (s_log s) (s_raw s) m (s_cont s)
  | ContinuumOnly => mkState (s_spcs s) (s_tpls s) (s_log s) (s_raw s) (s_nocont s) m
  end.

Section Method.
  (** the operator: the types of the spectra, the template (log sampled or not, name, type), igm, dust *)
  Variable fit : list etype -> bool -> string -> etype -> bool -> bool -> res fitresult.
  (** CZPrior::GetConstantLogZPrior *)
  Variable constPrior : nat -> list Q.
  Variable pdf : array -> res (list (string * Q)).
  (** ComputeSpectrumModel: spectrum, template (log sampled or not), redshift, E(B-V), igm, amplitude; the flux *)
  Variable model : nat -> bool -> string -> Q -> Q -> Z -> Q -> res (list Q).

  (** the loop of Solve, templatefittingsolve.cpp:244-289, for the template j *)
  Fixpoint component_loop (j : nat) (cs : list etype) (ext dust : bool) (s : state) : state * res unit :=
    match cs with
    | [] => (s, Ok tt)
    | c :: cs =>
        let s := set_types (repeat c (List.length (s_spcs s))) j c s in
        match nth_error (s_tpls s) j with
        | None => (s, UB)
        | Some (name, ty) =>
            let dust := match c with NoContinuum => false | _ => dust end in
            match fit (s_spcs s) (s_log s) name ty ext dust with
            | Throw e => (s, Throw e) | UB => (s, UB)
            | Ok r => match mget (results c s) name with
                      | Ok _ => (s, Throw INTERNAL_ERROR)
                      | _ => component_loop j cs ext dust (set_results c (mput true name r (results c s)) s)
                      end
            end
        end
    end.
  (** Solve, templatefittingsolve.cpp:221-295: the types are saved and restored *)
  Definition Solve (j : nat) (t : spc_type) (ext dust : bool) (s : state) : state * res unit :=
    match nth_error (s_tpls s) j with
    | None => (s, UB)
    | Some (_, ty) => match component_loop j (components t) ext dust s with
                      | (s', Ok _) => (set_types (s_spcs s) j ty s', Ok tt)
                      | r => r
                      end
    end.
  (** the templates, templatefittingsolve.cpp:173-181 *)
  Fixpoint template_loop (js : list nat) (t : spc_type) (ext dust : bool) (s : state) : state * res unit :=
    match js with
    | [] => (s, Ok tt)
    | j :: js => match Solve j t ext dust s with (s', Ok _) => template_loop js t ext dust s' | r => r end
    end.

  (** the columns of one template, templatefittingsolve.cpp:318-370: nISM and nIGM are the sizes at the first redshift; the table has one row per redshift (set_at_redshift) *)
  Fixpoint column_at (tab : list (list (list Q))) (kism kigm n kz : nat) : res (list Q) :=
    match n with O => Ok [] | S n => do t <- vget tab kz; do c <- vget t kism; do v <- vget c kigm; do l <- column_at tab kism kigm n (S kz); Ok (v :: l) end.
  Definition column (r : fitresult) (kism kigm : nat) : res (list Q) := column_at (fr_tab r) kism kigm (List.length (fr_zs r)) 0.
  Fixpoint columns (r : fitresult) (ks : list (nat * nat)) : res (list (list Q)) :=
    match ks with [] => Ok [] | (a, b) :: ks => do c <- column r a b; do l <- columns r ks; Ok (c :: l) end.
  Definition cells (r : fitresult) : list (nat * nat) :=
    match fr_tab r with [] => [] | t :: _ => match t with [] => [] | c :: _ => list_prod (seq 0 (List.length t)) (seq 0 (List.length c)) end end.
  (** BuildChisquareArray, templatefittingsolve.cpp:297-374: the constant -1 stands for "not yet set" *)
  Fixpoint array_loop (m : smap fitresult) (a : array) : res array :=
    match m with
    | [] => Ok a
    | (_, r) :: m =>
        if (negb (Qeq_bool (a_cst a) (-(1))) && negb (Qeq_bool (a_cst a) (fr_cst r)))%bool then Throw INTERNAL_ERROR
        else
          do cs <- columns r (cells r);
          array_loop m (mkArray (match a_zs a with [] => fr_zs r | z => z end) (a_chi a ++ cs)%list
                                (a_prior a ++ map (fun _ => constPrior (List.length (fr_zs r))) cs)%list
                                (if Qeq_bool (a_cst a) (-(1)) then fr_cst r else a_cst a))
    end.
  Definition BuildChisquareArray (m : smap fitresult) : res array := array_loop m (mkArray [] [] [] (-(1))).

  (** std::find *)
  Fixpoint find_z (z : Q) (zs : list Q) (i : nat) : nat := match zs with [] => i | x :: zs => if Qeq_bool x z then i else find_z z zs (S i) end.
  (** templatefittingsolve.cpp:412-420: the least chi square and its template *)
  Fixpoint min_chi (m : smap fitresult) (i : nat) (best : option (string * Q)) : res (option (string * Q)) :=
    match m with
    | [] => Ok best
    | (n, r) :: m => do x <- vget (fr_rows r) i;
        min_chi m i (match r_chi x with
                     | None => best
                     | Some c => match best with None => Some (n, c) | Some (_, c') => if Qltb c c' then Some (n, c) else best end
                     end)
    end.
  (** templatefittingsolve.cpp:384-400 *)
  Fixpoint check_results (zs : list Q) (m : smap fitresult) : res unit :=
    match m with
    | [] => Ok tt
    | (_, r) :: m =>
        if negb (Nat.eqb (List.length (fr_rows r)) (List.length zs)) then Throw INTERNAL_ERROR
        else if Nat.ltb (List.length zs) (List.length (fr_zs r)) then UB
        else if negb (forallb (fun p => Qeq_bool (fst p) (snd p)) (combine (fr_zs r) zs)) then Throw INTERNAL_ERROR
        else check_results zs m
    end.
  (** GetTemplateByName: the templates not log sampled have the names of the others *)
  Fixpoint models (n k : nat) (name : string) (z ebmv : Q) (igm : Z) (amp : Q) : res (list (list Q)) :=
    match n with O => Ok [] | S n => do f <- model k false name z ebmv igm amp; do l <- models n (S k) name z ebmv igm amp; Ok (f :: l) end.
  (** templatefittingsolve.cpp:402-475: one candidate; without template the null pointer results[""] is read *)
  Definition extremum (m : smap fitresult) (nspc : nat) (zs : list Q) (c : string * Q) : res (cand * list (list Q)) :=
    let i := find_z (snd c) zs 0 in
    do b <- min_chi m i None;
    match b with
    | None => UB
    | Some (name, chi) =>
        do r <- mget m name;
        do x <- vget (fr_rows r) i;
        do f <- models nspc 0 name (snd c) (r_ebmv x) (r_igm x) (r_amp x);
        Ok (mkCand (fst c) (snd c) name chi (r_phot x) (r_igm x) (r_ebmv x) (r_amp x) (r_err x) (r_dtm x) (r_mtm x) (r_snr x) (r_prior x), f)
    end.
  Fixpoint extrema (m : smap fitresult) (nspc : nat) (zs : list Q) (cs : list (string * Q)) : res (list (cand * list (list Q))) :=
    match cs with [] => Ok [] | c :: cs => do e <- extremum m nspc zs c; do l <- extrema m nspc zs cs; Ok (e :: l) end.
  Definition buildExtremaResults (m : smap fitresult) (nspc : nat) (cs : list (string * Q)) : res (list (cand * list (list Q))) :=
    match m with
    | [] => UB
    | (_, r0) :: _ => do _ <- check_results (fr_zs r0) m; extrema m nspc (fr_zs r0) cs
    end.

  (** compute, templatefittingsolve.cpp:62-219; the method result is that of the first candidate: undefined without candidate *)
  Definition compute (component : string) (fft phot ext dust : bool) (s : state) : state * res (list (cand * list (list Q))) :=
    if (fft && phot)%bool then (s, Throw FFT_WITH_PHOTOMETRY_NOTIMPLEMENTED)
    else
      let s := set_log fft s in
      match ParseComponent component with
      | Throw e => (s, Throw e) | UB => (s, UB)
      | Ok t =>
          match s_tpls s with
          | [] => (s, Throw BAD_TEMPLATECATALOG)
          | _ =>
              match template_loop (seq 0 (List.length (s_tpls s))) t ext dust s with
              | (s, Throw e) => (s, Throw e) | (s, UB) => (s, UB)
              | (s, Ok _) =>
                  let m := results (scope_of t) s in
                  match (do a <- BuildChisquareArray m; pdf a) with
                  | Throw e => (s, Throw e) | UB => (s, UB)
                  | Ok cs =>
                      let s := set_log false s in
                      (s, do es <- buildExtremaResults m (List.length (s_spcs s)) cs; match es with [] => UB | _ => Ok es end)
                  end
              end
          end
      end.
End Method.
