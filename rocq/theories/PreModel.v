(** Model of the fit of the continuum templates before each pass of the line model:
    RedshiftLibrary/src/lib/operator/linemodel.cpp:124-131 (first pass), 232-577 (isfftprocessingActive, fitContinuumTemplates,
    getContinuumInfoFromFirstpassFitStore, makeTFOperator, PrecomputeContinuumFit, evaluateContinuumAmplitude) and 747-805 (second pass).
    The store of the fits is the one of C42.  Exact rationals; [None] is a NaN. *)
From Coq Require Import String.
From Verif Require Import Base RangeModel CalzModel FitStoreModel.
Open Scope Q_scope.

(** what COperatorTemplateFitting(Log)::Compute is asked: template, fft operator, lines masked, index of the dust and of the Meiksin curve (-1 is
    undefIdx: all are tried), redshifts *)
Record request := mkReq { q_tpl : string; q_fft : bool; q_mask : bool; q_ebmv : Z; q_meik : Z; q_grid : list Q }.
(** its result at one redshift (C64, C81): merit, amplitude over error, dust, Meiksin curve, signal to noise *)
Record fitrec := mkF { v_merit : Q; v_ampsig : Q; v_ebmv : Q; v_meik : Z; v_snr : option Q }.
Definition operator := request -> nat -> fitrec.

(** CTemplatesFitStore: [f_tag] of C42 is an index in the list of all the fields; setSNRMax *)
Record store := mkStore { t_fs : fstore; t_all : list (string * fitrec); t_snrmax : Q }.

(** the parameters: m_opt_tplfit_fftprocessing (both passes), lineModel.continuumFit.ignoreLineSupport, m_opt_fitcontinuum_maxN,
    m_opt_tplfit_extinction, m_opt_tplfit_dustFit, the two thresholds on the amplitude, the orthogonal templates of the category (with the
    logarithmic sampling or not) and the dust coefficients *)
Record config := mkCfg { k_fft1 : bool; k_fft2 : bool; k_ignore : bool; k_maxN : nat; k_igm : bool; k_dust : bool;
  k_neg : Q; k_null : Q; k_tpls : bool -> list string; k_calz : calz }.
Inductive component := TplFit | TplFitAuto | FromSpectrum | NoContinuum.
(** m_templateFittingOperator (null, or the fft one or not, with a mask builder or not), m_opt_continuumcomponent, the pass, m_continnuum_fit_option,
    m_tplfitStore_firstpass, m_tplfitStore_secondpass, the redshifts of the first pass candidates, the store in the continuum manager *)
Record state := mkSt { o_op : option (bool * bool); o_comp : component; o_pass : nat; o_option : nat; o_first : option store; o_second : list (option store);
  o_cands : list Q; o_used : option store }.
Definition with_op s x := mkSt x (o_comp s) (o_pass s) (o_option s) (o_first s) (o_second s) (o_cands s) (o_used s).
Definition with_comp s x := mkSt (o_op s) x (o_pass s) (o_option s) (o_first s) (o_second s) (o_cands s) (o_used s).
Definition with_pass s x := mkSt (o_op s) (o_comp s) x (o_option s) (o_first s) (o_second s) (o_cands s) (o_used s).
Definition with_option s x := mkSt (o_op s) (o_comp s) (o_pass s) x (o_first s) (o_second s) (o_cands s) (o_used s).
Definition with_first s x := mkSt (o_op s) (o_comp s) (o_pass s) (o_option s) x (o_second s) (o_cands s) (o_used s).
Definition with_second s x := mkSt (o_op s) (o_comp s) (o_pass s) (o_option s) (o_first s) x (o_cands s) (o_used s).
Definition with_used s x := mkSt (o_op s) (o_comp s) (o_pass s) (o_option s) (o_first s) (o_second s) (o_cands s) x.

(** linemodel.cpp:242-260; the manager exists *)
Definition isfftprocessingActive (c : config) (pass n : nat) : bool :=
  let f := if Nat.eqb pass 1 then k_fft1 c else k_fft2 c in
  if (Nat.ltb n 100 && f)%bool then false else f.
(** linemodel.cpp:365-390 *)
Definition makeTFOperator (fft : bool) (op : option (bool * bool)) : option (bool * bool) :=
  match op with
  | None => Some (fft, false)
  | Some (k, m) => if Bool.eqb k fft then Some (k, m) else Some (fft, false)
  end.
(** linemodel.cpp:444-458: the operator used *)
Definition prepare_operator (c : config) (fft : bool) (op : option (bool * bool)) : option (bool * bool) :=
  let op := makeTFOperator fft op in
  let ignore := if (fft && k_ignore c)%bool then false else k_ignore c in
  if ignore then match op with Some (k, _) => Some (k, true) | None => None end else op.

(** CTemplateCatalog::GetTemplateByName, spectrum/template/catalog.cpp:96-109 *)
Definition GetTemplateByName (c : config) (name : string) (fft : bool) : res string :=
  if existsb (String.eqb name) (k_tpls c fft) then Ok name else Throw INTERNAL_ERROR.
(** CTemplateCatalog::GetTemplate(category, 0): vector::at *)
Definition first_template (c : config) (fft : bool) : res string :=
  match k_tpls c fft with [] => Throw STD_out_of_range | t :: _ => Ok t end.
(** linemodel.cpp:336-361: one continuum of the first pass; an index below the grid (-1) is refused by GetFitValues *)
Definition continuum_info (c : config) (fs : store) (z : Q) (rank : nat) (fft : bool) : res (string * Z * Z) :=
  do k <- getClosestLowerIndex (fs_grid (t_fs fs)) z;
  do f <- GetFitValues_idx (t_fs fs) (match k with Some i => Z.of_nat i | None => (-1)%Z end) (Z.of_nat rank);
  do d <- vget (t_all fs) (f_tag f);
  do name <- GetTemplateByName c (fst d) fft;
  let meik := if k_igm c then v_meik (snd d) else (-1)%Z in
  do ebmv <- (if k_dust c then do _ <- first_template c fft; GetEbmvIndex (k_calz c) (v_ebmv (snd d)) else Ok (-1)%Z);
  Ok (name, ebmv, meik).
Fixpoint info_loop (c : config) (fs : store) (z : Q) (ranks : list nat) (fft : bool) : res (list (string * Z * Z)) :=
  match ranks with [] => Ok [] | r :: t => do x <- continuum_info c fs z r fft; do l <- info_loop c fs z t fft; Ok (x :: l) end.
(** linemodel.cpp:317-363; a null store is dereferenced *)
Definition getContinuumInfoFromFirstpassFitStore (c : config) (s : state) (cand : Z) (fft : bool) : res (list (string * Z * Z)) :=
  if (Z.ltb cand 0 || Z.leb (Z.of_nat (List.length (o_cands s))) cand)%bool then Throw INTERNAL_ERROR
  else do z <- vget (o_cands s) (Z.to_nat cand);
       match k_maxN c, o_first s with
       | O, _ => Ok []
       | _, None => UB
       | n, Some fs => info_loop c fs z (seq 0 n) fft
       end.
(** linemodel.cpp:262-285: the templates and their indices *)
Definition templates (c : config) (s : state) (cand : Z) (fft : bool) : res (list (string * Z * Z)) :=
  if (Nat.eqb (o_pass s) 2 && Nat.eqb (o_option s) 3)%bool then getContinuumInfoFromFirstpassFitStore c s cand fft
  else Ok (map (fun t => (t, (-1)%Z, (-1)%Z)) (k_tpls c fft)).

(** linemodel.cpp:470-491: the fits of all the templates at redshift i, the first of tag n *)
Definition record_fit (z : Q) (n : nat) (r : fitrec) : fit := mkFit z (v_merit r) (v_ampsig r) n.
Definition details (op : operator) (reqs : list request) (i : nat) : list (string * fitrec) := map (fun q => (q_tpl q, op q i)) reqs.
Fixpoint fits_from (z : Q) (n : nat) (l : list (string * fitrec)) : list fit :=
  match l with [] => [] | d :: t => record_fit z n (snd d) :: fits_from z (S n) t end.
Fixpoint all_fits (op : operator) (reqs : list request) (i n : nat) (zs : list Q) : list fit * list (string * fitrec) :=
  match zs with
  | [] => ([], [])
  | z :: t =>
      let d := details op reqs i in
      let r := all_fits op reqs (S i) (n + List.length d) t in
      ((fits_from z n d ++ fst r)%list, (d ++ snd r)%list)
  end.
(** linemodel.cpp:463-479: bestTplFitSNR *)
Definition snr_max (l : list (string * fitrec)) : Q :=
  fold_left (fun b d => match v_snr (snd d) with Some x => if Qltb b x then x else b | None => b end) l 0.

(** linemodel.cpp:533-577; no fit at all leaves -infinity *)
Definition evaluateContinuumAmplitude (c : config) (t : store) (s : state) : res state :=
  do m <- FindMaxAmplitudeSigma (t_fs t);
  let below (q : Q) := match m with Some (_, f) => Qltb (f_ampsig f) q | None => true end in
  if below (k_neg c) then
    match o_comp s with
    | TplFitAuto => Ok (if Nat.eqb (o_pass s) 1 then with_comp s FromSpectrum else s)
    | _ => Throw NEGATIVE_CONTINUUM
    end
  else Ok (if (below (k_null c) && Nat.eqb (o_pass s) 1)%bool then with_comp s NoContinuum else s).

(** linemodel.cpp:402-531; redshifts.front() of an empty vector is UB *)
Definition PrecomputeContinuumFit (op : operator) (c : config) (zs : list Q) (cand : Z) (s : state) : res (store * state) :=
  do _ <- front zs;
  let fft := isfftprocessingActive c (o_pass s) (List.length zs) in
  let s := with_op s (prepare_operator c fft (o_op s)) in
  do ts <- templates c s cand fft;
  let mask := match o_op s with Some (_, m) => m | None => false end in
  let reqs := map (fun t => match t with (name, ebmv, meik) => mkReq name fft mask ebmv meik zs end) ts in
  let '(fits, all) := all_fits op reqs 0 0 zs in
  do fs <- AddAll (fs_new zs) fits;
  let t := mkStore fs all (snr_max all) in
  if Nat.ltb (fs_count fs) (k_maxN c) then Throw INTERNAL_ERROR
  else let s := with_used s (Some t) in
       do s <- evaluateContinuumAmplitude c t s; Ok (t, s).

(** linemodel.cpp:117 and 126-131 *)
Definition tplfit (k : component) : bool := match k with TplFit | TplFitAuto => true | _ => false end.
Definition first_pass (op : operator) (c : config) (zs : list Q) (s : state) : res state :=
  let s := with_pass s 1 in
  if tplfit (o_comp s) then do (t, s) <- PrecomputeContinuumFit op c zs (-1)%Z s; Ok (with_first s (Some t)) else Ok s.
(** linemodel.cpp:786-792; the vector has been resized to the number of candidates *)
Fixpoint second_loop (op : operator) (c : config) (ws : list (list Q)) (i n : nat) (s : state) : res state :=
  match n with
  | O => Ok s
  | S m =>
      do w <- vget ws i;
      do (t, s) <- PrecomputeContinuumFit op c w (Z.of_nat i) s;
      do l <- vset (o_second s) i (Some t);
      let s := with_second s l in
      if match o_comp s with FromSpectrum => true | _ => false end then Ok s else second_loop op c ws (S i) m s
  end.
(** std::vector::resize of a vector of shared pointers *)
Definition resize_ptr (l : list (option store)) (n : nat) : list (option store) := (firstn n l ++ repeat None (n - List.length l))%list.
(** linemodel.cpp:736, 747-766 and 779-805; ws are the extended redshifts *)
Definition second_pass (op : operator) (c : config) (method : string) (ws : list (list Q)) (s : state) : res state :=
  let s := with_pass s 2 in
  do o <- (if String.eqb method "fromFirstPass" then Ok 2%nat else if String.eqb method "retryAll" then Ok 0%nat
           else if String.eqb method "reFitFirstPass" then Ok 3%nat else Throw INTERNAL_ERROR);
  let s := with_option s o in
  if tplfit (o_comp s) then
    if (Nat.eqb o 0 || Nat.eqb o 3)%bool then
      let n := List.length (o_cands s) in second_loop op c ws 0 n (with_second s (resize_ptr (o_second s) n))
    else Ok (with_used (with_second s [o_first s]) (o_first s))
  else Ok s.
