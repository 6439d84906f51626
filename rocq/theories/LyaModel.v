(** Model of the profiles of the lines absorbed by the intergalactic medium (Lya and the lines below it):
    RedshiftLibrary/src/lib/linemodel/lineratiomanager.cpp:64-205 (setLyaProfile, setAsymProfile, setSymIgmProfile, setPassMode),
    RedshiftLibrary/src/lib/linemodel/abstractfitter.cpp:168-258 and 446-559 (resetSupport for the profiles, fitLyaProfile, fitAsymParameters,
    fitAsymIGMCorrection), RedshiftLibrary/RedshiftLibrary/linemodel/elementparam.h:117-158 and 237-240,
    RedshiftLibrary/src/lib/linemodel/elementparam.cpp:89-95, RedshiftLibrary/src/lib/linemodel/lmeltlistvector.cpp:239-250 and the profile classes
    RedshiftLibrary/src/lib/line/lineprofileASYM.cpp, lineprofileASYMFIT.cpp, lineprofileSYMIGM.cpp.
    Exact rationals; [None] is a NaN, -1 is undefIdx. *)
From Coq Require Import String.
From Verif Require Import Base RangeModel F64.
Open Scope Q_scope.

(** TAsymParams, line/lineprofile.h:60-67 *)
Record asym := mkA { a_sigma : Q; a_alpha : Q; a_delta : Q }.
(** the profiles: support in sigmas; parameters and centering of the asymmetric ones; m_igmFit, m_igmidx, m_redshift of SYMIGM *)
Inductive profile :=
| Sym (ns : Q) | Lor (ns : Q)
| Fixed (ns : Q) (p : asym) (centering : string)
| Fit (ns : Q) (p : asym) (centering : string)
| Igm (ns : Q) (fit : bool) (idx : Z) (z : option Q).
Definition isAsym (p : profile) : bool := match p with Fixed _ _ _ | Fit _ _ _ => true | _ => false end.
Definition isAsymFit (p : profile) : bool := match p with Fit _ _ _ => true | _ => false end.
Definition isAsymFixed (p : profile) : bool := match p with Fixed _ _ _ => true | _ => false end.
Definition isSymIgm (p : profile) : bool := match p with Igm _ _ _ _ => true | _ => false end.
Definition isSymIgmFit (p : profile) : bool := match p with Igm _ f _ _ => f | _ => false end.
(** lineprofileASYMFIT.cpp:60-71; the others ignore it, lineprofile.h:125 *)
Definition SetAsymParams (p : profile) (a : asym) : profile := match p with Fit n _ c => Fit n a c | _ => p end.
Definition GetAsymParams (p : profile) : option asym := match p with Fit _ a _ | Fixed _ a _ => Some a | _ => None end.
(** lineprofileSYMIGM.cpp and .h *)
Definition SetSymIgmParams (p : profile) (i : Z) (z : option Q) : profile := match p with Igm n f _ _ => Igm n f i z | _ => p end.
Definition SetSymIgmFit (p : profile) (f : bool) : profile := match p with Igm n _ i z => Igm n f i z | _ => p end.
(** lineprofileASYMFIT.cpp:73-77, lineprofileSYMIGM.cpp:resetParams *)
Definition resetParams (p : profile) : profile :=
  match p with
  | Fit n _ c => Fit n (mkA 2 0 0) c
  | Igm n true _ _ => Igm n true (-1) None
  | _ => p
  end.
(** lineprofileASYM.cpp:119-121 *)
Definition constSigma (c : string) : Q := if (String.eqb c "mean" || String.eqb c "mode")%bool then 5 # 2 else 1.
Definition GetNSigmaSupport (p : profile) : Q :=
  match p with Sym n | Lor n | Igm n _ _ _ => n | Fixed n a c | Fit n a c => n * a_sigma a * constSigma c end.
(** cloneToASYM, cloneToASYMFIT: lineprofileASYM.cpp:61-68, lineprofileASYMFIT.cpp:51-58 *)
Definition cloneToASYM (p : profile) : profile := match p with Fit n a c => Fixed n a c | _ => p end.
Definition cloneToASYMFIT (p : profile) : profile := match p with Fixed n a c => Fit n a c | _ => p end.

(** an element: identifier and profile of its lines, m_asymLineIndices, whether it is outside the range in all the spectra, and its lines *)
Record elt := mkE { e_lines : list (Z * profile); e_asym : list nat; e_allout : bool; e_out : list bool }.
Definition with_lines (e : elt) l := mkE l (e_asym e) (e_allout e) (e_out e).
(** elementparam.cpp:91-94 *)
Fixpoint asym_indices (i : nat) (l : list (Z * profile)) : list nat :=
  match l with
  | [] => []
  | x :: t => if (isAsym (snd x) || isSymIgm (snd x))%bool then i :: asym_indices (S i) t else asym_indices (S i) t
  end.
Definition new_elt (l : list (Z * profile)) (allout : bool) (out : list bool) : elt := mkE l (asym_indices 0 l) allout out.
(** one line changed; an index outside of the vector is UB *)
Definition on_line (f : profile -> profile) (e : elt) (i : nat) : res elt :=
  do x <- vget (e_lines e) i; do l <- vset (e_lines e) i (fst x, f (snd x)); Ok (with_lines e l).
(** elementparam.h:128-158 (line_index = undefIdx), 237-240: all the lines of m_asymLineIndices *)
Fixpoint on_asym (f : profile -> profile) (idx : list nat) (e : elt) : res elt :=
  match idx with [] => Ok e | i :: t => do e <- on_line f e i; on_asym f t e end.
Definition on_elt (f : profile -> profile) (es : list elt) (k : nat) : res (list elt) :=
  do e <- vget es k; do e <- on_asym f (e_asym e) e; vset es k e.
(** lmeltlistvector.cpp:239-250 *)
Fixpoint igm_from (k : nat) (es : list elt) : list (nat * list nat) :=
  match es with
  | [] => []
  | e :: t => match e_asym e with [] => igm_from (S k) t | l => (k, l) :: igm_from (S k) t end
  end.
Definition getIgmLinesIndices (es : list elt) : list (nat * list nat) := igm_from 0 es.
Definition getLineProfile (es : list elt) (k i : nat) : res profile := do e <- vget es k; do x <- vget (e_lines e) i; Ok (snd x).

(** vector::front of a vector which is not empty *)
Definition front_nat (l : list nat) : res nat := match l with [] => UB | i :: _ => Ok i end.

(** std::map::at *)
Fixpoint at_ (catalog : list (Z * profile)) (id : Z) : res profile :=
  match catalog with [] => Throw STD_out_of_range | (i, p) :: t => if Z.eqb i id then Ok p else at_ t id end.
(** m_forceDisableLyaFitting, m_forceLyaFitting and the two options lya.asymProfile.switchFitToFixed, switchFixedToFit *)
Record flags := mkFl { f_disable : bool; f_force : bool; f_optdisable : bool; f_optforce : bool }.
(** lineratiomanager.cpp:186-205 *)
Definition setPassMode (pass : nat) (f : flags) : flags :=
  match pass with
  | 1%nat => mkFl true false (f_optdisable f) (f_optforce f)
  | 2%nat => mkFl (f_optdisable f) (f_optforce f) (f_optdisable f) (f_optforce f)
  | 3%nat => mkFl false (f_force f) (f_optdisable f) (f_optforce f)
  | _ => f
  end.
(** lineratiomanager.cpp:137-153 *)
Definition from_catalog (f : flags) (ref : profile) : profile :=
  if (f_disable f && isAsymFit ref)%bool then cloneToASYM ref
  else if (f_force f && isAsymFixed ref)%bool then cloneToASYMFIT ref else ref.
(** lineratiomanager.cpp:130-156 *)
Definition setAsymProfile (f : flags) (catalog : list (Z * profile)) (es : list elt) (k i : nat) : res (list elt) :=
  do e <- vget es k; do x <- vget (e_lines e) i; do ref <- at_ catalog (fst x);
  do e <- on_line (fun _ => from_catalog f ref) e i; vset es k e.
(** the continuum: Some i when it comes from a template which is not fitted to null, i its Meiksin index *)
(** lineratiomanager.cpp:158-176 *)
Definition setSymIgmProfile (cont : option Z) (z : Q) (es : list elt) (k : nat) : res (list elt) :=
  match cont with
  | Some i => do es <- on_elt (fun p => SetSymIgmFit p false) es k; on_elt (fun p => SetSymIgmParams p i (Some z)) es k
  | None => on_elt (fun p => SetSymIgmFit p true) es k
  end.
(** lineratiomanager.cpp:109-127: the indices kept by remove_if *)
Fixpoint keep_lines (test : profile -> nat -> bool) (es : list elt) (k : nat) (idx : list nat) : res (list nat) :=
  match idx with
  | [] => Ok []
  | i :: t => do p <- getLineProfile es k i; do r <- keep_lines test es k t; Ok (if test p i then i :: r else r)
  end.
Fixpoint symigm_loop (cont : option Z) (z : Q) (igm : list (nat * list nat)) (es : list elt) : res (list elt) :=
  match igm with
  | [] => Ok es
  | (k, l) :: t =>
      do f <- keep_lines (fun p _ => isSymIgm p) es k l;
      do es <- match f with [] => Ok es | _ => setSymIgmProfile cont z es k end;
      symigm_loop cont z t es
  end.
(** lineratiomanager.cpp:90-128 *)
Definition setLyaProfile (f : flags) (cont : option Z) (z : Q) (catalog : list (Z * profile)) (es : list elt) : res (list elt) :=
  let igm := getIgmLinesIndices es in
  match igm with
  | [] => Ok es
  | (k, l) :: _ =>
      do i <- front_nat l;
      do p <- getLineProfile es k i;
      do es <- (if isAsym p then setAsymProfile f catalog es k i else Ok es);
      symigm_loop cont z igm es
  end.

(** ** the fit of the profiles *)
(** abstractfitter.cpp:187-190 *)
Fixpoint reset_from (k : nat) (n : nat) (es : list elt) : res (list elt) :=
  match n with O => Ok es | S m => do es <- on_elt resetParams es k; reset_from (S k) m es end.
Definition resetAsymfitParams (es : list elt) : res (list elt) := reset_from 0 (List.length es) es.
(** lya.asymProfile limits of one parameter *)
Record limits := mkLim { l_min : Q; l_max : Q; l_step : Q }.
(** fitAmplitude then GetElementAmplitude for element k with these profiles (line i only when given); getModelResidualRmsUnderElements; the number of
    Meiksin curves *)
Record env := mkEnv { v_amp : nat -> elt -> option nat -> option Q; v_rms : list elt -> list nat -> f64; v_count : nat;
  v_width : limits; v_asym : limits; v_delta : limits }.
(** abstractfitter.cpp:450-461: int((max - min) / step + 1.5); a null step is UB *)
Definition steps (l : limits) : res (list Q) :=
  if Qeq_bool (l_step l) 0 then UB
  else do n <- to_int32 ((l_max l - l_min l) / l_step l + (3 # 2));
       Ok (map (fun i => l_min l + l_step l * inject_Z (Z.of_nat i)) (seq 0 (Z.to_nat n))).
Definition positive (a : option Q) : bool := match a with Some x => Qltb 0 x | None => false end.
(** ASYMF_DEFAULT_PARAMS, line/lineprofile.h:73; abstractfitter.cpp:463-464 *)
Definition default_params : asym := mkA 2 2 0.
(** abstractfitter.cpp:472-497: one set of parameters; meritMin and bestparams *)
Definition asym_step (v : env) (k i : nat) (a : asym) (b : f64 * asym) (es : list elt) : res ((f64 * asym) * list elt) :=
  do es <- on_elt (fun p => SetAsymParams p a) es k;
  do e <- vget es k;
  if positive (v_amp v k e (Some i)) then
    let m := v_rms v es [k] in
    do li <- front_nat (e_asym e); do x <- vget (e_lines e) li;
    Ok (if flt m (fst b) then match GetAsymParams (snd x) with Some a => ((m, a), es) | None => (b, es) end else (b, es))
  else Ok (b, es).
Fixpoint asym_loop (v : env) (k i : nat) (l : list asym) (b : f64 * asym) (es : list elt) : res ((f64 * asym) * list elt) :=
  match l with [] => Ok (b, es) | a :: t => do (b, es) <- asym_step v k i a b es; asym_loop v k i t b es end.
(** abstractfitter.cpp:467-471: the order of the three loops *)
Definition triples (ds ws as_ : list Q) : list asym := flat_map (fun d => flat_map (fun w => map (fun a => mkA w a d) as_) ws) ds.
(** abstractfitter.cpp:446-512 *)
Definition fitAsymParameters (v : env) (k i : nat) (es : list elt) : res (asym * list elt) :=
  do ws <- steps (v_width v); do as_ <- steps (v_asym v); do ds <- steps (v_delta v);
  do (b, es) <- asym_loop v k i (triples ds ws as_) (PInf, default_params) es; Ok (snd b, es).
(** abstractfitter.cpp:526-531: the elements with one curve *)
Fixpoint igm_fits (v : env) (z : Q) (c : Z) (ks : list nat) (ok : bool) (es : list elt) : res (bool * list elt) :=
  match ks with
  | [] => Ok (ok, es)
  | k :: t => do es <- on_elt (fun p => SetSymIgmParams p c (Some z)) es k; do e <- vget es k;
              igm_fits v z c t (ok || positive (v_amp v k e None))%bool es
  end.
(** abstractfitter.cpp:524-544, the curves from c on *)
Fixpoint igm_loop (v : env) (z : Q) (ks : list nat) (n : nat) (c : Z) (b : f64 * Z) (es : list elt) : res (Z * list elt) :=
  match n with
  | O => Ok (snd b, es)
  | S m =>
      do (ok, es) <- igm_fits v z c ks false es;
      let r := v_rms v es ks in
      igm_loop v z ks m (c + 1) (if (ok && flt r (fst b))%bool then (r, c) else b) es
  end.
(** abstractfitter.cpp:229-247: the elements to fit *)
Fixpoint to_fit (es : list elt) (igm : list (nat * list nat)) : res (list nat) :=
  match igm with
  | [] => Ok []
  | (k, l) :: t =>
      do e <- vget es k;
      if e_allout e then to_fit es t
      else do f <- keep_lines (fun p i => isSymIgmFit p && negb (nth i (e_out e) false))%bool es k l;
           do r <- to_fit es t; Ok (match f with [] => r | _ => k :: r end)
  end.
Fixpoint set_igm (z : Q) (c : Z) (ks : list nat) (es : list elt) : res (list elt) :=
  match ks with [] => Ok es | k :: t => do es <- on_elt (fun p => SetSymIgmParams p c (Some z)) es k; set_igm z c t es end.
(** abstractfitter.cpp:200-258 *)
Definition fitLyaProfile (v : env) (z : Q) (es : list elt) : res (list elt) :=
  let igm := getIgmLinesIndices es in
  match igm with
  | [] => Ok es
  | (k, l) :: _ =>
      do i <- front_nat l; do e <- vget es k; do p <- getLineProfile es k i;
      do es <- (if (isAsymFit p && negb (nth i (e_out e) false))%bool
                then do (a, es) <- fitAsymParameters v k i es; on_elt (fun p => SetAsymParams p a) es k
                else Ok es);
      do ks <- to_fit es igm;
      match ks with
      | [] => Ok es
      | _ => do (c, es) <- igm_loop v z ks (v_count v) 0 (PInf, -1)%Z es; set_igm z c ks es
      end
  end.
(** lineratiomanager.cpp:178-184 then abstractfitter.cpp:168-176: what is done at each redshift (and for each ratio) before the amplitudes are fitted *)
Definition prepare (v : env) (f : flags) (cont : option Z) (z : Q) (catalog : list (Z * profile)) (es : list elt) : res (list elt) :=
  do es <- setLyaProfile f cont z catalog es; do es <- resetAsymfitParams es; fitLyaProfile v z es.
