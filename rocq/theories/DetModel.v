(** Model of the detection of lines in the peaks of a spectrum: RedshiftLibrary/src/lib/operator/linedetection.cpp (CLineDetection),
    header operator/linedetection.h, line/linedetected.h:69-74, line/catalog.h:119-127, line/catalog.cpp:199-212.
    Fluxes, noises and wavelengths are exact rationals above -DBL_MAX; a division by zero gives the IEEE special values. The Gaussian fit of a range is a parameter.
    Not modelled: LimitGaussianFitStartAndStop (its call is commented out), the logs, the names of the lines (replaced by the number of the peak). *)
From Coq Require Import String.
From Verif Require Import Base SortLib F64 AxisModel MedianModel PeakModel MatchModel.
Open Scope Q_scope.

Record spc := mkSpc { sp_lam : list Q; sp_flux : list Q; sp_err : list Q }.

(** the IEEE division of finite values, without rounding nor overflow *)
Definition ratio_of (a b : Q) : f64 :=
  if Qeq_bool b 0 then (if Qeq_bool a 0 then NaN else if Qltb a 0 then NInf else PInf) else Fin (a / b).

(** ** ComputeFluxes, linedetection.cpp:300-397 *)
(** :326-332 the first largest sample with a non null mask; None is undefIdx with -DBL_MAX *)
Fixpoint max_loop (flux mask : list Q) (k n : nat) (st : option (Q * nat)) : res (option (Q * nat)) :=
  match n with
  | O => Ok st
  | S m =>
    do f <- vget flux k;
    if match st with None => true | Some (v, _) => Qltb v f end then
      do w <- vget mask k;
      max_loop flux mask (S k) m (if Qeq_bool w 0 then st else Some (f, k))
    else max_loop flux mask (S k) m st
  end.
(** :353-361 *)
Fixpoint collect (flux mask : list Q) (k n : nat) : res (list Q) :=
  match n with
  | O => Ok []
  | S m =>
    do w <- vget mask k;
    if Qeq_bool w 0 then collect flux mask (S k) m
    else do f <- vget flux k; do t <- collect flux mask (S k) m; Ok (f :: t)
  end.
(** :371-376 *)
Fixpoint all_ones (err : list Q) (k n : nat) : res bool :=
  match n with
  | O => Ok true
  | S m => do e <- vget err k; if Qeq_bool e 1 then all_ones err (S k) m else Ok false
  end.
(** :379-385 *)
Fixpoint noise_sum (err mask : list Q) (k n : nat) (s : Q) (c : nat) : res (Q * nat) :=
  match n with
  | O => Ok (s, c)
  | S m =>
    do w <- vget mask k;
    if Qeq_bool w 0 then noise_sum err mask (S k) m s c
    else do e <- vget err k; noise_sum err mask (S k) m (s + e) (S c)
  end.
(** :365-395 *)
Definition window_noise (err mask : list Q) (left n : nat) (xmad : Q) : res Q :=
  match err with
  | [] => Ok xmad
  | _ =>
    do ones <- all_ones err left n;
    if (ones : bool) then Ok xmad
    else
      do (s, c) <- noise_sum err mask left n 0 0;
      let mean := match c with O => s | _ => s / inject_Z (Z.of_nat c) end in
      Ok (if Qltb xmad mean then mean else xmad)
  end.
(** the answer: the ratio, the largest flux without the median, the deviation (the two output pointers) *)
Definition ComputeFluxes (s : spc) (winsize : Q) (range : Z * Z) (mask0 : list Q) : res (f64 * Q * Q) :=
  if (Z.of_nat (List.length (sp_flux s)) <=? snd range)%Z then Throw INTERNAL_ERROR
  else if (fst range <? 0)%Z then Throw INTERNAL_ERROR
  else
    let mask := match mask0 with [] => repeat 1 (List.length (sp_lam s)) | _ => mask0 end in
    let beg := Z.to_nat (fst range) in
    do st <- max_loop (sp_flux s) mask beg (Z.to_nat (snd range + 1 - fst range)) None;
    match st with
    | None => Throw INTERNAL_ERROR
    | Some (maxv, mi) =>
      do l <- vget (sp_lam s) mi;
      do a <- GetIndexAtWaveLength (sp_lam s) (l - winsize / 2);
      do b <- GetIndexAtWaveLength (sp_lam s) (l + winsize / 2);
      let left := Nat.max beg a in
      let right := Nat.min (Z.to_nat (snd range + 1)) (Nat.min (List.length (sp_flux s)) (b + 1)) in
      do xs <- collect (sp_flux s) mask left (right - left);
      do med <- Find xs;
      do xmad <- XMad xs med;
      do noise <- window_noise (sp_err s) mask left (right - left) xmad;
      Ok (ratio_of (maxv - med) noise, maxv - med, xmad)
    end.

(** ** Compute, linedetection.cpp:78-248 *)
(** gaussianfit.h: GetResults, GetResultsError, GetResultsPolyCoeff0 *)
Record gfit := mkFit { g_amp : Q; g_pos : Q; g_width : Q; g_cont : Q; g_ampErr : Q; g_posErr : Q; g_widthErr : Q }.
(** linedetected.h:47-100; [l_peak], [l_retest] stand for the names detected_peak_j and detected_retested_peak_j *)
Record dline := mkLine { l_peak : nat; l_retest : bool; l_pos : Q; l_strong : bool; l_amp : Q; l_width : Q; l_cut : f64; l_posErr : Q; l_widthErr : Q; l_ampErr : Q }.
(** linedetection.h:66-79 *)
Record gauss := mkGauss { gp_pos : Q; gp_width : Q; gp_amp : Q }.
Inductive status := FitFailed | AmpNegative | WidthNegative | TooNarrow | TooWide | FarAmp | FarPos | BelowCut | Detected.
Record config := mkConfig { c_cut : Q; c_strongcut : Q; c_winsize : Q; c_minsize : Q; c_maxsize : Q; c_noQuality : bool }.
Definition FWHM_FACTOR : Q := 235 # 100.

(** :128-158, the tests of the amplitude and of the width *)
Definition shape_status (c : config) (g : gfit) : list status :=
  if Qltb (g_amp g) 0 then [AmpNegative]
  else if Qltb (g_width g) 0 then [WidthNegative]
  else ((if Qltb (FWHM_FACTOR * g_width g) (c_minsize c) then [TooNarrow] else []) ++ (if Qltb (c_maxsize c) (FWHM_FACTOR * g_width g) then [TooWide] else []))%list.
(** :166-173; [None] is -1 with -DBL_MAX; the indices are Int32: a negative one reads before the array *)
Fixpoint raw_max (flux : list Q) (k : Z) (n : nat) (st : option (Q * Z)) : res (option (Q * Z)) :=
  match n with
  | O => Ok st
  | S m =>
    do f <- (if (k <? 0)%Z then UB else vget flux (Z.to_nat k));
    raw_max flux (k + 1) m (if match st with None => true | Some (v, _) => Qltb v f end then Some (f, k) else st)
  end.
(** :177-178 *)
Definition far_amp (withcont maxv : Q) : bool :=
  match ratio_of withcont maxv with
  | NaN => false
  | PInf | NInf => true
  | Fin r => (Qle_bool r (65 # 100) || Qle_bool (135 # 100) r)%bool
  end.
(** :160-200 *)
Definition quality_status (s : spc) (g : gfit) (peak : Z * Z) : res (list status) :=
  do st <- raw_max (sp_flux s) (fst peak) (Z.to_nat (snd peak + 1 - fst peak)) None;
  match st with
  | None => UB
  | Some (maxv, mi) =>
    do l <- vget (sp_lam s) (Z.to_nat mi);
    Ok ((if far_amp (g_amp g + g_cont g) maxv then [FarAmp] else []) ++ (if Qltb 6 (Qabs (g_pos g - l)) then [FarPos] else []))%list
  end.
(** a peak: its statuses, its line, what is kept for the retest (:203-237); the constructor SGaussParams takes the width before the amplitude (linedetection.h:72), the call :214-215 gives the amplitude first *)
Definition detect_peak (c : config) (s : spc) (fit : Z * Z -> option gfit) (j : nat) (peak enlarged : Z * Z) : res (list status * option dline * option gauss) :=
  match fit enlarged with
  | None => Ok ([FitFailed], None, None)
  | Some g =>
    do st <- (match shape_status c g with [] => if c_noQuality c then Ok [] else quality_status s g peak | l => Ok l end);
    match st with
    | _ :: _ => Ok (st, None, None)
    | [] =>
      do (ratio, _, _) <- ComputeFluxes s (c_winsize c) peak [];
      if flt ratio (Fin (c_cut c)) then Ok ([BelowCut], None, Some (mkGauss (g_pos g) (g_amp g) (g_width g)))
      else Ok ([Detected], Some (mkLine j false (g_pos g) (flt (Fin (c_cut c * c_strongcut c)) ratio) (g_amp g) (g_width g) ratio (g_posErr g) (g_widthErr g) (g_ampErr g)), None)
    end
  end.
(** the loop :96-237; enlarged peaks are read by index *)
Fixpoint detect_loop (c : config) (s : spc) (fit : Z * Z -> option gfit) (enl : list (Z * Z)) (j : nat) (peaks : list (Z * Z)) : res (list (nat * status) * list dline * list ((Z * Z) * gauss)) :=
  match peaks with
  | [] => Ok ([], [], [])
  | p :: t =>
    do e <- vget enl j;
    do (st, l, r) <- detect_peak c s fit j p e;
    do (sts, ls, rs) <- detect_loop c s fit enl (S j) t;
    Ok ((map (pair j) st ++ sts)%list, (match l with Some x => x :: ls | None => ls end), (match r with Some g => (p, g) :: rs | None => rs end))
  end.

(** ** Retest, linedetection.cpp:402-451; the window is an Int32 *)
Definition near (winsize : Z) (center : Q) (l : dline) : bool :=
  (Qltb (l_pos l - inject_Z winsize / 2) center && Qltb center (l_pos l + inject_Z winsize / 2))%bool.
Definition zvget {A} (l : list A) (i : Z) : res A := if (i <? 0)%Z then UB else vget l (Z.to_nat i).
Fixpoint select (lam : list Q) (winsize : Z) (strong : list dline) (l : list ((Z * Z) * gauss)) : res (list ((Z * Z) * gauss)) :=
  match l with
  | [] => Ok []
  | (p, g) :: t =>
    do a <- zvget lam (fst p); do b <- zvget lam (snd p);
    do k <- select lam winsize strong t;
    Ok (map (fun _ => (p, g)) (filter (near winsize ((b + a) / 2)) strong) ++ k)%list
  end.
(** ** RemoveStrongFromSpectra, linedetection.cpp:457-541 *)
(** :470-474; the bounds of a range are Int32: truncated; a non finite one is undefined *)
Definition exclusion (l : dline) : res (Z * Z) :=
  match l_cut l with
  | Fin c => Ok (to_int (l_pos l - FWHM_FACTOR * c), to_int (l_pos l + FWHM_FACTOR * c))
  | _ => UB
  end.
Fixpoint exclusions (l : list dline) : res (list (Z * Z)) :=
  match l with [] => Ok [] | x :: t => do e <- exclusion x; do k <- exclusions t; Ok (e :: k) end.
(** :480-489 *)
Definition trim (line strong : Z * Z) : Z * Z :=
  if ((fst strong <? snd line)%Z && (fst line <? snd strong)%Z)%bool then
    (if (fst line <? fst strong)%Z then (snd line, snd strong) else (fst strong, fst line))
  else strong.
(** :477-490 *)
Fixpoint trims (lam : list Q) (sel : list ((Z * Z) * gauss)) (ex : list (Z * Z)) : res (list (Z * Z)) :=
  match sel with
  | [] => Ok ex
  | (p, _) :: t => do a <- zvget lam (fst p); do b <- zvget lam (snd p); trims lam t (map (trim (to_int a, to_int b)) ex)
  end.
(** :493-502 *)
Definition excluded (ex : list (Z * Z)) (w : Q) : bool := existsb (fun e => (Qle_bool (inject_Z (fst e)) w && Qle_bool w (inject_Z (snd e)))%bool) ex.
Definition strong_mask (lam : list Q) (ex : list (Z * Z)) : list Q := map (fun w => if excluded ex w then 0 else 1) lam.
(** :505, spectrum.cpp:63-82 *)
Definition reduce (s : spc) (mask : list Q) : spc := mkSpc (keep_masked mask (sp_lam s)) (keep_masked mask (sp_flux s)) (keep_masked mask (sp_err s)).
(** :506-511: the first entry is 0, each next one adds one for a sample which is kept *)
Fixpoint index_from (v : Z) (mask : list Q) : list Z :=
  match mask with [] => [] | m :: t => let v' := if Qeq_bool m 0 then v else (v + 1)%Z in v' :: index_from v' t end.
Definition reducedindexes (mask : list Q) : list Z := match mask with [] => [] | _ :: t => 0%Z :: index_from 0 t end.
(** linedetected.h:69-74, catalog.cpp:199-212 *)
Definition line_lt (a b : dline) : bool := if Qeq_bool (l_pos a) (l_pos b) then Qltb (l_amp a) (l_amp b) else Qltb (l_pos a) (l_pos b).
(** :513-540 *)
Fixpoint retest_loop (red : spc) (winsize cut : Q) (idx : list Z) (k : nat) (sel : list ((Z * Z) * gauss)) (cat : list dline) : res (list dline) :=
  match sel with
  | [] => Ok cat
  | (p, g) :: t =>
    do a <- zvget idx (fst p); do b <- zvget idx (snd p);
    do (ratio, _, _) <- ComputeFluxes red winsize (a, b) [];
    retest_loop red winsize cut idx (S k) t
      (if flt (Fin cut) ratio then isort line_lt (cat ++ [mkLine k true (gp_pos g) false (gp_amp g) (gp_width g) ratio (-1) (-1) (-1)]) else cat)
  end.
Definition RemoveStrongFromSpectra (s : spc) (strong : list dline) (sel : list ((Z * Z) * gauss)) (winsize cut : Q) (cat : list dline) : res (list dline) :=
  do ex0 <- exclusions strong;
  do ex <- trims (sp_lam s) sel ex0;
  let mask := strong_mask (sp_lam s) ex in
  retest_loop (reduce s mask) winsize cut (reducedindexes mask) 0 sel cat.
Definition Retest (s : spc) (retest : list ((Z * Z) * gauss)) (strong : list dline) (winsize : Z) (cut : Q) (cat : list dline) : res (list dline) :=
  do sel <- select (sp_lam s) winsize strong retest;
  match sel with [] => Ok cat | _ => RemoveStrongFromSpectra s strong sel (inject_Z winsize) cut cat end.
(** the answer: statuses and catalog (keys 0, 1, ...) *)
Definition Compute (c : config) (s : spc) (fit : Z * Z -> option gfit) (peaks enl : list (Z * Z)) : res (list (nat * status) * list dline) :=
  do (sts, ls, rs) <- detect_loop c s fit enl 0 peaks;
  match rs with
  | [] => Ok (sts, ls)
  | _ => do k <- Retest s rs (filter l_strong ls) (to_int (c_winsize c)) (c_cut c) ls; Ok (sts, k)
  end.
