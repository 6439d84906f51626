(** Vocabulary for C72. *)
From Verif Require Import Base F64 AxisSpec MedianSpec PeakSpec MatchModel DetModel.
Open Scope Q_scope.

(** a spectrum: increasing wavelengths, as many fluxes, noises or none *)
Definition good_spectrum (s : spc) : Prop :=
  strictly_increasing (sp_lam s) /\ List.length (sp_flux s) = List.length (sp_lam s) /\ (sp_err s = [] \/ List.length (sp_err s) = List.length (sp_lam s)).
(** no mask, or one value for each sample *)
Definition good_mask (s : spc) (mask : list Q) : Prop := mask = [] \/ List.length mask = List.length (sp_lam s).
(** sample i counts: no mask, or its value is not zero *)
Definition counts (mask : list Q) (i : nat) : Prop := mask = [] \/ exists m, nth_error mask i = Some m /\ ~ m == 0.
Definition countsb (mask : list Q) (i : nat) : bool := match mask with [] => true | _ => match nth_error mask i with Some m => negb (Qeq_bool m 0) | None => false end end.
(** the values of v at the samples of [a, b) which count *)
Definition picked (v mask : list Q) (a b : nat) : list Q :=
  flat_map (fun i => match nth_error v i with Some x => if countsb mask i then [x] else [] | None => [] end) (seq a (b - a)).
(** the first largest flux of the range [beg, end] among the samples which count *)
Definition first_largest (flux mask : list Q) (beg last m : nat) (v : Q) : Prop :=
  (beg <= m <= last)%nat /\ nth_error flux m = Some v /\ counts mask m /\
  forall i f, (beg <= i <= last)%nat -> counts mask i -> nth_error flux i = Some f -> f <= v /\ ((i < m)%nat -> f < v).
(** i is the first sample not below w, or the last one *)
Definition first_or_last (lam : list Q) (w : Q) (i : nat) : Prop :=
  (i < List.length lam)%nat /\ (forall j x, (j < i)%nat -> nth_error lam j = Some x -> x < w) /\ (forall x, nth_error lam i = Some x -> w <= x \/ (i = List.length lam - 1)%nat).
(** the window of the sample m in the range: from the first sample not below its wavelength minus half the size to the first not below plus half the size, both included, limited to the range *)
Definition peak_window (lam : list Q) (winsize : Q) (beg last m a b : nat) : Prop :=
  exists l i j, nth_error lam m = Some l /\ first_or_last lam (l - winsize / 2) i /\ first_or_last lam (l + winsize / 2) j /\ a = Nat.max beg i /\ b = S (Nat.min last j).
Definition mean (l : list Q) : Q := fold_right Qplus 0 l / inject_Z (Z.of_nat (List.length l)).
(** the noise of the window: the deviation, or the mean noise of the samples which count when it is larger and the noises of the window are not all one *)
Definition noise_of (err mask : list Q) (a b : nat) (mad noise : Q) : Prop :=
  ((err = [] \/ (forall i e, (a <= i < b)%nat -> nth_error err i = Some e -> e == 1)) /\ noise == mad) \/
  (err <> [] /\ (exists i e, (a <= i < b)%nat /\ nth_error err i = Some e /\ ~ e == 1) /\ noise == Qmax mad (mean (picked err mask a b))).
(** equality of floating point values *)
Definition feq (a b : f64) : Prop := match a, b with Fin x, Fin y => x == y | NaN, NaN | PInf, PInf | NInf, NInf => True | _, _ => False end.

(** the peak looks like the fit: the fitted height is between 0.65 and 1.35 of its largest flux, and the fitted position within 6 of it *)
Definition resembles (s : spc) (g : gfit) (peak : Z * Z) : Prop :=
  exists c v l, first_maximum (sp_flux s) peak c v /\ sample (sp_lam s) c l /\ Qabs (g_pos g - l) <= 6 /\
    (v == 0 /\ g_amp g + g_cont g == 0 \/ ~ v == 0 /\ (65 # 100) < (g_amp g + g_cont g) / v < 135 # 100).
(** the fit of a peak is acceptable *)
Definition acceptable (c : config) (s : spc) (g : gfit) (peak : Z * Z) : Prop :=
  0 <= g_amp g /\ 0 <= g_width g /\ c_minsize c <= (235 # 100) * g_width g <= c_maxsize c /\ (c_noQuality c = true \/ resembles s g peak).
(** a peak inside the spectrum *)
Definition inside_spectrum (s : spc) (peak : Z * Z) : Prop := (0 <= fst peak <= snd peak)%Z /\ (snd peak < Z.of_nat (List.length (sp_lam s)))%Z.
(** number of samples with a non null mask among the first k *)
Definition kept_before (mask : list Q) (k : nat) : nat := List.length (filter (fun m => negb (Qeq_bool m 0)) (firstn k mask)).
(** in order of position, then of amplitude *)
Definition in_order (l : list dline) : Prop := StronglySorted (fun a b => l_pos a < l_pos b \/ l_pos a == l_pos b /\ l_amp a <= l_amp b) l.

(** ** lines *)
(** the line x of the peak number j, with its fit on the enlarged range e: the fit is acceptable and the ratio is not below the cut; strong when the ratio is above the cut times the strong cut *)
Definition line_of (c : config) (s : spc) (fit : Z * Z -> option gfit) (j : nat) (p e : Z * Z) (x : dline) : Prop :=
  exists g ratio h d, fit e = Some g /\ acceptable c s g p /\ ComputeFluxes s (c_winsize c) p [] = Ok (ratio, h, d) /\ flt ratio (Fin (c_cut c)) = false /\
    x = mkLine j false (g_pos g) (flt (Fin (c_cut c * c_strongcut c)) ratio) (g_amp g) (g_width g) ratio (g_posErr g) (g_widthErr g) (g_ampErr g).
(** a peak with an acceptable fit and a ratio below the cut, kept for the retest *)
Definition retest_of (c : config) (s : spc) (fit : Z * Z -> option gfit) (p e : Z * Z) (r : gauss) : Prop :=
  exists g ratio h d, fit e = Some g /\ acceptable c s g p /\ ComputeFluxes s (c_winsize c) p [] = Ok (ratio, h, d) /\ flt ratio (Fin (c_cut c)) = true /\ r = mkGauss (g_pos g) (g_amp g) (g_width g).
(** x is the line of one of the peaks *)
Definition detected (c : config) (s : spc) (fit : Z * Z -> option gfit) (peaks enl : list (Z * Z)) (x : dline) : Prop :=
  exists j p e, nth_error peaks j = Some p /\ nth_error enl j = Some e /\ line_of c s fit j p e x.
(** the centre of the peak is less than half a window from the line *)
Definition beside (lam : list Q) (winsize : Z) (p : Z * Z) (l : dline) : Prop :=
  exists a b, sample lam (fst p) a /\ sample lam (snd p) b /\ Qabs (l_pos l - (a + b) / 2) < inject_Z winsize / 2.
(** a retested line: its ratio in the reduced spectrum is above the cut *)
Definition again (red : spc) (winsize cut : Q) (idx : list Z) (k : nat) (p : Z * Z) (g : gauss) (x : dline) : Prop :=
  exists a b ratio h d, zvget idx (fst p) = Ok a /\ zvget idx (snd p) = Ok b /\ ComputeFluxes red winsize (a, b) [] = Ok (ratio, h, d) /\ flt (Fin cut) ratio = true /\
    x = mkLine k true (gp_pos g) false (gp_amp g) (gp_width g) ratio (-1) (-1) (-1).
Definition within (e : Z * Z) (w : Q) : Prop := inject_Z (fst e) <= w <= inject_Z (snd e).
(** a mask of zeros and ones *)
Definition flags (mask : list Q) : Prop := forall m, In m mask -> m = 0 \/ m = 1.
(** peaks inside the spectrum, with an enlarged range for each *)
Definition good_detection (c : config) (s : spc) (peaks enl : list (Z * Z)) : Prop :=
  good_spectrum s /\ 0 <= c_winsize c /\ (forall p, In p peaks -> inside_spectrum s p) /\ (List.length peaks <= List.length enl)%nat.
