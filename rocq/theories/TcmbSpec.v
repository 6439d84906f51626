(** Vocabulary for C84. *)
From Coq Require Import Qabs.
From Verif Require Import Base RangeModel RebinModel RebinSpec CalzModel MeikModel TplModel TplSpec SvdModel SvdSpec TcmbModel.
Open Scope Q_scope.

(** ** the library of linear least squares *)
(** the normal matrix of a linear problem, and its inverses *)
Fixpoint normal (rs : list obs) (i j : nat) : Q := match rs with [] => 0 | r :: t => o_w r * nth i (o_row r) 0 * nth j (o_row r) 0 + normal t i j end.
Definition entry (m : list (list Q)) (i j : nat) : Q := nth j (nth i m []) 0.
Fixpoint sumto (n : nat) (f : nat -> Q) : Q := match n with O => 0 | S k => sumto k f + f k end.
Definition is_inverse (k : nat) (N : nat -> nat -> Q) (m : nat -> nat -> Q) : Prop :=
  forall i j, (i < k)%nat -> (j < k)%nat -> sumto k (fun l => N i l * m l j) == if Nat.eqb i j then 1 else 0.
(** what the library promises: a minimum, its sum of squares, and the inverse of the normal matrix when there is one *)
Definition least_squares (solve : nat -> list obs -> list Q * list (list Q) * Q) : Prop :=
  forall k rs, (forall r, In r rs -> 0 <= o_w r /\ length (o_row r) = k) ->
    let c := fst (fst (solve k rs)) in let cov := snd (fst (solve k rs)) in
    length c = k /\ snd (solve k rs) == squares rs c /\ (forall c', length c' = k -> squares rs c <= squares rs c') /\
    ((exists m, is_inverse k (normal rs) m) -> is_inverse k (normal rs) (entry cov)).

(** ** the samples and the templates *)
Definition at_ (l : list Q) (i : nat) : Q := nth i l 0.
(** sum of the amplitudes times the values at sample k of the models *)
Fixpoint combination (ms : list (list Q)) (a : list Q) (k : nat) : Q := match ms, a with m :: ms, x :: a => x * at_ m k + combination ms a k | _, _ => 0 end.
(** the chi square of the samples from k on, n of them *)
Fixpoint chi2 (flux err : list Q) (ms : list (list Q)) (a : list Q) (k n : nat) : Q :=
  match n with O => 0 | S n => let d := (at_ flux k - combination ms a k) / at_ err k in d * d + chi2 flux err ms a (S k) n end.
(** a is a vector of amplitudes of least chi square over the samples ks to ke *)
Definition best_amplitudes (flux err : list Q) (ms : list (list Q)) (ks ke : nat) (a : list Q) : Prop :=
  length a = length ms /\ forall b, length b = length ms -> chi2 flux err ms a ks (S ke - ks) <= chi2 flux err ms b ks (S ke - ks).
Definition least (flux err : list Q) (ms : list (list Q)) (ks ke : nat) (v : Q) : Prop :=
  exists a, best_amplitudes flux err ms ks ke a /\ v == chi2 flux err ms a ks (S ke - ks).
(** the inverse covariance of the amplitudes *)
Fixpoint information (err : list Q) (ms : list (list Q)) (k n : nat) (i j : nat) : Q :=
  match n with O => 0 | S n => (at_ (nth i ms []) k / at_ err k) * (at_ (nth j ms []) k / at_ err k) + information err ms (S k) n i j end.

(** the spectrum axis in the rest frame *)
Definition rest (z : Q) (axis ax : list Q) : Prop := Forall2 (fun l x => x == l / (1 + z)) axis ax.
(** sample k is fitted: its wavelength is in the range and every template covers it *)
Definition covered (ts : list source) (x : Q) : Prop := forall s, In s ts -> exists x0 xl, nth_error (s_X s) 0 = Some x0 /\ nth_error (s_X s) (length (s_X s) - 1) = Some xl /\ x0 <= x <= xl.
Definition usable (axis : list Q) (ts : list source) (lr : range) (z : Q) (k : nat) : Prop := exists l, nth_error axis k = Some l /\ rbeg lr <= l <= rend lr /\ covered ts (l / (1 + z)).
(** f is the template s interpolated at the rest frame wavelengths of the samples ks to ke *)
Definition interpolated (s : source) (ax : list Q) (ks ke : nat) (f : list Q) : Prop :=
  length f = length ax /\ forall k x, (ks <= k <= ke)%nat -> nth_error ax k = Some x -> exists j, interpolates s (s_Y s) j x (at_ f k).
(** m is the rebinned template f seen through the dust of index kd and the igm of index ki (negative: none) *)
Definition seen_through (z : Q) (cal : option calz) (mei : option meik) (ks ke : nat) (kd ki : Z) (ax f m : list Q) : Prop :=
  let v := mkView true (Z.of_nat ks) (Z.of_nat ke) z cal mei kd ki 1 in
  length m = length f /\
  forall k lam x, nth_error ax k = Some lam -> nth_error f k = Some x -> exists y d g, nth_error m k = Some y /\ dust_of v k lam d /\ igm_of v k lam g /\ y == x * g * d.
(** a sample fitted is at or below Lyman alpha, in the rest frame *)
Definition below_lya (ax : list Q) (ks ke : nat) : Prop := exists k lam, (ks <= k <= ke)%nat /\ nth_error ax k = Some lam /\ lam <= 1216.
(** the E(B-V) written *)
Definition ebmv_of (cal : option calz) (dust : bool) (e : Z) (v : Q) : Prop := (dust = true /\ exists c, cal = Some c /\ v = cz_bstart c + cz_bstep c * inject_Z e) \/ (dust = false /\ v = - (1)).
(** (k, i) comes before (k', i') *)
Definition before (k i k' i' : nat) : Prop := (k < k' \/ (k = k' /\ i < i'))%nat.

(** the tables of a fit over the samples ks to ke: for each igm index and each dust index the least chi square of the combinations of the templates seen through them *)
Definition right_tables (flux err : list Q) (z : Q) (cal : option calz) (mei : option meik) (dust eff : bool) (ax : list Q) (fs : list (list Q)) (ks ke : nat) (ml el : list Z) (cols : list (list cell)) : Prop :=
  length cols = length ml /\
  forall k m, nth_error ml k = Some m -> exists col, nth_error cols k = Some col /\ length col = length el /\
    forall i e, nth_error el i = Some e -> exists c v, nth_error col i = Some (c, v, if eff then m else (-1)%Z) /\ ebmv_of cal dust e v /\
      exists ms, Forall2 (seen_through z cal mei ks ke (if dust then e else (-1)%Z) (if eff then m else (-1)%Z) ax) fs ms /\ least flux err ms ks ke c.
(** cell i of column k is the first cell of least chi square, igm index by igm index, and b has its chi square, its igm index and its E(B-V) *)
Definition first_least (cols : list (list cell)) (k i : nat) (b : best) : Prop :=
  exists col, nth_error cols k = Some col /\ nth_error col i = Some (b_chi b, b_ebmv b, b_igm b) /\
    forall k' i' col' c v g, nth_error cols k' = Some col' -> nth_error col' i' = Some (c, v, g) -> b_chi b <= c /\ (before k' i' k i -> b_chi b < c).
(** the scale of the flux *)
Definition is_scale (dblmin : Q) (flux : list Q) (ks ke : nat) (nf : Q) : Prop :=
  dblmin <= nf /\ (forall k, (ks <= k <= ke)%nat -> Qabs (at_ flux k) <= nf) /\ (nf = dblmin \/ exists k, (ks <= k <= ke)%nat /\ nf = Qabs (at_ flux k)).
(** the result f of one fit of the models ms: amplitudes, errors, significances, the signal to noise ratio, the covariance up to the square of the scale nf *)
Definition right_fit (sqrtf : Q -> Q) (flux err : list Q) (ks ke : nat) (nf : Q) (ms : list (list Q)) (f : fitted) : Prop :=
  best_amplitudes flux err ms ks ke (f_amp f) /\ f_chi f == chi2 flux err ms (f_amp f) ks (S ke - ks) /\
  length (f_err f) = length ms /\ length (f_sig f) = length ms /\
  (forall i, (i < length ms)%nat -> exists v, v = entry (f_cov f) i i /\ at_ (f_err f) i = sqrtf v * nf /\ (~ at_ (f_err f) i == 0 -> at_ (f_sig f) i == at_ (f_amp f) i / at_ (f_err f) i)) /\
  ((exists m, is_inverse (length ms) (information err ms ks (S ke - ks)) m) -> is_inverse (length ms) (information err ms ks (S ke - ks)) (fun i j => nf * nf * entry (f_cov f) i j)) /\
  (exists v, f_snr f = sqrtf v /\ (~ sumto (length ms) (fun i => entry (f_cov f) i i) == 0 ->
     v == sumto (length ms) (fun i => at_ (f_amp f) i * at_ (f_amp f) i) / sumto (length ms) (fun i => nf * nf * entry (f_cov f) i i))).
(** f is a fit of the templates seen through the dust and the igm of cell i of column k *)
Definition fit_of_cell (sqrtf : Q -> Q) (flux err : list Q) (z : Q) (cal : option calz) (mei : option meik) (dust eff : bool) (ax : list Q) (fs : list (list Q)) (ks ke : nat) (nf : Q) (ml el : list Z) (k i : nat) (f : fitted) : Prop :=
  exists m e ms, nth_error ml k = Some m /\ nth_error el i = Some e /\
    Forall2 (seen_through z cal mei ks ke (if dust then e else (-1)%Z) (if eff then m else (-1)%Z) ax) fs ms /\ right_fit sqrtf flux err ks ke nf ms f.
(** s covers x *)
Definition covers (s : source) (x : Q) : bool := match s_X s with [] => false | x0 :: _ => (Qle_bool x0 x && Qle_bool x (last (s_X s) 0))%bool end.
(** the share of the samples of the range that s covers *)
Definition share (axis : list Q) (lr : range) (z : Q) (s : source) : Q :=
  let sel := filter (fun l => Qle_bool (rbeg lr) l && Qle_bool l (rend lr))%bool axis in
  inject_Z (Z.of_nat (length (filter (fun l => covers s (l / (1 + z))) sel))) / inject_Z (Z.of_nat (length sel)).
(** some wavelength is in the range, in the spectrum and in every template *)
Definition overlapping (axis : list Q) (ts : list source) (lr : range) (z : Q) : Prop :=
  exists x f b, nth_error axis 0 = Some f /\ nth_error axis (length axis - 1) = Some b /\ f <= x * (1 + z) <= b /\ rbeg lr <= x * (1 + z) <= rend lr /\ covered ts x.
(** the result of a fit: over the usable samples ks to ke, [best] is the first cell of least chi square and [last] the fit of the last cell computed *)
Definition right_result (sqrtf : Q -> Q) (dblmin : Q) (axis flux err : list Q) (ts : list source) (lr : range) (z thr : Q) (ext dust : bool) (cal : option calz) (mei : option meik) (ml el : list Z) (r : result) : Prop :=
  exists ax fs ks ke nf eff, rest z axis ax /\ (ks <= ke)%nat /\ (forall k, usable axis ts lr z k <-> (ks <= k <= ke)%nat) /\ Forall2 (fun s f => interpolated s ax ks ke f) ts fs /\
    is_scale dblmin flux ks ke nf /\ (eff = true <-> ext = true /\ below_lya ax ks ke) /\
    right_tables flux err z cal mei dust eff ax fs ks ke ml el (r_cols r) /\
    (exists k i g, first_least (r_cols r) k i (r_best r) /\ fit_of_cell sqrtf flux err z cal mei dust eff ax fs ks ke nf ml el k i g /\ f_chi g = b_chi (r_best r) /\ f_snr g = b_snr (r_best r)) /\
    fit_of_cell sqrtf flux err z cal mei dust eff ax fs ks ke nf ml el (if (ext && negb eff)%bool then 0 else length ml - 1) (length el - 1) (r_last r) /\
    (forall s, In s ts -> thr <= share axis lr z s /\ 0 < share axis lr z s) /\ r_overlap r == share axis lr z (last ts (mkSource [] [] [])).
