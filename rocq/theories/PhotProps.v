(** C76: photometric bands, photometric data and the template fit with photometry. *)
From Coq Require Import String Reals Qreals Lra.
From Verif Require Import Base F64 RangeModel RangeSpec CalzModel MeikModel TplModel TplSpec TplProofs2 TFitModel TFitSpec DetModel PhotModel PhotSpec PhotProofs PhotProofs2 PhotProofs3 PhotProofs4.
Open Scope Q_scope.

(** ** a band *)
(** its constructor: sizes, first wavelength *)
Theorem C76_band : forall trans lam, (List.length trans <> List.length lam -> NewBand trans lam = Throw INTERNAL_ERROR) /\
  (List.length trans = List.length lam -> lam <> [] -> exists b, NewBand trans lam = Ok b /\ b_trans b = trans /\ b_lam b = lam /\ In (b_min b) lam /\ forall l, In l lam -> b_min b <= l).
Proof.
  intros trans lam. destruct (NewBand_cases trans lam) as (A & B & _). split; [exact A|]. intros L N. destruct (B L N) as (b & E). exists b. destruct (NewBand_inv _ _ _ E) as (_ & _ & T & La & _ & _ & I0 & M). auto 10.
Qed.
Print Assumptions C76_band.
(** an empty band is not refused *)
Theorem C76_empty_band_refuted : NewBand [] [] = UB.
Proof. reflexivity. Qed.
Print Assumptions C76_empty_band_refuted.
(** the integrated flux: the mean over the frequency of the flux per frequency, weighted by the transmission and the wavelength (photon counting) *)
Theorem C76_integral : forall trans lam b flux, NewBand trans lam = Ok b ->
  let a := quad lam (fun i => nth i lam 0 * nth i trans 0 * f_nu flux lam i) in let n := quad lam (fun i => nth i lam 0 * nth i trans 0) in
  (List.length flux <> List.length lam -> IntegrateFlux b flux = Throw INTERNAL_ERROR) /\
  (List.length flux = List.length lam -> ~ n == 0 -> exists v, IntegrateFlux b flux = Ok (Fin v) /\ v * n == a) /\
  (List.length flux = List.length lam -> n == 0 -> exists v, IntegrateFlux b flux = Ok v /\ is_finite v = false).
Proof. exact Integrate_spec. Qed.
Print Assumptions C76_integral.
(** a flux constant in frequency is unchanged *)
Theorem C76_flat : forall trans lam b flux k, NewBand trans lam = Ok b -> ~ quad lam (fun i => nth i lam 0 * nth i trans 0) == 0 -> List.length flux = List.length lam ->
  (forall i, (i < List.length lam)%nat -> f_nu flux lam i == k) -> exists v, IntegrateFlux b flux = Ok (Fin v) /\ v == k.
Proof. exact Flat. Qed.
Print Assumptions C76_flat.
Theorem C76_linear : forall trans lam b f g x y u v, NewBand trans lam = Ok b -> IntegrateFlux b f = Ok (Fin u) -> IntegrateFlux b g = Ok (Fin v) ->
  exists t, IntegrateFlux b (map2 (fun p q => x * p + y * q) f g) = Ok (Fin t) /\ t == x * u + y * v.
Proof. exact Linear. Qed.
Print Assumptions C76_linear.
(** it lies between the bounds of the flux per frequency *)
Theorem C76_bounds : forall trans lam b flux lo hi v, NewBand trans lam = Ok b -> strictly_increasing lam -> positive_lam lam -> (forall t, In t trans -> 0 <= t) ->
  (forall i, (i < List.length lam)%nat -> lo <= f_nu flux lam i <= hi) -> IntegrateFlux b flux = Ok (Fin v) -> lo <= v <= hi.
Proof. exact Bounds. Qed.
Print Assumptions C76_bounds.

(** ** catalogue and data.  The first band added under a name is kept, the last point given under a name is kept *)
Theorem C76_catalog : forall l, let c := fold_left (fun c p => Add c (fst p) (snd p)) l [] in ordered c /\ forall n b, bound c n b <-> first_of l n = Some b.
Proof. exact Catalog_bands. Qed.
Print Assumptions C76_catalog.
Theorem C76_data : forall names flux err, (List.length names = List.length flux /\ List.length names = List.length err ->
    exists m, NewData names flux err = Ok m /\ ordered m /\ forall n d, bound m n d <-> last_of (triples names flux err) n = Some d) /\
  (~ (List.length names = List.length flux /\ List.length names = List.length err) -> NewData names flux err = Throw INTERNAL_ERROR).
Proof. exact NewData_spec. Qed.
Print Assumptions C76_data.
(** the bands are visited once each, by increasing first wavelength *)
Theorem C76_sorted_names : forall c, ordered c -> exists s, Permutation s c /\ GetNameListSortedByLambda c = map fst s /\ NoDup (GetNameListSortedByLambda c) /\ StronglySorted (fun p q => b_min (snd p) <= b_min (snd q)) s.
Proof. exact Sorted_names. Qed.
Print Assumptions C76_sorted_names.
(** the operator is built exactly when there is one spectrum, some band, and a point for each band *)
Theorem C76_operator : forall d cat, (forall l, NewPhot [d] cat = Ok l -> exists c, cat = Some c /\ l = GetNameListSortedByLambda c /\ (exists m, d = Some m /\ forall n, In n l -> In n (keys m)) /\ l <> []) /\
  (forall c m, cat = Some c -> c <> [] -> d = Some m -> (forall n, In n (keys c) -> In n (keys m)) -> NewPhot [d] cat = Ok (GetNameListSortedByLambda c)).
Proof. exact New_spec. Qed.
Print Assumptions C76_operator.
Theorem C76_operator_errors : forall d d' l cat, NewPhot (d :: d' :: l) cat = Throw MULTIOBS_WITH_PHOTOMETRY_NOTIMPLEMENTED /\ NewPhot [d] None = Throw MISSING_PHOTOMETRIC_TRANSMISSION /\ NewPhot [d] (Some []) = Throw MISSING_PHOTOMETRIC_TRANSMISSION /\
  (forall c, c <> [] -> NewPhot [None] (Some c) = Throw MISSING_PHOTOMETRIC_DATA) /\
  (forall c m n, In n (keys c) -> ~ In n (keys m) -> NewPhot [Some m] (Some c) = Throw MISSING_PHOTOMETRIC_DATA).
Proof.
  intros d d' l cat. split; [reflexivity|]. split; [reflexivity|]. split; [reflexivity|]. split.
  - intros [|p c] N; [contradiction|reflexivity].
  - intros c m n Hc Hm. unfold NewPhot. destruct (checkInputPhotometry (Some c) (Some m)) as [u|e|] eqn:E.
    + destruct (proj1 (Checks _ _) (ex_intro _ u E)) as (c' & m' & E1 & _ & E2 & H). inversion E1; inversion E2; subst. exfalso. auto.
    + cbn [rbind]. unfold checkInputPhotometry in E. destruct c as [|p c]; [destruct Hc|]. destruct (forallb _ _); [discriminate|]. congruence.
    + unfold checkInputPhotometry in E. destruct c as [|p c]; [destruct Hc|]. destruct (forallb _ _); discriminate.
Qed.
Print Assumptions C76_operator_errors.

(** ** the sums of the fit *)
(** the photometric sums are those of one sample per band (the point, the integrated template, the error divided by the weight), added to those of the spectrum *)
Theorem C76_sums : forall cat tpls data w bend sorted kM kE kept spc cp tot kept', ordered cat -> ordered tpls -> ordered data -> ~ w == 0 ->
  ComputePhotCrossProducts cat tpls data w false bend sorted kM kE kept spc = Ok (Some cp, tot, kept') ->
  kept' = kept /\ exists s t, Forall2 (point cat tpls data w) sorted s /\ sums s cp /\ tot = Some t /\ forall l, sums l spc -> sums (l ++ s) t.
Proof. exact Slow. Qed.
Print Assumptions C76_sums.
Theorem C76_sums_returns : forall cat tpls data w bend sorted kM kE kept spc, ordered cat -> ordered tpls -> ordered data -> ~ w == 0 -> (forall n, In n sorted -> exists s, point cat tpls data w n s) ->
  exists cp t, ComputePhotCrossProducts cat tpls data w false bend sorted kM kE kept spc = Ok (Some cp, Some t, kept).
Proof. exact Slow_total. Qed.
Print Assumptions C76_sums_returns.
(** hence the fit of the operator is the joint fit of the spectrum and of the photometric points, and its photometric chi square that of the points *)
Theorem C76_joint_fit : forall sqrtf thr l s c t p, sums s c -> sums (l ++ s) t -> 0 < information (l ++ s) ->
  (~ active p -> is_fit sqrtf thr (l ++ s) (ComputeAmplitudeAndChi2 sqrtf thr t p)) /\ (active p -> is_fit_prior sqrtf thr (l ++ s) p (ComputeAmplitudeAndChi2 sqrtf thr t p)) /\
  forall a, chi2_phot c a == chi2 s a.
Proof. exact Joint. Qed.
Print Assumptions C76_joint_fit.
(** a null error is refused *)
Theorem C76_null_error : forall cat tpls data w fast bend i n names acc saved b t d v, ordered cat -> ordered tpls -> ordered data -> bound cat n b -> bound tpls n t -> bound data n d -> IntegrateFlux b (t_flux t) = Ok v -> p_err d == 0 ->
  phot_loop cat tpls data w fast bend i (n :: names) acc saved = Throw INTERNAL_ERROR.
Proof.
  intros cat tpls data w fast bend i n names acc saved b t d v Oc Ot Od Bb Bt Bd Ev Z. cbn [phot_loop]. rewrite (proj2 (mget_bound _ _ _ Oc) Bb), (proj2 (mget_bound _ _ _ Ot) Bt). cbn [rbind]. rewrite Ev. cbn [rbind]. rewrite (proj2 (mget_bound _ _ _ Od) Bd). cbn [rbind]. destruct (Qeq_bool_spec (p_err d) 0) as [_|X]; [reflexivity|contradiction].
Qed.
Print Assumptions C76_null_error.

(** ** fast igm processing *)
(** the bands before the position found are exactly those that begin at or below the observed Lyman alpha *)
Theorem C76_igm_bands : forall cat tpls z cal mei, ordered cat -> ordered tpls -> - (1) < z -> (forall n b, bound cat n b -> exists tr la, NewBand tr la = Ok b /\ increasing la) ->
  (forall n b, bound cat n b -> exists t, bound tpls n t /\ initialised z cal mei b t) ->
  exists e, BandIgmEnd tpls (GetNameListSortedByLambda cat) = Ok e /\ (e <= List.length (GetNameListSortedByLambda cat))%nat /\
    forall i n b, nth_error (GetNameListSortedByLambda cat) i = Some n -> bound cat n b -> ((i < e)%nat <-> b_min b <= 1216 * (1 + z)).
Proof. exact Igm_end'. Qed.
Print Assumptions C76_igm_bands.
(** the template of a band beyond Lyman alpha does not depend on the igm index *)
Theorem C76_unreached : forall axis f0 t0 cs cs' t t', increasing axis -> (forall l, In l axis -> 1216 < l) -> NewTpl axis f0 = Ok t0 -> Forall convolved cs -> Forall convolved cs' -> same_but_igm cs cs' -> run t0 cs = Ok t -> run t0 cs' = Ok t' -> Forall2 Qeq (t_flux t) (t_flux t').
Proof. exact Unreached. Qed.
Print Assumptions C76_unreached.
(** the sums at the first igm index *)
Theorem C76_fast_first : forall cat tpls data w bend sorted kE kept spc cp tot kept', ordered cat -> ordered tpls -> ordered data -> ~ w == 0 -> (kE < List.length kept)%nat ->
  ComputePhotCrossProducts cat tpls data w true bend sorted 0 kE kept spc = Ok (Some cp, tot, kept') ->
  exists s t, Forall2 (point cat tpls data w) sorted s /\ sums s cp /\ tot = Some t /\ (forall l, sums l spc -> sums (l ++ s) t) /\ forall j, j <> kE -> nth_error kept' j = nth_error kept j.
Proof. intros cat tpls data w bend sorted kE kept spc cp tot kept' Oc Ot Od W L H. destruct (Kept _ _ _ _ _ _ _ _ _ _ _ _ Oc Ot Od W L H) as (s & t & k & A & B & C & D & _ & E & _). exists s, t. auto. Qed.
Print Assumptions C76_fast_first.
(** and at the next ones: the sums over all the bands with the current templates, if at least one band is beyond Lyman alpha *)
Theorem C76_fast_next : forall cat tpls0 tpls1 data w bend sorted kM kE kept spc0 cp0 tot0 kept0 kept1 spc1 cp1 tot1 kept2, ordered cat -> ordered tpls0 -> ordered tpls1 -> ordered data -> ~ w == 0 -> (forall n b, bound cat n b -> exists tr la, NewBand tr la = Ok b) -> (kE < List.length kept)%nat -> (0 < kM)%nat ->
  ComputePhotCrossProducts cat tpls0 data w true bend sorted 0 kE kept spc0 = Ok (Some cp0, tot0, kept0) -> nth_error kept1 kE = nth_error kept0 kE ->
  ComputePhotCrossProducts cat tpls1 data w true bend sorted kM kE kept1 spc1 = Ok (Some cp1, tot1, kept2) -> (forall n, In n sorted -> exists t, bound tpls1 n t) ->
  (bend < List.length sorted)%nat -> (forall n, In n (skipn bend sorted) -> same_band tpls0 tpls1 n) ->
  kept2 = kept1 /\ exists s t, Forall2 (point cat tpls1 data w) sorted s /\ sums s cp1 /\ tot1 = Some t /\ forall l, sums l spc1 -> sums (l ++ s) t.
Proof.
  intros cat tpls0 tpls1 data w bend sorted kM kE kept spc0 cp0 tot0 kept0 kept1 spc1 cp1 tot1 kept2 Oc O0 O1 Od W NB Lk K H0 Hk H1 Ex L Sm.
  destruct (Fast _ _ _ _ _ _ _ _ _ _ _ _ _ _ _ _ _ _ _ Oc O0 O1 Od W NB Lk K H0 Hk H1 Ex) as (A & B & _). split; [exact A|]. exact (B L Sm).
Qed.
Print Assumptions C76_fast_next.
(** when all the bands begin below Lyman alpha, the points are counted twice: with the current templates and with those of the first igm index *)
Theorem C76_all_bands_reached_refuted : forall cat tpls0 tpls1 data w sorted kM kE kept spc0 cp0 tot0 kept0 kept1 spc1 cp1 tot1 kept2, ordered cat -> ordered tpls0 -> ordered tpls1 -> ordered data -> ~ w == 0 -> (forall n b, bound cat n b -> exists tr la, NewBand tr la = Ok b) -> (kE < List.length kept)%nat -> (0 < kM)%nat ->
  let bend := List.length sorted in
  ComputePhotCrossProducts cat tpls0 data w true bend sorted 0 kE kept spc0 = Ok (Some cp0, tot0, kept0) -> nth_error kept1 kE = nth_error kept0 kE ->
  ComputePhotCrossProducts cat tpls1 data w true bend sorted kM kE kept1 spc1 = Ok (Some cp1, tot1, kept2) -> (forall n, In n sorted -> exists t, bound tpls1 n t) ->
  exists s0 s1 t, Forall2 (point cat tpls0 data w) sorted s0 /\ Forall2 (point cat tpls1 data w) sorted s1 /\ sums (s1 ++ s0) cp1 /\ tot1 = Some t /\ forall l, sums l spc1 -> sums (l ++ s1 ++ s0) t.
Proof.
  intros cat tpls0 tpls1 data w sorted kM kE kept spc0 cp0 tot0 kept0 kept1 spc1 cp1 tot1 kept2 Oc O0 O1 Od W NB Lk K bend H0 Hk H1 Ex.
  destruct (Fast _ _ _ _ _ _ _ _ _ _ _ _ _ _ _ _ _ _ _ Oc O0 O1 Od W NB Lk K H0 Hk H1 Ex) as (_ & _ & B). apply B. unfold bend. auto.
Qed.
Print Assumptions C76_all_bands_reached_refuted.

(** ** output: the photometry of the model *)
Theorem C76_model_photometry : forall cat tpls amp names m, ordered cat -> ordered tpls -> getIntegratedFluxes cat tpls amp names [] = Ok m -> ordered m /\
  forall n, (In n names -> exists b t v, bound cat n b /\ bound tpls n t /\ IntegrateFlux b (t_flux t) = Ok v /\ bound m n (match v with Fin x => Fin (x * amp) | _ => v end)) /\ (~ In n names -> ~ In n (keys m)).
Proof.
  intros cat tpls amp names m Oc Ot H. destruct (Integrated cat tpls amp Oc Ot names [] m ordered_nil H) as [O G]. split; [exact O|]. intro n. destruct (G n) as [A B]. split.
  - intro Hn. destruct (A Hn) as (b & t & v & X & Y & Z & V). exists b, t, v. apply (mget_bound _ _ _ O) in V. auto.
  - intros Hn X. destruct (mget_in _ _ X) as (v & V). rewrite (B Hn) in V. discriminate.
Qed.
Print Assumptions C76_model_photometry.

(** ** the constant of the likelihood *)
(** without photometry: the logarithm of the normalisation of the gaussian errors of the samples of the ranges *)
Theorem C76_constant : forall l x, (forall p, In p l -> good_spectrum p) -> BaseCstLog l = Ok x -> x = gauss_norm (flat_map (fun p => let '(axis, err, r) := p in errors_in axis err r) l).
Proof. exact Base_cst. Qed.
Print Assumptions C76_constant.
Theorem C76_constant_returns : forall l, (forall p, In p l -> good_spectrum p /\ let '(axis, err, r) := p in exists x, In x axis /\ rbeg r <= x <= rend r) -> exists x, BaseCstLog l = Ok x.
Proof. exact Base_cst_total. Qed.
Print Assumptions C76_constant_returns.
(** with photometry it is too large by twice the logarithms of the errors of the points (the sign of their sum is wrong, and the weight multiplies) *)
Theorem C76_phot_constant_refuted : forall l cat data w x, (forall p, In p l -> good_spectrum p) -> ordered data -> 0 < w -> (forall n d, bound data n d -> 0 < p_err d) -> PhotCstLog l cat data w = Ok x ->
  exists ds, Forall2 (bound data) (keys cat) ds /\ x = (gauss_norm (flat_map (fun p => let '(axis, err, r) := p in errors_in axis err r) l) + gauss_norm (map (fun d => Q2R (p_err d / w)) ds) + 2 * sum_ln (map p_err ds))%R.
Proof. exact Phot_cst. Qed.
Print Assumptions C76_phot_constant_refuted.

(** * a concrete case: redshift 5/2, one band below Lyman alpha (rest wavelengths 1000 and 1100) and one above; flat templates *)
Definition ex_u : band := match NewBand [1; 1] [3500; 3850] with Ok b => b | _ => mkBand [] [] [] 0 0 end.
Definition ex_r : band := match NewBand [1; 2] [7000; 14000] with Ok b => b | _ => mkBand [] [] [] 0 0 end.
Definition ex_cat : catalog := Add (Add (Add [] "u" ex_u) "r" ex_r) "u" ex_r.
Definition flat (k : Q) (lam : list Q) : list Q := map (fun l => k * light / (l * l)) lam.
Definition ex_tpl (b : band) (k : Q) (igm : Z) : tpl :=
  match NewTpl (map (fun l => l / (1 + (5 # 2))) (b_lam b)) (flat k (b_lam b)) with
  | Ok t0 => match run t0 [Init 0 1 (5 # 2) None (Some ex_mei); Igm igm] with Ok t => t | _ => t0 end
  | _ => mkTpl [] [] [] 0 0 0 0 0 0 [] [] None None end.
Definition ex_tpls (igm : Z) : smap tpl := mput true "u" (ex_tpl ex_u 1 igm) (mput true "r" (ex_tpl ex_r 2 igm) []).
Definition ex_data : smap pdat := match NewData ["r"; "u"; "r"]%string [9; 3; 5] [1; 1; 2] with Ok m => m | _ => [] end.
Definition red (r : res (option cross * option cross * list (option cross))) : option (Q * Q * Q * (Q * Q * Q)) :=
  match r with Ok (Some c, Some t, _) => Some (Qred (c_x c), Qred (c_t c), Qred (c_s c), (Qred (c_x t), Qred (c_t t), Qred (c_s t))) | _ => None end.
Definition kept_of (r : res (option cross * option cross * list (option cross))) : list (option cross) := match r with Ok (_, _, k) => k | _ => [] end.
Definition first_run := ComputePhotCrossProducts ex_cat (ex_tpls (-1)) ex_data 2 true 1 ["u"; "r"]%string 0 0 [Some czero] (mkCross 1 1 1).
Example C76_case : NewPhot [Some ex_data] (Some ex_cat) = Ok ["u"; "r"]%string /\ BandIgmEnd (ex_tpls (-1)) ["u"; "r"]%string = Ok 1%nat /\
  red first_run = Some (22, 8, 61, (23, 9, 62)) /\
  red (ComputePhotCrossProducts ex_cat (ex_tpls 0) ex_data 2 true 1 ["u"; "r"]%string 1 0 (kept_of first_run) czero) = Some (13, 17 # 4, 61, (13, 17 # 4, 61)) /\
  red (ComputePhotCrossProducts ex_cat (ex_tpls 0) ex_data 2 false 1 ["u"; "r"]%string 1 0 [] czero) = Some (13, 17 # 4, 61, (13, 17 # 4, 61)).
Proof. (split; [|split; [|split; [|split]]]); vm_compute; reflexivity. Qed.
Example C76_case_ordered : ordered ex_cat /\ ordered (ex_tpls 0) /\ ordered ex_data /\ (forall n b, bound ex_cat n b -> exists tr la, NewBand tr la = Ok b) /\ (forall n, In n (skipn 1 ["u"; "r"]%string) -> same_band (ex_tpls (-1)) (ex_tpls 0) n).
Proof.
  split; [repeat constructor|]. split; [repeat constructor|]. split; [repeat constructor|]. split.
  - intros n b [E|[E|[]]]; inversion E; [exists [1; 2], [7000; 14000]|exists [1; 1], [3500; 3850]]; vm_compute; reflexivity.
  - intros n [<-|[]] t t' B B'. assert (O : ordered (ex_tpls (-1))) by (repeat constructor). assert (O' : ordered (ex_tpls 0)) by (repeat constructor). apply (mget_bound _ _ _ O) in B. apply (mget_bound _ _ _ O') in B'. vm_compute in B, B'. inversion B; inversion B'; subst. cbn [t_flux]. repeat constructor; vm_compute; reflexivity.
Qed.
(** only the first band: its point is counted twice at the second igm index *)
Definition one_run := ComputePhotCrossProducts ex_cat (ex_tpls (-1)) ex_data 1 true 1 ["u"]%string 0 0 [Some czero] czero.
Example C76_case_twice : BandIgmEnd (ex_tpls (-1)) ["u"]%string = Ok 1%nat /\ red one_run = Some (3, 1, 9, (3, 1, 9)) /\
  red (ComputePhotCrossProducts ex_cat (ex_tpls 0) ex_data 1 false 1 ["u"]%string 1 0 [] czero) = Some (3 # 4, 1 # 16, 9, (3 # 4, 1 # 16, 9)) /\
  red (ComputePhotCrossProducts ex_cat (ex_tpls 0) ex_data 1 true 1 ["u"]%string 1 0 (kept_of one_run) czero) = Some (15 # 4, 17 # 16, 18, (15 # 4, 17 # 16, 18)).
Proof. (split; [|split; [|split]]); vm_compute; reflexivity. Qed.
Example C76_case_bounds : strictly_increasing [3500; 3850] /\ positive_lam [3500; 3850] /\ ~ quad [3500; 3850] (fun i => nth i [3500; 3850] 0 * nth i [1; 1] 0) == 0 /\ (forall i, (i < 2)%nat -> f_nu (flat 3 [3500; 3850]) [3500; 3850] i == 3).
Proof.
  split; [|split; [|split]].
  - intros [|[|i]] [|[|j]] x y L X Y; try lia; cbn in *; try (destruct i; discriminate); try (destruct j; discriminate). inversion X; inversion Y; reflexivity.
  - intros l [<-|[<-|[]]]; reflexivity.
  - intro H. vm_compute in H. discriminate.
  - intros [|[|i]] L; try lia; vm_compute; reflexivity.
Qed.
Example C76_case_constant : (exists x, PhotCstLog [([1; 2; 3], [1; 1; 1], mkRange 2 3)] ex_cat ex_data 1 = Ok x) /\ good_spectrum ([1; 2; 3], [1; 1; 1], mkRange 2 3) /\ (forall n d, bound ex_data n d -> 0 < p_err d) /\
  (forall ds, Forall2 (bound ex_data) (keys ex_cat) ds -> sum_ln (map p_err ds) <> 0%R).
Proof.
  assert (Od : ordered ex_data) by (repeat constructor). split; [|split; [|split]].
  - unfold PhotCstLog. cbn [BaseCstLog]. eexists. cbn. reflexivity.
  - split; [|split; [reflexivity|]].
    + intros [|[|[|i]]] [|[|[|j]]] x y L X Y; try lia; cbn in *; try (destruct i; discriminate); try (destruct j; discriminate); inversion X; inversion Y; reflexivity.
    + intros e [<-|[<-|[<-|[]]]]; reflexivity.
  - intros n d [E|[E|[]]]; inversion E; reflexivity.
  - intros ds F. inversion F as [|a d1 ? ds' B1 F1]; subst. inversion F1 as [|a2 d2 ? ds'' B2 F2]; subst. inversion F2; subst. apply (mget_bound _ _ _ Od) in B1, B2. vm_compute in B1, B2. inversion B1; inversion B2; subst. cbn [map sum_ln p_err].
    unfold Q2R. cbn [Qnum Qden]. rewrite !Rinv_1, !Rmult_1_r, ln_1. assert (0 < ln 2)%R by (rewrite <- ln_1; apply ln_increasing; lra). lra.
Qed.
