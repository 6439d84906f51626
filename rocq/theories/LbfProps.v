(** C94: the L-BFGS-B fitter of a group of overlapping elements. *)
From Verif Require Import Base F64 PolyModel MeikModel LbfModel LbfSpec LbfProofs LbfProofs2 LbfProofs3 LbfProofs4 LbfProofs5 LbfProofs6 LbfProofs7 LbfProofs8 LbfProofs9 LbfProofs10 LbfWit.
Open Scope Q_scope.

(** the parameters of a regular group: one per element, one velocity per kind, the offset, the three coefficients; distinct positions within the vector *)
Theorem C94_parameters : forall c l, l <> [] -> regular c l -> exists lay, make_layout c l = Ok lay /\ nddl lay = needed c (length l) (kinds_count l) /\
  (forall n, vA lay = Some n \/ vE lay = Some n \/ iOff lay = Some n \/ iPoly lay = Some n -> (length l <= n < nddl lay)%nat).
Proof. exact parameters. Qed.
Print Assumptions C94_parameters.

Section Fit.
Context (c : conf) (axis flux cont err : list Q).
Context (outside_of : kind -> line -> Q -> Q -> bool) (profile : kind -> line -> Q -> Q -> Q -> res Q).
Context (svd : list elt -> res ((nat -> option Q * f64) * (Q * Q * Q))).
Context (solver : list (f64 * f64) -> list Q -> list (list Q * Q) -> action).
Context (width : elt -> res Q) (noise : list elt -> nat -> f64) (meanres : elt -> nat -> Q) (root : Q -> Q) (sqrtpi : Q).
Notation fit := (fit c axis flux cont err outside_of profile svd solver width noise meanres root sqrtpi).
Notation unpack := (unpack c outside_of).
Notation evaluate := (evaluate c axis flux cont err outside_of profile).
Notation linear := (linear c svd).
Notation svd_nonneg := (svd_nonneg svd).
Notation flagged := (flagged outside_of).
Notation residual := (residual c axis flux cont err).
Notation inside_arrays := (inside_arrays axis flux cont err).
Notation ill := (ill c).

(** the vector evaluated holds the amplitudes of the elements, the velocity of each kind (over the largest emission velocity), the offset (over its largest value), and the three coefficients of the polynomial, in this order *)
Theorem C94_unpacked : forall lay np st x st' p, regular c (map kd st) -> make_layout c (map kd st) = Ok lay ->
  length x = nddl lay -> unpack lay np st x = Ok (st', p) ->
  length st' = length st /\
  (forall i e e', nth_error st i = Some e -> nth_error st' i = Some e' -> unpacked_elt c (map kd st) x i e e') /\
  (c_poly c = true -> exists pre p0 p1 p2, x = (pre ++ [p0; p1; p2])%list /\
     forall y, ngetValue p y = ngetValue (mkNPoly p0 p1 p2 (x0red np) (scale np)) y) /\
  (c_poly c = false -> p = np).
Proof. exact (unpacked c outside_of). Qed.

(** the fit returned is the linear one, or the one of a point of the minimiser (or the guess, which is the linear fit), in flux units *)
Theorem C94_result : forall fuel i0 rest st r, regular c (map kd st) ->
  (needed c (length st) (kinds_count (map kd st)) <= length (i0 :: rest))%nat ->
  fit fuel (i0 :: rest) st = Ok r -> linear st r \/
  exists peak g x, 0 < peak /\ is_peak flux (i0 :: rest) peak /\
    (x = g \/ exists b h, solver b g h = Done x) /\
    (exists st2, linear st st2 /\ forall i e, nth_error st2 i = Some e -> exists a v, GetElementAmplitude e = Some a /\ nth_error g i = Some v /\ v * peak == a) /\
    forall i e e', nth_error st i = Some e -> nth_error r i = Some e' ->
      (exists a, nth_error x i = Some a /\
         forall j v, nth_error (amps e') j = Some (Some v) -> exists ln, nth_error (lines e) j = Some ln /\ line_amplitude (kd e) (limit e) (a * peak) (l_nom ln) v) /\
      (c_poly c = true -> forall a b, nth_error axis i0 = Some a -> nth_error axis (last (i0 :: rest) i0) = Some b -> ~ a == b ->
         let n := needed c (length st) (kinds_count (map kd st)) in
         exists p0 p1 p2, nth_error x (n - 3) = Some p0 /\ nth_error x (n - 2) = Some p1 /\ nth_error x (n - 1) = Some p2 /\
         forall y, let u := (2 * y - a - b) / (b - a) in
           let '(b0, b1, b2) := poly e' in getValue (mkPoly b0 b1 b2) y == peak * (p0 + p1 * u + p2 * (u * u))).
Proof. exact (result c axis flux cont err outside_of profile svd solver width noise meanres root sqrtpi). Qed.

(** a regular group: no uninitialised component, no access outside the vectors, whatever points the minimiser evaluates *)
Theorem C94_no_undefined_behaviour : (forall k l v o y, profile k l v o y <> UB) -> (forall e, width e <> UB) -> (forall st, svd st <> UB) -> sized_solver solver ->
  forall fuel xs st, regular c (map kd st) -> inside_arrays xs -> (forall e, In e st -> lines e <> []) -> fit fuel xs st <> UB.
Proof. exact (no_ub c axis flux cont err outside_of profile svd solver width noise meanres root sqrtpi). Qed.

(** less samples than parameters: null amplitudes, infinite errors *)
Theorem C94_too_few_samples : forall fuel xs st, regular c (map kd st) -> st <> [] -> xs <> [] ->
  (length xs < needed c (length st) (kinds_count (map kd st)))%nat ->
  exists r, fit fuel xs st = Ok r /\ length r = length st /\
    forall i e e', nth_error st i = Some e -> nth_error r i = Some e' ->
      kd e' = kd e /\ lines e' = lines e /\ velE e' = velE e /\ velA e' = velA e /\ offs e' = offs e /\
      (c_poly c = true -> poly e' = (0, 0, 0)) /\
      forall j l, inside e j -> nth_error (lines e) j = Some l -> 0 < l_nom l ->
        (exists v, nth_error (amps e') j = Some (Some v) /\ v == 0) /\ nth_error (stds e') j = Some PInf.
Proof. exact (ill_ranked c axis flux cont err outside_of profile svd solver width noise meanres root sqrtpi). Qed.

(** one velocity per kind, within the bounds *)
Theorem C94_velocities : forall fuel xs st r, regular c (map kd st) -> c_vel c = true -> bounded_solver solver ->
  0 < maxE c -> in_range (minE c) (maxE c) (iniE c) -> in_range (minA c) (maxA c) (iniA c) ->
  (needed c (length st) (kinds_count (map kd st)) <= length xs)%nat ->
  fit fuel xs st = Ok r ->
  exists ve va, in_range (minE c) (maxE c) ve /\ in_range (minA c) (maxA c) va /\
    forall e, In e r -> velocity e = match kd e with Em => ve | Ab => va end.
Proof. exact (velocities c axis flux cont err outside_of profile svd solver width noise meanres root sqrtpi). Qed.

(** one shift for all the lines, within the bounds, on top of their catalogue offsets *)
Theorem C94_offsets : forall fuel xs st r, regular c (map kd st) -> c_off c = true -> bounded_solver solver ->
  (forall e, In e st -> offs e = map l_off (lines e)) -> offMin c <= 0 -> 0 < offMax c ->
  fit fuel xs st = Ok r ->
  exists d, offMin c / speed_of_light <= d /\ d <= offMax c / speed_of_light /\
    forall e, In e r -> stretched d e.
Proof. exact (offsets c axis flux cont err outside_of profile svd solver width noise meanres root sqrtpi). Qed.

(** no negative amplitude *)
Theorem C94_amplitudes : forall fuel xs st r, regular c (map kd st) -> bounded_solver solver -> svd_nonneg ->
  (forall e, In e st -> nominal_ok e) -> fit fuel xs st = Ok r ->
  forall e j v, In e r -> nth_error (amps e) j = Some (Some v) -> 0 <= v.
Proof. exact (amplitudes_nonneg c axis flux cont err outside_of profile svd solver width noise meanres root sqrtpi). Qed.

(** one standard deviation per element, up to the first element outside the range *)
Theorem C94_errors : forall fuel xs st r, regular c (map kd st) -> (needed c (length st) (kinds_count (map kd st)) <= length xs)%nat ->
  fit fuel xs st = Ok r -> linear st r \/
  forall i e', nth_error r i = Some e' ->
    (* the elements up to this one are inside the range: one standard deviation for the lines inside *)
    ((forall k e, (k <= i)%nat -> nth_error r k = Some e -> out e = false) ->
      exists S, forall j l, inside e' j -> nth_error (lines e') j = Some l -> ~ l_nom l == 0 ->
        exists s, nth_error (stds e') j = Some s /\ same_value s S) /\
    (* an element at or before this one is outside the range: no standard deviation *)
    ((exists k e, (k <= i)%nat /\ nth_error r k = Some e /\ out e = true) -> Forall (eq NaN) (stds e')).
Proof. exact (errors c axis flux cont err outside_of profile svd solver width noise meanres root sqrtpi). Qed.

(** the same polynomial in all the elements *)
Theorem C94_polynomial : forall fuel xs st r, regular c (map kd st) -> c_poly c = true -> fit fuel xs st = Ok r ->
  exists p, forall e, In e r -> poly e = p.
Proof. exact (same_polynomial c axis flux cont err outside_of profile svd solver width noise meanres root sqrtpi). Qed.

(** no line above its error in the linear fit: the linear fit is kept *)
Theorem C94_low_snr : forall fuel xs st st2 r, regular c (map kd st) -> (needed c (length st) (kinds_count (map kd st)) <= length xs)%nat ->
  linear st st2 -> (forall e, In e st2 -> exists a d, GetElementAmplitude e = Some a /\ GetElementError e = Fin d /\ 0 < d /\ a < d) ->
  fit fuel xs st = Ok r -> r = st2.
Proof. exact (low_snr c axis flux cont err outside_of profile svd solver width noise meanres root sqrtpi). Qed.

(** a failure of the minimiser: as if it had returned the guess *)
Theorem C94_library_failure : forall fuel xs st,   LbfModel.fit c axis flux cont err outside_of profile svd (fun _ _ _ => Fail) width noise meanres root sqrtpi fuel xs st =
  LbfModel.fit c axis flux cont err outside_of profile svd (fun _ g _ => Done g) width noise meanres root sqrtpi fuel xs st.
Proof. exact (library_failure c axis flux cont err outside_of profile svd width noise meanres root sqrtpi). Qed.

(** the function minimised is the sum of the squared residuals of the model, in units of the error *)
Theorem C94_objective : forall prof, (forall k l v o y, profile k l v o y = Ok (prof k l v o y)) ->
  forall lay np nf s0 xs st x st' v, data_square flux err nf xs 0 = Ok s0 ->
  (forall i, In i xs -> ~ nth i err 0 * nf == 0) ->
  evaluate lay np nf s0 xs st x = Ok (st', v) ->
  exists p, unpack lay np st x = Ok (st', p) /\ v == sumQ (residual prof nf st' p) xs.
Proof. exact (objective c axis flux cont err outside_of profile). Qed.

(** with lines which stay inside (or outside) the range, an evaluation does not depend on the previous ones *)
Theorem C94_history_free : (forall k l v o v' o', outside_of k l v o = outside_of k l v' o') ->
  forall lay np nf s0 xs st st1 x, Forall flagged st ->
  reached (evaluate lay np nf s0 xs) st st1 -> evaluate lay np nf s0 xs st1 x = evaluate lay np nf s0 xs st x.
Proof. exact (history_free c axis flux cont err outside_of profile). Qed.

(** a fit is returned only if the amplitudes of the linear fit are numbers (and not null when the flux is null) *)
Theorem C94_guess_defined : forall fuel xs st r, regular c (map kd st) -> (needed c (length st) (kinds_count (map kd st)) <= length xs)%nat ->
  fit fuel xs st = Ok r ->
  exists st2, linear st st2 /\ forall e, In e st2 -> exists a, GetElementAmplitude e = Some a /\
    ((forall i f, In i xs -> nth_error flux i = Some f -> f == 0) -> ~ a == 0).
Proof. exact (guess_defined c axis flux cont err outside_of profile svd solver width noise meanres root sqrtpi). Qed.

(** a group which is not regular: a fit is returned only when it is not refined *)
Theorem C94_irregular : forall fuel xs st r, ~ regular c (map kd st) -> fit fuel xs st = Ok r ->
  r = map ill st \/ linear st r.
Proof. exact (irregular_never_refined c axis flux cont err outside_of profile svd solver width noise meanres root sqrtpi). Qed.

(** the limit on an absorption amplitude is multiplied by the largest flux: an amplitude which is a fraction of the continuum is bounded by a flux *)
Theorem C94_absorption_scale : forall fuel xs st r P, regular c (map kd st) -> bounded_solver solver -> finishing fuel solver ->
  0 < maxE c -> minE c <= maxE c -> minA c <= maxA c -> offMin c <= offMax c -> 0 < offMax c ->
  svd_nonneg -> (forall e, In e st -> nominal_ok e) ->
  (forall i f, In i xs -> nth_error flux i = Some f -> Qabs f <= P) -> 0 <= P ->
  (needed c (length st) (kinds_count (map kd st)) <= length xs)%nat ->
  fit fuel xs st = Ok r ->
  linear st r \/
  forall i e j v l m, nth_error st i = Some e -> kd e = Ab -> 0 < limit e -> max_nominal e = Ok m -> 0 < m ->
    nth_error (lines e) j = Some l ->
    (exists e', nth_error r i = Some e' /\ nth_error (amps e') j = Some (Some v)) -> v <= limit e * (l_nom l / m) * P.
Proof. exact (absorption_scale c axis flux cont err outside_of profile svd solver width noise meanres root sqrtpi). Qed.

End Fit.
Print Assumptions C94_unpacked.
Print Assumptions C94_result.
Print Assumptions C94_no_undefined_behaviour.
Print Assumptions C94_too_few_samples.
Print Assumptions C94_velocities.
Print Assumptions C94_offsets.
Print Assumptions C94_amplitudes.
Print Assumptions C94_errors.
Print Assumptions C94_polynomial.
Print Assumptions C94_low_snr.
Print Assumptions C94_library_failure.
Print Assumptions C94_objective.
Print Assumptions C94_history_free.
Print Assumptions C94_guess_defined.
Print Assumptions C94_irregular.
Print Assumptions C94_absorption_scale.

Theorem C94_polynomial_units : forall q nf y b0 b1 b2, ~ scale q == 0 -> ~ nf == 0 -> getCoeffs q = (b0, b1, b2) ->
  getValue (mkPoly (b0 / nf) (b1 / nf) (b2 / nf)) y * nf == ngetValue q y.
Proof. exact polynomial_units. Qed.
Print Assumptions C94_polynomial_units.

(** the variable of the polynomial is -1 at the first sample, 1 at the last one *)
Theorem C94_polynomial_centred : forall axis i0 rest a b q c0 c1 c2, make_poly axis (i0 :: rest) = Ok q ->
  nth_error axis i0 = Some a -> nth_error axis (last (i0 :: rest) i0) = Some b -> ~ a == b ->
  let p := mkNPoly c0 c1 c2 (x0red q) (scale q) in
  ngetValue p a == c0 - c1 + c2 /\ ngetValue p b == c0 + c1 + c2 /\ ngetValue p ((a + b) / 2) == c0.
Proof. exact polynomial_centred. Qed.
Print Assumptions C94_polynomial_centred.

(** ** what does not hold *)
(** a second element of the second kind: uninitialised bounds *)
Theorem C94_irregular_refuted : fit_of conf0 never solver0 all8 [elt0 Em 3; elt0 Ab 5; elt0 Ab 7] = UB.
Proof. exact irregular_ub. Qed.
Print Assumptions C94_irregular_refuted.
(** ... while the same elements in another order are fitted *)
Theorem C94_order_refuted : exists r, fit_of conf0 never solver0 all8 [elt0 Ab 5; elt0 Ab 7; elt0 Em 3] = Ok r.
Proof. exact reordered_ok. Qed.
Print Assumptions C94_order_refuted.
(** an element goes outside the range: the next ones, inside, have no standard deviation *)
Theorem C94_errors_refuted : exists e1 e2, fit_of conf1 out_first solver1 all8 [elt0 Em 1; elt0 Em 3] = Ok [e1; e2] /\
  out e1 = true /\ out e2 = false /\ map (option_map Qred) (amps e2) = [Some 4] /\ stds e2 = [NaN].
Proof. exact break_nan. Qed.
Print Assumptions C94_errors_refuted.
(** lines which enter or leave the range with the offset: the value at a point depends on the point evaluated before *)
Theorem C94_history_refuted : make_layout conf1 [Em] = Ok lay1 /\
  exists st2 st3 v1 v2, ev1 [elt0 Em 1] [1; 0] = Ok (st3, v1) /\ (exists w, ev1 [elt0 Em 1] [1; 1] = Ok (st2, w)) /\
  (exists st4, ev1 st2 [1; 0] = Ok (st4, v2)) /\ Qred v1 = 25 /\ Qred v2 = 26.
Proof. exact evaluation_history. Qed.
Print Assumptions C94_history_refuted.
(** the offsets are fitted even when the caller asks not to *)
Theorem C94_offset_flag_refuted : exists e, fitAmplitudesLinSolveAndLambdaOffset conf1 axis0 flux0 ones ones never profile0 svd0
    (fun _ _ _ => Done [1; 1]) width0 noise0 mean0 idQ 1 10 all8 [elt0 Em 3] false = Ok [e] /\ map Qred (offs e) = [10].
Proof. exact offset_flag. Qed.
Print Assumptions C94_offset_flag_refuted.
(** too few samples: the velocity stays at its largest value, not at the initial one *)
Theorem C94_velocity_ill_refuted : exists e, fit_of conf0 never solver0 [2%nat] [resetSupport conf0 never (elt0 Em 3)] = Ok [e] /\ velE e = maxE conf0.
Proof. exact ill_velocity. Qed.
Print Assumptions C94_velocity_ill_refuted.
(** an absorption of half the continuum, found by the linear fit, is lost by the refined one: fluxes of 1/200, limit 1, amplitude 1/200 *)
Theorem C94_absorption_bound_refuted :   (* an amplitude of 1/2, within the limit, is the data *)
  (exists m, mapr (fun i => getModelAtLambda profile0 (set_amplitudes eltA (Some (1 # 2)) (Fin 0)) (nth i axis0 0) (nth i contA 0)) all8 = Ok m /\
    map Qred m = fluxA) /\
  (* the linear fit finds it *)
  (exists e, linear confA svdA [eltA] [e] /\ map (option_map Qred) (amps e) = [Some (1 # 2)]) /\
  exists e, fit confA axis0 fluxA contA contA never profile0 svdA solverB width0 noise0 mean0 idQ 1 10 all8 [eltA] = Ok [e] /\
  map (option_map Qred) (amps e) = [Some (1 # 200)].
Proof. exact absorption_bound. Qed.
Print Assumptions C94_absorption_bound_refuted.

(** ** the hypotheses are met *)
Example C94_regular_example : regular conf0 [Em; Em; Ab] /\ needed conf0 3 (kinds_count [Em; Em; Ab]) = 5%nat /\ ~ regular conf0 [Em; Ab; Ab].
Proof. exact ex_regular. Qed.
Example C94_fit_example : exists e1 e2, fit_of conf0 never solver0 all8 [elt0 Em 3; elt0 Ab 7] = Ok [e1; e2] /\
  map (fun e => (Qred (velE e), Qred (velA e), map (option_map Qred) (amps e))) [e1; e2] =
    [(50, 0, [Some 4]); (0, 60, [Some 4])].
Proof. exact ex_fit. Qed.
Example C94_solver_example : bounded_solver solverB /\ finishing 10 solverB /\ sized_solver solver0.
Proof. exact ex_solver. Qed.
Example C94_arrays_example : inside_arrays axis0 flux0 ones ones all8.
Proof. exact in_arrays_ex. Qed.
