(** C91: the elements of a line catalogue and the reported solution. *)
From Coq Require Import String Sorting.Permutation.
From Verif Require Import Base RangeModel F64 RulesModel LyaModel SolModel SolSpec SolProofs SolProofs2 SolProofs3 SolProofs4 SolProofs5 SolProofs6 SolProofs7.
Open Scope Q_scope.

(** the elements: every line of the catalogue once, in elements which are not empty, without amplitudes, of the type of their first line *)
Theorem C91_elements : forall c cat vem vab, distinct_ids cat -> exists es, LoadCatalog c cat vem vab = Ok es /\ elts_ok es /\ Permutation (concat (map t_lines es)) cat /\ map t_lines es = partition_lines c cat /\
  Forall (fun e => t_vem e = vem /\ t_vab e = vab /\ (forall x t, t_lines e = x :: t -> t_em e = same_type (l_type x) Emission) /\ forall a, In a (t_amp e) -> a = None) es.
Proof. exact load_spec. Qed.
Print Assumptions C91_elements.
(** the place of a line is found by its identifier *)
Theorem C91_find : forall c cat vem vab es, distinct_ids cat -> LoadCatalog c cat vem vab = Ok es ->
  (forall x, In x cat -> exists k i, findElementIndex es (l_id x) = Some (k, i) /\ at_line es k i x) /\ (forall id, ~ In id (map l_id cat) -> findElementIndex es id = None).
Proof. exact load_find. Qed.
Print Assumptions C91_find.
(** default composition: the lines of one element are all those of one group (the group of a line without one is its own) *)
Theorem C91_groups : forall cat l, In l (partition_lines Default cat) -> exists g, Forall (fun x => group_name x = g) l /\ forall x, In x cat -> group_name x = g -> In x l.
Proof. exact groups_spec. Qed.
Print Assumptions C91_groups.
(** emission and absorption: the absorption lines then the emission lines *)
Theorem C91_two_elements : forall cat, exists a e, Forall (fun x => l_type x = Absorption) a /\ Forall (fun x => l_type x = Emission) e /\ (forall l, In l (partition_lines EmissionAbsorption cat) <-> (l = a \/ l = e) /\ l <> []) /\
  (forall k k' l l', (k < k')%nat -> nth_error (partition_lines EmissionAbsorption cat) k = Some l -> nth_error (partition_lines EmissionAbsorption cat) k' = Some l' -> l = a /\ l' = e).
Proof. exact two_spec. Qed.
Print Assumptions C91_two_elements.
Theorem C91_one_line : forall cat, partition_lines OneLine cat = map (fun x => [x]) cat.
Proof. exact one_line_spec. Qed.
Print Assumptions C91_one_line.
(** the solution: one row by line of the catalogue, in its order, as specified; the two complexes; the number of elements in the range with a positive amplitude; the
    velocities of the first element; the parameters of Lya *)
Theorem C91_solution : forall v full cat s, st_ok s ->
  (full = true -> forall x k i e, In x cat -> measured s x k i e -> usable (val (t_amp e) i) -> exists p, seen_in v k i p) ->
  exists o, GetModelSolution v full cat s = Ok o /\ Forall2 (row_ok v full s) cat (o_rows o) /\
     (full = true -> complex_ok v 3 (members s is_ha cat (o_rows o)) (o_ha o) /\ complex_ok v 2 (members s is_oii cat (o_rows o)) (o_oii o)) /\
     (full = false -> o_ha o = no_complex /\ o_oii o = no_complex) /\
     o_nddl o = List.length (filter (fun p => (negb (snd p) && in_use (fst p))%bool) (combine (s_elts s) (s_allout s))) /\ o_z o = s_z s /\
     (exists e0, nth_error (s_elts s) 0 = Some e0 /\ o_vem o = t_vem e0 /\ o_vab o = t_vab e0) /\ lya_ok (s_elts s) o.
Proof. exact solution_spec. Qed.
Print Assumptions C91_solution.
(** a line with an amplitude which no spectrum contains *)
Theorem C91_solution_throws : forall v cat s x k i e, st_ok s -> In x cat -> measured s x k i e -> usable (val (t_amp e) i) -> (forall p, ~ seen_in v k i p) -> GetModelSolution v true cat s = Throw INTERNAL_ERROR.
Proof. exact solution_throws. Qed.
Print Assumptions C91_solution_throws.
Theorem C91_solution_no_element : forall v full cat s, s_elts s = [] -> GetModelSolution v full cat s = UB.
Proof. exact solution_empty. Qed.
Print Assumptions C91_solution_no_element.
Theorem C91_flux_signs : forall v s x k i e r, (forall p, 0 <= v_lflux v p k i) -> row_ok v true s x r -> measured s x k i e -> forall f, r_flux r = Some f ->
  (l_type x = Emission -> 0 <= f) /\ (l_type x = Absorption -> f <= 0).
Proof. exact flux_signs. Qed.
Print Assumptions C91_flux_signs.
(** the error of the direct integration is the root of the variance, but for a null flux *)
Theorem C91_direct_error : forall v l sub f err, direct_ok v l sub (Some f) err -> (forall w, 0 < w -> 0 < v_sqrt v w) ->
  (~ f == 0 -> exists u, err = Fin u /\ u == v_sqrt v (snd (v_di v l sub))) /\ (f == 0 -> err = NaN).
Proof. exact direct_error. Qed.
Print Assumptions C91_direct_error.
(** a solution loaded in any state of the same lines gives back the amplitudes (up to the limit of the absorption), errors, offsets, velocities, groups and (when both sides
    have it) polynomials of the lines in the range; the others are reset *)
Theorem C91_round_trip : forall v full offs cat s s2 o, st_ok s -> distinct_ids cat -> GetModelSolution v full cat s = Ok o -> twin s s2 ->
  exists s', LoadModelSolution offs o s2 = Ok s' /\ s_z s' = s_z s /\ s_out s' = s_out s2 /\ List.length (s_elts s') = List.length (s_elts s) /\
  forall k e, nth_error (s_elts s) k = Some e -> exists e', nth_error (s_elts s') k = Some e' /\ restored (offs && full && v_offsets v)%bool cat s k e e'.
Proof. exact round_trip. Qed.
Print Assumptions C91_round_trip.
(** the profiles of a loaded solution *)
Theorem C91_load_profiles : forall offs o s2 s', LoadModelSolution offs o s2 = Ok s' -> Forall elt_ok (s_elts s2) -> Forall elt_ok (s_elts s') /\ List.length (s_elts s') = List.length (s_elts s2) /\
  forall k i y, at_line (s_elts s2) k i y -> exists y', at_line (s_elts s') k i y' /\ same_line y y' /\
    exists lya, l_profile y' = loaded_profile o lya (l_profile y) /\ (lya = true <-> exists e, lya_elt (s_elts s2) k e).
Proof. exact load_profiles. Qed.
Print Assumptions C91_load_profiles.
(** and the solution made from what was loaded has the same rows *)
Theorem C91_reread : forall v v2 full full2 offs cat s s2 o s', st_ok s -> distinct_ids cat -> within_limits s -> twin s s2 -> v_pos v2 = v_pos v -> v_offsets v2 = v_offsets v ->
  GetModelSolution v full cat s = Ok o -> LoadModelSolution offs o s2 = Ok s' ->
  forall o', GetModelSolution v2 full2 cat (mkSt (s_z s') (s_elts s') (s_out s) (s_allout s)) = Ok o' ->
  o_z o' = o_z o /\ Forall2 (same_row (Bool.eqb full full2 && (offs || negb (v_offsets v)))%bool) (o_rows o) (o_rows o').
Proof. exact reread. Qed.
Print Assumptions C91_reread.
(** the quotients *)
Theorem C91_quotient : forall a b,   (forall x y, a = Some x -> b = Some y ->
     (~ y == 0 -> fquo a b = Fin (x / y)) /\ (y == 0 -> 0 < x -> fquo a b = PInf) /\ (y == 0 -> x < 0 -> fquo a b = NInf) /\ (y == 0 -> x == 0 -> fquo a b = NaN)) /\
  (a = None \/ b = None -> fquo a b = NaN).
Proof. exact quotient_spec. Qed.
Print Assumptions C91_quotient.
(** the lines of the complexes *)
Theorem C91_complex_names : forall name,   (is_ha name = true <-> name = "Halpha"%string \/ name = "[NII]a"%string \/ name = "[NII]b"%string) /\
  (is_oii name = true <-> name = "[OII]3726"%string \/ name = "[OII]3729"%string).
Proof. exact complex_names. Qed.
Print Assumptions C91_complex_names.

(** ** what does not hold *)
(** a group with lines of both types is an element of the type of the first one *)
Theorem C91_group_of_one_type_refuted : match LoadCatalog Default [ln 1 "a" Emission "g" "l1" (Sym 8); ln 2 "b" Absorption "g" "l2" (Sym 8)] (Some 100) (Some 300) with
  | Ok [e] => map l_type (t_lines e) = [Emission; Absorption] /\ t_em e = true /\ getVelocity e = Some 100 | _ => False end.
Proof. exact ex_mixed. Qed.
Print Assumptions C91_group_of_one_type_refuted.
(** a line without a group shares its element with a group called single_ and its string identifier *)
Theorem C91_ungrouped_line_alone_refuted : match LoadCatalog Default [ln 1 "a" Emission "undefined" "l1" (Sym 8); ln 2 "b" Emission "single_l1" "l2" (Sym 8)] (Some 100) (Some 300) with
  | Ok [e] => map l_id (t_lines e) = [1; 2]%Z /\ map l_group (t_lines e) = ["undefined"; "single_l1"]%string | _ => False end.
Proof. exact ex_single. Qed.
Print Assumptions C91_ungrouped_line_alone_refuted.
(** the velocity of the other type is lost *)
Theorem C91_velocities_reread_refuted : match GetModelSolution envm true catm stm with
  | Ok o => match LoadModelSolution true o stm2 with
            | Ok s => match GetModelSolution envm true catm (mkSt (s_z s) (s_elts s) (s_out stm) (s_allout stm)) with
                      | Ok o' => o_vem o = Some (inject_Z 100) /\ o_vab o = Some (inject_Z 300) /\ o_vem o' = Some (inject_Z 100) /\ o_vab o' = None | _ => False end
            | _ => False end
  | _ => False end.
Proof. exact ex_velocity. Qed.
Print Assumptions C91_velocities_reread_refuted.
(** a short solution has no polynomial, and loads NaN when the model has one *)
Theorem C91_polynomial_restored_refuted : match GetModelSolution envm false catm stm with
  | Ok o => match LoadModelSolution true o stm2 with Ok s => map t_poly (s_elts stm) = repeat (Some (inject_Z 1), Some (inject_Z 2), Some (inject_Z 3)) 4 /\ map t_poly (s_elts s) = repeat nan3 4 | _ => False end
  | _ => False end.
Proof. exact ex_poly. Qed.
Print Assumptions C91_polynomial_restored_refuted.
(** null flux, variance 4: the error is NaN *)
Theorem C91_null_flux_error_refuted : direct_ok envm [] false (Some 0) NaN /\ snd (v_di envm [] false) == 4.
Proof. exact ex_null_flux. Qed.
Print Assumptions C91_null_flux_error_refuted.
(** a complex is frozen at its third line: 24 and not 2024 *)
Theorem C91_complex_of_all_lines_refuted : match GetModelSolution envm true (catm ++ [ln 6 "[NII]b" Emission "h" "l6" (Sym 8)])
    (mkSt (Some 6) (esm ++ match LoadCatalog OneLine [ln 6 "[NII]b" Emission "h" "l6" (Sym 8)] None None with Ok [e] => [fitted e (Some 1000) (Some 1) "v"] | _ => [] end) (s_out stm ++ [[false]]) (s_allout stm ++ [false])) with
  | Ok o => map (fun r => option_map Qred (r_flux r)) (o_rows o) = [None; Some (inject_Z 10); Some (inject_Z 10); Some (inject_Z 4); Some (inject_Z (-3)); Some (inject_Z 2000)] /\ c_lf (o_ha o) = Fin (inject_Z 24)
  | _ => False end.
Proof. exact ex_fourth. Qed.
Print Assumptions C91_complex_of_all_lines_refuted.

(** ** the hypotheses are met *)
Example C91_hypotheses_example : st_ok stm /\ distinct_ids catm /\ twin stm stm2 /\ within_limits stm /\
  forall x k i e, In x catm -> measured stm x k i e -> usable (val (t_amp e) i) -> exists p, seen_in envm k i p.
Proof. exact (conj stm_ok (conj catm_distinct (conj stm_twin (conj stm_limits stm_seen)))). Qed.
Example C91_solution_example : match GetModelSolution envm true catm stm with Ok o => map (fun r => (r_id r, r_elt r, r_out r)) (o_rows o) = [(1, 2, true); (2, 0, false); (3, 0, false); (4, 1, false); (5, 3, false)]%Z /\
    map (fun r => option_map Qred (r_flux r)) (o_rows o) = [None; Some (inject_Z 10); Some (inject_Z 10); Some (inject_Z 4); Some (inject_Z (-3))] /\ o_nddl o = 3%nat /\ o_vem o = Some (inject_Z 100) /\ o_lya o = (Some (inject_Z 2), Some (inject_Z 2), Some (inject_Z 0)) | _ => False end.
Proof. exact ex_solution. Qed.
(** a line with an amplitude and no spectrum *)
Example C91_throws_example : exists v, (forall p, ~ seen_in v 0 0 p) /\ GetModelSolution v true catm stm = Throw INTERNAL_ERROR.
Proof.
  exists (mkEnv (v_cont envm) (v_rms envm) (v_di envm) (v_pos envm) 0 (v_outs envm) (v_sigma envm) (v_lflux envm) (v_sqrt envm) (v_log envm) true true).
  split; [intros p (L & _); cbn in L; inversion L|vm_compute; reflexivity].
Qed.
