(** Property C45: line catalogs. *)
From Coq Require Import String Ascii.
From Verif Require Import Base SortLib StoreModel CatalogModel CatalogSpec CatalogProofs.
Open Scope string_scope.

(** Adding a line makes it the line of its identifier, replacing any previous one, and touches no other. *)
Theorem C45_add : forall m x, catalog m -> ln_profile x <> None ->
  exists m', Add m x = Ok m' /\ catalog m' /\ forall k, lfind m' k = if (ln_id x =? k)%Z then Some x else lfind m k.
Proof. exact Add_spec. Qed.
Print Assumptions C45_add.

(** Adding a line described by strings: the line is added with the type, force and profile these strings name, or the
    error of the first wrong one is raised. *)
Theorem C45_add_from_parameters : forall m name pos type force prof asym group amp id strid, catalog m ->
  match string2Type type, string2Force force, make_profile prof asym with
  | Ok t, Ok f, Ok p => exists m', AddLineFromParams m name pos type force prof asym group amp id strid = Ok m' /\ catalog m' /\
      forall k, lfind m' k = if (id =? k)%Z then Some (mkLine id strid name t f group pos amp (Some p)) else lfind m k
  | Ok _, Ok _, Throw e => AddLineFromParams m name pos type force prof asym group amp id strid = Throw e
  | Ok _, Throw e, _ => AddLineFromParams m name pos type force prof asym group amp id strid = Throw e
  | Throw e, _, _ => AddLineFromParams m name pos type force prof asym group amp id strid = Throw e
  | _, _, _ => AddLineFromParams m name pos type force prof asym group amp id strid = UB
  end.
Proof. exact AddLineFromParams_spec. Qed.
Print Assumptions C45_add_from_parameters.

(** Profiles named by a string: with their default parameters when a line is added, with the given ones when the profile is
    changed; a name containing ASYMFIXED always takes the given ones. *)
Theorem C45_profile_names : forall name asym,
  (contains "ASYMFIXED" name -> make_profile name asym = Ok (PASYM asym "mean") /\ profile_with_params name asym = Ok (PASYM asym "mean")) /\
  (make_profile "SYM" asym = Ok PSYM /\ profile_with_params "SYM" asym = Ok PSYM) /\
  (make_profile "LOR" asym = Ok PLOR /\ profile_with_params "LOR" asym = Ok PLOR) /\
  (make_profile "SYMIGM" asym = Ok PSYMIGM /\ profile_with_params "SYMIGM" asym = Ok PSYMIGM) /\
  (make_profile "ASYM" asym = Ok (PASYM (1, 9 # 2, 0)%Q "none") /\ profile_with_params "ASYM" asym = Ok (PASYM asym "none")) /\
  (make_profile "ASYMFIT" asym = Ok (PASYMFIT (2, 2, 0)%Q "mean") /\ profile_with_params "ASYMFIT" asym = Ok (PASYMFIT asym "mean")) /\
  (~ contains "ASYMFIXED" name -> ~ In name ["SYM"; "LOR"; "SYMIGM"; "ASYM"; "ASYMFIT"] ->
     make_profile name asym = Throw INTERNAL_ERROR /\ profile_with_params name asym = Throw INTERNAL_ERROR).
Proof. exact profile_names_spec. Qed.
Print Assumptions C45_profile_names.

Theorem C45_type_strings : forall s,
  (string2Type s = Ok AllTypes <-> s = "no") /\
  (string2Type s = Ok Emission <-> starts_with "E" s) /\
  (string2Type s = Ok Absorption <-> starts_with "A" s) /\
  (string2Type s = UB <-> s = "") /\
  (forall e, string2Type s = Throw e -> e = BAD_LINE_TYPE).
Proof. exact string2Type_spec. Qed.
Print Assumptions C45_type_strings.

Theorem C45_force_strings : forall s,
  (string2Force s = Ok AllForces <-> s = "no") /\
  (string2Force s = Ok Weak <-> starts_with "W" s) /\
  (string2Force s = Ok Strong <-> starts_with "S" s) /\
  (string2Force s = UB <-> s = "") /\
  (forall e, string2Force s = Throw e -> e = BAD_LINE_FORCE).
Proof. exact string2Force_spec. Qed.
Print Assumptions C45_force_strings.

(** The string of a type is not read back as that type for "all types", and "all forces" has no string. *)
Theorem C45_type_round_trip_refuted :
  GetTypeString AllTypes = Ok "All" /\ string2Type "All" = Ok Absorption /\ GetForceString AllForces = Throw STD_out_of_range.
Proof. repeat split. Qed.
Print Assumptions C45_type_round_trip_refuted.
Theorem C45_type_round_trip : forall t f, t <> AllTypes -> f <> AllForces ->
  (exists s, GetTypeString t = Ok s /\ string2Type s = Ok t) /\ (exists s, GetForceString f = Ok s /\ string2Force s = Ok f).
Proof. intros [] [] Ht Hf; try contradiction; split; eexists; split; reflexivity. Qed.
Print Assumptions C45_type_round_trip.

(** Filtering keeps exactly the matching lines, under their identifiers. *)
Theorem C45_filter : forall m t f, catalog m -> exists out, GetFilteredList m t f = Ok out /\ catalog out /\
  forall k x, lfind out k = Some x <-> lfind m k = Some x /\ type_matches t x /\ force_matches f x.
Proof. exact GetFilteredList_spec. Qed.
Print Assumptions C45_filter.

Theorem C45_filter_by_strings : forall m t f, GetFilteredListS m t f =
  match string2Type t, string2Force f with
  | Ok t', Ok f' => GetFilteredList m t' f'
  | Ok _, Throw e => Throw e | Ok _, UB => UB | Throw e, _ => Throw e | UB, _ => UB
  end.
Proof. exact GetFilteredListS_spec. Qed.
Print Assumptions C45_filter_by_strings.

(** Grouping: a group is the list of the lines having its name, in the order of the identifiers; no group is empty; a line
    without group goes to "single_" followed by its string identifier. *)
Theorem C45_groups : forall m, catalog m -> exists g, ConvertToGroupList m = Ok g /\ NoDup (map fst g) /\
  forall n, mfind g n = match filter (fun x => String.eqb (group_name x) n) (lines m) with [] => None | l => Some l end.
Proof. exact ConvertToGroupList_spec. Qed.
Print Assumptions C45_groups.
Theorem C45_group_names : forall x, (ln_group x <> "undefined" -> group_name x = ln_group x) /\
  (ln_group x = "undefined" -> group_name x = "single_" ++ ln_strid x).
Proof. exact group_name_cases. Qed.
Print Assumptions C45_group_names.

(** A line without group is alone, provided string identifiers are distinct and no group is called like that. *)
Theorem C45_ungrouped_line_is_alone : forall m x g, catalog m -> In x (lines m) -> ln_group x = "undefined" ->
  (forall y, In y (lines m) -> y <> x -> ln_group y = "undefined" -> ln_strid y <> ln_strid x) ->
  (forall y, In y (lines m) -> ln_group y <> "single_" ++ ln_strid x) ->
  ConvertToGroupList m = Ok g -> mfind g ("single_" ++ ln_strid x) = Some [x].
Proof. exact ungrouped_alone. Qed.
Print Assumptions C45_ungrouped_line_is_alone.
(** Nothing enforces this: two lines with the same string identifier end up in one group, tying their amplitudes. *)
Theorem C45_ungrouped_line_is_alone_refuted : exists m x y g, catalog m /\ In x (lines m) /\ In y (lines m) /\ ln_id x <> ln_id y /\
  ln_group x = "undefined" /\ ln_group y = "undefined" /\ ConvertToGroupList m = Ok g /\ mfind g "single_Ha" = Some [x; y].
Proof.
  exists [(1, mkLine 1 "Ha" "Ha" Emission Strong "undefined" 6562 1 (Some PSYM)); (2, mkLine 2 "Ha" "Hb" Emission Strong "undefined" 4861 1 (Some PSYM))]%Z.
  eexists _, _, _. split.
  { apply catalog_intro; [apply catalog_intro; [apply catalog_nil| | |]| | |]; simpl; try reflexivity; try discriminate; [intros u y []|].
    intros u y [E|[]]. injection E as <- _. lia. }
  split; [left; reflexivity|]. split; [right; left; reflexivity|]. split; [simpl; discriminate|]. repeat split; reflexivity.
Qed.
Print Assumptions C45_ungrouped_line_is_alone_refuted.

Theorem C45_set_amplitude : forall m id a, catalog m ->
  (lfind m id = None -> setLineAmplitude m id a = Throw INTERNAL_ERROR) /\
  (forall x, lfind m id = Some x -> exists m', setLineAmplitude m id a = Ok m' /\ catalog m' /\ lfind m' id = Some (with_amp x a) /\
     forall k, k <> id -> lfind m' k = lfind m k).
Proof. exact setLineAmplitude_spec. Qed.
Print Assumptions C45_set_amplitude.

(** Exactly the emission lines called LyAE or bluewards of 1216 A get an IGM-absorbed profile. *)
Theorem C45_igm_profiles : forall m, catalog m -> catalog (convertLineProfiles2SYMIGM m) /\
  forall k, lfind (convertLineProfiles2SYMIGM m) k =
    match lfind m k with
    | None => None
    | Some x => Some (if (etype_eqb (ln_type x) Emission && (String.eqb (ln_name x) "LyAE" || Qltb (ln_pos x) 1216))%bool
                      then with_profile x PSYMIGM else x)
    end.
Proof. exact convert_spec. Qed.
Print Assumptions C45_igm_profiles.

(** Exactly the asymmetric profiles are replaced. *)
Theorem C45_asymmetric_profiles : forall m name asym q, catalog m -> profile_with_params name asym = Ok q ->
  exists m', setAsymProfileAndParams m name asym = Ok m' /\ catalog m' /\
    forall k, lfind m' k = match lfind m k with
                           | Some x => Some (match ln_profile x with Some (PASYM _ _) | Some (PASYMFIT _ _) => with_profile x q | _ => x end)
                           | None => None end.
Proof. exact setAsym_spec. Qed.
Print Assumptions C45_asymmetric_profiles.

(** The lines of a line-ratio catalog start with null amplitudes; a velocity group is set once. *)
Theorem C45_ratio_catalog : forall m, catalog m -> catalog (ratio_lines m) /\
  forall k, lfind (ratio_lines m) k = option_map (fun x => with_amp x 0%Q) (lfind m k).
Proof. exact ratio_spec. Qed.
Print Assumptions C45_ratio_catalog.
Theorem C45_velocities : forall v name x, (mfind v name <> None -> addVelocity v name x = Throw INTERNAL_ERROR) /\
  (mfind v name = None -> exists v', addVelocity v name x = Ok v' /\ getVelocity v' name = Ok x /\
     forall n, n <> name -> getVelocity v' n = getVelocity v n).
Proof. exact velocity_spec. Qed.
Print Assumptions C45_velocities.

(** Detected lines are numbered 0, 1, 2...; sorting them renumbers them by position, then amplitude, losing none. *)
Theorem C45_detected_add : forall m d, (forall i p, nth_error m i = Some p -> fst p = Z.of_nat i) ->
  det_Add m d = (m ++ [(Z.of_nat (length m), d)])%list /\
  (forall i p, nth_error (det_Add m d) i = Some p -> fst p = Z.of_nat i).
Proof. exact det_Add_spec. Qed.
Print Assumptions C45_detected_add.
Theorem C45_detected_sort : forall sort m, sorts sort ->
  (forall i p, nth_error (det_Sort sort m) i = Some p -> fst p = Z.of_nat i) /\
  Permutation (map snd (det_Sort sort m)) (map snd m) /\
  forall i j a b, (i < j)%nat -> nth_error (map snd (det_Sort sort m)) i = Some a -> nth_error (map snd (det_Sort sort m)) j = Some b -> before a b.
Proof. exact det_Sort_spec. Qed.
Print Assumptions C45_detected_sort.

Example C45_nonvacuous :
  let add m nm pos ty fo pr gr id := AddLineFromParams m nm pos ty fo pr (1, 2, 0)%Q gr 1%Q id nm in
  exists m g, (do a <- add [] "Ha" 6562%Q "E" "S" "SYM" "undefined" 5%Z;
     do b <- add a "OIII" 5007%Q "E" "S" "ASYMFIXED_x" "O" 3%Z;
     do c <- add b "OIIIb" 4959%Q "E" "W" "LOR" "O" 2%Z;
     add c "CaK" 3933%Q "A" "S" "SYM" "undefined" 9%Z) = Ok m /\ catalog m /\
    map fst m = [2; 3; 5; 9]%Z /\
    (do f <- GetFilteredListS m "E" "S"; Ok (map fst f)) = Ok [3; 5]%Z /\
    ConvertToGroupList m = Ok g /\ option_map (map ln_name) (mfind g "O") = Some ["OIIIb"; "OIII"] /\
    option_map (map ln_name) (mfind g "single_Ha") = Some ["Ha"] /\
    AddLineFromParams [] "x" 1%Q "E" "S" "GAUSS" (1, 2, 0)%Q "g" 1%Q 1%Z "x" = Throw INTERNAL_ERROR /\
    AddLineFromParams [] "x" 1%Q "X" "S" "SYM" (1, 2, 0)%Q "g" 1%Q 1%Z "x" = Throw BAD_LINE_TYPE.
Proof.
  eexists _, _. split; [vm_compute; reflexivity|]. split.
  { repeat (apply catalog_intro; [| reflexivity | discriminate | simpl; intros u y H; repeat (destruct H as [H|H]; [injection H as <- _; lia|]); destruct H]).
    apply catalog_nil. }
  vm_compute. repeat split; reflexivity.
Qed.
Example C45_detected_nonvacuous :
  sorts (SortLib.isort det_lt) /\
  det_Sort (SortLib.isort det_lt) (det_Add (det_Add (det_Add [] (mkDet 7 1 0)) (mkDet 5 3 1)) (mkDet 5 2 2)) =
    [(0, mkDet 5 2 2); (1, mkDet 5 3 1); (2, mkDet 7 1 0)]%Z.
Proof.
  split; [|vm_compute; reflexivity]. intro l. split; [apply SortLib.isort_perm|].
  assert (S : StronglySorted (fun x y => det_lt y x = false) (SortLib.isort det_lt l)).
  { apply SortLib.isort_sorted; unfold det_lt.
    all: intros; repeat qcase; try discriminate; try reflexivity; try lra. }
  intros i j a b Hij Ha Hb. revert i j Hij Ha Hb. induction S as [|x t S IH F]; intros i j Hij Ha Hb; [destruct i; discriminate|].
  destruct i as [|i]; destruct j as [|j]; try lia; simpl in Ha, Hb.
  - injection Ha as <-. rewrite Forall_forall in F. apply F. eapply nth_error_In; eauto.
  - apply (IH i j); auto. lia.
Qed.
