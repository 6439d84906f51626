(** C96: the spectra given to the library by a reader. *)
From Coq Require Import String Permutation Sorted.
From Verif Require Import Base RdrModel RdrSpec RdrProofs RdrProofs2 RdrProofs3 RdrProofs4 RdrProofs5 RdrWit.
Open Scope string_scope.

(** a reader is only loaded when its columns are coherent *)
Theorem C96_coherent : forall sort p r l, dictionaries r -> init sort p r = Val l -> coherent r.
Proof. exact loaded_coherent. Qed.
Print Assumptions C96_coherent.
(** no multi-observation: the samples which pass all the filters, in order, and no other *)
Theorem C96_mono : forall sort p r l, dictionaries r -> init sort p r = Val l -> p_multi p = Mono ->
  dkeys (waves r) = [""] /\ exists x, spectra l = [("", x)] /\ kept_samples r (filters_of p) "" x.
Proof. exact loaded_mono. Qed.
Print Assumptions C96_mono.
(** one spectrum per observation *)
Theorem C96_full : forall sort p r l, dictionaries r -> init sort p r = Val l -> p_multi p = Full ->
  Forall2 (fun o e => fst e = o /\ kept_samples r (filters_of p) o (snd e)) (dkeys (waves r)) (spectra l).
Proof. exact loaded_full. Qed.
Print Assumptions C96_full.
(** all the kept samples of all the observations, once each, by strictly increasing wavelength *)
Theorem C96_merge : forall sort p r l, dictionaries r -> sorts sort -> init sort p r = Val l -> p_multi p = Merge ->
  exists ls m, spectra l = [("", m)] /\ Forall2 (kept_samples r (filters_of p)) (dkeys (waves r)) ls /\ merged (concat ls) m.
Proof. exact loaded_merge. Qed.
Print Assumptions C96_merge.
Theorem C96_merge_accepts : forall sort l, sorts sort -> l <> [] -> spaced l -> exists m, merge sort l = Val m.
Proof. exact merge_accepts. Qed.
Print Assumptions C96_merge_accepts.
(** what a filter keeps *)
Theorem C96_filter : forall i v c m, In i allowed_instructions -> comparator i v c = Val m ->
  List.length m = clen c /\ forall k, (k < clen c)%nat -> exists b, nth_error m k = Some b /\ (b = true <-> meets v c k i).
Proof. exact comparator_spec. Qed.
Print Assumptions C96_filter.
(** the filters only use columns of the reader *)
Theorem C96_keys : forall sort p r l, dictionaries r -> init sort p r = Val l -> waves r <> [] ->
  forall f, In f (filters_of p) -> In (f_key f) (["waves"; "fluxes"; "errors"] ++ dkeys (others r))%list.
Proof. exact loaded_keys. Qed.
Print Assumptions C96_keys.
(** wavelengths in the air are always converted, wavelengths in the vacuum never *)
Theorem C96_conversion : forall sort p r l, init sort p r = Val l ->
  (conversion l <> "" <-> w_air r = true) /\
  (w_air r = true -> conversion l = if (p_air p =? "") || (p_air p =? "default") then "morton2000" else p_air p) /\
  (ignored l = true <-> p_air p <> "" /\ w_air r = false).
Proof. exact loaded_conversion. Qed.
Print Assumptions C96_conversion.
(** the observations with a warning on their range: from the unfiltered wavelengths *)
Theorem C96_range_warning : forall sort p r l, init sort p r = Val l ->
  (forall o, In o (dkeys (waves r)) -> exists lo hi, asked p o lo hi) /\
  forall o, In o (tighter l) <-> In o (dkeys (waves r)) /\ exists lo hi, asked p o lo hi /\ ~ covers r o lo hi.
Proof. exact loaded_range. Qed.
Print Assumptions C96_range_warning.
(** acceptance *)
Theorem C96_accepted : forall sort p r, dictionaries r -> coherent r -> sorts sort ->
  ~ In "fluxes" (dkeys (others r)) -> ~ In "errors" (dkeys (others r)) ->
  (forall o, In o (dkeys (waves r)) -> (exists lo hi, asked p o lo hi) /\ exists w, dget o (waves r) = Some w /\ w <> []) ->
  (forall o f, In o (dkeys (waves r)) -> In f (filters_of p) -> exists c, given r o (f_key f) = Some c /\ well_typed f c) ->
  waves r <> [] ->
  match p_multi p with
  | Mono => dkeys (waves r) = [""]
  | Full => forall d o, p_range p = PerObs d -> In o (dkeys d) -> In o (dkeys (waves r))
  | Merge => forall ls, Forall2 (kept_samples r (filters_of p)) (dkeys (waves r)) ls -> concat ls <> [] /\ spaced (concat ls)
  end ->
  exists l, init sort p r = Val l.
Proof. exact load_accepts. Qed.
Print Assumptions C96_accepted.

(** ** Refuted: all the samples filtered out is not an error, and there is no warning *)
Theorem C96_empty_spectrum_refuted : exists p r l, dictionaries r /\ init isort p r = Val l /\ spectra l = [("", [])] /\ tighter l = [] /\ p_multi p = Mono.
Proof. exact all_filtered. Qed.
Print Assumptions C96_empty_spectrum_refuted.
(** the range asked goes to 40, the samples kept stop at 30: no warning *)
Theorem C96_range_warning_refuted : exists p r l x, dictionaries r /\ init isort p r = Val l /\ spectra l = [("", x)] /\ tighter l = [] /\
  asked p "" 10 40 /\ forall y v, In y x -> wave y = Some v -> (v <= 30)%Q.
Proof. exact cut_by_filter. Qed.
Print Assumptions C96_range_warning_refuted.
(** the keys accepted by the check of the parameters are not the ones of the reader, and conversely *)
Theorem C96_checked_keys_refuted : exists p, check_filters p = Val tt /\
  forall sort r l, dictionaries r -> waves r <> [] -> ~ In "Wave" (dkeys (others r)) -> init sort p r <> Val l.
Proof. exact capital_keys. Qed.
Print Assumptions C96_checked_keys_refuted.
Theorem C96_refused_keys_refuted : exists p r l, check_filters p = Err (Api "INVALID_PARAMETER_FILE") /\ init isort p r = Val l.
Proof. exact small_keys. Qed.
Print Assumptions C96_refused_keys_refuted.
(** an instruction of the schemas, which can be evaluated, is always refused *)
Theorem C96_instructions_refuted : exists i, In i schema_instructions /\ (exists m, comparator i (VInt 8) (Ints [8; 9]%Z) = Val m) /\
  forall sort p r l f, In f (filters_of p) -> f_instr f = i -> init sort p r <> Val l.
Proof. exact notxor. Qed.
Print Assumptions C96_instructions_refuted.
(** the instruction documented as "flag absent" keeps a sample with the flag *)
Theorem C96_flag_absent_refuted : exists p r l x, dictionaries r /\ p_filters p = Some [mkFilt "flag" "^" (VInt 8)] /\ init isort p r = Val l /\ spectra l = [("", x)] /\
  exists k a, In (k, a) (combine [q 10; q 20; q 30; q 40] [0; 9; 8; 1]%Z) /\ dget "flag" (others r) = Some [("", Ints [0; 9; 8; 1]%Z)] /\ shares_bit a 8 /\ In k (map wave x).
Proof. exact xor_present. Qed.
Print Assumptions C96_flag_absent_refuted.
(** the conversion method cannot be chosen in version 2 of the parameters; it can in version 1 *)
Theorem C96_method_version_2_refuted : exists d, get_airvacuum_method 2 d = Val "" /\ dget "airvacuumMethod" d = Some "edlen1953".
Proof. exact v2_refused. Qed.
Print Assumptions C96_method_version_2_refuted.
Theorem C96_method_version_2 : forall d m, get_airvacuum_method 2 d = Val m -> m = "".
Proof. exact v2_method. Qed.
Print Assumptions C96_method_version_2.
Theorem C96_method_version_1 : get_airvacuum_method 1 [("airvacuum_method", "edlen1953")] = Val "edlen1953".
Proof. exact v1_method. Qed.
Print Assumptions C96_method_version_1.
(** the ASCII reader forgets the names of the observations: the last one loaded replaces the others *)
Theorem C96_ascii_names : forall r obs w f e cols o, In o (dkeys (waves (ascii_load r obs w f e cols))) <-> o = "" \/ In o (dkeys (waves r)).
Proof. exact ascii_names. Qed.
Print Assumptions C96_ascii_names.
Theorem C96_ascii_replaced : forall r obs w f e cols, dget "" (waves (ascii_load r obs w f e cols)) = Some w /\
  dget "" (fluxes (ascii_load r obs w f e cols)) = Some f /\ dget "" (errors (ascii_load r obs w f e cols)) = Some e.
Proof. exact ascii_replaced. Qed.
Print Assumptions C96_ascii_replaced.
Theorem C96_ascii_observations_refuted : let r := ascii_load (ascii_load no_data "a" [q 10] [q 1] [q 1] []) "b" [q 20] [q 2] [q 2] [] in
  dkeys (waves r) = [""] /\ ~ In "a" (dkeys (waves r)) /\ ~ In "b" (dkeys (waves r)) /\ dget "" (waves r) = Some [q 20].
Proof. exact ascii_two. Qed.
Print Assumptions C96_ascii_observations_refuted.
(** the smallest wavelength of the ranges of several observations is never above 3; the largest of a single range is its smallest *)
Theorem C96_range_min : forall p v, p_multi p = Full -> get_lambda_range_min p = Val v -> (v <= 3)%Q.
Proof. exact range_min_full. Qed.
Print Assumptions C96_range_min.
Theorem C96_range_max : forall p, p_multi p <> Full -> get_lambda_range_max p = get_lambda_range_min p.
Proof. exact range_max_min. Qed.
Print Assumptions C96_range_max.
(** an additional column named as the fluxes replaces them *)
Theorem C96_column_name_refuted : exists p r l, dictionaries r /\ init isort p r = Val l /\ dget "" (fluxes r) = Some [q 1; q 2] /\
  spectra l = [("", [(q 10, q 7, q 1); (q 20, q 8, q 1)])].
Proof. exact column_fluxes. Qed.
Print Assumptions C96_column_name_refuted.

(** ** Concrete cases *)
Example C96_sort_case : sorts isort.
Proof. exact isort_sorts. Qed.
Example C96_mono_case : exists l, init isort (mono [mkFilt "flag" "0&" (VInt 8); mkFilt "waves" "<" (VFloat 35)]) one = Val l /\
  spectra l = [("", [(q 10, q 1, q 1); (q 20, q 2, q 1); (q 30, None, q 1)])] /\ conversion l = "morton2000" /\ tighter l = [].
Proof. exact filtered. Qed.
Example C96_merge_case : exists l, init isort (merge2 [mkFilt "fluxes" "<" (VInt 6)]) two = Val l /\
  map (fun x => snd (fst x)) (match dget "" (spectra l) with Some s => s | None => [] end) = [q 1; q 2; q 4; q 3; q 5] /\
  ignored l = true /\ conversion l = "" /\ tighter l = ["b"].
Proof. exact merged_two. Qed.
Example C96_full_case : exists l, init isort full2 two = Val l /\ map fst (spectra l) = ["a"; "b"] /\ tighter l = ["b"].
Proof. exact full_two. Qed.
Example C96_merge_refused_case : init isort (merge2 []) close = Err (Api "UNALLOWED_DUPLICATES").
Proof. exact merge_refuses. Qed.
Example C96_merge_empty_case : init isort (mkParams Merge (Range 10 30) (Some [mkFilt "fluxes" ">" (VInt 9)]) [] "") two = Err Python.
Proof. exact merge_nothing. Qed.
Example C96_accepted_case : exists l, init isort (mono [mkFilt "flag" "~&" (VInt 8)]) one = Val l.
Proof. exact accepted_case. Qed.
Example C96_range_min_case : get_lambda_range_min full2 = Val 3%Q /\ get_lambda_range_max (mono []) = Val 10%Q.
Proof. split; reflexivity. Qed.
