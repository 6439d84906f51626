(** C97: the conversion of the parameters to the names read by the library. *)
From Coq Require Import String.
From Verif Require Import Base RdrModel CvtModel CvtNames CvtSpec CvtProofs CvtProofs3 CvtProofs4 CvtProofs5.
Open Scope string_scope.

(** the names of the table are renamed as the table says, in one step; the new names and the other names are kept *)
Theorem C97_table : (forall o n, In (o, n) renaming -> rename_str o = n /\ rename_str n = n) /\ forall s, ~ In s (map fst renaming) -> rename_str s = s.
Proof. exact (conj (fun o n I => conj (renamed_row o n I) (renamed_new o n I)) renamed_other). Qed.
Print Assumptions C97_table.
(** two old names are never merged: a merge needs a name which is already a new one *)
Theorem C97_no_merge : forall s t, rename_str s = rename_str t -> s = t \/ In s (map snd renaming) \/ In t (map snd renaming).
Proof. exact renamed_distinct. Qed.
Print Assumptions C97_no_merge.
(** the tree keeps its shape, its order and its values; only names change *)
Theorem C97_tree : forall j, distinct rename_str j -> renamed rename_str j (rename rename_str j).
Proof. exact (rename_tree rename_str). Qed.
Print Assumptions C97_tree.
(** version 1: when it is accepted, each model asks in the new vocabulary what it asked in the old one, and the rest of the tree is the renamed one;
    it is accepted exactly when every stage asked for has its section *)
Theorem C97_v1 : forall raw q ms, distinct rename_str (JObj raw) -> renamed rename_str (JObj raw) (JObj q) ->
  dget "spectrumModels" q = Some (JArr (map JStr ms)) -> NoDup ms -> (forall m, In m ms -> exists d, dget m q = Some (JObj d) /\ section_v1 d) ->
  (forall p, convert_v1 raw = Val p ->
    (forall m d, In m ms -> dget m q = Some (JObj d) -> exists d', dget m p = Some (JObj d') /\ same_meaning d d') /\
    (forall k, ~ In k ms -> dget k p = dget k q)) /\
  ((exists p, convert_v1 raw = Val p) <-> (forall m d, In m ms -> dget m q = Some (JObj d) -> complete d)).
Proof. exact v1_converted. Qed.
Print Assumptions C97_v1.
(** the sections accepted by the schema of version 1 have none of the names of the new sections, and their names are not merged *)
Theorem C97_v1_sections : forall d d', only objects_v1 (JObj d) -> renamed rename_str (JObj d) (JObj d') -> section_v1 d'.
Proof. exact v1_sections. Qed.
Print Assumptions C97_v1_sections.
Theorem C97_v1_sections_distinct : forall s t, In s objects_v1 -> In t objects_v1 -> rename_str s = rename_str t -> s = t.
Proof. exact v1_sections_distinct. Qed.
Print Assumptions C97_v1_sections_distinct.
(** the names read are the converted ones of the names accepted in version 1 *)
Theorem C97_v1_names : (forall n, In n ["lineMeasDzHalf"; "lineMeasRedshiftStep"; "redshiftRange"; "redshiftStep"; "redshiftSampling"; "templateDir"; "method"; "linemeas_method"; "lineMeasSolve"; "enable_reliability"; "reliabilityModel"; "lineModelSolve"; "templateFittingSolve"; "tplCombinationSolve"] ->
    exists s, In s objects_v1 /\ rename_str s = n) /\
  (exists s, In s lsf_v1 /\ rename_str s = "gaussianVariableWidthFileName") /\ (exists s, In s priors_v1 /\ rename_str s = "catalogDirPath").
Proof. exact v1_names. Qed.
Print Assumptions C97_v1_names.
(** every name read by the library and at the root is the converted one of a name accepted by the schemas of version 1 *)
Theorem C97_v1_all_names : forall n, In n (read_cpp ++ read_root) -> exists s, In s schema_v1 /\ rename_str s = n.
Proof. exact all_names_v1. Qed.
Print Assumptions C97_v1_all_names.
(** version 2: without collision the entries are the ones of the client, all of them, the mark removed from their names *)
Theorem C97_v2 : forall raw, NoDup (dkeys raw) -> no_collision raw -> forall x v, dget x (convert_v2 raw) = Some v <-> exists k, In (k, v) raw /\ x = final k.
Proof. exact v2_keeps. Qed.
Print Assumptions C97_v2.
Theorem C97_v2_section : forall m, contains mark m = false -> new_key (mark ++ m) = m.
Proof. exact name_of_section. Qed.
Print Assumptions C97_v2_section.
(** nothing is invented: every value found was given, under this name or in a marked section *)
Theorem C97_v2_from : forall raw x v, dget x (convert_v2 raw) = Some v -> exists k, In (k, v) raw /\ (k = x \/ contains mark k = true).
Proof. exact v2_from. Qed.
Print Assumptions C97_v2_from.

(** *** refuted *)
(** the conversion of version 1 only changes names of parameters: it changes strings of the client as well *)
Theorem C97_v1_strings_refuted : exists raw p, convert_v1 raw = Val p /\ dget "additional_cols" raw = Some (JArr [JStr "weight_map"; JStr "linemodel"]) /\
  dget "additionalCols" p = Some (JArr [JStr "weight_map"; JStr "lineModel"]).
Proof. exact v1_user_strings. Qed.
Print Assumptions C97_v1_strings_refuted.
(** the stages asked for in accepted parameters of version 2 are run: the measurement of the lines has never a method, and its parameters are not read *)
Theorem C97_v2_linemeas_refuted : exists raw m s, accepted_v2 raw /\ get_stages (convert_v2 raw) m = s /\ In (JStr "lineMeasSolver") s /\ get_linemeas_method (convert_v2 raw) m = None.
Proof. exact v2_linemeas_never. Qed.
Print Assumptions C97_v2_linemeas_refuted.
Theorem C97_v2_linemeas_never : forall raw m, accepted_v2 raw -> ~ In m general_v2 ->
  get_linemeas_method (convert_v2 raw) m = None /\ get_linemeas_dzhalf (convert_v2 raw) m = None /\ get_linemeas_redshiftstep (convert_v2 raw) m = None.
Proof. exact v2_linemeas. Qed.
Print Assumptions C97_v2_linemeas_never.
(** the file of the widths is never read in accepted parameters of version 2 *)
Theorem C97_v2_lsf_refuted : forall raw, accepted_v2 raw -> get_lsf_width_file_name (convert_v2 raw) = None.
Proof. exact v2_lsf. Qed.
Print Assumptions C97_v2_lsf_refuted.
(** every name read is accepted by the schemas of version 2: all but six *)
Theorem C97_v2_all_names_refuted : forall n, In n (read_cpp ++ read_root) ->
  (~ In n schema_v2 <-> In n ["airVacuumMethod"; "catalogDirPath"; "switchFixedToFit"; "switchFitToFixed"; "hAlphaPrior"; "nOfZPriorStrength"]).
Proof. exact all_names_v2. Qed.
Print Assumptions C97_v2_all_names_refuted.
(** the directory of the priors is never found in accepted parameters of version 2 *)
Theorem C97_v2_priors_refuted : forall j, only priors_v2 j -> field "catalogDirPath" j = None.
Proof. exact v2_priors. Qed.
Print Assumptions C97_v2_priors_refuted.
(** no profile of Lyman alpha is accepted in version 2: the schema requires names which it does not accept *)
Theorem C97_v2_asym_refuted : ~ exists j, requires asym_required_v2 j /\ only asym_v2 j.
Proof. exact v2_asym. Qed.
Print Assumptions C97_v2_asym_refuted.
(** a marked section replaces a general parameter of the same name, in accepted parameters *)
Theorem C97_v2_collision_refuted : exists raw, accepted_v2 raw /\ dget "lambdaRange" raw = Some (JArr [JNum 1; JNum 2]) /\ dget "lambdaRange" (convert_v2 raw) = Some (JObj []).
Proof. exact v2_collision. Qed.
Print Assumptions C97_v2_collision_refuted.

(** *** the hypotheses are met *)
Example C97_ex_v1 : distinct rename_str (JObj ex_v1) /\ renamed rename_str (JObj ex_v1) (JObj ex_renamed) /\
  dget "spectrumModels" ex_renamed = Some (JArr (map JStr ["galaxy"; "star"])) /\ NoDup ["galaxy"; "star"] /\
  (forall m, In m ["galaxy"; "star"] -> exists d, dget m ex_renamed = Some (JObj d) /\ section_v1 d) /\
  exists d, dget "galaxy" ex_renamed = Some (JObj d) /\ asks_redshift d "lineModelSolve" /\ asks_linemeas d /\ asks_reliability d.
Proof. exact (conj ex_distinct (conj ex_rename ex_hyps)). Qed.
Example C97_ex_v1_stages : exists p, convert_v1 ex_v1 = Val p /\ get_stages p "galaxy" = map JStr ["redshiftSolver"; "lineMeasSolver"; "reliabilitySolver"] /\
  get_stages p "star" = [JStr "redshiftSolver"] /\ get_linemeas_method p "galaxy" = Some (JStr "lineMeasSolve") /\ get_linemeas_dzhalf p "galaxy" = Some (JNum 2) /\
  get_redshift_solver_method p "star" = Some (JStr "templateFittingSolve").
Proof. exact ex_stages. Qed.
Example C97_ex_v2 : accepted_v2 ex_v2 /\ no_collision ex_v2.
Proof. exact ex_v2_accepted. Qed.
Example C97_ex_v2_stages : get_stages (convert_v2 ex_v2) "galaxy" = [JStr "redshiftSolver"; JStr "lineMeasSolver"] /\ get_linemeas_method (convert_v2 ex_v2) "galaxy" = None /\ ~ In "galaxy" general_v2.
Proof. exact ex_v2_stages. Qed.
