(** Vocabulary for C95: the stages of the processing of a spectrum, their calls and their errors. *)
From Coq Require Import String.
From Verif Require Import Base ScopeModel PflowModel.
Open Scope string_scope.

(** ** What the user asks for one spectrum model *)
(** the redshift solver, the line measurement method *)
Definition solver_of (s : section) (z : string) : Prop := z_method s = Some z /\ z <> "".
Definition linemeas_of (s : section) (l : string) : Prop := lm_listed s = true /\ lm_method s = Some l /\ l <> "".
(** the template ratio catalogue, whose best template gives the sub-class *)
Definition needs_subtype (s : section) : Prop :=
  z_method s = Some "lineModelSolve" /\ (ratio_type s = Some "tplRatio" \/ ratio_type s = Some "tplCorr").

Definition the_methods : list string := ["lineMeasSolve"; "lineModelSolve"; "templateFittingSolve"; "tplCombinationSolve"].
(** Parameters the checker accepts: distinct names (neither empty nor "classification"), each with its
    section, and methods that exist. *)
Record regular (c : setup) : Prop := {
  reg_distinct : NoDup (models c);
  reg_names : forall m, In m (models c) -> m <> "" /\ m <> "classification";
  reg_sections : forall m, In m (models c) -> exists s, sections c m = Some s;
  reg_solver : forall m s z, In m (models c) -> sections c m = Some s -> solver_of s z -> In z the_methods;
  reg_linemeas : forall m s l, In m (models c) -> sections c m = Some s -> linemeas_of s l -> In l the_methods }.

(** ** Calls *)
Definition call (m st : string) (a : action) : event := (a, [(m, SPECTRUMMODEL); (st, STAGE)]).
(** the calls made by a run which started with the history [h0] and ended with [h1], first call first *)
Definition made (h0 h1 : history) (calls : history) : Prop := h1 = (rev calls ++ h0)%list.
Definition succeeded (l : history) : Prop := exists e, l = [(e, Okay)].
(** at most one call, made iff some event satisfies the condition, whatever its outcome *)
Definition part (l : history) (P : event -> Prop) : Prop :=
  (exists e o, P e /\ l = [(e, o)]) \/ ((forall e, ~ P e) /\ l = []).

(** the calls for one spectrum model, in order: redshift solver, sub-class, reliability, loading of the
    redshift and velocities for the line measurement, line measurement *)
Definition story (c : setup) (m : string) (s : section) (l : history) : Prop :=
  exists zs sb rl ld lm, l = (zs ++ sb ++ rl ++ ld ++ lm)%list /\
  part zs (fun e => exists z, solver_of s z /\ e = call m "redshiftSolver" (Compute z)) /\
  part sb (fun e => succeeded zs /\ needs_subtype s /\ e = call m "subClassifSolver" SubTypes) /\
  part rl (fun e => succeeded zs /\ rel_listed s = true /\ In m (rel_models c) /\
                    e = call m "reliabilitySolver" Reliability) /\
  part ld (fun e => succeeded zs /\ (exists n, linemeas_of s n) /\ ~ In m (lm_catalog c) /\
                    e = call m "linemeas_catalog_load" LoadLinemeas) /\
  part lm (fun e => exists n, linemeas_of s n /\
                    (succeeded ld \/ ((forall z, ~ solver_of s z) /\ In m (lm_catalog c))) /\
                    e = call m "lineMeasSolver" (Compute n)).

(** ** Errors *)
Definition the_stages : list string :=
  ["redshiftSolver"; "linemeas_catalog_load"; "lineMeasSolver"; "reliabilitySolver"; "subClassifSolver"].
(** the error of a stage of a model, of a stage of the whole spectrum *)
Definition model_error (s : state) (m st : string) : option error := find_error (st ++ "_" ++ m) (st_errors s).
Definition root_error (s : state) (st : string) : option error := find_error st (st_errors s).
(** the code recorded for a failed call *)
Definition failure (o : outcome) (code : string) : Prop :=
  o = AmzError code \/ (o = OtherError /\ code = "PYTHON_API_ERROR").
Definition called (l : history) (m st : string) : Prop := exists a o, In (call m st a, o) l.
Definition failed (l : history) (m st : string) : Prop := exists a o, In (call m st a, o) l /\ o <> Okay.
(** a stage the model asks for *)
Definition requested (s : section) (st : string) : Prop :=
  (st = "redshiftSolver" /\ (exists z, solver_of s z)) \/
  (st = "lineMeasSolver" /\ lm_listed s = true /\ lm_method s <> None) \/
  (st = "reliabilitySolver" /\ rel_listed s = true) \/
  (st = "subClassifSolver" /\ needs_subtype s).
(** the failed stage which prevents a requested one *)
Definition blocked (s : section) (l : history) (m st cause : string) : Prop :=
  failed l m cause /\ requested s st /\
  ((cause = "redshiftSolver" /\ st <> "redshiftSolver") \/ (cause = "linemeas_catalog_load" /\ st = "lineMeasSolver")).

(** ** Outcomes *)
(** no KeyboardInterrupt nor SystemExit *)
Definition uninterrupted (world : history -> event -> outcome) : Prop := forall h e, world h e <> Interrupted.

(** ** A whole run *)
Definition root_call (a : action) : event := (a, []).
Definition classification_call : event :=
  (Compute "classificationSolve", [("classification", SPECTRUMMODEL); ("classification", STAGE)]).
Definition load_call : event := (LoadAll, [("load_result_store", STAGE)]).
(** some model has a redshift solver, and the redshift solver of some model has not failed *)
Definition solver_used (c : setup) : Prop :=
  exists m s z, In m (models c) /\ sections c m = Some s /\ solver_of s z.
Definition classifiable (c : setup) (l : history) : Prop := exists m, In m (models c) /\ ~ failed l m "redshiftSolver".

(** the calls of a run, in order: either the flags cannot be stored, or the initialisation fails and only the
    root results are loaded, or the models are processed one after the other, then classified, and all the
    results are loaded *)
Inductive run_story (c : setup) : history -> Prop :=
| flags_fail oi ofl : ofl <> Okay -> run_story c [(root_call Initialise, oi); (root_call StoreFlags, ofl)]
| init_fail oi ol : oi <> Okay ->
    run_story c [(root_call Initialise, oi); (root_call StoreFlags, Okay); (root_call LoadRoot, ol)]
| full stories cl ol :
    Forall2 (fun m l => exists s, sections c m = Some s /\ story c m s l) (models c) stories ->
    part cl (fun e => solver_used c /\ classifiable c (concat stories) /\ e = classification_call) ->
    run_story c ([(root_call Initialise, Okay); (root_call StoreFlags, Okay)] ++
                 concat stories ++ cl ++ [(load_call, ol)])%list.

(** the requested stages, as seen when the initialisation fails *)
Definition requested_at_init (s : section) (st : string) : Prop :=
  requested s st \/
  (st = "linemeas_catalog_load" /\ lm_listed s = true /\ lm_method s <> None /\ forall z, ~ solver_of s z).
