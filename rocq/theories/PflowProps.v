(** C95: the processing of one spectrum: isolation of failures, errors reported, scope restored. *)
From Coq Require Import String Ascii.
From Verif Require Import Base ScopeModel PflowModel PflowSpec PflowProofs PflowProofs2 PflowProofs3 PflowProofs4 PflowProofs5 PflowProofs6 PflowProofs7 PflowProofs8 PflowWit.
Open Scope string_scope.

(** whatever the calls do (errors, exceptions, interruptions), the scope is the one before *)
Theorem C95_scope_restored : forall c world s, st_stack (fst (run c world s)) = st_stack s.
Proof. exact scope_restored. Qed.
Print Assumptions C95_scope_restored.
Theorem C95_session_scope : forall c world n s, st_stack (session c world n s) = st_stack s.
Proof. exact session_scope. Qed.
Print Assumptions C95_session_scope.

Section Run.
Context (c : setup) (world : history -> event -> outcome).

(** an interruption ends the run: the calls, most recent first *)
Theorem C95_interruption : forall s, exists l, st_trace (fst (run c world s)) = (l ++ st_trace s)%list /\
  ((snd (run c world s) <> Exc Base /\ quiet l) \/
   (snd (run c world s) = Exc Base /\ exists e t, l = (e, Interrupted) :: t /\ quiet t) \/
   (exists k o e t, l = ((StoreFlags, k), o) :: (e, Interrupted) :: t /\ quiet t /\ snd (run c world s) <> Ret /\
      (o = Okay -> snd (run c world s) = Exc Base))).
Proof. exact (interruption c world). Qed.

Context (s0 s1 : state) (r : pyres) (calls : history).
Context (R : regular c) (U : uninterrupted world) (E0 : st_stack s0 = []) (RUN : run c world s0 = (s1, r)).

(** the calls of a run, and when it returns: each model goes through its own stages whatever the others do *)
Theorem C95_calls : exists calls, made (st_trace s0) (st_trace s1) calls /\ run_story c calls /\
  (r = Ret \/ exists a o, In (root_call a, o) calls /\ (a = StoreFlags \/ a = LoadRoot) /\ o <> Okay).
Proof. exact (run_calls c world s0 s1 r R U E0 RUN). Qed.

Context (MADE : made (st_trace s0) (st_trace s1) calls).

Notation initialised := (initialised calls).

(** a stage which was called has an error iff it failed, with its code *)
Theorem C95_errors_of_calls : forall m st a o, In m (models c) -> In st the_stages -> In (call m st a, o) calls ->
  (o = Okay -> model_error s1 m st = None) /\ (forall k, failure o k -> model_error s1 m st = Some (Failed k)).
Proof. exact (errors_of_calls c world s0 s1 r calls R U E0 RUN MADE). Qed.

(** a stage which was not called has an error iff a failed stage of the same model prevents it, and names it *)
Theorem C95_errors_without_call : forall m s st, initialised -> In m (models c) -> sections c m = Some s -> In st the_stages -> ~ called calls m st ->
  forall e, model_error s1 m st = Some e <-> exists cause, e = NotRun cause /\ blocked s calls m st cause.
Proof. exact (errors_without_call c world s0 s1 r calls R U E0 RUN MADE). Qed.

(** the errors of the whole spectrum *)
Theorem C95_root_errors : initialised ->
  root_error s1 "init" = None /\
  (forall o, In (classification_call, o) calls ->
     (o = Okay -> root_error s1 "classification" = None) /\ (forall k, failure o k -> root_error s1 "classification" = Some (Failed k))) /\
  ((forall o, ~ In (classification_call, o) calls) ->
     (solver_used c -> root_error s1 "classification" = Some (Failed "NO_CLASSIFICATION")) /\
     (~ solver_used c -> root_error s1 "classification" = None)) /\
  (exists o, In (load_call, o) calls /\
     (o = Okay -> root_error s1 "load_result_store" = None) /\ (forall k, failure o k -> root_error s1 "load_result_store" = Some (Failed k))).
Proof. exact (root_errors c world s0 s1 r calls R U E0 RUN MADE). Qed.

(** a failed initialisation is reported for all the requested stages of all the models *)
Theorem C95_init_errors : forall o, In (root_call Initialise, o) calls -> o <> Okay -> In (root_call StoreFlags, Okay) calls ->
  (forall k, failure o k -> root_error s1 "init" = Some (Failed k)) /\
  root_error s1 "classification" = None /\ root_error s1 "load_result_store" = None /\
  forall m s st, In m (models c) -> sections c m = Some s -> In st the_stages ->
    forall e, model_error s1 m st = Some e <-> e = NotRun "init" /\ requested_at_init s st.
Proof. exact (init_errors c world s0 s1 r calls R U E0 RUN MADE). Qed.

End Run.
Print Assumptions C95_interruption.
Print Assumptions C95_calls.
Print Assumptions C95_errors_of_calls.
Print Assumptions C95_errors_without_call.
Print Assumptions C95_root_errors.
Print Assumptions C95_init_errors.

(** ** what does not hold *)
(** every redshift solver failed, and the classification is run: a model without redshift solver counts as a success *)
Theorem C95_classification_refuted : exists c world s1 r calls, regular c /\ uninterrupted world /\
  run c world empty_state = (s1, r) /\ made [] (st_trace s1) calls /\ solver_used c /\
  (forall m s z, In m (models c) -> sections c m = Some s -> solver_of s z -> failed calls m "redshiftSolver") /\
  In (classification_call, Okay) calls /\ root_error s1 "classification" = None.
Proof. exact (classified_anyway). Qed.
Print Assumptions C95_classification_refuted.

(** nothing failed; a requested line measurement and a requested reliability are neither run nor reported *)
Theorem C95_silent_skip_refuted : exists c world s1 calls m s, regular c /\ uninterrupted world /\
  run c world empty_state = (s1, Ret) /\ made [] (st_trace s1) calls /\ In m (models c) /\ sections c m = Some s /\
  (exists l, linemeas_of s l) /\ rel_listed s = true /\
  ~ called calls m "lineMeasSolver" /\ ~ called calls m "reliabilitySolver" /\ st_errors s1 = [].
Proof. exact (silently_skipped). Qed.
Print Assumptions C95_silent_skip_refuted.

(** after a failed initialisation, the loading of the line measurement parameters is reported for the model which does not load them, not for the one which does *)
Theorem C95_load_stage_init_refuted : exists c world s1 r calls, regular c /\ uninterrupted world /\
  run c world empty_state = (s1, r) /\ made [] (st_trace s1) calls /\
  In "galaxy" (models c) /\ In "qso" (models c) /\
  called (calls_of c all_fine) "galaxy" "linemeas_catalog_load" /\ ~ called (calls_of c all_fine) "qso" "linemeas_catalog_load" /\
  model_error s1 "galaxy" "linemeas_catalog_load" = None /\ model_error s1 "qso" "linemeas_catalog_load" = Some (NotRun "init").
Proof. exact (load_stage_reported). Qed.
Print Assumptions C95_load_stage_init_refuted.

(** nor is it reported when the redshift solver fails *)
Theorem C95_load_stage_refuted : exists c world s1 r, regular c /\ uninterrupted world /\
  run c world empty_state = (s1, r) /\ called (calls_of c all_fine) "galaxy" "linemeas_catalog_load" /\
  ~ called (calls_of c world) "galaxy" "linemeas_catalog_load" /\ model_error s1 "galaxy" "linemeas_catalog_load" = None.
Proof. exact (load_not_reported). Qed.
Print Assumptions C95_load_stage_refuted.

(** a spectrum model named classification makes every run raise *)
Theorem C95_reserved_name_refuted : exists c, models c = ["classification"] /\ sections c "classification" = Some star /\
  exists e, snd (run c all_fine empty_state) = Exc e.
Proof. exact (reserved_name). Qed.
Print Assumptions C95_reserved_name_refuted.

(** ** non-vacuity *)
Example C95_nonvacuous : regular three /\ uninterrupted all_fine /\ uninterrupted (failing "galaxy" "redshiftSolver" "INTERNAL_ERROR") /\
  snd (run three all_fine empty_state) = Ret /\ st_stack empty_state = [] /\
  initialised (calls_of three (failing "galaxy" "redshiftSolver" "INTERNAL_ERROR")) /\
  model_error (fst (run three (failing "galaxy" "redshiftSolver" "INTERNAL_ERROR") empty_state)) "galaxy" "lineMeasSolver" = Some (NotRun "redshiftSolver").
Proof.
  split; [exact three_regular|]. split; [exact fine_uninterrupted|]. split; [apply failing_uninterrupted|].
  split; [vm_compute; reflexivity|]. split; [reflexivity|]. split; [rewrite ex_isolated; unfold initialised; cbn; tauto|vm_compute; reflexivity].
Qed.
