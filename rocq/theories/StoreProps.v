(** Properties C15 (result store) and C16 (parameter store). *)
From Coq Require Import String Ascii.
From Verif Require Import Base ScopeModel ScopeSpec ScopeProofs StoreModel StoreSpec StoreProofs.
Open Scope string_scope.

Theorem C15_lookup_returns_first_store : forall (R : Type) (ops : list (store_op R)),
  (forall key, GetGlobalResult (store_run ops) key =
     match first_global (after_reset ops) key with Some r => Ok r | None => Throw UNKNOWN_ATTRIBUTE end) /\
  (forall t key, GetPerTemplateResult (store_run ops) t key =
     match first_template (after_reset ops) t key with Some r => Ok r | None => Throw INTERNAL_ERROR end).
Proof. exact (@store_history). Qed.
Print Assumptions C15_lookup_returns_first_store.

Theorem C15_global_store_rejected_iff_taken : forall (R : Type) (ops : list (store_op R)) p n (r : R),
  snd (StoreGlobalResult (store_run ops) p n r) =
    match first_global (after_reset ops) (full_name p n) with None => Ok tt | Some _ => Throw INTERNAL_ERROR end.
Proof. exact (@store_outcome). Qed.
Print Assumptions C15_global_store_rejected_iff_taken.

Theorem C15_template_store_rejected_iff_taken : forall (R : Type) (ops : list (store_op R)) t p n (r : R),
  snd (StorePerTemplateResult (store_run ops) t p n r) =
    match first_template (after_reset ops) t (full_name p n) with None => Ok tt | Some _ => Throw INTERNAL_ERROR end.
Proof. exact (@store_tpl_outcome). Qed.
Print Assumptions C15_template_store_rejected_iff_taken.

(** The map over the templates has one entry per template having that result, the first stored. *)
Theorem C15_map_over_templates : forall (R : Type) (ops : list (store_op R)) name,
  NoDup (map fst (GetPerTemplateResultMap (store_run ops) name)) /\
  forall t, mfind (GetPerTemplateResultMap (store_run ops) name) t = first_template (after_reset ops) t name.
Proof. exact (@template_map). Qed.
Print Assumptions C15_map_over_templates.

(** A result stored in scope model/stage/method is the one retrieved by those three names; no other global key changes. *)
Theorem C15_stored_in_scope_retrieved_by_names : forall (R : Type) (ops : list (store_op R)) sc sm st me n (r : R),
  sc_names sc = [sm; st; me] -> sm <> "" -> st <> "" -> me <> "" ->
  first_global (after_reset ops) (dotted [sm; st; me; n]) = None ->
  exists s', StoreScopedGlobalResult sc (store_run ops) n r = (s', Ok tt) /\
    GetGlobalResult4 s' sm st me n = Ok r /\ GetScopedGlobalResult sc s' n = Ok r /\ HasDataset s' sm st me n = true /\
    forall key, key <> dotted [sm; st; me; n] -> GetGlobalResult s' key = GetGlobalResult (store_run ops) key.
Proof. exact (@store_then_retrieve). Qed.
Print Assumptions C15_stored_in_scope_retrieved_by_names.

Example C15_nonvacuous :
  let ops := [SGlobal "a" "x" 0%nat; SReset; SGlobal "g.s.m" "pdf" 1%nat; STemplate "T" "g" "pdf" 2%nat; SGlobal "g.s.m" "pdf" 3%nat;
              STemplate "T" "g" "pdf" 4%nat; STemplate "U" "g" "pdf" 5%nat] in
  GetGlobalResult (store_run ops) "g.s.m.pdf" = Ok 1%nat /\ GetGlobalResult (store_run ops) "a.x" = Throw UNKNOWN_ATTRIBUTE /\
  GetPerTemplateResult (store_run ops) "T" "g.pdf" = Ok 2%nat /\ GetPerTemplateResult (store_run ops) "U" "g.pdf" = Ok 5%nat /\
  first_global (after_reset ops) (dotted ["g"; "s"; "m"; "solveResult"]) = None /\
  GetPerTemplateResultMap (store_run ops) "g.pdf" = [("T", 2%nat); ("U", 5%nat)].
Proof. repeat split. Qed.

Theorem C16_scoped_read : forall (T : Type) (conv : string -> option T) sc t x, Forall plain (sc_names sc) -> plain x ->
  GetScoped conv sc t x = match value_at t (sc_names sc ++ [x])%list with
                    | Some s => match conv s with Some v => Ok v | None => Throw MISSING_PARAMETER end
                    | None => Throw MISSING_PARAMETER end.
Proof. exact (@GetScoped_spec). Qed.
Print Assumptions C16_scoped_read.

Theorem C16_scoped_list_falls_back : forall (T : Type) (conv : string -> option T) sc t x, Forall plain (sc_names sc) -> plain x ->
  GetListScoped conv sc t x =
    match pwalk t (sc_names sc ++ [x])%list with
    | Some c => list_items conv (pchildren c)
    | None => match pwalk t [x] with Some c => list_items conv (pchildren c) | None => Throw MISSING_PARAMETER end
    end.
Proof. exact (@GetListScoped_spec). Qed.
Print Assumptions C16_scoped_list_falls_back.

Theorem C16_set_then_get : forall name v t q,
  value_at (Set_scalar name v t) (path_of name) = Some v /\
  (q <> path_of name -> forall s, value_at t q = Some s -> value_at (Set_scalar name v t) q = Some s) /\
  (q <> path_of name -> ~ proper_prefix q (path_of name) -> value_at t q = None -> value_at (Set_scalar name v t) q = None).
Proof. exact set_get_frame. Qed.
Print Assumptions C16_set_then_get.

Theorem C16_set_list_then_get : forall (T : Type) (conv : string -> option T) name l xs t,
  Forall2 (fun s x => conv s = Some x) l xs -> GetList conv (Set_list name l t) name = Ok xs.
Proof. exact (@set_list_get). Qed.
Print Assumptions C16_set_list_then_get.

Theorem C16_ism_query : forall t sm, plain sm ->
  (forall m p, method_is t sm m -> In p (ism_paths sm m) -> flag_well_formed t p) ->
  exists b, HasTplIsmExtinction t sm = Ok b /\
   (b = true <-> exists m p, method_is t sm m /\ In p (ism_paths sm m) /\ flag_true t p).
Proof. exact ism_spec. Qed.
Print Assumptions C16_ism_query.

Theorem C16_igm_query : forall t sm, plain sm ->
  (forall m, method_is t sm m -> known_method m /\ flag_well_formed t (igm_path sm m)) ->
  exists b, HasTplIgmExtinction t sm = Ok b /\ (b = true <-> exists m, method_is t sm m /\ flag_true t (igm_path sm m)).
Proof. exact igm_spec. Qed.
Print Assumptions C16_igm_query.

(** For a method other than the three known ones the ISM query answers false but the IGM query throws. *)
Theorem C16_igm_query_total_refuted : exists t sm, plain sm /\
  HasTplIgmExtinction t sm = Throw MISSING_PARAMETER /\ HasTplIsmExtinction t sm = Ok false.
Proof. exact igm_unknown_method_throws. Qed.
Print Assumptions C16_igm_query_total_refuted.

Theorem C16_fft_query : forall t sm, plain sm -> (forall m, method_is t sm m -> flag_well_formed t (fft_path sm m)) ->
  exists b, HasFFTProcessing t sm = Ok b /\
    (b = true <-> exists m, method_is t sm m /\ (m = "templateFittingSolve" \/ m = "lineModelSolve") /\ flag_true t (fft_path sm m)).
Proof. exact fft_spec. Qed.
Print Assumptions C16_fft_query.

Theorem C16_log_rebin_query : forall t cats fft use r, hasToLogRebin t cats fft use = Ok r ->
  (fst r = true <-> use = true \/ exists c, In c cats /\ HasFFTProcessing t c = Ok true) /\
  (forall c, In c cats -> exists b, HasFFTProcessing t c = Ok b /\ mfind (snd r) c = Some b) /\
  (forall c, ~ In c cats -> mfind (snd r) c = mfind fft c).
Proof. exact log_rebin_spec. Qed.
Print Assumptions C16_log_rebin_query.

Theorem C16_min_fft_step : forall conv t fft acc r, getMinZStep conv t fft acc = Ok r ->
  (forall c, In (c, true) fft -> exists s, Get conv t (c ++ ".redshiftStep") = Ok s /\ exists m, r = Some m /\ (m <= s)%Q) /\
  (forall a, acc = Some a -> exists m, r = Some m /\ (m <= a)%Q) /\
  (forall m, r = Some m -> acc = Some m \/ exists c, In (c, true) fft /\ Get conv t (c ++ ".redshiftStep") = Ok m).
Proof. exact min_zstep_spec. Qed.
Print Assumptions C16_min_fft_step.

Theorem C16_orthogonalisation_query : forall t sm b, plain sm -> HasToOrthogonalizeTemplates t sm = Ok b ->
  (b = true <-> method_is t sm "lineModelSolve" /\
     exists c, value_at t [sm; "redshiftSolver"; "lineModelSolve"; "lineModel"; "continuumComponent"] = Some c /\
       (c = "tplFit" \/ c = "tplFitAuto")).
Proof. exact ortho_spec. Qed.
Print Assumptions C16_orthogonalisation_query.

Definition demo_tree : ptree :=
  Set_scalar "galaxy.redshiftSolver.method" "lineModelSolve"
  (Set_scalar "galaxy.redshiftSolver.lineModelSolve.lineModel.tplRatioIsmFit" "true"
  (Set_scalar "galaxy.redshiftSolver.lineModelSolve.lineModel.continuumFit.fftProcessing" "true"
  (Set_scalar "galaxy.redshiftSolver.lineModelSolve.lineModel.continuumComponent" "tplFit"
  (Set_list "lambdaRange" ["3000"; "12000"] (PNode "" []))))).
Example C16_nonvacuous :
  HasTplIsmExtinction demo_tree "galaxy" = Ok true /\ HasTplIgmExtinction demo_tree "galaxy" = Ok false /\
  HasFFTProcessing demo_tree "galaxy" = Ok true /\ HasToOrthogonalizeTemplates demo_tree "galaxy" = Ok true /\
  hasToLogRebin demo_tree ["star"; "galaxy"] [] false = Ok (true, [("star", false); ("galaxy", true)]) /\
  GetScoped conv_string (scope_of ["galaxy"; "redshiftSolver"]) demo_tree "method" = Ok "lineModelSolve" /\
  GetListScoped conv_string (scope_of ["galaxy"]) demo_tree "lambdaRange" = Ok ["3000"; "12000"].
Proof. repeat split. Qed.
