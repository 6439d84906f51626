(** Properties C13 (scope stack histories), C14 (RAII guards), and the scope-name part of C15/C16. *)
From Coq Require Import String Ascii.
From Verif Require Import Base ScopeModel ScopeSpec ScopeProofs.
Open Scope string_scope.

Theorem C13_history_well_nested : forall l ops s, scope_run (scope_of l) ops = Ok s ->
  exists b, ref_run (map (fun n => (n, UNDEFINED)) l) ops b /\ shows s b /\ well_nested b.
Proof. exact scope_history_complete. Qed.
Print Assumptions C13_history_well_nested.

Theorem C13_reference_history_never_fails : forall l ops b, ref_run (map (fun n => (n, UNDEFINED)) l) ops b ->
  exists s, scope_run (scope_of l) ops = Ok s /\ shows s b /\ well_nested b.
Proof. exact scope_history. Qed.
Print Assumptions C13_reference_history_never_fails.

Theorem C13_push_accepted_iff_allowed : forall l ops s b n t, scope_run (scope_of l) ops = Ok s ->
  ref_run (map (fun n => (n, UNDEFINED)) l) ops b ->
  (may_push b t -> exists s', push_back s n t = (s', Ok tt) /\
      shows s' (b ++ [(n, t)])%list /\ well_nested (b ++ [(n, t)])%list) /\
  (~ may_push b t -> push_back s n t = (s, Throw SCOPESTACK_ERROR)).
Proof. exact scope_push. Qed.
Print Assumptions C13_push_accepted_iff_allowed.

Example C13_nonvacuous :
  let ops := [Push "galaxy" SPECTRUMMODEL; Push "m" METHOD; Push "redshiftSolver" STAGE; Push "x" STAGE;
              Push "lineModelSolve" METHOD; Push "lineModel" UNDEFINED; Pop] in
  match scope_run (scope_of []) ops with
  | Ok s => sc_names s = ["galaxy"; "redshiftSolver"; "lineModelSolve"] /\ get_current_type s = METHOD /\
            snd (push_back s "late" SPECTRUMMODEL) = Throw SCOPESTACK_ERROR /\
            GetScopedName s "p" = "galaxy.redshiftSolver.lineModelSolve.p"
  | _ => False end.
Proof. repeat split. Qed.

Theorem C14_guards_balanced : forall l ops s a p, scope_run (scope_of l) ops = Ok s ->
  ref_run (map (fun n => (n, UNDEFINED)) l) ops a ->
  exists s' r, exec p s = (s', r) /\ r <> UB /\ sc_names s' = sc_names s /\
    (forall t, has_type s' t = has_type s t) /\ (forall t, get_type_level s' t = get_type_level s t) /\
    get_current_type s' = get_current_type s.
Proof. exact raii_balanced. Qed.
Print Assumptions C14_guards_balanced.
Example C14_nonvacuous :
  exec (Guard "galaxy" SPECTRUMMODEL (Seq (Guard "redshiftSolver" STAGE (Catch (Guard "again" STAGE Done) Done))
        (Guard "bad" METHOD Done))) (scope_of ["root"]) = (scope_of ["root"], Throw SCOPESTACK_ERROR) /\
  exec (Guard "galaxy" SPECTRUMMODEL (Seq (Guard "redshiftSolver" STAGE (Guard "m" METHOD Done)) (Raise INTERNAL_ERROR)))
       (scope_of []) = (scope_of [], Throw INTERNAL_ERROR).
Proof. split; reflexivity. Qed.

(** scope names: the dotted path of the scope, then the name; different scopes give different names as long as
    no component contains a dot *)
Theorem C16_scoped_name_is_dotted_path : forall s x, Forall (fun n => n <> "") (sc_names s) ->
  GetScopedName s x = dotted (sc_names s ++ [x]).
Proof. exact scoped_name. Qed.
Print Assumptions C16_scoped_name_is_dotted_path.
Theorem C16_scoped_name_at_depth : forall s x k, Forall (fun n => n <> "") (sc_names s) ->
  GetScopedNameAt s x k = if ((0 <=? k) && (k <=? Z.of_nat (length (sc_names s))))%Z
                          then Ok (dotted (firstn (Z.to_nat k) (sc_names s) ++ [x])) else Throw INTERNAL_ERROR.
Proof. exact scoped_name_at. Qed.
Print Assumptions C16_scoped_name_at_depth.
Theorem C15_scoped_names_distinct : forall s s' x y, Forall plain (sc_names s) -> Forall plain (sc_names s') ->
  no_dot x -> no_dot y -> GetScopedName s x = GetScopedName s' y -> sc_names s = sc_names s' /\ x = y.
Proof. exact scoped_names_injective. Qed.
Print Assumptions C15_scoped_names_distinct.
(** with dots in names two different scopes can collide *)
Theorem C15_scoped_names_with_dots_refuted :
  exists s s' x, sc_names s <> sc_names s' /\ GetScopedName s x = GetScopedName s' x.
Proof. exact scoped_names_dots_collide. Qed.
Print Assumptions C15_scoped_names_with_dots_refuted.
Example C15_names_nonvacuous : Forall plain (sc_names (scope_of ["galaxy"; "redshiftSolver"])) /\ no_dot "pdf".
Proof. split; [repeat constructor; discriminate|repeat constructor; discriminate]. Qed.
