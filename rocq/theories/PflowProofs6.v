From Coq Require Import String Ascii.
From Verif Require Import Base ScopeModel PflowModel PflowSpec PflowProofs PflowProofs2 PflowProofs3 PflowProofs4 PflowProofs5.
Open Scope string_scope.

Definition the_calls_ok (l : history) : Prop :=
  exists o ofl, In (root_call Initialise, o) l /\ In (root_call StoreFlags, ofl) l /\ o = Okay /\ ofl = Okay.

Section Run.
Variables (c : setup) (world : history -> event -> outcome).
Hypothesis U : uninterrupted world.
Hypothesis R : regular c.

Definition classif (l : history) (cl : history) (ce : list (string * error)) : Prop :=
  (~ solver_used c /\ cl = [] /\ ce = []) \/
  (solver_used c /\ ~ classifiable c l /\ cl = [] /\ ce = [("classification", Failed "NO_CLASSIFICATION")]) \/
  (solver_used c /\ classifiable c l /\ exists o, o <> Interrupted /\ cl = [(classification_call, o)] /\ ce = root_effect "classification" o).

Inductive shape (s0 : state) : state -> pyres -> history -> Prop :=
| sh_flags oi ofl e er : ofl <> Okay ->
    shape s0 (mkState [] er ((root_call StoreFlags, ofl) :: (root_call Initialise, oi) :: st_trace s0)) (Exc e)
      [(root_call Initialise, oi); (root_call StoreFlags, ofl)]
| sh_init oi ol r : oi <> Okay -> oi <> Interrupted -> (r <> Ret -> ol <> Okay) ->
    shape s0 (mkState [] (init_effect c (models c) ++ [("init", Failed (code_of oi))])%list
                ((root_call LoadRoot, ol) :: (root_call StoreFlags, Okay) :: (root_call Initialise, oi) :: st_trace s0)) r
      [(root_call Initialise, oi); (root_call StoreFlags, Okay); (root_call LoadRoot, ol)]
| sh_full ps cl ce ol : map (fun p => fst (fst p)) ps = models c -> Forall (good c) ps -> classif (item_calls ps) cl ce ->
    ol <> Interrupted ->
    shape s0 (mkState [] (root_effect "load_result_store" ol ++ ce ++ item_errors ps ++ [])%list
       ((load_call, ol) :: rev cl ++ rev (item_calls ps) ++ (root_call StoreFlags, Okay) :: (root_call Initialise, Okay) :: st_trace s0)%list) Ret
      ([(root_call Initialise, Okay); (root_call StoreFlags, Okay)] ++ item_calls ps ++ cl ++ [(load_call, ol)])%list.

Lemma failed_calls_all ps : map (fun p => fst (fst p)) ps = models c -> Forall (good c) ps -> forall st tr,
  (all_redshift_solver_failed c (mkState st (item_errors ps ++ [])%list tr) = true <-> ~ classifiable c (item_calls ps)).
Proof.
  intros MP G st tr. unfold all_redshift_solver_failed. rewrite forallb_forall. unfold classifiable.
  pose proof (redshift_error c R ps MP G) as H. unfold has_error in H. cbn [st_errors] in H.
  split.
  - intros A (m & IM & NF). apply NF. apply (H m IM). exact (A m IM).
  - intros A m IM. apply (H m IM). destruct (find_error (full_name (Some m) (Some "redshiftSolver")) (item_errors ps ++ [])) eqn:F.
    + apply (H m IM). rewrite F. reflexivity.
    + exfalso. apply A. exists m. split; [exact IM|]. intro F'. apply (H m IM) in F'. rewrite F in F'. discriminate.
Qed.

Lemma run_shape s0 : st_stack s0 = [] -> exists s1 r calls, run c world s0 = (s1, r) /\ shape s0 s1 r calls.
Proof.
  intro K. unfold run, exception_decorator, set_errors. cbv beta zeta. rewrite K. unfold flags_handler.
  rewrite (initialize_eq c world U R). cbv zeta. set (oi := world (st_trace s0) (root_call Initialise)).
  assert (OI : oi <> Interrupted) by apply U. clearbody oi. unfold act at 1. cbn [st_stack st_errors st_trace]. 
  change (StoreFlags, []) with (root_call StoreFlags). set (ofl := world _ (root_call StoreFlags)).
  assert (OF : ofl <> Interrupted) by apply U. clearbody ofl.
  destruct (okay_dec ofl) as [->|NF].
  - cbn [as_exn]. destruct (okay_dec oi) as [->|NI].
    + destruct (models_run c world U R (models c) (fun m H => H) [] ((root_call StoreFlags, Okay) :: (root_call Initialise, Okay) :: st_trace s0))
        as (ps & MP & G & RUN).
      unfold seq at 1.
      match goal with |- context [process_models c world (models c) ?x] =>
        change x with (mkState [] [] ((root_call StoreFlags, Okay) :: (root_call Initialise, Okay) :: st_trace s0)) end.
      rewrite RUN. unfold seq.
      assert (CL : exists cl ce, classif (item_calls ps) cl ce /\
        when (is_a_redshift_solver_used c) (run_classification_solver c world)
          (mkState [] (item_errors ps ++ [])%list (rev (item_calls ps) ++ (root_call StoreFlags, Okay) :: (root_call Initialise, Okay) :: st_trace s0)%list) =
        (mkState [] (ce ++ item_errors ps ++ [])%list (rev cl ++ rev (item_calls ps) ++ (root_call StoreFlags, Okay) :: (root_call Initialise, Okay) :: st_trace s0)%list, Ret)).
      { pose proof (used_spec c R) as US. destruct (is_a_redshift_solver_used c); cbn [when].
        - rewrite (classification_eq c world U). pose proof (failed_calls_all ps MP G [] (rev (item_calls ps) ++ (root_call StoreFlags, Okay) :: (root_call Initialise, Okay) :: st_trace s0)%list) as FA.
          destruct (all_redshift_solver_failed c _).
          + exists [], [("classification", Failed "NO_CLASSIFICATION")]. split; [|reflexivity]. right; left.
            split; [apply US; reflexivity|]. split; [apply FA; reflexivity|auto].
          + set (o := world _ classification_call). assert (OO : o <> Interrupted) by apply U. clearbody o.
            exists [(classification_call, o)], (root_effect "classification" o). split; [|reflexivity]. right; right.
            split; [apply US; reflexivity|]. split; [|exists o; auto].
            assert (X : ~ ~ classifiable c (item_calls ps)) by (intro X; apply FA in X; discriminate).
            assert (DEC : classifiable c (item_calls ps) \/ ~ classifiable c (item_calls ps)).
            { destruct (all_redshift_solver_failed c (mkState [] (item_errors ps ++ [])%list [])) eqn:A.
              - right. apply (failed_calls_all ps MP G [] []). exact A.
              - left. unfold all_redshift_solver_failed in A.
                assert (N : exists m, In m (models c) /\ has_error (mkState [] (item_errors ps ++ [])%list []) (Some m) (Some "redshiftSolver") = false).
                { clear -A. induction (models c) as [|m l IH]; [discriminate|]. cbn in A. apply andb_false_iff in A. destruct A as [A|A].
                  - exists m. split; [left; reflexivity|exact A].
                  - destruct (IH A) as (m' & I & E). exists m'. split; [right; exact I|exact E]. }
                destruct N as (m & IM & E). exists m. split; [exact IM|]. intro F. apply (redshift_error c R ps MP G m IM) in F. congruence. }
            tauto.
        - exists [], []. split; [|reflexivity]. left. split; [|auto]. intro H. apply US in H. discriminate. }
      destruct CL as (cl & ce & CC & E). rewrite E. rewrite (load_eq c world U). cbv zeta.
      set (ol := world _ load_call). assert (OL : ol <> Interrupted) by apply U. clearbody ol. 
      eexists _, _, _. split; [reflexivity|]. exact (sh_full s0 ps cl ce ol MP G CC OL).
    + set (E := mkState _ _ _). assert (HE : exists oi', E = mkState [] (init_effect c (models c) ++ [("init", Failed (code_of oi'))])%list
         ((root_call StoreFlags, Okay) :: (root_call Initialise, oi) :: st_trace s0) /\ oi' = oi).
      { exists oi. split; [|reflexivity]. unfold E. destruct oi; [congruence|reflexivity..]. }
      destruct HE as (? & HE & ->). clearbody E. subst E.
      assert (RR : match oi with Okay => Ret | _ => Exc ProcessFlowException end = Exc ProcessFlowException) by (destruct oi; congruence).
      rewrite RR. unfold act. cbn [st_stack st_errors st_trace].
      change (LoadRoot, []) with (root_call LoadRoot). set (ol := world _ (root_call LoadRoot)). clearbody ol.
      destruct ol; cbn [as_exn]; eexists _, _, _; (split; [reflexivity|]); apply sh_init; auto; congruence.
  - destruct ofl as [|k| |]; [congruence| | |congruence]; cbn [as_exn]; eexists _, _, _; (split; [reflexivity|]); apply sh_flags; congruence.
Qed.
End Run.
