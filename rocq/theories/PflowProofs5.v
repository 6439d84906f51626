From Coq Require Import String Ascii.
From Verif Require Import Base ScopeModel PflowModel PflowSpec PflowProofs PflowProofs2 PflowProofs3 PflowProofs4.
Open Scope string_scope.

Section Run.
Variables (c : setup) (world : history -> event -> outcome).
Hypothesis U : uninterrupted world.
Hypothesis R : regular c.

Definition root_effect (st : string) (o : outcome) : list (string * error) :=
  match o with Okay => [] | _ => [(st, Failed (code_of o))] end.

Lemma classification_eq errs tr : run_classification_solver c world (mkState [] errs tr) =
  (if all_redshift_solver_failed c (mkState [] errs tr)
   then (mkState [] (("classification", Failed "NO_CLASSIFICATION") :: errs) tr, Ret)
   else let o := world tr classification_call in
        (mkState [] (root_effect "classification" o ++ errs)%list ((classification_call, o) :: tr), Ret)).
Proof.
  unfold run_classification_solver. unfold with_scope at 1. cbn [st_stack may_push_b find_type find is_some negb andb].
  unfold with_scope. cbn [set_stack st_stack st_errors st_trace app may_push_b find_type find is_some negb andb st_eqb snd].
  unfold handler, set_stack. cbn [st_stack st_errors st_trace]. set (sk := [("classification", SPECTRUMMODEL); ("classification", STAGE)]).
  change (all_redshift_solver_failed c (mkState sk errs tr)) with (all_redshift_solver_failed c (mkState [] errs tr)).
  destruct (all_redshift_solver_failed c (mkState [] errs tr)); [reflexivity|].
  unfold run_method. change (mem "classificationSolve" known_methods) with true. cbv iota. unfold act. cbn [st_stack st_errors st_trace].
  change (Compute "classificationSolve", sk) with classification_call. cbv zeta.
  destruct (world tr classification_call) as [|k| |] eqn:W; [reflexivity..|]. destruct (U _ _ W).
Qed.
Lemma load_eq errs tr : load_result_store c world (mkState [] errs tr) =
  let o := world tr load_call in (mkState [] (root_effect "load_result_store" o ++ errs)%list ((load_call, o) :: tr), Ret).
Proof.
  unfold load_result_store, with_scope. cbn [st_stack may_push_b find_type find is_some negb andb].
  unfold handler. unfold act. cbn [set_stack st_stack st_errors st_trace app].
  change (LoadAll, [("load_result_store", STAGE)]) with load_call. cbv zeta.
  destruct (world tr load_call) as [|k| |] eqn:W; [reflexivity..|]. destruct (U _ _ W).
Qed.

Definition init_stages : list string := map fst spectrum_model_stages.
Definition init_effect (ms : list string) : list (string * error) :=
  concat (map (fun m => keyed m (map (fun d => (d, NotRun "init")) (rev (filter (enabled c m) init_stages)))) (rev ms)).
Lemma propagate_all_eq ms : (forall m, In m ms -> In m (models c)) -> forall errs tr,
  propagate_all c ms "init" (mkState [] errs tr) = (mkState [] (init_effect ms ++ errs)%list tr, Ret).
Proof.
  induction ms as [|m ms IH]; intros I errs tr; [reflexivity|]. cbn [propagate_all]. unfold seq.
  assert (IM : In m (models c)) by (apply I; left; reflexivity).
  destruct (reg_names c R m IM) as [NE NC]. destruct (reg_sections c R m IM) as [s HS].
  rewrite (propagate_eq c m s NE HS init_stages "init") by (cbn; tauto).
  rewrite IH by (intros; apply I; right; assumption). f_equal. f_equal. unfold init_effect. cbn [rev].
  rewrite map_app, concat_app. cbn [map concat]. rewrite app_nil_r, <- app_assoc. reflexivity.
Qed.
Lemma initialize_eq tr : initialize c world (mkState [] [] tr) =
  let o := world tr (root_call Initialise) in
  (mkState [] (match o with Okay => [] | _ => init_effect (models c) ++ [("init", Failed (code_of o))] end)%list
           ((root_call Initialise, o) :: tr),
   match o with Okay => Ret | _ => Exc ProcessFlowException end).
Proof.
  unfold initialize, handler. unfold act. cbn [st_stack st_errors st_trace]. change (Initialise, []) with (root_call Initialise). cbv zeta.
  assert (SE : forall k t, store_error c k None (Some "init") (mkState [] [] t) =
    (mkState [] (init_effect (models c) ++ [("init", Failed k)])%list t, Ret)).
  { intros k t. unfold store_error. cbn [truthy negb show String.eqb Ascii.eqb Bool.eqb andb]. cbv zeta.
    apply (propagate_all_eq (models c) (fun m H => H)). }
  destruct (world tr (root_call Initialise)) as [|k| |] eqn:W; [reflexivity| | |destruct (U _ _ W)].
  - cbn [as_exn st_stack]. change (get_scope_spectrum_model []) with (@None string). change (get_scope_stage []) with (Some "init").
    unfold seq. cbv beta iota. rewrite (SE k). reflexivity.
  - cbn [as_exn st_stack]. change (get_scope_spectrum_model []) with (@None string). change (get_scope_stage []) with (Some "init").
    unfold seq. cbv beta iota. rewrite (SE "PYTHON_API_ERROR"). reflexivity.
Qed.

Lemma used_spec : is_a_redshift_solver_used c = true <-> solver_used c.
Proof.
  unfold is_a_redshift_solver_used, solver_used. rewrite existsb_exists. split.
  - intros (m & IM & E). destruct (reg_sections c R m IM) as [s HS]. exists m, s.
    destruct (z_spec c m s HS) as [(z & _ & SZ)|[E' _]]; [exists z; auto|rewrite E' in E; discriminate].
  - intros (m & s & z & IM & HS & SZ). exists m. split; [exact IM|].
    destruct (z_spec c m s HS) as [(z' & E' & _)|[_ N]]; [rewrite E'; reflexivity|destruct (N z SZ)].
Qed.

(** the errors of a full run, before the classification *)
Lemma redshift_error ps : map (fun p => fst (fst p)) ps = models c -> Forall (good c) ps ->
  forall m, In m (models c) ->
  (has_error (mkState [] (item_errors ps ++ [])%list []) (Some m) (Some "redshiftSolver") = true <->
   failed (item_calls ps) m "redshiftSolver").
Proof.
  intros MP G m IM. pose proof (reg_distinct c R) as ND. rewrite <- MP in ND.
  pose proof IM as IM0. rewrite <- MP in IM0. apply in_map_iff in IM0. destruct IM0 as (((m' & h) & el) & E & IP). cbn in E. subst m'.
  pose proof (proj1 (Forall_forall _ _) G _ IP) as (s & HS & ST & (SG & ER)). cbn [fst snd] in *.
  assert (I5 : In "redshiftSolver" the_stages) by (cbn; tauto).
  destruct (reg_names c R m IM) as [NE _]. unfold has_error. cbn [st_errors]. rewrite full_name_model by exact NE.
  rewrite (item_error c ps m h el _ [] G ND IP I5). cbn [find_error]. destruct (ER _ I5) as [CA UN].
  unfold failed. split.
  - destruct (find_error "redshiftSolver" el) as [e|] eqn:F; [intros _|discriminate].
    assert (CD : called h m "redshiftSolver" \/ ~ called h m "redshiftSolver").
    { destruct ST as (zs & sb & rl & ld & lm & -> & P1 & P2 & P3 & P4 & P5).
      destruct P1 as [(e1 & o1 & (z & _ & ->) & ->)|(N & ->)].
      - left. eexists _, _. left. reflexivity.
      - right. intros (a & o & I). cbn [app] in I.
        destruct P2 as [(e2 & o2 & (_ & _ & ->) & ->)|(_ & ->)], P3 as [(e3 & o3 & (_ & _ & _ & ->) & ->)|(_ & ->)],
          P4 as [(e4 & o4 & (_ & _ & _ & ->) & ->)|(_ & ->)], P5 as [(e5 & o5 & (n & _ & _ & ->) & ->)|(_ & ->)];
        cbn in I; unfold call in I; intuition congruence. }
    destruct CD as [(a & o & I)|NCALL].
    + exists a, o. split; [apply (own_calls c ps m h el G ND IP); exact I|]. intros ->. destruct (CA a Okay I) as [H _]. specialize (H eq_refl). congruence.
    + destruct (proj1 (UN NCALL e) eq_refl) as (cause & _ & (_ & _ & [[_ H]|[_ H]])); [destruct (H eq_refl)|discriminate H].
  - intros (a & o & I & NO). apply (own_calls c ps m h el G ND IP) in I. destruct (CA a o I) as [_ H].
    rewrite (H NO). reflexivity.
Qed.
End Run.
