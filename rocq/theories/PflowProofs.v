From Coq Require Import String Ascii.
From Verif Require Import Base ScopeModel PflowModel PflowSpec.
Open Scope string_scope.

(** ** The scope is restored, whatever happens *)
Definition keeps (a : comp) : Prop := forall s, st_stack (fst (a s)) = st_stack s.
Lemma keeps_ret : keeps ret. Proof. intro; reflexivity. Qed.
Lemma keeps_raise e : keeps (raise e). Proof. intro; reflexivity. Qed.
Lemma keeps_seq a b : keeps a -> keeps b -> keeps (a ;; b).
Proof. intros A B s. unfold seq. specialize (A s). destruct (a s) as [s1 [|e]]; simpl in *; [rewrite B|]; exact A. Qed.
Lemma keeps_when b a : keeps a -> keeps (when b a).
Proof. destruct b; [auto|intros; apply keeps_ret]. Qed.
Lemma keeps_sce m st k : keeps (store_consequent_error m st k). Proof. intro; reflexivity. Qed.
Lemma keeps_propagate c m l k : keeps (propagate c m l k).
Proof.
  induction l as [|d r IH]; simpl; [apply keeps_ret|]. destruct (stage_enabled c m d) as [b|]; [|apply keeps_raise].
  apply keeps_seq; [apply keeps_when, keeps_sce|exact IH].
Qed.
Lemma keeps_propagate_all c l k : keeps (propagate_all c l k).
Proof. induction l as [|m r IH]; cbn [propagate_all]; [apply keeps_ret|]. apply keeps_seq; [apply keeps_propagate|exact IH]. Qed.
Lemma keeps_store_error c k m st : keeps (store_error c k m st).
Proof.
  intro s. unfold store_error. destruct (_ && _); [rewrite keeps_propagate_all; reflexivity|].
  destruct m; [|reflexivity]. destruct st; [|reflexivity]. destruct (assoc _ _); [|reflexivity].
  rewrite keeps_propagate. reflexivity.
Qed.
Lemma keeps_scope n t b : keeps b -> keeps (with_scope n t b).
Proof.
  intros B s. unfold with_scope. destruct (may_push_b _ _); [|reflexivity].
  specialize (B (set_stack s (st_stack s ++ [(n, t)])%list)). destruct (b _) as [s1 r]. simpl in *. rewrite B.
  apply removelast_last.
Qed.
Section W.
Variable c : setup.
Variable world : history -> event -> outcome.
Lemma keeps_act a : keeps (act world a). Proof. intro; reflexivity. Qed.
Lemma keeps_handler b a : keeps a -> keeps (handler c b a).
Proof.
  intros A s. unfold handler. specialize (A s). destruct (a s) as [s1 [|[]]]; simpl in A |- *; try exact A;
  (rewrite (keeps_seq _ _ (keeps_store_error _ _ _ _) (keeps_when _ _ (keeps_raise _))); exact A).
Qed.
Lemma keeps_method m : keeps (run_method world m).
Proof. unfold run_method. destruct (mem _ _); [apply keeps_act|apply keeps_raise]. Qed.
Lemma keeps_stage n b a : keeps a -> keeps (with_scope n STAGE (handler c b a)).
Proof. intro. apply keeps_scope, keeps_handler. exact H. Qed.
Lemma keeps_process : keeps (process_spectrum_model c world).
Proof.
  intro s. unfold process_spectrum_model. cbv zeta.
  assert (LM : forall l, keeps (run_linemeas_solver c world l)) by (intro; apply keeps_stage, keeps_method).
  destruct (get_linemeas_method c _) as [lm|]; [|reflexivity].
  destruct (get_redshift_solver_method c _) as [z|].
  - apply keeps_seq; [apply keeps_stage, keeps_method|]. apply keeps_seq; [apply keeps_when, keeps_stage, keeps_act|].
    destruct (get_reliability_enabled c _); [|apply keeps_raise].
    apply keeps_seq; [apply keeps_when, keeps_stage, keeps_act|]. apply keeps_when, keeps_seq; [apply keeps_stage, keeps_act|apply LM].
  - apply keeps_when, LM.
Qed.
Lemma keeps_catch a : keeps a -> keeps (catch_pfe a).
Proof. intros A s. unfold catch_pfe. specialize (A s). destruct (a s) as [s1 [|[]]]; exact A. Qed.
Lemma keeps_models l : keeps (process_models c world l).
Proof.
  induction l as [|m r IH]; cbn [process_models]; [apply keeps_ret|]. apply keeps_seq; [|exact IH].
  apply keeps_scope, keeps_catch, keeps_process.
Qed.
Lemma keeps_classification : keeps (run_classification_solver c world).
Proof.
  apply keeps_scope, keeps_stage. intro s. destruct (all_redshift_solver_failed c s); [reflexivity|].
  exact (keeps_method _ s).
Qed.
Lemma keeps_flags a : keeps a -> keeps (flags_handler world a).
Proof.
  intros A s. unfold flags_handler. specialize (A s). destruct (a s) as [s1 r]. simpl in A.
  pose proof (keeps_act StoreFlags s1) as K. destruct (act world StoreFlags s1) as [s2 [|e]]; simpl in *; congruence.
Qed.
Lemma scope_restored : forall s, st_stack (fst (run c world s)) = st_stack s.
Proof.
  intro s. unfold run, exception_decorator. cbv zeta.
  pose proof (keeps_flags _ (keeps_handler true _ (keeps_act Initialise)) (set_errors s [])) as K.
  fold (initialize c world) in K. destruct (flags_handler world (initialize c world) (set_errors s [])) as [s1 [|e]].
  - assert (K2 : keeps (process_models c world (models c) ;;
       when (is_a_redshift_solver_used c) (run_classification_solver c world) ;; load_result_store c world)).
    { apply keeps_seq; [apply keeps_models|]. apply keeps_seq; [apply keeps_when, keeps_classification|].
      apply keeps_stage, keeps_act. }
    specialize (K2 s1). destruct ((_ ;; _) s1) as [s2 [|[]]]; simpl in *; congruence.
  - destruct e; simpl in *; try exact K.
    destruct (as_exn _) as [|[]]; exact K.
Qed.
Lemma session_scope n : forall s, st_stack (session c world n s) = st_stack s.
Proof. induction n as [|n IH]; intro s; cbn [session]; [reflexivity|]. rewrite IH. apply scope_restored. Qed.
End W.
