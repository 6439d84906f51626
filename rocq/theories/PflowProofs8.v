(** Interruptions: nothing is called after one, and it is not swallowed. *)
From Coq Require Import String Ascii.
From Verif Require Import Base ScopeModel PflowModel PflowSpec PflowProofs.
Open Scope string_scope.

Definition quiet (l : history) : Prop := forall e, ~ In (e, Interrupted) l.
(** the calls a computation adds (most recent first), and its result *)
Definition stops (a : comp) : Prop := forall s, exists l, st_trace (fst (a s)) = (l ++ st_trace s)%list /\
  ((snd (a s) = Exc Base /\ exists e t, l = (e, Interrupted) :: t /\ quiet t) \/ (snd (a s) <> Exc Base /\ quiet l)).
Lemma quiet_nil : quiet []. Proof. intros e []. Qed.
Lemma quiet_app a b : quiet a -> quiet b -> quiet (a ++ b)%list.
Proof. intros A B e H. apply in_app_iff in H. destruct H as [H|H]; [exact (A e H)|exact (B e H)]. Qed.
Lemma stops_pure (a : comp) : (forall s, st_trace (fst (a s)) = st_trace s /\ snd (a s) <> Exc Base) -> stops a.
Proof. intros H s. exists []. destruct (H s) as [E N]. split; [exact E|]. right. split; [exact N|exact quiet_nil]. Qed.
Lemma stops_ret : stops ret. Proof. apply stops_pure. intro s. split; [reflexivity|discriminate]. Qed.
Lemma stops_raise e : e <> Base -> stops (raise e).
Proof. intro. apply stops_pure. intro s. split; [reflexivity|]. cbn. congruence. Qed.
Lemma stops_seq a b : stops a -> stops b -> stops (a ;; b).
Proof.
  intros A B s. unfold seq. destruct (A s) as (l & E & C). destruct (a s) as [s1 [|e]]; cbn [fst snd] in *.
  - destruct (B s1) as (l' & E' & C'). exists (l' ++ l)%list. rewrite E', E, app_assoc. split; [reflexivity|].
    destruct C as [[X _]|[_ Q]]; [discriminate X|]. destruct C' as [(X & e & t & -> & Q')|(X & Q')].
    + left. split; [exact X|]. exists e, (t ++ l)%list. split; [reflexivity|]. apply quiet_app; assumption.
    + right. split; [exact X|]. apply quiet_app; assumption.
  - exists l. auto.
Qed.
Lemma stops_when b a : stops a -> stops (when b a).
Proof. destruct b; [auto|intros; apply stops_ret]. Qed.
Lemma stops_propagate c m l k : stops (propagate c m l k).
Proof.
  induction l as [|d r IH]; simpl; [apply stops_ret|]. destruct (stage_enabled c m d) as [b|]; [|apply stops_raise; discriminate].
  apply stops_seq; [apply stops_when, stops_pure; intro s; split; [reflexivity|discriminate]|exact IH].
Qed.
Lemma stops_propagate_all c l k : stops (propagate_all c l k).
Proof. induction l as [|m r IH]; cbn [propagate_all]; [apply stops_ret|]. apply stops_seq; [apply stops_propagate|exact IH]. Qed.
Lemma stops_store_error c k m st : stops (store_error c k m st).
Proof.
  intro s. unfold store_error. set (s1 := set_errors s _). change (st_trace s) with (st_trace s1).
  destruct (_ && _); [exact (stops_propagate_all _ _ _ s1)|].
  destruct m; [|exact (stops_ret s1)]. destruct st; [|exact (stops_raise Py ltac:(discriminate) s1)].
  destruct (assoc _ _); [exact (stops_propagate _ _ _ _ s1)|exact (stops_raise Py ltac:(discriminate) s1)].
Qed.
Lemma stops_scope n t b : stops b -> stops (with_scope n t b).
Proof.
  intros B s. unfold with_scope. destruct (may_push_b _ _).
  - destruct (B (set_stack s (st_stack s ++ [(n, t)])%list)) as (l & E & C). destruct (b _) as [s1 r]. exists l. exact (conj E C).
  - exists []. split; [reflexivity|]. right. split; [discriminate|exact quiet_nil].
Qed.
Section W.
Variable c : setup.
Variable world : history -> event -> outcome.
Lemma stops_act a : stops (act world a).
Proof.
  intro s. unfold act. cbn [fst snd st_trace]. eexists [_]. split; [reflexivity|].
  destruct (world (st_trace s) (a, st_stack s)) as [|k| |].
  - right. split; [discriminate|]. intros e [H|[]]. discriminate H.
  - right. split; [discriminate|]. intros e [H|[]]. discriminate H.
  - right. split; [discriminate|]. intros e [H|[]]. discriminate H.
  - left. split; [reflexivity|]. eexists _, []. split; [reflexivity|exact quiet_nil].
Qed.
Lemma stops_handler b a : stops a -> stops (handler c b a).
Proof.
  intros A s. unfold handler. destruct (A s) as (l & E & C). destruct (a s) as [s1 [|e]] eqn:EA; cbn [fst snd] in E, C.
  - exists l. auto.
  - assert (X : forall k m st, stops (store_error c k m st ;; when b (raise ProcessFlowException))).
    { intros. apply stops_seq; [apply stops_store_error|apply stops_when, stops_raise; discriminate]. }
    destruct e; try (exists l; exact (conj E C));
    (destruct C as [[C _]|[_ Q]]; [discriminate C|]);
    match goal with |- context [(store_error c ?k ?m ?st ;; ?w) s1] => destruct (X k m st s1) as (l' & E' & C') end;
    exists (l' ++ l)%list; rewrite E', E, app_assoc; (split; [reflexivity|]);
    (destruct C' as [(Y & e & t & -> & Q')|(Y & Q')];
     [left; split; [exact Y|]; exists e, (t ++ l)%list; split; [reflexivity|apply quiet_app; assumption]
     |right; split; [exact Y|apply quiet_app; assumption]]).
Qed.
Lemma stops_method m : stops (run_method world m).
Proof. unfold run_method. destruct (mem _ _); [apply stops_act|apply stops_raise; discriminate]. Qed.
Lemma stops_stage n b a : stops a -> stops (with_scope n STAGE (handler c b a)).
Proof. intro. apply stops_scope, stops_handler. exact H. Qed.
Lemma stops_process : stops (process_spectrum_model c world).
Proof.
  intro s. unfold process_spectrum_model. cbv zeta.
  assert (LM : forall l, stops (run_linemeas_solver c world l)) by (intro; apply stops_stage, stops_method).
  destruct (get_linemeas_method c _) as [lm|]; [|apply stops_raise; discriminate].
  destruct (get_redshift_solver_method c _) as [z|].
  - apply stops_seq; [apply stops_stage, stops_method|]. apply stops_seq; [apply stops_when, stops_stage, stops_act|].
    destruct (get_reliability_enabled c _); [|apply stops_raise; discriminate].
    apply stops_seq; [apply stops_when, stops_stage, stops_act|]. apply stops_when, stops_seq; [apply stops_stage, stops_act|apply LM].
  - apply stops_when, LM.
Qed.
Lemma stops_catch a : stops a -> stops (catch_pfe a).
Proof.
  intros A s. unfold catch_pfe. destruct (A s) as (l & E & C). destruct (a s) as [s1 [|e]]; [exists l; auto|].
  cbn [fst snd] in E, C. destruct e; try (exists l; exact (conj E C)). exists l. split; [exact E|].
  destruct C as [[C _]|[_ Q]]; [discriminate C|]. right. split; [discriminate|exact Q].
Qed.
Lemma stops_models l : stops (process_models c world l).
Proof.
  induction l as [|m r IH]; cbn [process_models]; [apply stops_ret|]. apply stops_seq; [|exact IH].
  apply stops_scope, stops_catch, stops_process.
Qed.
Lemma stops_classification : stops (run_classification_solver c world).
Proof.
  apply stops_scope, stops_stage. intro s. destruct (all_redshift_solver_failed c s).
  - apply stops_raise. discriminate.
  - exact (stops_method _ s).
Qed.

Lemma stops_decorator a : stops a -> stops (exception_decorator a).
Proof.
  intros A s. unfold exception_decorator. destruct (A s) as (l & E & C). destruct (a s) as [s1 [|e]]; [exists l; auto|].
  cbn [fst snd] in E, C. destruct e; try (exists l; exact (conj E C)); exists l; (split; [exact E|]);
  (destruct C as [[C _]|[_ Q]]; [discriminate C|]); right; (split; [discriminate|exact Q]).
Qed.

(** the calls of a run, most recent first: none is interrupted; or the last one is and the run raises; or the
    initialisation is interrupted, and only the flags are stored after it *)
Lemma interruption s : exists l, st_trace (fst (run c world s)) = (l ++ st_trace s)%list /\
  ((snd (run c world s) <> Exc Base /\ quiet l) \/
   (snd (run c world s) = Exc Base /\ exists e t, l = (e, Interrupted) :: t /\ quiet t) \/
   (exists k o e t, l = ((StoreFlags, k), o) :: (e, Interrupted) :: t /\ quiet t /\ snd (run c world s) <> Ret /\
      (o = Okay -> snd (run c world s) = Exc Base))).
Proof.
  unfold run. match goal with |- context [exception_decorator ?b s] => set (body := b) end.
  assert (D : exists l, st_trace (fst (body s)) = (l ++ st_trace s)%list /\
    ((snd (body s) <> Exc Base /\ quiet l) \/
     (snd (body s) = Exc Base /\ exists e t, l = (e, Interrupted) :: t /\ quiet t) \/
     (exists k o e t, l = ((StoreFlags, k), o) :: (e, Interrupted) :: t /\ quiet t /\ snd (body s) <> Ret /\ 
        (o = Okay -> snd (body s) = Exc Base)))).
  { unfold body. cbv zeta. unfold flags_handler.
    destruct (stops_handler true _ (stops_act Initialise) (set_errors s [])) as (l & E & C).
    fold (initialize c world) in E, C. destruct (initialize c world (set_errors s [])) as [s1 r]. cbn [fst snd set_errors st_trace] in E, C.
    pose proof (stops_act StoreFlags s1) as A. unfold act in A |- *. cbv zeta. cbn [fst snd st_trace st_stack] in A |- *.
    set (o := world (st_trace s1) (StoreFlags, st_stack s1)) in *. clearbody o.
    set (s2 := mkState (st_stack s1) (st_errors s1) ((StoreFlags, st_stack s1, o) :: st_trace s1)) in *.
    destruct C as [(X & e & t & -> & Q)|(X & Q)].
    - subst r. exists ((StoreFlags, st_stack s1, o) :: (e, Interrupted) :: t).
      destruct o; cbn [as_exn fst snd]; unfold s2; cbn [st_trace]; rewrite E; (split; [reflexivity|]).
      + right; right. eexists _, _, _, _. split; [reflexivity|]. split; [exact Q|]. split; [discriminate|reflexivity].
      + right; right. eexists _, _, _, _. split; [reflexivity|]. split; [exact Q|]. split; [discriminate|discriminate].
      + right; right. eexists _, _, _, _. split; [reflexivity|]. split; [exact Q|]. split; [discriminate|discriminate].
      + right; right. eexists _, _, _, _. split; [reflexivity|]. split; [exact Q|]. split; [discriminate|discriminate].
    - assert (REST : forall o', o' <> Interrupted -> forall a, stops a -> exists l0, st_trace (fst (a (mkState (st_stack s1) (st_errors s1) ((StoreFlags, st_stack s1, o') :: st_trace s1)))) = (l0 ++ st_trace s)%list /\
        ((snd (a (mkState (st_stack s1) (st_errors s1) ((StoreFlags, st_stack s1, o') :: st_trace s1))) <> Exc Base /\ quiet l0) \/
         (snd (a (mkState (st_stack s1) (st_errors s1) ((StoreFlags, st_stack s1, o') :: st_trace s1))) = Exc Base /\ exists e t, l0 = (e, Interrupted) :: t /\ quiet t))).
      { intros o' NO a Sa. destruct (Sa (mkState (st_stack s1) (st_errors s1) ((StoreFlags, st_stack s1, o') :: st_trace s1))) as (l' & E' & C').
        cbn [st_trace] in E'. exists (l' ++ (StoreFlags, st_stack s1, o') :: l)%list. split; [rewrite E', E, <- app_assoc; reflexivity|].
        assert (Q2 : quiet ((StoreFlags, st_stack s1, o') :: l)) by (intros e [H|H]; [congruence|exact (Q e H)]).
        destruct C' as [(Y & e & t & -> & Q')|(Y & Q')].
        - right. split; [exact Y|]. exists e, (t ++ (StoreFlags, st_stack s1, o') :: l)%list. split; [reflexivity|]. apply quiet_app; assumption.
        - left. split; [exact Y|]. apply quiet_app; assumption. }
      destruct o as [|k| |]; cbn [as_exn].
      + destruct r as [|e0].
        * destruct (REST Okay ltac:(discriminate) _ (stops_seq _ _ (stops_models (models c))
             (stops_seq _ _ (stops_when (is_a_redshift_solver_used c) _ stops_classification)
               (stops_stage "load_result_store" false _ (stops_act LoadAll))))) as (l0 & E0 & C0).
          exists l0. split; [exact E0|]. destruct C0 as [C0|C0]; [left; exact C0|right; left; exact C0].
        * destruct e0.
          -- destruct (REST Okay ltac:(discriminate) _ (stops_raise (Amz code) ltac:(discriminate))) as (l0 & E0 & C0).
             exists l0. split; [exact E0|]. destruct C0 as [C0|C0]; [left; exact C0|right; left; exact C0].
          -- destruct (REST Okay ltac:(discriminate) _ (stops_act LoadRoot)) as (l0 & E0 & C0).
             exists l0. split; [exact E0|]. destruct C0 as [C0|C0]; [left; exact C0|right; left; exact C0].
          -- destruct (REST Okay ltac:(discriminate) _ (stops_raise Py ltac:(discriminate))) as (l0 & E0 & C0).
             exists l0. split; [exact E0|]. destruct C0 as [C0|C0]; [left; exact C0|right; left; exact C0].
          -- destruct (X eq_refl).
      + destruct (REST (AmzError k) ltac:(discriminate) _ (stops_raise (Amz k) ltac:(discriminate))) as (l0 & E0 & C0).
        exists l0. split; [exact E0|]. destruct C0 as [C0|C0]; [left; exact C0|right; left; exact C0].
      + destruct (REST OtherError ltac:(discriminate) _ (stops_raise Py ltac:(discriminate))) as (l0 & E0 & C0).
        exists l0. split; [exact E0|]. destruct C0 as [C0|C0]; [left; exact C0|right; left; exact C0].
      + exists ((StoreFlags, st_stack s1, Interrupted) :: l). unfold s2. cbn [fst snd st_trace]. rewrite E. split; [reflexivity|].
        right; left. split; [reflexivity|]. eexists _, _. split; [reflexivity|exact Q]. }
  destruct D as (l & E & C). exists l. unfold exception_decorator. destruct (body s) as [s1 r]. cbn [fst snd] in E, C |- *.
  destruct r as [|e]; cbn [fst snd].
  - split; [exact E|]. destruct C as [C|[C|C]]; [left; exact C|right; left; exact C|right; right; exact C].
  - destruct e; cbn [fst snd]; (split; [exact E|]).
    + destruct C as [C|[C|C]]; [left; exact C|right; left; exact C|right; right; exact C].
    + destruct C as [[_ Q]|[[C _]|(k & o & e & t & A & B & D & F)]]; [left; split; [discriminate|exact Q]|discriminate C|].
      right; right. exists k, o, e, t. split; [exact A|]. split; [exact B|]. split; [discriminate|]. intro H. specialize (F H). discriminate F.
    + destruct C as [[_ Q]|[[C _]|(k & o & e & t & A & B & D & F)]]; [left; split; [discriminate|exact Q]|discriminate C|].
      right; right. exists k, o, e, t. split; [exact A|]. split; [exact B|]. split; [discriminate|]. intro H. specialize (F H). discriminate F.
    + destruct C as [C|[C|C]]; [left; exact C|right; left; exact C|right; right; exact C].
Qed.
End W.
