From Coq Require Import String Ascii.
From Verif Require Import Base ScopeModel PflowModel PflowSpec PflowProofs PflowProofs2.
Open Scope string_scope.

Section Model.
Variables (c : setup) (world : history -> event -> outcome).
Hypothesis U : uninterrupted world.
Variables (m : string) (s : section).
Hypothesis NE : m <> "".
Hypothesis NC : m <> "classification".
Hypothesis HS : sections c m = Some s.
Hypothesis KZ : forall z, solver_of s z -> In z the_methods.
Hypothesis KL : forall l, linemeas_of s l -> In l the_methods.

Lemma known z : In z the_methods -> run_method world z = act world (Compute z).
Proof. unfold run_method. cbn [the_methods In]. intros [<-|[<-|[<-|[<-|[]]]]]; reflexivity. Qed.

Notation eff := (effect c m).
Notation scope_of_model := (scope_of_model m).

Lemma run_z z errs tr : In z the_methods ->
  run_redshift_solver c world z (mkState scope_of_model errs tr) =
  let o := world tr (call m "redshiftSolver" (Compute z)) in
  (mkState scope_of_model (keyed m (eff "redshiftSolver" o) ++ errs)%list ((call m "redshiftSolver" (Compute z), o) :: tr),
   match o with Okay => Ret | _ => Exc ProcessFlowException end).
Proof. intro K. unfold run_redshift_solver. rewrite (known z K). apply (stage_eq c world U m s NE NC HS true). cbn; tauto. Qed.
Lemma run_l l errs tr : In l the_methods ->
  run_linemeas_solver c world l (mkState scope_of_model errs tr) =
  let o := world tr (call m "lineMeasSolver" (Compute l)) in
  (mkState scope_of_model (keyed m (eff "lineMeasSolver" o) ++ errs)%list ((call m "lineMeasSolver" (Compute l), o) :: tr), Ret).
Proof.
  intro K. unfold run_linemeas_solver. rewrite (known l K). rewrite (stage_eq c world U m s NE NC HS false) by (cbn; tauto).
  cbv zeta. destruct (world _ _); reflexivity.
Qed.
Lemma run_ld errs tr : run_load_linemeas_params c world (mkState scope_of_model errs tr) =
  let o := world tr (call m "linemeas_catalog_load" LoadLinemeas) in
  (mkState scope_of_model (keyed m (eff "linemeas_catalog_load" o) ++ errs)%list ((call m "linemeas_catalog_load" LoadLinemeas, o) :: tr),
   match o with Okay => Ret | _ => Exc ProcessFlowException end).
Proof. apply (stage_eq c world U m s NE NC HS true). cbn; tauto. Qed.
Lemma run_rl errs tr : run_reliability_solver c world (mkState scope_of_model errs tr) =
  let o := world tr (call m "reliabilitySolver" Reliability) in
  (mkState scope_of_model (keyed m (eff "reliabilitySolver" o) ++ errs)%list ((call m "reliabilitySolver" Reliability, o) :: tr), Ret).
Proof.
  unfold run_reliability_solver. rewrite (stage_eq c world U m s NE NC HS false) by (cbn; tauto). cbv zeta. destruct (world _ _); reflexivity.
Qed.
Lemma run_sb errs tr : run_sub_classification_solver c world (mkState scope_of_model errs tr) =
  let o := world tr (call m "subClassifSolver" SubTypes) in
  (mkState scope_of_model (keyed m (eff "subClassifSolver" o) ++ errs)%list ((call m "subClassifSolver" SubTypes, o) :: tr), Ret).
Proof.
  unfold run_sub_classification_solver. rewrite (stage_eq c world U m s NE NC HS false) by (cbn; tauto). cbv zeta. destruct (world _ _); reflexivity.
Qed.

(** the calls made after a stage, and the errors they leave; the result of the whole *)
Definition leads (a : comp) (r : pyres) (l : history) (el : list (string * error)) (tr : history) : Prop :=
  forall errs, a (mkState scope_of_model errs tr) = (mkState scope_of_model (keyed m el ++ errs)%list (rev l ++ tr)%list, r).
Lemma leads_seq a b r l el l' el' tr : leads a Ret l el tr -> leads b r l' el' (rev l ++ tr)%list ->
  leads (a ;; b) r (l ++ l')%list (el' ++ el)%list tr.
Proof.
  intros A B errs. unfold seq. rewrite A, B. unfold keyed. rewrite map_app, rev_app_distr, !app_assoc. reflexivity.
Qed.
Lemma leads_exc a b e l el tr : leads a (Exc e) l el tr -> leads (a ;; b) (Exc e) l el tr.
Proof. intros A errs. unfold seq. rewrite A. reflexivity. Qed.
Lemma leads_ret tr : leads ret Ret [] [] tr.
Proof. intro errs. reflexivity. Qed.

Lemma effect_z o : eff "redshiftSolver" o =
  match o with Okay => [] | _ =>
   (map (fun d => (d, NotRun "redshiftSolver")) (rev (filter (enabled c m) ["lineMeasSolver"; "reliabilitySolver"; "subClassifSolver"])) ++
   [("redshiftSolver", Failed (code_of o))])%list end.
Proof. destruct o; reflexivity. Qed.
Lemma effect_ld o : eff "linemeas_catalog_load" o =
  match o with Okay => [] | _ =>
   (map (fun d => (d, NotRun "linemeas_catalog_load")) (rev (filter (enabled c m) ["lineMeasSolver"])) ++
   [("linemeas_catalog_load", Failed (code_of o))])%list end.
Proof. destruct o; reflexivity. Qed.
Lemma effect_last st o : In st ["lineMeasSolver"; "reliabilitySolver"; "subClassifSolver"] -> eff st o =
  match o with Okay => [] | _ => [(st, Failed (code_of o))] end.
Proof. cbn [In]. intros [<-|[<-|[<-|[]]]]; destruct o; reflexivity. Qed.

Lemma failure_code o k : failure o k -> k = code_of o.
Proof. intros [->|[-> ->]]; reflexivity. Qed.

Lemma okay_dec (o : outcome) : o = Okay \/ o <> Okay.
Proof. destruct o; [left; reflexivity|right; discriminate..]. Qed.
Lemma eff_z_bad o : o <> Okay -> eff "redshiftSolver" o =
   (map (fun d => (d, NotRun "redshiftSolver")) (rev (filter (enabled c m) ["lineMeasSolver"; "reliabilitySolver"; "subClassifSolver"])) ++
   [("redshiftSolver", Failed (code_of o))])%list.
Proof. rewrite effect_z. destruct o; [congruence|reflexivity..]. Qed.
Lemma eff_ld_bad o : o <> Okay -> eff "linemeas_catalog_load" o =
   (map (fun d => (d, NotRun "linemeas_catalog_load")) (rev (filter (enabled c m) ["lineMeasSolver"])) ++
   [("linemeas_catalog_load", Failed (code_of o))])%list.
Proof. rewrite effect_ld. destruct o; [congruence|reflexivity..]. Qed.
Lemma eff_last_bad st o : In st ["lineMeasSolver"; "reliabilitySolver"; "subClassifSolver"] -> o <> Okay -> eff st o = [(st, Failed (code_of o))].
Proof. intros I H. rewrite effect_last by exact I. destruct o; [congruence|reflexivity..]. Qed.

(** the requested stages, computed *)
Lemma enabled_lm : (enabled c m "lineMeasSolver" = true /\ lm_listed s = true /\ lm_method s <> None) \/
  (enabled c m "lineMeasSolver" = false /\ ~ (lm_listed s = true /\ lm_method s <> None)).
Proof.
  unfold enabled, stage_enabled. cbn [String.eqb Ascii.eqb Bool.eqb].
  destruct (lm_spec c m s HS) as [(l & E & A & B)|[E N]]; rewrite E; cbn; [left|right; auto]. repeat split; auto. congruence.
Qed.
Lemma enabled_rel : enabled c m "reliabilitySolver" = rel_listed s.
Proof. unfold enabled, stage_enabled. cbn [String.eqb Ascii.eqb Bool.eqb]. unfold get_reliability_enabled, sect. rewrite HS. reflexivity. Qed.
Lemma enabled_sub : (enabled c m "subClassifSolver" = true /\ needs_subtype s) \/
  (enabled c m "subClassifSolver" = false /\ ~ needs_subtype s).
Proof. unfold enabled, stage_enabled. cbn [String.eqb Ascii.eqb Bool.eqb]. exact (sub_spec c m s HS). Qed.

Ltac incall := repeat match goal with
  | H : In _ _ |- _ => cbn [In app] in H
  | H : _ \/ _ |- _ => destruct H as [H|H]
  | H : False |- _ => destruct H
  | H : (call _ _ _, _) = (call _ _ _, _) |- _ => unfold call in H; first [discriminate H | injection H; clear H; intros; subst]
  end.

Ltac partl := left; eexists; eexists; split; [|reflexivity].
Ltac partr := right; split; [intros ? ?PH|reflexivity].

(** the calls and errors of a stage run when [P] *)
Definition simple (P : Prop) (st : string) (a : action) (l : history) (el : list (string * error)) : Prop :=
  (~ P /\ l = [] /\ el = []) \/ (P /\ l = [(call m st a, Okay)] /\ el = []) \/
  (P /\ exists o, o <> Okay /\ l = [(call m st a, o)] /\ el = [(st, Failed (code_of o))]).
Lemma simple_no (P : Prop) st a : ~ P -> simple P st a [] [].
Proof. left. auto. Qed.
Lemma simple_yes (P : Prop) st a o : P -> In st ["lineMeasSolver"; "reliabilitySolver"; "subClassifSolver"] ->
  simple P st a [(call m st a, o)] (eff st o).
Proof.
  intros H I. destruct (okay_dec o) as [->|O]; [right; left|right; right].
  - rewrite effect_last by exact I. auto.
  - rewrite eff_last_bad by (exact I || exact O). split; [exact H|]. exists o. auto.
Qed.
(** loading then measuring *)
Definition piped : Prop := (exists n, linemeas_of s n) /\ ~ In m (lm_catalog c).
Inductive loadlm : pyres -> history -> list (string * error) -> Prop :=
| ll_none : ~ piped -> loadlm Ret [] []
| ll_bad o : piped -> o <> Okay -> loadlm (Exc ProcessFlowException) [(call m "linemeas_catalog_load" LoadLinemeas, o)]
    [("lineMeasSolver", NotRun "linemeas_catalog_load"); ("linemeas_catalog_load", Failed (code_of o))]
| ll_ok n l el : piped -> linemeas_of s n -> simple True "lineMeasSolver" (Compute n) l el ->
    loadlm Ret ((call m "linemeas_catalog_load" LoadLinemeas, Okay) :: l) el.

Ltac clash := match goal with
  | H : Okay <> Okay |- _ => destruct (H eq_refl)
  | H : failure Okay _ |- _ => destruct H as [H|[H _]]; discriminate H
  | H : ?x = ?y :> string |- _ => discriminate H
  | H : ?x <> ?x |- _ => destruct (H eq_refl)
  end.
Ltac called_part :=
  let a' := fresh in let o' := fresh in let IN := fresh in
  intros a' o' IN; incall; (split;
   [ let Q := fresh in intro Q; first [subst; reflexivity | subst; clash | contradiction]
   | let F := fresh in intro F; first [clash | reflexivity]]).
Ltac is_called NCALL := exfalso; apply NCALL; eexists; eexists; cbn [In app]; eauto 8.

Ltac uncalled_none := 
  let H := fresh in let NCALL := fresh "NCALL" in let e := fresh in
  intros NCALL e; cbn [find_error String.eqb Ascii.eqb Bool.eqb]; split; [intro H; discriminate H|];
  intros (cause & -> & (? & ? & H & ?) & REQ & [[? ?]|[? ?]]); subst; incall; try clash.

Lemma good_run z l2 el2 l3 el3 r4 l4 el4 : solver_of s z ->
  simple (needs_subtype s) "subClassifSolver" SubTypes l2 el2 ->
  simple (rel_listed s = true /\ In m (rel_models c)) "reliabilitySolver" Reliability l3 el3 ->
  loadlm r4 l4 el4 ->
  story c m s ([(call m "redshiftSolver" (Compute z), Okay)] ++ l2 ++ l3 ++ l4)%list /\
  errors_right m s ([(call m "redshiftSolver" (Compute z), Okay)] ++ l2 ++ l3 ++ l4)%list (((el4 ++ el3) ++ el2) ++ [])%list.
Proof.
  intros SZ S2 S3 S4. split.
  - set (zs := [(call m "redshiftSolver" (Compute z), Okay)]).
    assert (ZS : succeeded zs) by (eexists; reflexivity).
    assert (P1 : part zs (fun e => exists z, solver_of s z /\ e = call m "redshiftSolver" (Compute z))).
    { left. eexists _, _. split; [exists z; split; [exact SZ|reflexivity]|reflexivity]. }
    assert (P2 : part l2 (fun e => succeeded zs /\ needs_subtype s /\ e = call m "subClassifSolver" SubTypes)).
    { destruct S2 as [(N & -> & _)|[(N & -> & _)|(N & o & _ & -> & _)]].
      - right. split; [tauto|reflexivity].
      - left. eexists _, _. split; [|reflexivity]. auto.
      - left. eexists _, _. split; [|reflexivity]. auto. }
    assert (P3 : part l3 (fun e => succeeded zs /\ rel_listed s = true /\ In m (rel_models c) /\ e = call m "reliabilitySolver" Reliability)).
    { destruct S3 as [(N & -> & _)|[(N & -> & _)|(N & o & _ & -> & _)]].
      - right. split; [tauto|reflexivity].
      - left. eexists _, _. split; [|reflexivity]. tauto.
      - left. eexists _, _. split; [|reflexivity]. tauto. }
    assert (NZ : ~ forall z, ~ solver_of s z) by (intro H; exact (H z SZ)).
    destruct S4 as [NP|o [PL NCAT] O|n l el [PL NCAT] L SI].
    + exists zs, l2, l3, [], []. split; [rewrite !app_nil_r; reflexivity|]. split; [exact P1|]. split; [exact P2|]. split; [exact P3|]. split.
      * right. split; [|reflexivity]. intros e (_ & A & B & _). apply NP. split; assumption.
      * right. split; [|reflexivity]. intros e (n & _ & [(e' & H)|[H _]] & _); [discriminate H|exact (NZ H)].
    + exists zs, l2, l3, [(call m "linemeas_catalog_load" LoadLinemeas, o)], []. split; [rewrite !app_nil_r; reflexivity|].
      split; [exact P1|]. split; [exact P2|]. split; [exact P3|]. split.
      * left. eexists _, _. split; [|reflexivity]. auto.
      * right. split; [|reflexivity]. intros e (n & _ & [(e' & H)|[H _]] & _); [inversion H; subst; congruence|exact (NZ H)].
    + exists zs, l2, l3, [(call m "linemeas_catalog_load" LoadLinemeas, Okay)], l. split; [reflexivity|].
      split; [exact P1|]. split; [exact P2|]. split; [exact P3|]. split.
      * left. eexists _, _. split; [|reflexivity]. auto.
      * assert (SL : succeeded [(call m "linemeas_catalog_load" LoadLinemeas, Okay)]) by (eexists; reflexivity).
        destruct SI as [(N & _)|[(_ & -> & _)|(_ & o & _ & -> & _)]]; [tauto| |]; left; eexists _, _; (split; [|reflexivity]); exists n; auto.
  - assert (RLM : forall n, linemeas_of s n -> requested s "lineMeasSolver").
    { intros n (A & B & _). right; left. split; [reflexivity|]. split; [exact A|congruence]. }
    split.
    { intros p H. rewrite app_nil_r in H. apply in_app_iff in H. destruct H as [H|H]; [apply in_app_iff in H; destruct H as [H|H]|].
      - destruct S4 as [NP|o PI O|n l el PI L SI]; [destruct H| |].
        + cbn in H. destruct H as [<-|[<-|[]]]; cbn; tauto.
        + destruct SI as [(N & _)|[(_ & _ & ->)|(_ & o & _ & _ & ->)]]; [tauto|destruct H|]. destruct H as [<-|[]]; cbn; tauto.
      - destruct S3 as [(_ & _ & ->)|[(_ & _ & ->)|(_ & o & _ & _ & ->)]]; [destruct H..|]. destruct H as [<-|[]]; cbn; tauto.
      - destruct S2 as [(_ & _ & ->)|[(_ & _ & ->)|(_ & o & _ & _ & ->)]]; [destruct H..|]. destruct H as [<-|[]]; cbn; tauto. }
    cbn [the_stages In].
    assert (X : forall st, st = "redshiftSolver" \/ st = "linemeas_catalog_load" \/ st = "lineMeasSolver" \/ st = "reliabilitySolver" \/ st = "subClassifSolver" ->
       In st ["redshiftSolver"; "linemeas_catalog_load"; "lineMeasSolver"; "reliabilitySolver"; "subClassifSolver"]) by (cbn; intuition auto).
    intros st Hst.
    assert (Hst' : st = "redshiftSolver" \/ st = "linemeas_catalog_load" \/ st = "lineMeasSolver" \/ st = "reliabilitySolver" \/ st = "subClassifSolver") by (intuition auto).
    clear X Hst.
    destruct S2 as [(N2 & -> & ->)|[(N2 & -> & ->)|(N2 & o2 & O2 & -> & ->)]];
    destruct S3 as [(N3 & -> & ->)|[(N3 & -> & ->)|(N3 & o3 & O3 & -> & ->)]];
    (destruct S4 as [NP|o4 [PLM NCAT] O4|n l el [PLM NCAT] L SI]; [| |destruct SI as [(N5 & _)|[(_ & -> & ->)|(_ & o5 & O5 & -> & ->)]]; [tauto| |]]);
    (destruct Hst' as [->|[->|[->|[->| ->]]]]; (split; [called_part|])); try (uncalled_none; fail);
    try (intros NCALL e; is_called NCALL; fail).
    all: intros NCALL e; cbn [find_error app String.eqb Ascii.eqb Bool.eqb]; split;
      [intro H; injection H as <-; exists "linemeas_catalog_load"; split; [reflexivity|]; split;
        [eexists _, _; split; [cbn [In app]; eauto 8|exact O4]|]; split; [destruct PLM as (n & L); exact (RLM n L)|right; auto]
      |intros (cause & -> & (? & ? & H & ?) & REQ & [[? ?]|[? ?]]); subst; incall; first [clash|reflexivity]].
Qed.
Lemma bad_run z o : solver_of s z -> o <> Okay ->
  story c m s [(call m "redshiftSolver" (Compute z), o)] /\
  errors_right m s [(call m "redshiftSolver" (Compute z), o)]
    (map (fun d => (d, NotRun "redshiftSolver")) (rev (filter (enabled c m) ["lineMeasSolver"; "reliabilitySolver"; "subClassifSolver"])) ++
     [("redshiftSolver", Failed (code_of o))])%list.
Proof.
  intros SZ O. assert (NZ : ~ forall z, ~ solver_of s z) by (intro H; exact (H z SZ)).
  assert (NS : ~ succeeded [(call m "redshiftSolver" (Compute z), o)]) by (intros (e & H); inversion H; subst; congruence).
  split.
  - exists [(call m "redshiftSolver" (Compute z), o)], [], [], [], []. split; [reflexivity|]. repeat apply conj.
    + left. eexists _, _. split; [exists z; auto|reflexivity].
    + right. split; [tauto|reflexivity].
    + right. split; [tauto|reflexivity].
    + right. split; [tauto|reflexivity].
    + right. split; [|reflexivity]. intros e (n & _ & [(e' & H)|[H _]] & _); [discriminate H|exact (NZ H)].
  - assert (FB : failed [(call m "redshiftSolver" (Compute z), o)] m "redshiftSolver").
    { eexists _, _. split; [left; reflexivity|exact O]. }
    assert (ER := enabled_rel).
    destruct enabled_lm as [(E1 & R1)|(E1 & R1)], enabled_sub as [(E2 & R2)|(E2 & R2)]; destruct (rel_listed s) eqn:E3;
    cbn [filter]; rewrite E1, E2, ER; cbn [rev map app].
    all: split; [intros p H; cbn [In] in H; repeat destruct H as [H|H]; subst; cbn; tauto|].
    all: intros st Hst; cbn [the_stages In] in Hst;
      assert (Hst' : st = "redshiftSolver" \/ st = "linemeas_catalog_load" \/ st = "lineMeasSolver" \/ st = "reliabilitySolver" \/ st = "subClassifSolver") by (intuition auto);
      clear Hst; (destruct Hst' as [->|[->|[->|[->| ->]]]]; (split; [called_part|])); try (intros NCALL e; is_called NCALL; fail).
    all: intros NCALL e; cbn [find_error app String.eqb Ascii.eqb Bool.eqb]; split;
      [intro H; first [discriminate H | injection H as <-; exists "redshiftSolver"; split; [reflexivity|]; split; [exact FB|]; split;
         [unfold requested; tauto|left; split; [reflexivity|discriminate]]]
      |intros (cause & -> & FC & REQ & [[-> ?]|[-> ?]]);
        [first [reflexivity | exfalso; destruct REQ as [[Q _]|[[Q Q']|[[Q Q']|[Q Q']]]]; first [discriminate Q|tauto|congruence]]
        |exfalso; destruct FC as (? & ? & H' & _); incall]].
Qed.
Lemma none_run l el : (forall z, ~ solver_of s z) ->
  (l = [] /\ el = [] /\ ~ ((exists n, linemeas_of s n) /\ In m (lm_catalog c))) \/
  (exists n, linemeas_of s n /\ In m (lm_catalog c) /\ simple True "lineMeasSolver" (Compute n) l el) ->
  story c m s l /\ errors_right m s l el.
Proof.
  intros NZ H. assert (NS : ~ @succeeded []) by (intros (e & H'); discriminate H').
  split.
  - exists [], [], [], [], l. split; [reflexivity|]. repeat apply conj.
    + right. split; [|reflexivity]. intros e (z & H' & _). exact (NZ z H').
    + right. split; [tauto|reflexivity].
    + right. split; [tauto|reflexivity].
    + right. split; [tauto|reflexivity].
    + destruct H as [(-> & _ & N)|(n & L & I & S)].
      * right. split; [|reflexivity]. intros e (n & L & [S|[_ I]] & _); [exact (NS S)|]. apply N. split; [exists n; exact L|exact I].
      * destruct S as [(N & _)|[(_ & -> & _)|(_ & o & _ & -> & _)]]; [tauto| |]; left; eexists _, _; (split; [|reflexivity]); exists n; auto.
  - assert (C : (l = [] /\ el = []) \/ exists n, simple True "lineMeasSolver" (Compute n) l el).
    { destruct H as [(A & B & _)|(n & _ & _ & S)]; eauto. }
    clear H. destruct C as [(-> & ->)|(n & S)]; [|destruct S as [(N & _)|[(_ & -> & ->)|(_ & o & O & -> & ->)]]; [tauto| |]].
    all: split; [intros p H; cbn [In] in H; repeat destruct H as [H|H]; subst; cbn; tauto|].
    all: intros st Hst; cbn [the_stages In] in Hst;
      assert (Hst' : st = "redshiftSolver" \/ st = "linemeas_catalog_load" \/ st = "lineMeasSolver" \/ st = "reliabilitySolver" \/ st = "subClassifSolver") by (intuition auto);
      clear Hst; (destruct Hst' as [->|[->|[->|[->| ->]]]]; (split; [called_part|])); try (intros NCALL e; is_called NCALL; fail).
    all: uncalled_none.
Qed.

Lemma process_model tr : exists r l el,
  leads (process_spectrum_model c world) r l el tr /\ (r = Ret \/ r = Exc ProcessFlowException) /\
  story c m s l /\ errors_right m s l el.
Proof.
  assert (SM : get_scope_spectrum_model scope_of_model = Some m).
  { unfold get_scope_spectrum_model. cbn. destruct (String.eqb_spec m "classification"); [contradiction|reflexivity]. }
  assert (PZ : forall z tr, In z the_methods -> let o := world tr (call m "redshiftSolver" (Compute z)) in
     leads (run_redshift_solver c world z) (match o with Okay => Ret | _ => Exc ProcessFlowException end)
        [(call m "redshiftSolver" (Compute z), o)] (eff "redshiftSolver" o) tr).
  { intros z t K o errs. rewrite run_z by exact K. reflexivity. }
  assert (PL : forall l tr, In l the_methods -> let o := world tr (call m "lineMeasSolver" (Compute l)) in
     leads (run_linemeas_solver c world l) Ret [(call m "lineMeasSolver" (Compute l), o)] (eff "lineMeasSolver" o) tr).
  { intros z t K o errs. rewrite run_l by exact K. reflexivity. }
  assert (PD : forall tr, let o := world tr (call m "linemeas_catalog_load" LoadLinemeas) in
     leads (run_load_linemeas_params c world) (match o with Okay => Ret | _ => Exc ProcessFlowException end)
        [(call m "linemeas_catalog_load" LoadLinemeas, o)] (eff "linemeas_catalog_load" o) tr).
  { intros t o errs. rewrite run_ld. reflexivity. }
  assert (PR : forall tr, let o := world tr (call m "reliabilitySolver" Reliability) in
     leads (run_reliability_solver c world) Ret [(call m "reliabilitySolver" Reliability, o)] (eff "reliabilitySolver" o) tr).
  { intros t o errs. rewrite run_rl. reflexivity. }
  assert (PS : forall tr, let o := world tr (call m "subClassifSolver" SubTypes) in
     leads (run_sub_classification_solver c world) Ret [(call m "subClassifSolver" SubTypes, o)] (eff "subClassifSolver" o) tr).
  { intros t o errs. rewrite run_sb. reflexivity. }
  cbv zeta in PZ, PL, PD, PR, PS.
  set (lmo := match get_linemeas_method c (Some m) with Some x => x | None => None end).
  assert (LMO : get_linemeas_method c (Some m) = Some lmo).
  { unfold lmo. destruct (lm_spec c m s HS) as [(l & E & _)|[E _]]; rewrite E; reflexivity. }
  assert (LMT : (truthy lmo = true /\ linemeas_of s (show lmo)) \/ (truthy lmo = false /\ forall l, ~ linemeas_of s l)).
  { unfold lmo, linemeas_of. destruct (lm_spec c m s HS) as [(l & E & A & B)|[E N]]; rewrite E; cbn [truthy show].
    - destruct (String.eqb_spec l "") as [->|N]; [right|left]; (split; [reflexivity|]).
      + intros l' (_ & B' & N'). congruence.
      + auto.
    - right. split; [reflexivity|]. intros l' (A & B & _). apply N. split; [exact A|congruence]. }
  assert (REL : get_reliability_enabled c (Some m) = Some (rel_listed s)).
  { unfold get_reliability_enabled, sect. rewrite HS. reflexivity. }
  assert (PROC : forall r l el, leads (
       match get_redshift_solver_method c (Some m) with
       | Some z =>
           run_redshift_solver c world z ;;
           when (is_tplratio_catalog_needed c (Some m)) (run_sub_classification_solver c world) ;;
           when (rel_listed s && mem m (rel_models c)) (run_reliability_solver c world) ;;
               when (truthy lmo && negb (mem m (lm_catalog c))) (run_load_linemeas_params c world ;; run_linemeas_solver c world (show lmo))
       | None => when (truthy lmo && mem m (lm_catalog c)) (run_linemeas_solver c world (show lmo))
       end) r l el tr -> leads (process_spectrum_model c world) r l el tr).
  { intros r l el H errs. rewrite <- H. unfold process_spectrum_model. cbn [st_stack]. rewrite SM, LMO, REL. reflexivity. }
  cut (exists r l el, leads (
       match get_redshift_solver_method c (Some m) with
       | Some z =>
           run_redshift_solver c world z ;;
           when (is_tplratio_catalog_needed c (Some m)) (run_sub_classification_solver c world) ;;
           when (rel_listed s && mem m (rel_models c)) (run_reliability_solver c world) ;;
               when (truthy lmo && negb (mem m (lm_catalog c))) (run_load_linemeas_params c world ;; run_linemeas_solver c world (show lmo))
       | None => when (truthy lmo && mem m (lm_catalog c)) (run_linemeas_solver c world (show lmo))
       end) r l el tr /\ (r = Ret \/ r = Exc ProcessFlowException) /\ story c m s l /\ errors_right m s l el).
  { intros (r & l & el & H & Q). exists r, l, el. split; [apply PROC; exact H|exact Q]. }
  clear PROC.
  assert (OS : forall tr, exists l el, leads (when (is_tplratio_catalog_needed c (Some m)) (run_sub_classification_solver c world)) Ret l el tr /\
     simple (needs_subtype s) "subClassifSolver" SubTypes l el).
  { intro t. destruct (sub_spec c m s HS) as [[E N]|[E N]]; rewrite E; cbn [when].
    - eexists _, _. split; [apply PS|]. apply simple_yes; [exact N|cbn; tauto].
    - exists [], []. split; [apply leads_ret|]. apply simple_no. exact N. }
  assert (OR : forall tr, exists l el, leads (when (rel_listed s && mem m (rel_models c)) (run_reliability_solver c world)) Ret l el tr /\
     simple (rel_listed s = true /\ In m (rel_models c)) "reliabilitySolver" Reliability l el).
  { intro t. destruct (rel_listed s) eqn:E; cbn [andb]; [destruct (mem_spec m (rel_models c)) as [[E' N]|[E' N]]; rewrite E'|]; cbn [when].
    - eexists _, _. split; [apply PR|]. apply simple_yes; [auto|cbn; tauto].
    - exists [], []. split; [apply leads_ret|]. apply simple_no. tauto.
    - exists [], []. split; [apply leads_ret|]. apply simple_no. intros [? _]. discriminate. }
  assert (OL : forall tr, exists r l el, leads (when (truthy lmo && negb (mem m (lm_catalog c))) (run_load_linemeas_params c world ;; run_linemeas_solver c world (show lmo)))
       r l el tr /\ loadlm r l el).
  { intro t. destruct LMT as [[E L]|[E L]]; rewrite E; cbn [andb]; [destruct (mem_spec m (lm_catalog c)) as [[E' N]|[E' N]]; rewrite E'; cbn [negb]|]; cbn [when].
    - exists Ret, [], []. split; [apply leads_ret|]. apply ll_none. unfold piped. tauto.
    - assert (PI : piped) by (split; [exists (show lmo); exact L|exact N]).
      pose proof (PD t) as D. destruct (okay_dec (world t (call m "linemeas_catalog_load" LoadLinemeas))) as [O|O].
      + rewrite O in D. pose proof (PL (show lmo) (rev [(call m "linemeas_catalog_load" LoadLinemeas, Okay)] ++ t)%list (KL _ L)) as M.
        cbv zeta in M. set (o := world _ (call m "lineMeasSolver" (Compute (show lmo)))) in M. clearbody o.
        change (eff "linemeas_catalog_load" Okay) with (@nil (string * error)) in D.
        pose proof (leads_seq _ _ _ _ _ _ _ _ D M) as R. rewrite app_nil_r in R.
        exists Ret. eexists _, _. split; [exact R|]. apply (ll_ok (show lmo)); [exact PI|exact L|]. apply simple_yes; [exact Logic.I|cbn; tauto].
      + exists (Exc ProcessFlowException). eexists _, _. split; [|exact (ll_bad _ PI O)].
        apply leads_exc. cbv zeta in D. rewrite (eff_ld_bad _ O) in D.
        destruct enabled_lm as [[E1 _]|[_ E1]]; [|exfalso; apply E1; destruct L as (A & B & _); split; [exact A|congruence]].
        cbn [filter] in D. rewrite E1 in D. cbn [rev map app] in D.
        destruct (world t (call m "linemeas_catalog_load" LoadLinemeas)); [congruence|exact D..].
    - exists Ret, [], []. split; [apply leads_ret|]. apply ll_none. intros ((n & H) & _). exact (L n H). }
  assert (EZ := z_spec c m s HS). destruct EZ as [(z & EZ & SZ)|[EZ SZ]]; rewrite EZ.
  - pose proof (PZ z tr (KZ z SZ)) as Z1. destruct (okay_dec (world tr (call m "redshiftSolver" (Compute z)))) as [O1|O1].
    + rewrite O1 in Z1. change (eff "redshiftSolver" Okay) with (@nil (string * error)) in Z1.
      destruct (OS (rev [(call m "redshiftSolver" (Compute z), Okay)] ++ tr)%list) as (l2 & el2 & L2 & S2).
      destruct (OR (rev l2 ++ rev [(call m "redshiftSolver" (Compute z), Okay)] ++ tr)%list) as (l3 & el3 & L3 & S3).
      destruct (OL (rev l3 ++ rev l2 ++ rev [(call m "redshiftSolver" (Compute z), Okay)] ++ tr)%list) as (r4 & l4 & el4 & L4 & S4).
      pose proof (leads_seq _ _ _ _ _ _ _ _ L3 L4) as L34.
      pose proof (leads_seq _ _ _ _ _ _ _ _ L2 L34) as L234.
      pose proof (leads_seq _ _ _ _ _ _ _ _ Z1 L234) as L1234.
      eexists _, _, _. split; [exact L1234|].
      split; [inversion S4; auto|]. exact (good_run z l2 el2 l3 el3 r4 l4 el4 SZ S2 S3 S4).
    + eexists _, _, _. split; [apply leads_exc; rewrite (eff_z_bad _ O1) in Z1;
        destruct (world tr (call m "redshiftSolver" (Compute z))) eqn:W; [congruence|rewrite <- W in Z1; exact Z1..]|].
      split; [right; reflexivity|]. exact (bad_run z _ SZ O1).
  - assert (ON : exists l el, leads (when (truthy lmo && mem m (lm_catalog c)) (run_linemeas_solver c world (show lmo))) Ret l el tr /\
       ((l = [] /\ el = [] /\ ~ ((exists n, linemeas_of s n) /\ In m (lm_catalog c))) \/
        (exists n, linemeas_of s n /\ In m (lm_catalog c) /\ simple True "lineMeasSolver" (Compute n) l el))).
    { destruct LMT as [[E L]|[E L]]; rewrite E; cbn [andb]; [destruct (mem_spec m (lm_catalog c)) as [[E' N]|[E' N]]; rewrite E'|]; cbn [when].
      - eexists _, _. split; [apply (PL (show lmo) tr (KL _ L))|]. right. exists (show lmo). split; [exact L|]. split; [exact N|].
        apply simple_yes; [exact Logic.I|cbn; tauto].
      - exists [], []. split; [apply leads_ret|]. left. tauto.
      - exists [], []. split; [apply leads_ret|]. left. split; [reflexivity|]. split; [reflexivity|]. intros ((n & H) & _). exact (L n H). }
    destruct ON as (l & el & LL & CASES). exists Ret, l, el. split; [exact LL|]. split; [left; reflexivity|].
    exact (none_run l el SZ CASES).
Qed.
End Model.
