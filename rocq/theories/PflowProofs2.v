From Coq Require Import String Ascii.
From Verif Require Import Base ScopeModel PflowModel PflowSpec PflowProofs.
Open Scope string_scope.

(** ** Keys *)
Lemma append_inj a x y : a ++ x = a ++ y -> x = y.
Proof. induction a as [|h a IH]; simpl; [auto|]. intro H. apply IH. congruence. Qed.
Lemma key_inj st st' m m' : In st the_stages -> In st' the_stages -> st ++ "_" ++ m = st' ++ "_" ++ m' -> st = st' /\ m = m'.
Proof.
  cbn [the_stages In]. intros A B H.
  destruct A as [<-|[<-|[<-|[<-|[<-|[]]]]]], B as [<-|[<-|[<-|[<-|[<-|[]]]]]]; cbn in H; try discriminate H;
  (split; [reflexivity|]); repeat (injection H as H); exact H.
Qed.
Lemma key_root st m k : In st the_stages -> In k ["init"; "classification"; "load_result_store"] -> st ++ "_" ++ m <> k.
Proof.
  cbn [the_stages In]. intros A B.
  destruct A as [<-|[<-|[<-|[<-|[<-|[]]]]]], B as [<-|[<-|[<-|[]]]]; cbn; discriminate.
Qed.
Lemma full_name_model m st : m <> "" -> full_name (Some m) (Some st) = st ++ "_" ++ m.
Proof. intro N. unfold full_name, truthy. destruct (String.eqb_spec m ""); [contradiction|reflexivity]. Qed.

(** errors of one model, most recent first *)
Definition keyed (m : string) (l : list (string * error)) : list (string * error) :=
  map (fun p => (fst p ++ "_" ++ m, snd p)) l.
Definition staged (l : list (string * error)) : Prop := forall p, In p l -> In (fst p) the_stages.
Lemma find_app k a b : find_error k (a ++ b) = match find_error k a with Some e => Some e | None => find_error k b end.
Proof. induction a as [|[k' e] a IH]; cbn; [reflexivity|]. destruct (k =? k'); [reflexivity|exact IH]. Qed.
Lemma find_keyed m st l : In st the_stages -> staged l -> find_error (st ++ "_" ++ m) (keyed m l) = find_error st l.
Proof.
  intros I. induction l as [|[k e] l IH]; intro S; [reflexivity|]. cbn [keyed map fst snd find_error].
  destruct (String.eqb_spec (st ++ "_" ++ m) (k ++ "_" ++ m)) as [E|E].
  - apply key_inj in E; [|exact I|apply (S (k, e)); left; reflexivity]. destruct E as [-> _]. rewrite String.eqb_refl. reflexivity.
  - destruct (String.eqb_spec st k) as [->|E']; [congruence|]. apply IH. intros p Hp. apply S. right. exact Hp.
Qed.
Lemma find_keyed_other m m' st l : In st the_stages -> staged l -> m <> m' -> find_error (st ++ "_" ++ m) (keyed m' l) = None.
Proof.
  intros I. induction l as [|[k e] l IH]; intros S N; [reflexivity|]. cbn [keyed map fst snd find_error].
  destruct (String.eqb_spec (st ++ "_" ++ m) (k ++ "_" ++ m')) as [E|E].
  - apply key_inj in E; [|exact I|apply (S (k, e)); left; reflexivity]. destruct E as [_ E]. contradiction.
  - apply IH; [|exact N]. intros p Hp. apply S. right. exact Hp.
Qed.
Lemma find_keyed_root m k l : In k ["init"; "classification"; "load_result_store"] -> staged l -> find_error k (keyed m l) = None.
Proof.
  intros I. induction l as [|[k' e] l IH]; intros S; [reflexivity|]. cbn [keyed map fst snd find_error].
  destruct (String.eqb_spec k (k' ++ "_" ++ m)) as [E|E].
  - exfalso. apply (key_root k' m k); [apply (S (k', e)); left; reflexivity|exact I|congruence].
  - apply IH. intros p Hp. apply S. right. exact Hp.
Qed.

(** ** Configuration *)
Section Conf.
Variables (c : setup) (m : string) (s : section).
Hypothesis HS : sections c m = Some s.
Lemma z_spec : (exists z, get_redshift_solver_method c (Some m) = Some z /\ solver_of s z) \/
  (get_redshift_solver_method c (Some m) = None /\ forall z, ~ solver_of s z).
Proof.
  unfold get_redshift_solver_method, sect, solver_of. rewrite HS. destruct (z_method s) as [z|].
  - destruct (String.eqb_spec z "") as [->|N]; [right|left].
    + split; [reflexivity|]. intros z [E N]. congruence.
    + exists z. auto.
  - right. split; [reflexivity|]. intros z [E _]. discriminate.
Qed.
Lemma sub_spec : (is_tplratio_catalog_needed c (Some m) = true /\ needs_subtype s) \/
  (is_tplratio_catalog_needed c (Some m) = false /\ ~ needs_subtype s).
Proof.
  unfold is_tplratio_catalog_needed, get_redshift_solver_method, sect, needs_subtype. rewrite HS. destruct (z_method s) as [z|].
  - destruct (String.eqb_spec z "") as [->|N]; [right; split; [reflexivity|intros [E _]; discriminate E]|].
    destruct (String.eqb_spec z "lineModelSolve") as [->|N']; [|right; split; [reflexivity|intros [E _]; congruence]].
    destruct (ratio_type s) as [r|]; [|right; split; [reflexivity|intros [_ [E|E]]; discriminate]].
    destruct (String.eqb_spec r "tplRatio") as [->|A]; [left; auto|].
    destruct (String.eqb_spec r "tplCorr") as [->|B]; [left; auto|]. right. split; [reflexivity|]. intros [_ [E|E]]; congruence.
  - right. split; [reflexivity|]. intros [E _]; discriminate.
Qed.
Lemma lm_spec : (exists l, get_linemeas_method c (Some m) = Some (Some l) /\ lm_listed s = true /\ lm_method s = Some l) \/
  (get_linemeas_method c (Some m) = Some None /\ ~ (lm_listed s = true /\ lm_method s <> None)).
Proof.
  unfold get_linemeas_method, sect. rewrite HS. destruct (lm_listed s); [|right; split; [reflexivity|intros [E _]; discriminate]].
  destruct (lm_method s) as [l|]; [left; eauto|right]. split; [reflexivity|]. intros [_ E]. congruence.
Qed.
End Conf.

Lemma mem_spec x l : (mem x l = true /\ In x l) \/ (mem x l = false /\ ~ In x l).
Proof.
  unfold mem. destruct (existsb (String.eqb x) l) eqn:E; [left|right]; split; auto.
  - apply existsb_exists in E. destruct E as (y & Hy & E). apply String.eqb_eq in E. congruence.
  - intro H. assert (existsb (String.eqb x) l = true) by (apply existsb_exists; exists x; split; [exact H|apply String.eqb_refl]). congruence.
Qed.

(** ** One stage *)
Section Stage.
Variables (c : setup) (world : history -> event -> outcome).
Hypothesis U : uninterrupted world.
Variables (m : string) (s : section).
Hypothesis NE : m <> "".
Hypothesis NC : m <> "classification".
Hypothesis HS : sections c m = Some s.

Definition scope_of_model : stack := [(m, SPECTRUMMODEL)].
Definition code_of (o : outcome) : string := match o with AmzError k => k | _ => "PYTHON_API_ERROR" end.
Definition enabled (st : string) : bool := match stage_enabled c (Some m) st with Some b => b | None => false end.
Definition effect (st : string) (o : outcome) : list (string * error) :=
  match o with
  | Okay => []
  | _ => map (fun d => (d, NotRun st))
             (rev (filter enabled (match assoc st spectrum_model_stages with Some l => l | None => [] end))) ++ [(st, Failed (code_of o))]
  end%list.

Lemma all_enabled st : In st the_stages -> stage_enabled c (Some m) st <> None.
Proof.
  destruct (lm_spec c m s HS) as [(l & E & _)|[E _]];
  cbn [the_stages In]; intros [<-|[<-|[<-|[<-|[<-|[]]]]]]; cbn -[get_linemeas_method get_redshift_solver_method is_tplratio_catalog_needed];
  rewrite ?E; try discriminate; unfold get_reliability_enabled, sect; rewrite HS; discriminate.
Qed.
Lemma propagate_eq l k : (forall d, In d l -> In d the_stages) -> forall st errs tr,
  propagate c (Some m) l k (mkState st errs tr) =
  (mkState st (keyed m (map (fun d => (d, NotRun k)) (rev (filter enabled l))) ++ errs)%list tr, Ret).
Proof.
  induction l as [|d l IH]; intros I st errs tr; [reflexivity|]. cbn [propagate].
  pose proof (all_enabled d (I d (or_introl eq_refl))) as A. cbn [filter]. unfold enabled at 1.
  destruct (stage_enabled c (Some m) d) as [b|]; [|contradiction].
  assert (I' : forall d, In d l -> In d the_stages) by (intros; apply I; right; assumption).
  destruct b.
  - change ((when true (store_consequent_error (Some m) d k);; propagate c (Some m) l k) (mkState st errs tr))
      with (propagate c (Some m) l k (mkState st (put_error (full_name (Some m) (Some d)) (NotRun k) errs) tr)).
    rewrite (IH I'). f_equal. f_equal. cbn [rev]. unfold keyed. rewrite !map_app, <- app_assoc. cbn [map app fst snd].
    unfold put_error. rewrite full_name_model by exact NE. reflexivity.
  - change ((when false (store_consequent_error (Some m) d k);; propagate c (Some m) l k) (mkState st errs tr))
      with (propagate c (Some m) l k (mkState st errs tr)).
    apply IH. exact I'.
Qed.

Lemma store_eq k st errs tr : In st the_stages ->
  let sk := [(m, SPECTRUMMODEL); (st, STAGE)] in
  store_error c k (get_scope_spectrum_model sk) (get_scope_stage sk) (mkState sk errs tr) =
  (mkState sk (keyed m (effect st (AmzError k)) ++ errs)%list tr, Ret).
Proof.
  intros I sk. assert (SM : get_scope_spectrum_model sk = Some m).
  { unfold get_scope_spectrum_model, sk. cbn. destruct (String.eqb_spec m "classification"); [contradiction|reflexivity]. }
  assert (ST : get_scope_stage sk = Some st) by (unfold get_scope_stage; rewrite SM; reflexivity).
  rewrite SM, ST. unfold store_error. unfold truthy at 1. destruct (String.eqb_spec m ""); [contradiction|]. cbn [negb andb].
  cbn [set_errors st_stack st_errors st_trace]. rewrite full_name_model by exact NE. unfold effect.
  cbn [the_stages In] in I. destruct I as [<-|[<-|[<-|[<-|[<-|[]]]]]];
  (repeat match goal with |- context [assoc ?k spectrum_model_stages] =>
     let v := eval vm_compute in (assoc k spectrum_model_stages) in change (assoc k spectrum_model_stages) with v end);
  cbv beta iota zeta; unfold set_errors; cbn [st_stack st_errors st_trace]; (rewrite propagate_eq by (cbn; tauto));
  unfold keyed; rewrite map_app, <- app_assoc; reflexivity.
Qed.
Lemma stage_eq b a st errs tr : In st the_stages ->
  with_scope st STAGE (handler c b (act world a)) (mkState scope_of_model errs tr) =
  let o := world tr (call m st a) in
  (mkState scope_of_model (keyed m (effect st o) ++ errs)%list ((call m st a, o) :: tr),
   match o with Okay => Ret | _ => if b then Exc ProcessFlowException else Ret end).
Proof.
  intros I. unfold with_scope. cbn [st_stack scope_of_model may_push_b find_type find st_eqb snd is_some negb andb].
  unfold handler. cbv beta. unfold act. cbn [set_stack st_stack st_errors st_trace].
  change (a, (scope_of_model ++ [(st, STAGE)])%list) with (call m st a).
  change (scope_of_model ++ [(st, STAGE)])%list with [(m, SPECTRUMMODEL); (st, STAGE)].
  cbv zeta.
  destruct (world tr (call m st a)) as [|k| |] eqn:W; cbn [as_exn].
  - reflexivity.
  - pose proof (store_eq k st errs ((call m st a, AmzError k) :: tr) I) as E. cbv zeta in E.
    unfold seq. cbv beta iota. cbn [st_stack].
    match goal with |- context [store_error c ?k ?x ?y ?z] =>
      match type of E with _ = ?v => replace (store_error c k x y z) with v by (symmetry; exact E) end end.
    destruct b; reflexivity.
  - pose proof (store_eq "PYTHON_API_ERROR" st errs ((call m st a, OtherError) :: tr) I) as E. cbv zeta in E.
    unfold seq. cbv beta iota. cbn [st_stack].
    match goal with |- context [store_error c ?k ?x ?y ?z] =>
      match type of E with _ = ?v => replace (store_error c k x y z) with v by (symmetry; exact E) end end.
    destruct b; reflexivity.
  - exfalso. exact (U _ _ W).
Qed.

(** what is known of the errors of a model, from its calls *)
Definition errors_right (l : history) (el : list (string * error)) : Prop :=
  staged el /\
  forall st, In st the_stages ->
    (forall a o, In (call m st a, o) l -> (o = Okay -> find_error st el = None) /\
       (o <> Okay -> find_error st el = Some (Failed (code_of o)))) /\
    (~ called l m st -> forall e, find_error st el = Some e <-> exists cause, e = NotRun cause /\ blocked s l m st cause).
End Stage.
