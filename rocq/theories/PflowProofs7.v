From Coq Require Import String Ascii.
From Verif Require Import Base ScopeModel PflowModel PflowSpec PflowProofs PflowProofs2 PflowProofs3 PflowProofs4 PflowProofs5 PflowProofs6.
Open Scope string_scope.

Lemma made_unique h0 h1 a b : made h0 h1 a -> made h0 h1 b -> a = b.
Proof.
  unfold made. intros -> H. apply app_inv_tail in H. rewrite <- (rev_involutive a), <- (rev_involutive b). congruence.
Qed.

Section Run.
Variables (c : setup) (world : history -> event -> outcome) (s0 s1 : state) (r : pyres) (calls : history).
Hypothesis R : regular c.
Hypothesis U : uninterrupted world.
Hypothesis E0 : st_stack s0 = [].
Hypothesis RUN : run c world s0 = (s1, r).

Lemma shaped : exists l, shape c s0 s1 r l /\ made (st_trace s0) (st_trace s1) l.
Proof.
  destruct (run_shape c world U R s0 E0) as (s1' & r' & l & RUN' & SH). rewrite RUN in RUN'. inversion RUN'; subst s1' r'.
  exists l. split; [exact SH|]. clear -SH. inversion SH; subst; unfold made; cbn [st_trace]; [reflexivity..|].
  rewrite !rev_app_distr. cbn [rev app]. rewrite <- !app_assoc. reflexivity.
Qed.

Lemma items_stories ps : Forall (good c) ps ->
  Forall2 (fun m l => exists s, sections c m = Some s /\ story c m s l) (map (fun p => fst (fst p)) ps) (map (fun p => snd (fst p)) ps).
Proof.
  induction 1 as [|p ps (s & HS & ST & _) _ IH]; cbn; constructor; [exists s; auto|exact IH].
Qed.

Lemma run_calls : exists calls, made (st_trace s0) (st_trace s1) calls /\ run_story c calls /\
  (r = Ret \/ exists a o, In (root_call a, o) calls /\ (a = StoreFlags \/ a = LoadRoot) /\ o <> Okay).
Proof.
  destruct shaped as (l & SH & MD). exists l. split; [exact MD|]. clear MD.
  destruct SH as [oi ofl e er OF|oi ol r0 A B D|ps cl ce ol MP G C OL].
  - split; [constructor; assumption|]. right. exists StoreFlags, ofl. cbn. auto.
  - split; [constructor; assumption|]. destruct r0; [left; reflexivity|right]. exists LoadRoot, ol. cbn. split; [auto|]. split; [auto|]. apply D. discriminate.
  - split; [|left; reflexivity]. apply full.
    + rewrite <- MP. apply items_stories. exact G.
    + destruct C as [(N & -> & _)|[(S & N & -> & _)|(S & Y & o & _ & -> & _)]].
      * right. split; [tauto|reflexivity].
      * right. split; [|reflexivity]. intros e (_ & Y & _). exact (N Y).
      * left. exists classification_call, o. auto.
Qed.

Hypothesis MADE : made (st_trace s0) (st_trace s1) calls.

Lemma shaped' : shape c s0 s1 r calls.
Proof. destruct shaped as (l & SH & MD). rewrite (made_unique _ _ _ _ MADE MD). exact SH. Qed.

Definition initialised : Prop := In (root_call Initialise, Okay) calls /\ In (root_call StoreFlags, Okay) calls.

Lemma in_full ps cl ce ol m st a o : classif c (item_calls ps) cl ce -> In m (models c) ->
  In (call m st a, o) ([(root_call Initialise, Okay); (root_call StoreFlags, Okay)] ++ item_calls ps ++ cl ++ [(load_call, ol)])%list <->
  In (call m st a, o) (item_calls ps).
Proof.
  intros C IM. destruct (reg_names c R m IM) as [NE NC].
  rewrite !in_app_iff. split; [|auto]. intros [H|[H|[H|H]]].
  - cbn in H. unfold call, root_call in H. intuition discriminate.
  - exact H.
  - exfalso. destruct C as [(_ & -> & _)|[(_ & _ & -> & _)|(_ & _ & o' & _ & -> & _)]]; cbn in H; [tauto..|].
    destruct H as [H|[]]. unfold classification_call, call in H. inversion H. congruence.
  - cbn in H. unfold call, load_call in H. destruct H as [H|[]]. discriminate H.
Qed.

Lemma after_root el ce' ps m st : In st the_stages -> (el = [] \/ exists e, el = [("load_result_store", e)]) ->
  (ce' = [] \/ exists e, ce' = [("classification", e)]) ->
  find_error (st ++ "_" ++ m) (el ++ ce' ++ item_errors ps ++ [])%list = find_error (st ++ "_" ++ m) (item_errors ps ++ [])%list.
Proof.
  intros I A B.
  assert (K : forall k, In k ["init"; "classification"; "load_result_store"] -> (st ++ "_" ++ m =? k) = false).
  { intros k Ik. apply String.eqb_neq. apply key_root; assumption. }
  destruct A as [->|(e & ->)], B as [->|(e' & ->)]; cbn [app find_error]; rewrite ?K by (cbn; tauto); reflexivity.
Qed.

Lemma model_error_item ps cl ce ol m h el : map (fun p => fst (fst p)) ps = models c -> Forall (good c) ps ->
  classif c (item_calls ps) cl ce -> In (m, h, el) ps -> forall st, In st the_stages ->
  find_error (st ++ "_" ++ m) (root_effect "load_result_store" ol ++ ce ++ item_errors ps ++ [])%list = find_error st el.
Proof.
  intros MP G C IP st I. rewrite after_root; [|exact I|destruct ol; cbn; eauto|].
  - pose proof (reg_distinct c R) as ND. rewrite <- MP in ND. rewrite (item_error c ps m h el st [] G ND IP I).
    destruct (find_error st el); reflexivity.
  - destruct C as [(_ & _ & ->)|[(_ & _ & _ & ->)|(_ & _ & o' & _ & _ & ->)]]; [left; reflexivity|right; eauto|destruct o'; cbn; eauto].
Qed.

Lemma of_model ps : map (fun p => fst (fst p)) ps = models c -> Forall (good c) ps -> forall m, In m (models c) ->
  exists h el s, In (m, h, el) ps /\ sections c m = Some s /\ errors_right m s h el /\
   forall st a o, In (call m st a, o) (item_calls ps) <-> In (call m st a, o) h.
Proof.
  intros MP G m IM. pose proof (reg_distinct c R) as ND. rewrite <- MP in ND, IM.
  apply in_map_iff in IM. destruct IM as (((m' & h) & el) & E & IP). cbn in E. subst m'.
  pose proof (proj1 (Forall_forall _ _) G _ IP) as (s & HS & _ & ER). cbn [fst snd] in *.
  exists h, el, s. split; [exact IP|]. split; [exact HS|]. split; [exact ER|]. exact (own_calls c ps m h el G ND IP).
Qed.

Lemma errors_of_calls m st a o : In m (models c) -> In st the_stages -> In (call m st a, o) calls ->
  (o = Okay -> model_error s1 m st = None) /\ (forall k, failure o k -> model_error s1 m st = Some (Failed k)).
Proof.
  intros IM IST I. destruct shaped' as [oi ofl e er OF|oi ol r0 A B D|ps cl ce ol MP G C OL].
  - cbn in I. unfold call, root_call in I. intuition discriminate.
  - cbn in I. unfold call, root_call in I. intuition discriminate.
  - destruct (of_model ps MP G m IM) as (h & el & s & IP & HS & (_ & ER) & OWN).
    apply (in_full ps cl ce ol m st a o C IM) in I. apply OWN in I. unfold model_error. cbn [st_errors].
    rewrite (model_error_item ps cl ce ol m h el MP G C IP st IST). destruct (ER st IST) as [CA _]. destruct (CA a o I) as [X Y].
    split; [exact X|]. intros k F. rewrite (failure_code _ _ F). apply Y. intros ->. destruct F as [F|[F _]]; discriminate F.
Qed.

Lemma errors_without_call m s st : initialised -> In m (models c) -> sections c m = Some s -> In st the_stages -> ~ called calls m st ->
  forall e, model_error s1 m st = Some e <-> exists cause, e = NotRun cause /\ blocked s calls m st cause.
Proof.
  intros [I1 I2] IM HS IST NCALL. destruct shaped' as [oi ofl e er OF|oi ol r0 A B D|ps cl ce ol MP G C OL].
  - exfalso. cbn in I2. unfold root_call in I2. destruct I2 as [I2|[I2|[]]]; [discriminate I2|congruence].
  - exfalso. cbn in I1. unfold root_call in I1. destruct I1 as [I1|[I1|[I1|[]]]]; [congruence|discriminate I1..].
  - destruct (of_model ps MP G m IM) as (h & el & s' & IP & HS' & (_ & ER) & OWN).
    assert (s' = s) by congruence. subst s'.
    assert (EQ : forall st a o, In (call m st a, o) ([(root_call Initialise, Okay); (root_call StoreFlags, Okay)] ++ item_calls ps ++ cl ++ [(load_call, ol)])%list <-> In (call m st a, o) h).
    { intros st' a o. rewrite (in_full ps cl ce ol m st' a o C IM). apply OWN. }
    intro e. unfold model_error. cbn [st_errors]. rewrite (model_error_item ps cl ce ol m h el MP G C IP st IST).
    destruct (ER st IST) as [_ UN]. rewrite UN.
    + unfold blocked, failed. split; intros (cause & Q & (a & o & I & NO) & REST); exists cause; (split; [exact Q|]); split; auto;
      exists a, o; (split; [apply EQ; exact I|exact NO]).
    + intros (a & o & I). apply NCALL. exists a, o. apply EQ. exact I.
Qed.

Lemma root_find k ps el ce : In k ["init"; "classification"; "load_result_store"] -> Forall (good c) ps ->
  find_error k (el ++ ce ++ item_errors ps ++ [])%list = find_error k (el ++ ce)%list.
Proof.
  intros I G. rewrite app_assoc, find_app. rewrite (item_root c ps k [] G I). destruct (find_error k (el ++ ce)%list); reflexivity.
Qed.
Lemma root_errors : initialised ->
  root_error s1 "init" = None /\
  (forall o, In (classification_call, o) calls ->
     (o = Okay -> root_error s1 "classification" = None) /\ (forall k, failure o k -> root_error s1 "classification" = Some (Failed k))) /\
  ((forall o, ~ In (classification_call, o) calls) ->
     (solver_used c -> root_error s1 "classification" = Some (Failed "NO_CLASSIFICATION")) /\
     (~ solver_used c -> root_error s1 "classification" = None)) /\
  (exists o, In (load_call, o) calls /\
     (o = Okay -> root_error s1 "load_result_store" = None) /\ (forall k, failure o k -> root_error s1 "load_result_store" = Some (Failed k))).
Proof.
  intros [I1 I2]. destruct shaped' as [oi ofl e er OF|oi ol r0 A B D|ps cl ce ol MP G C OL].
  - exfalso. cbn in I2. unfold root_call in I2. destruct I2 as [I2|[I2|[]]]; [discriminate I2|congruence].
  - exfalso. cbn in I1. unfold root_call in I1. destruct I1 as [I1|[I1|[I1|[]]]]; [congruence|discriminate I1..].
  - unfold root_error. cbn [st_errors]. rewrite !root_find by (cbn; tauto || exact G).
    assert (FC : forall st o k, failure o k -> root_effect st o = [(st, Failed k)]).
    { intros st o k [->|[-> ->]]; reflexivity. }
    assert (ND : forall o, ~ In (classification_call, o) (item_calls ps)).
    { intros o I. unfold item_calls in I. apply in_concat in I. destruct I as (x & Hx & Hi). apply in_map_iff in Hx.
      destruct Hx as (((m' & h') & el') & <- & Hp). cbn [fst snd] in Hi.
      pose proof (proj1 (Forall_forall _ _) G _ Hp) as (s & _ & ST & _). cbn [fst snd] in ST.
      destruct (story_scope c m' s h' _ _ ST Hi) as (a' & st' & _ & E). unfold call, classification_call in E. inversion E; subst m'.
      assert (IM : In "classification" (models c)) by (rewrite <- MP; apply in_map_iff; eexists; split; [|exact Hp]; reflexivity).
      destruct (reg_names c R _ IM) as [_ NC]. congruence. }
    assert (INC : forall o, In (classification_call, o) ([(root_call Initialise, Okay); (root_call StoreFlags, Okay)] ++ item_calls ps ++ cl ++ [(load_call, ol)])%list -> In (classification_call, o) cl).
    { intros o H. rewrite !in_app_iff in H. destruct H as [H|[H|[H|H]]].
      - cbn in H. unfold classification_call, root_call in H. intuition discriminate.
      - destruct (ND o H).
      - exact H.
      - cbn in H. unfold classification_call, load_call in H. destruct H as [H|[]]. discriminate H. }
    split; [|split; [|split]].
    + destruct C as [(_ & _ & ->)|[(_ & _ & _ & ->)|(_ & _ & o' & _ & _ & ->)]]; destruct ol; try (destruct o'); reflexivity.
    + intros o I. apply INC in I. destruct C as [(_ & -> & _)|[(_ & _ & -> & _)|(_ & _ & o' & _ & -> & ->)]]; [destruct I..|].
      destruct I as [I|[]]. inversion I; subst o'. split.
      * intros ->. destruct ol; reflexivity.
      * intros k F. rewrite (FC _ _ _ F). destruct ol; reflexivity.
    + intros NI. destruct C as [(NS & _ & ->)|[(S & _ & _ & ->)|(_ & _ & o' & _ & -> & _)]].
      * split; [tauto|]. intros _. destruct ol; reflexivity.
      * split; [|tauto]. intros _. destruct ol; reflexivity.
      * exfalso. apply (NI o'). rewrite !in_app_iff. right; right; left. left. reflexivity.
    + exists ol. split; [rewrite !in_app_iff; right; right; right; left; reflexivity|]. split.
      * intros ->. destruct C as [(_ & _ & ->)|[(_ & _ & _ & ->)|(_ & _ & o' & _ & _ & ->)]]; try destruct o'; reflexivity.
      * intros k F. rewrite (FC _ _ _ F). reflexivity.
Qed.

Lemma init_enabled m s st : In m (models c) -> sections c m = Some s -> In st the_stages ->
  (enabled c m st = true <-> requested_at_init s st).
Proof.
  intros IM HS I. unfold requested_at_init, requested. cbn [the_stages In] in I.
  destruct I as [<-|[<-|[<-|[<-|[<-|[]]]]]].
  - unfold enabled, stage_enabled. cbn [String.eqb Ascii.eqb Bool.eqb].
    destruct (z_spec c m s HS) as [(z & E & SZ)|[E NZ]]; rewrite E; cbn; split; try discriminate; auto.
    + left. left. split; [reflexivity|]. exists z. exact SZ.
    + intros [[[_ (z & H)]|[[H _]|[[H _]|[H _]]]]|[H _]]; try discriminate H. destruct (NZ z H).
  - unfold enabled, stage_enabled. cbn [String.eqb Ascii.eqb Bool.eqb].
    destruct (z_spec c m s HS) as [(z & E & SZ)|[E NZ]]; rewrite E; cbn;
    destruct (lm_spec c m s HS) as [(l & E' & A & B)|[E' N]]; rewrite E'; cbn; split; try discriminate; auto.
    + intros [[[H _]|[[H _]|[[H _]|[H _]]]]|(_ & _ & _ & H)]; try discriminate H. destruct (H z SZ).
    + intros [[[H _]|[[H _]|[[H _]|[H _]]]]|(_ & _ & _ & H)]; try discriminate H. destruct (H z SZ).
    + intros _. right. split; [reflexivity|]. split; [exact A|]. split; [congruence|exact NZ].
    + intros [[[H _]|[[H _]|[[H _]|[H _]]]]|(_ & A & B & _)]; try discriminate H. tauto.
  - destruct (enabled_lm c m s HS) as [(E & A)|(E & A)]; rewrite E; split; intro X; try discriminate X; try reflexivity.
    + left. right. left. tauto.
    + destruct X as [[[H _]|[[_ H]|[[H _]|[H _]]]]|[H _]]; try discriminate H. tauto.
  - rewrite (enabled_rel c m s HS). split.
    + intro H. left. right. right. left. auto.
    + intros [[[H _]|[[H _]|[[_ H]|[H _]]]]|[H _]]; try discriminate H. exact H.
  - destruct (enabled_sub c m s HS) as [(E & A)|(E & A)]; rewrite E; split; intro X; try discriminate X; try reflexivity.
    + left. right. right. right. auto.
    + destruct X as [[[H _]|[[H _]|[[H _]|[_ H]]]]|[H _]]; try discriminate H. tauto.
Qed.
Lemma init_find ms m st rest : In st the_stages -> NoDup ms ->
  find_error (st ++ "_" ++ m) (init_effect c ms ++ rest)%list =
  if existsb (String.eqb m) ms && enabled c m st then Some (NotRun "init") else find_error (st ++ "_" ++ m) rest.
Proof.
  intros I ND. rewrite find_app. unfold init_effect.
  assert (SG : forall x, staged (map (fun d => (d, NotRun "init")) (rev (filter (enabled c x) init_stages)))).
  { intros x p H. apply in_map_iff in H. destruct H as (d & <- & H). apply in_rev in H. apply filter_In in H. destruct H as [H _]. exact H. }
  assert (ONE : forall x, find_error st (map (fun d => (d, NotRun "init")) (rev (filter (enabled c x) init_stages))) =
    if enabled c x st then Some (NotRun "init") else None).
  { intro x. assert (Y : forall l, find_error st (map (fun d => (d, NotRun "init")) l) = if existsb (String.eqb st) l then Some (NotRun "init") else None).
    { induction l as [|d l IH]; [reflexivity|]. cbn. destruct (st =? d); [reflexivity|exact IH]. }
    rewrite Y. destruct (enabled c x st) eqn:E.
    - replace (existsb (String.eqb st) _) with true; [reflexivity|]. symmetry. apply existsb_exists. exists st.
      split; [apply -> in_rev; apply filter_In; split; [exact I|exact E]|apply String.eqb_refl].
    - replace (existsb (String.eqb st) _) with false; [reflexivity|]. symmetry. apply not_true_is_false. intro H.
      apply existsb_exists in H. destruct H as (d & H & Q). apply String.eqb_eq in Q. subst d. apply in_rev in H. apply filter_In in H. destruct H; congruence. }
  assert (X : forall l, find_error (st ++ "_" ++ m) (concat (map (fun x => keyed x (map (fun d => (d, NotRun "init")) (rev (filter (enabled c x) init_stages)))) l)) =
     if existsb (String.eqb m) l && enabled c m st then Some (NotRun "init") else None).
  { induction l as [|x l IH]; [reflexivity|]. cbn [map concat existsb]. rewrite find_app.
    destruct (String.eqb_spec m x) as [->|N]; cbn [orb].
    - rewrite find_keyed by (exact I || apply SG). rewrite ONE. cbn [andb]. destruct (enabled c x st) eqn:E; [reflexivity|].
      rewrite IH, andb_false_r. reflexivity.
    - rewrite find_keyed_other by (exact I || apply SG || exact N). exact IH. }
  rewrite X. replace (existsb (String.eqb m) (rev ms)) with (existsb (String.eqb m) ms).
  - destruct (_ && _); reflexivity.
  - apply Bool.eq_iff_eq_true. rewrite !existsb_exists. split; intros (x & H & E); exists x; (split; [|exact E]); apply in_rev in H || apply -> in_rev in H; exact H.
Qed.

Lemma init_errors o : In (root_call Initialise, o) calls -> o <> Okay -> In (root_call StoreFlags, Okay) calls ->
  (forall k, failure o k -> root_error s1 "init" = Some (Failed k)) /\
  root_error s1 "classification" = None /\ root_error s1 "load_result_store" = None /\
  forall m s st, In m (models c) -> sections c m = Some s -> In st the_stages ->
    forall e, model_error s1 m st = Some e <-> e = NotRun "init" /\ requested_at_init s st.
Proof.
  intros I NO I2. destruct shaped' as [oi ofl e er OF|oi ol r0 A B D|ps cl ce ol MP G C OL].
  - exfalso. cbn in I2. unfold root_call in I2. destruct I2 as [I2|[I2|[]]]; [discriminate I2|congruence].
  - assert (oi = o).
    { cbn in I. unfold root_call in I. destruct I as [I|[I|[I|[]]]]; [congruence|discriminate I..]. }
    subst oi. unfold root_error, model_error. cbn [st_errors].
    assert (RT : forall k, In k ["init"; "classification"; "load_result_store"] -> forall rest, find_error k (init_effect c (models c) ++ rest)%list = find_error k rest).
    { intros k Ik rest. rewrite find_app. unfold init_effect. generalize (rev (models c)). intro l. induction l as [|x l IH]; [reflexivity|].
      cbn [map concat]. rewrite find_app, find_keyed_root; [exact IH|exact Ik|].
      intros p H. apply in_map_iff in H. destruct H as (d & <- & H). apply in_rev in H. apply filter_In in H. destruct H as [H _]. exact H. }
    rewrite !RT by (cbn; tauto). split; [|split; [reflexivity|split; [reflexivity|]]].
    + intros k F. cbn. rewrite (failure_code _ _ F). reflexivity.
    + intros m s st IM HS IST e. rewrite init_find by (exact IST || apply (reg_distinct c R)).
      replace (existsb (String.eqb m) (models c)) with true.
      2:{ symmetry. apply existsb_exists. exists m. split; [exact IM|apply String.eqb_refl]. }
      cbn [andb]. pose proof (init_enabled m s st IM HS IST) as EN. destruct (enabled c m st).
      * split; [intro H; inversion H; split; [reflexivity|apply EN; reflexivity]|intros [-> _]; reflexivity].
      * cbn [find_error]. destruct (String.eqb_spec (st ++ "_" ++ m) "init") as [Q|Q]; [destruct (key_root st m "init" IST (or_introl eq_refl) Q)|].
        split; [discriminate|]. intros [_ H]. apply EN in H. discriminate.
  - exfalso. rewrite !in_app_iff in I. destruct I as [I|[I|[I|I]]].
    + cbn in I. unfold root_call in I. destruct I as [I|[I|[]]]; [congruence|discriminate I].
    + unfold item_calls in I. apply in_concat in I. destruct I as (x & Hx & Hi). apply in_map_iff in Hx.
      destruct Hx as (((m' & h') & el') & <- & Hp). cbn [fst snd] in Hi.
      pose proof (proj1 (Forall_forall _ _) G _ Hp) as (s & _ & ST & _). cbn [fst snd] in ST.
      destruct (story_scope c m' s h' _ _ ST Hi) as (a' & st' & _ & E). unfold call, root_call in E. discriminate E.
    + destruct C as [(_ & -> & _)|[(_ & _ & -> & _)|(_ & _ & o' & _ & -> & _)]]; cbn in I; [tauto..|].
      destruct I as [I|[]]. discriminate I.
    + cbn in I. destruct I as [I|[]]. discriminate I.
Qed.
End Run.
