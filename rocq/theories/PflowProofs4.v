From Coq Require Import String Ascii.
From Verif Require Import Base ScopeModel PflowModel PflowSpec PflowProofs PflowProofs2 PflowProofs3.
Open Scope string_scope.

Section Run.
Variables (c : setup) (world : history -> event -> outcome).
Hypothesis U : uninterrupted world.
Hypothesis R : regular c.

Definition item := (string * history * list (string * error))%type.
Definition good (p : item) : Prop := exists s, sections c (fst (fst p)) = Some s /\
  story c (fst (fst p)) s (snd (fst p)) /\ errors_right (fst (fst p)) s (snd (fst p)) (snd p).
Definition item_errors (ps : list item) : list (string * error) := concat (map (fun p => keyed (fst (fst p)) (snd p)) (rev ps)).
Definition item_calls (ps : list item) : history := concat (map (fun p => snd (fst p)) ps).

Lemma models_run l : (forall m, In m l -> In m (models c)) -> forall errs tr, exists ps,
  map (fun p => fst (fst p)) ps = l /\ Forall good ps /\
  process_models c world l (mkState [] errs tr) = (mkState [] (item_errors ps ++ errs)%list (rev (item_calls ps) ++ tr)%list, Ret).
Proof.
  induction l as [|m l IH]; intros I errs tr.
  - exists []. split; [reflexivity|]. split; [constructor|reflexivity].
  - assert (IM : In m (models c)) by (apply I; left; reflexivity).
    destruct (reg_names c R m IM) as [NE NC]. destruct (reg_sections c R m IM) as [s HS].
    destruct (process_model c world U m s NE NC HS (fun z => reg_solver c R m s z IM HS) (fun z => reg_linemeas c R m s z IM HS) tr)
      as (r & h & el & L & RR & ST & ER).
    destruct (IH (fun x H => I x (or_intror H)) (keyed m el ++ errs)%list (rev h ++ tr)%list) as (ps & MP & GP & RUN).
    exists ((m, h, el) :: ps). split; [cbn; congruence|]. split; [constructor; [exists s; auto|exact GP]|].
    cbn [process_models]. unfold seq at 1.
    assert (W : with_scope m SPECTRUMMODEL (catch_pfe (process_spectrum_model c world)) (mkState [] errs tr) =
       (mkState [] (keyed m el ++ errs)%list (rev h ++ tr)%list, Ret)).
    { unfold with_scope. cbn [st_stack may_push_b find_type find is_some negb andb]. unfold catch_pfe, set_stack.
      cbn [st_stack st_errors st_trace app]. specialize (L errs). unfold PflowProofs2.scope_of_model in L.
      unfold stack in *. rewrite L. destruct RR as [-> | ->]; reflexivity. }
    rewrite W, RUN. f_equal. f_equal.
    + unfold item_errors. cbn [rev]. rewrite map_app, concat_app. cbn [map concat fst snd]. rewrite app_nil_r, <- app_assoc. reflexivity.
    + unfold item_calls. cbn [map concat fst snd]. rewrite rev_app_distr, <- app_assoc. reflexivity.
Qed.

(** whose calls they are *)
Lemma story_scope m s l e o : story c m s l -> In (e, o) l -> exists a st, In st the_stages /\ e = call m st a.
Proof.
  intros (zs & sb & rl & ld & lm & -> & P1 & P2 & P3 & P4 & P5) I.
  repeat (apply in_app_iff in I; destruct I as [I|I]).
  - destruct P1 as [(e' & o' & (z & _ & ->) & ->)|(_ & ->)]; [|destruct I]. destruct I as [I|[]]. inversion I. eexists _, _; split; [|reflexivity]; cbn; tauto.
  - destruct P2 as [(e' & o' & (_ & _ & ->) & ->)|(_ & ->)]; [|destruct I]. destruct I as [I|[]]. inversion I. eexists _, _; split; [|reflexivity]; cbn; tauto.
  - destruct P3 as [(e' & o' & (_ & _ & _ & ->) & ->)|(_ & ->)]; [|destruct I]. destruct I as [I|[]]. inversion I. eexists _, _; split; [|reflexivity]; cbn; tauto.
  - destruct P4 as [(e' & o' & (_ & _ & _ & ->) & ->)|(_ & ->)]; [|destruct I]. destruct I as [I|[]]. inversion I. eexists _, _; split; [|reflexivity]; cbn; tauto.
  - destruct P5 as [(e' & o' & (n & _ & _ & ->) & ->)|(_ & ->)]; [|destruct I]. destruct I as [I|[]]. inversion I. eexists _, _; split; [|reflexivity]; cbn; tauto.
Qed.
Lemma own_calls ps m h el : Forall good ps -> NoDup (map (fun p => fst (fst p)) ps) -> In (m, h, el) ps ->
  forall st a o, In (call m st a, o) (item_calls ps) <-> In (call m st a, o) h.
Proof.
  intros G ND I st a o. unfold item_calls. rewrite in_concat. split.
  - intros (x & Hx & Hi). apply in_map_iff in Hx. destruct Hx as (((m' & h') & el') & <- & Hp). cbn [fst snd] in Hi.
    pose proof (proj1 (Forall_forall _ _) G _ Hp) as (s & _ & ST & _). cbn [fst snd] in ST.
    destruct (story_scope m' s h' _ _ ST Hi) as (a' & st' & _ & E). unfold call in E. inversion E; subst m'.
    assert (Q : (m, h', el') = (m, h, el)).
    { clear -ND I Hp. induction ps as [|q ps IH]; [destruct I|]. cbn in ND. inversion ND as [|? ? N1 N2]; subst.
      destruct I as [I|I], Hp as [Hp|Hp].
      - congruence.
      - subst q. cbn in N1. exfalso. apply N1. apply in_map_iff. eexists; split; [|exact Hp]. reflexivity.
      - subst q. cbn in N1. exfalso. apply N1. apply in_map_iff. eexists; split; [|exact I]. reflexivity.
      - exact (IH N2 I Hp). }
    congruence.
  - intro H. exists h. split; [|exact H]. apply in_map_iff. exists (m, h, el). auto.
Qed.
Lemma item_error ps m h el st rest : Forall good ps -> NoDup (map (fun p => fst (fst p)) ps) -> In (m, h, el) ps ->
  In st the_stages -> find_error (st ++ "_" ++ m) (item_errors ps ++ rest)%list =
    match find_error st el with Some e => Some e | None => find_error (st ++ "_" ++ m) rest end.
Proof.
  intros G ND I Ist. rewrite find_app. unfold item_errors.
  assert (X : forall qs, Forall good qs -> NoDup (map (fun p => fst (fst p)) qs) -> In (m, h, el) qs ->
     find_error (st ++ "_" ++ m) (concat (map (fun p => keyed (fst (fst p)) (snd p)) qs)) = find_error st el).
  { induction qs as [|q qs IH]; intros G' ND' I'; [destruct I'|]. cbn in ND'. inversion ND' as [|? ? N1 N2]; subst.
    inversion G' as [|? ? (sq & _ & _ & (SQ & _)) Gs]; subst. cbn [map concat]. rewrite find_app.
    destruct I' as [->|I'].
    - cbn [fst snd]. rewrite find_keyed by (exact Ist || exact SQ). destruct (find_error st el); [reflexivity|].
      clear -N1 Ist Gs. cbn in N1. induction qs as [|q qs IH]; [reflexivity|]. cbn [map concat]. rewrite find_app.
      inversion Gs as [|? ? (sq & _ & _ & (SQ & _)) Gs']; subst. cbn in N1.
      rewrite find_keyed_other; [apply IH; tauto|exact Ist|exact SQ|]. intro E. apply N1. left. symmetry. exact E.
    - rewrite find_keyed_other; [exact (IH Gs N2 I')|exact Ist|exact SQ|].
      intro E. apply N1. apply in_map_iff. exists (m, h, el). split; [exact E|exact I']. }
  rewrite X.
  - reflexivity.
  - apply Forall_rev. exact G.
  - rewrite map_rev. apply NoDup_rev. exact ND.
  - apply -> in_rev. exact I.
Qed.
Lemma item_root ps k rest : Forall good ps -> In k ["init"; "classification"; "load_result_store"] ->
  find_error k (item_errors ps ++ rest)%list = find_error k rest.
Proof.
  intros G I. rewrite find_app. unfold item_errors. apply Forall_rev in G. induction (rev ps) as [|q qs IH]; [reflexivity|].
  cbn [map concat]. rewrite find_app. inversion G as [|? ? (sq & _ & _ & (SQ & _)) Gs]; subst.
  rewrite find_keyed_root by (exact I || exact SQ). exact (IH Gs).
Qed.
End Run.
