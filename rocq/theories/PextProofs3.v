(** The extension is accepted; examples (C98). *)
From Coq Require Import String.
From Verif Require Import Base RdrModel RdrProofs CvtModel PextModel PextSpec PextProofs PextProofs2.
Open Scope string_scope.

Definition on_the_way (q path : list string) : Prop := exists k r, path = (q ++ k :: r)%list.
Lemma way_tail k q t : on_the_way q t -> on_the_way (k :: q) (k :: t).
Proof. intros (x & r & E). exists x, r. rewrite E. reflexivity. Qed.
Lemma look_total path : forall j, (forall q, on_the_way q path -> section (at_path q j)) -> exists o, look path (Some j) = Val o.
Proof.
  induction path as [|k t IH]; intros j H; [eexists; reflexivity|]. assert (S := H [] ltac:(exists k, t; reflexivity)). cbn [at_path] in S.
  cbn [look]. destruct j as [| | | | |d]; try contradiction.
  - rewrite look_none. eexists. reflexivity.
  - destruct (dget k d) as [x|] eqn:G; [|rewrite look_none; eexists; reflexivity]. apply IH. intros q Q. specialize (H (k :: q) (way_tail k q t Q)). cbn [at_path field] in H. rewrite G in H. exact H.
Qed.
Lemma read_total path p : (forall q, q <> [] -> on_the_way q path -> section (value p q)) -> exists o, read path p = Val o.
Proof. intro H. apply look_total. intros q Q. destruct q as [|k q]; [exact Logic.I|]. apply H; [discriminate|exact Q]. Qed.
Lemma set_total path v : path <> [] -> forall d, (forall q, q <> [] -> on_the_way q path -> section (value d q)) -> exists d', set_at path v d = Val d'.
Proof.
  induction path as [|k t IH]; intros N d H; [contradiction|]. destruct t as [|k' t]; [eexists; reflexivity|].
  change (set_at (k :: k' :: t) v d) with (match dget k d with None | Some JNull => let! s := set_at (k' :: t) v [] in Val (dput k (JObj s) d)
            | Some (JObj s) => let! s' := set_at (k' :: t) v s in Val (dput k (JObj s') d) | Some _ => Err Python end).
  assert (S := H [k] ltac:(discriminate) ltac:(exists k', t; reflexivity)). unfold value in S. cbn [at_path field] in S.
  assert (E0 : exists d', set_at (k' :: t) v [] = Val d').
  { apply IH; [discriminate|]. intros [|a q] Q _; [contradiction|]. exact Logic.I. }
  destruct (dget k d) as [j|] eqn:G.
  - destruct j as [| | | | |s]; try contradiction.
    + destruct E0 as (s & Es). rewrite Es. eexists. reflexivity.
    + destruct (IH ltac:(discriminate) s) as (s' & Es).
      * intros q Q1 Q. specialize (H (k :: q) ltac:(discriminate) (way_tail k q _ Q)). unfold value in H. cbn [at_path field] in H. rewrite G in H. exact H.
      * rewrite Es. eexists. reflexivity.
  - destruct E0 as (s & Es). rewrite Es. eexists. reflexivity.
Qed.
Lemma compare (a b : list string) : (exists r, b = (a ++ r)%list) \/ on_the_way b a \/ apart a b.
Proof.
  revert b. induction a as [|x a IH]; intros b; [left; exists b; reflexivity|]. destruct b as [|y b]; [right; left; exists x, a; reflexivity|].
  destruct (String.eqb_spec x y) as [E|E]; [subst y|right; right; apply apart_head; exact E]. destruct (IH b) as [(r & R)|[R|R]].
  - left. exists r. rewrite R. reflexivity.
  - right. left. apply way_tail, R.
  - right. right. apply apart_tail, R.
Qed.
Lemma set_section path v d d' q : set_at path v d = Val d' -> section (value d q) -> (forall r, q = (path ++ r)%list -> section (at_path r v)) -> section (value d' q).
Proof.
  intros E S H. destruct (compare path q) as [(r & R)|[(k & r & R)|R]].
  - specialize (H r R). rewrite R. assert (G := set_same _ _ _ _ E). unfold value in *. rewrite at_app, G. exact H.
  - assert (G := set_same _ _ _ _ E). rewrite R in G. unfold value in *. rewrite at_app in G. destruct (at_path q (JObj d')) as [x|]; [|discriminate].
    cbn [at_path] in G. destruct x; try discriminate. exact Logic.I.
  - rewrite (set_apart _ _ _ _ _ E R). exact S.
Qed.
Lemma any_total f l : (forall m, In m l -> exists b, f m = Val b) -> exists b, any_model f l = Val b.
Proof.
  induction l as [|m l IH]; intro H; [eexists; reflexivity|]. cbn [any_model]. destruct (H m (or_introl eq_refl)) as (b & ->). cbn [pbind].
  destruct IH as (r & ->); [intros m' I; apply H; right; exact I|]. eexists. reflexivity.
Qed.
Section Accept.
Variable p : dict json.
Variable ms : list string.
Hypothesis L : listed p ms.
Hypothesis Sc : sections p ms.
Fixpoint inits (path : list string) : list (list string) := match path with [] => [] | k :: t => match t with [] => [] | _ => [k] :: map (cons k) (inits t) end end.
Lemma inits_spec path : forall q, q <> [] -> on_the_way q path -> In q (inits path).
Proof.
  induction path as [|k t IH]; intros q N (x & r & E); [destruct q; discriminate|]. destruct q as [|y q]; [contradiction|]. cbn in E. injection E as Ek Et. subst y.
  destruct t as [|k' t]; [destruct q; discriminate|]. cbn [inits]. destruct q as [|y q]; [left; reflexivity|]. right. apply (in_map (cons k)), IH; [discriminate|]. exists x, r. exact Et.
Qed.
Lemma on_sections path (Ok : forall q, In q (inits path) -> in_sections ms q) e : sections e ms -> forall q, q <> [] -> on_the_way q path -> section (value e q).
Proof. intros S q N W. apply S, Ok, inits_spec; assumption. Qed.
Lemma model_path m path : In m ms -> (forall q, In q (inits path) -> In q (model_sections m)) -> forall q, In q (inits path) -> in_sections ms q.
Proof. intros I H q Q. right. exists m. split; [exact I|apply H, Q]. Qed.
Ltac inside := intros ? Q; cbn in Q |- *; tauto.
Lemma total_removal : exists b, continuum_removal_presence p = Val b.
Proof.
  unfold continuum_removal_presence. rewrite (listed_models _ _ L). cbn [pbind].
  apply any_total. intros m J. unfold model_needs_removal.
  destruct (read_total (template_fitting_component m) p) as (a & ->); [apply on_sections; [apply (model_path m); [exact J|inside]|exact Sc]|]. cbn [pbind].
  destruct (read_total (template_combination_component m) p) as (b & ->); [apply on_sections; [apply (model_path m); [exact J|inside]|exact Sc]|]. cbn [pbind].
  destruct (read_total (line_model m ++ ["continuumComponent"])%list p) as (c & ->); [apply on_sections; [apply (model_path m); [exact J|inside]|exact Sc]|]. cbn [pbind].
  destruct (read_total (line_model m ++ ["continuumReestimation"])%list p) as (d & ->); [apply on_sections; [apply (model_path m); [exact J|inside]|exact Sc]|]. eexists. reflexivity.
Qed.
Lemma total_catalog : exists b, catalog_removal_presence p = Val b.
Proof.
  unfold catalog_removal_presence. rewrite (listed_models _ _ L). cbn [pbind].
  apply any_total. intros m J. unfold model_needs_catalog_removal.
  destruct (read_total (template_fitting_component m) p) as (a & ->); [apply on_sections; [apply (model_path m); [exact J|inside]|exact Sc]|]. cbn [pbind].
  destruct (read_total (template_combination_component m) p) as (b & ->); [apply on_sections; [apply (model_path m); [exact J|inside]|exact Sc]|]. cbn [pbind].
  destruct (given_but "raw" a); eexists; reflexivity.
Qed.
Lemma set_keeps path v e e' : sections e ms -> set_at path v e = Val e' -> (forall q r, in_sections ms q -> q = (path ++ r)%list -> section (at_path r v)) -> sections e' ms.
Proof. intros S E H q Q. apply (set_section path v e e' q E); [apply S, Q|]. intros r R. apply (H q r Q R). Qed.
Lemma default_ok c q r : in_sections ms q -> q = (removal_section c ++ r)%list -> section (at_path r default_section).
Proof.
  intros Q E. destruct Q as [Q|(m & _ & Q)].
  - cbn in Q. destruct c; cbn in E, Q; (destruct Q as [Q|[Q|[Q|[]]]]; rewrite <- Q in E; try discriminate; injection E; intros; subst; exact Logic.I).
  - cbn in Q. destruct c; cbn in E; (repeat destruct Q as [Q|Q]); try contradiction; rewrite <- Q in E; try discriminate; injection E; intros; subst; exact Logic.I.
Qed.
Lemma leaf_ok m k v q r : In k ["continuumReestimation"; "useLogLambdaSampling"] -> (forall d, v <> JObj d) -> in_sections ms q -> q = (line_model m ++ k :: r)%list -> section (at_path r v).
Proof.
  intros K N Q E. exfalso. unfold line_model in E. cbn [app] in E. destruct Q as [Q|(m' & _ & Q)].
  - cbn in Q. destruct Q as [Q|[Q|[Q|[]]]]; rewrite <- Q in E; discriminate.
  - cbn in Q. (repeat destruct Q as [Q|Q]); try contradiction; rewrite <- Q in E; try discriminate. injection E as E1 E2 E3. subst. destruct K as [K|[K|[]]]; discriminate.
Qed.
Lemma median_ok c k v q r : In k ["medianKernelWidth"; "medianEvenReflection"] -> in_sections ms q -> q = (removal_section c ++ k :: r)%list -> section (at_path r v).
Proof.
  intros K Q E. exfalso. destruct Q as [Q|(m' & _ & Q)].
  - cbn in Q. destruct c; cbn in E; (destruct Q as [Q|[Q|[Q|[]]]]; rewrite <- Q in E; discriminate).
  - cbn in Q. destruct c; cbn in E; (repeat destruct Q as [Q|Q]); try contradiction; rewrite <- Q in E; try discriminate; injection E; intros; subst k; destruct K as [K|[K|[]]]; discriminate.
Qed.
Lemma removal_path c k q : In q (inits (removal_section c ++ [k])%list) -> in_sections ms q.
Proof. intro Q. left. destruct c; cbn in Q |- *; tauto. Qed.
Theorem extend_accepts : exists p', extend p = Val p'.
Proof.
  unfold extend, extend_removal, extend_catalog_removal. destruct total_removal as (b & ->). cbn [pbind].
  assert (H1 : exists e1, (if b then Val p else set_at (removal_section false) default_section p) = Val e1 /\ sections e1 ms).
  { destruct b; [exists p; auto|]. destruct (set_total (removal_section false) default_section) with (d := p) as (e1 & E1); [discriminate|apply on_sections; [intros q []|exact Sc]|].
    exists e1. split; [exact E1|]. apply (set_keeps _ _ _ _ Sc E1). apply default_ok. }
  destruct H1 as (e1 & -> & S1). cbn [pbind]. destruct total_catalog as (b2 & ->). cbn [pbind].
  assert (H2 : exists e2, (if b2 then Val e1 else set_at (removal_section true) default_section e1) = Val e2 /\ sections e2 ms).
  { destruct b2; [exists e1; auto|]. destruct (set_total (removal_section true) default_section) with (d := e1) as (e2 & E2); [discriminate| |].
    - apply on_sections; [intros q Q; left; cbn in Q |- *; tauto|exact S1].
    - exists e2. split; [exact E2|]. apply (set_keeps _ _ _ _ S1 E2). apply default_ok. }
  destruct H2 as (e2 & -> & S2). cbn [pbind]. rewrite (listed_models _ _ L). cbn [pbind].
  assert (H3 : forall l e, (forall m, In m l -> In m ms) -> sections e ms -> exists e', extend_reestimation p l e = Val e' /\ sections e' ms).
  { induction l as [|m l IH]; intros e I S; [exists e; auto|]. assert (J : In m ms) by (apply I; left; reflexivity). cbn [extend_reestimation]. unfold reestimation_presence.
    destruct (read_total (line_model m ++ ["fittingMethod"])%list p) as (f & ->); [apply on_sections; [apply (model_path m); [exact J|inside]|exact Sc]|]. cbn [pbind].
    assert (H : exists e', (if is_str "hybrid" f then Val e else set_at (line_model m ++ ["continuumReestimation"])%list (JStr "no") e) = Val e' /\ sections e' ms).
    { destruct (is_str "hybrid" f); [exists e; auto|]. destruct (set_total (line_model m ++ ["continuumReestimation"])%list (JStr "no")) with (d := e) as (e' & E'); [discriminate| |].
      - apply on_sections; [apply (model_path m); [exact J|inside]|exact S].
      - exists e'. split; [exact E'|]. apply (set_keeps _ _ _ _ S E'). intros q r Q R. apply (leaf_ok m "continuumReestimation" _ q r); [cbn; auto|discriminate|exact Q|]. rewrite R, <- app_assoc. reflexivity. }
    destruct H as (e' & -> & S'). cbn [pbind]. apply IH; [intros m' K; apply I; right; exact K|exact S']. }
  destruct (H3 ms e2 (fun m I => I) S2) as (e3 & -> & S3). cbn [pbind].
  assert (H4 : forall l e, (forall m, In m l -> In m ms) -> sections e ms -> exists e', extend_loglambda p l e = Val e' /\ sections e' ms).
  { induction l as [|m l IH]; intros e I S; [exists e; auto|]. assert (J : In m ms) by (apply I; left; reflexivity). cbn [extend_loglambda].
    assert (B : exists b, loglambda_presence p m = Val b).
    { unfold loglambda_presence. destruct (read_total (line_model m ++ ["continuumComponent"])%list p) as (f & ->); [apply on_sections; [apply (model_path m); [exact J|inside]|exact Sc]|]. cbn [pbind].
      destruct (_ || _); [|eexists; reflexivity].
      destruct (read_total (line_model m ++ ["continuumFit"; "fftProcessing"])%list p) as (g & ->); [apply on_sections; [apply (model_path m); [exact J|inside]|exact Sc]|]. eexists. reflexivity. }
    destruct B as (b' & ->). cbn [pbind].
    assert (H : exists e', (if b' then Val e else set_at (line_model m ++ ["useLogLambdaSampling"])%list (JBool false) e) = Val e' /\ sections e' ms).
    { destruct b'; [exists e; auto|]. destruct (set_total (line_model m ++ ["useLogLambdaSampling"])%list (JBool false)) with (d := e) as (e' & E'); [discriminate| |].
      - apply on_sections; [apply (model_path m); [exact J|inside]|exact S].
      - exists e'. split; [exact E'|]. apply (set_keeps _ _ _ _ S E'). intros q r Q R. apply (leaf_ok m "useLogLambdaSampling" _ q r); [cbn; auto|discriminate|exact Q|]. rewrite R, <- app_assoc. reflexivity. }
    destruct H as (e' & -> & S'). cbn [pbind]. apply IH; [intros m' K; apply I; right; exact K|exact S']. }
  destruct (H4 ms e3 (fun m I => I) S3) as (e4 & -> & S4). cbn [pbind].
  assert (H5 : forall c e, sections e ms -> exists e', extend_median p c e = Val e' /\ sections e' ms).
  { intros c e S. unfold extend_median, median_presence. destruct (read_total (removal_section c ++ ["method"])%list p) as (f & ->); [apply on_sections; [apply removal_path|exact Sc]|]. cbn [pbind].
    destruct (is_str "irregularSamplingMedian" f); [exists e; auto|].
    destruct (set_total (removal_section c ++ ["medianKernelWidth"])%list (JNum (-1))) with (d := e) as (e' & E'); [destruct c; discriminate|apply on_sections; [apply removal_path|exact S]|].
    assert (S' : sections e' ms) by (apply (set_keeps _ _ _ _ S E'); intros q r Q R; apply (median_ok c "medianKernelWidth" _ q r); [cbn; auto|exact Q|]; rewrite R, <- app_assoc; reflexivity).
    rewrite E'. cbn [pbind].
    destruct (set_total (removal_section c ++ ["medianEvenReflection"])%list (JBool true)) with (d := e') as (e'' & E''); [destruct c; discriminate|apply on_sections; [apply removal_path|exact S']|].
    exists e''. split; [exact E''|]. apply (set_keeps _ _ _ _ S' E''); intros q r Q R; apply (median_ok c "medianEvenReflection" _ q r); [cbn; auto|exact Q|]; rewrite R, <- app_assoc; reflexivity. }
  destruct (H5 false e4 S4) as (e5 & -> & S5). cbn [pbind]. destruct (H5 true e5 S5) as (e6 & E6 & _). exists e6. exact E6.
Qed.
End Accept.

(** *** examples *)
Definition ex_params : dict json :=
  [("spectrumModels", JArr [JStr "galaxy"; JStr "star"]);
   ("galaxy", JObj [("redshiftSolver", JObj [("method", JStr "lineModelSolve");
       ("lineModelSolve", JObj [("lineModel", JObj [("continuumComponent", JStr "tplFit"); ("fittingMethod", JStr "hybrid"); ("continuumReestimation", JStr "never");
          ("continuumFit", JObj [("fftProcessing", JBool false)])])])])]);
   ("star", JObj [("redshiftSolver", JObj [("method", JStr "templateFittingSolve"); ("templateFittingSolve", JObj [("spectrum", JObj [("component", JStr "raw")])])])])].
Lemma ex_listed : listed ex_params ["galaxy"; "star"].
Proof. left. reflexivity. Qed.
Lemma ex_sections : sections ex_params ["galaxy"; "star"].
Proof.
  intros q [Q|(m & [M|[M|[]]] & Q)]; [|subst m..]; cbn in Q; (repeat destruct Q as [Q|Q]); try contradiction; subst q; vm_compute; exact Logic.I.
Qed.
Lemma ex_extended : exists p', extend ex_params = Val p' /\ value p' (line_model_parameter "star" "continuumReestimation") = Some (JStr "no") /\
  value p' (line_model_parameter "galaxy" "continuumReestimation") = Some (JStr "never") /\ value p' (line_model_parameter "galaxy" "useLogLambdaSampling") = Some (JBool false) /\
  value p' ["continuumRemoval"; "method"] = Some (JStr "default") /\ value p' ["templateCatalog"; "continuumRemoval"; "medianKernelWidth"] = Some (JNum (-1)) /\
  value p' ["star"; "redshiftSolver"; "method"] = Some (JStr "templateFittingSolve").
Proof. eexists. split; [vm_compute; reflexivity|]. repeat split; vm_compute; reflexivity. Qed.
Lemma ex_hybrid : hybrid ex_params "galaxy" /\ ~ fft ex_params "galaxy" /\ ~ hybrid ex_params "star".
Proof.
  split; [vm_compute; reflexivity|]. split.
  - intros (_ & v & E & T). vm_compute in E. injection E as E. subst v. discriminate.
  - intro H. vm_compute in H. discriminate.
Qed.
(** the values of the client are replaced, silently *)
Definition ex_overridden : dict json :=
  [("spectrumModels", JArr [JStr "galaxy"]);
   ("continuumRemoval", JObj [("method", JStr "irregularSamplingMedian"); ("medianKernelWidth", JNum 150); ("medianEvenReflection", JBool false)]);
   ("galaxy", JObj [("redshiftSolver", JObj [("method", JStr "lineModelSolve");
       ("lineModelSolve", JObj [("lineModel", JObj [("continuumComponent", JStr "noContinuum"); ("fittingMethod", JStr "svd"); ("useLogLambdaSampling", JBool true)])])])])].
Theorem client_values_replaced : exists p p', extend p = Val p' /\
  value p (line_model_parameter "galaxy" "useLogLambdaSampling") = Some (JBool true) /\ value p' (line_model_parameter "galaxy" "useLogLambdaSampling") = Some (JBool false) /\
  value p ["continuumRemoval"; "medianKernelWidth"] = Some (JNum 150) /\ value p' ["continuumRemoval"; "medianKernelWidth"] = Some (JNum (-1)).
Proof. exists ex_overridden. eexists. split; [vm_compute; reflexivity|]. repeat split; vm_compute; reflexivity. Qed.
(** the documented value for no reestimation, written by the extension itself, is taken as a reestimation by the condition on the removal of the continuum *)
Theorem no_reestimation_needs_removal : exists p p' ms, listed p ms /\ extend p = Val p' /\ ~ needs_removal p ms /\ needs_removal p' ms.
Proof.
  exists ex_overridden. eexists. exists ["galaxy"]. split; [left; reflexivity|]. split; [vm_compute; reflexivity|]. split.
  - intros (m & [M|[]] & H). subst m. destruct H as [(s & v & [S|[S|[]]] & E & _)|[(c & E & C)|(v & E & _)]].
    + subst s. vm_compute in E. discriminate.
    + subst s. vm_compute in E. discriminate.
    + vm_compute in E. injection E as E. subst c. cbn in C. intuition discriminate.
    + vm_compute in E. discriminate.
  - exists "galaxy". split; [left; reflexivity|]. right. right. exists (JStr "no"). split; [vm_compute; reflexivity|]. split; discriminate.
Qed.
