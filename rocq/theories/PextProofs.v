(** Extension of the parameters (C98). *)
From Coq Require Import String.
From Verif Require Import Base RdrModel RdrProofs CvtModel PextModel PextSpec.
Open Scope string_scope.

(** *** reading *)
Lemma look_none path : look path None = Val None.
Proof. induction path as [|k t IH]; [reflexivity|exact IH]. Qed.
Lemma look_value path : forall j o, look path (Some j) = Val o -> o = at_path path j.
Proof.
  induction path as [|k t IH]; intros j o E; cbn [look at_path] in *; [apply Val_inj in E; congruence|].
  destruct j as [| | | | |d]; try discriminate; cbn [field].
  - rewrite look_none in E. apply Val_inj in E. congruence.
  - destruct (dget k d) as [x|]; [apply IH, E|]. rewrite look_none in E. apply Val_inj in E. congruence.
Qed.
Lemma read_value path p o : read path p = Val o -> o = value p path.
Proof. apply look_value. Qed.
Lemma names_map ms : names (map JStr ms) = Val ms.
Proof. induction ms as [|m ms IH]; [reflexivity|]. cbn [map names]. rewrite IH. reflexivity. Qed.
Lemma listed_models p ms : listed p ms -> get_spectrum_models p = Val ms.
Proof. unfold get_spectrum_models. intros [E|(E & ->)]; rewrite E; [apply names_map|reflexivity]. Qed.
Lemma is_str_iff s o : is_str s o = true <-> o = Some (JStr s).
Proof.
  destruct o as [[| | |t| |]|]; cbn; try (split; discriminate). rewrite String.eqb_eq. split; congruence.
Qed.
Lemma given_but_iff s o : given_but s o = true <-> exists v, o = Some v /\ v <> JNull /\ v <> JStr s.
Proof.
  unfold given_but. destruct o as [v|].
  - assert (H : is_str s (Some v) = true <-> v = JStr s) by (rewrite is_str_iff; split; congruence).
    destruct v as [| | |t| |]; cbn [negb]; try (destruct (is_str s _); cbn [negb];
      (split; [intro X; try discriminate; eexists; repeat split; try discriminate; intro Y; apply H in Y; discriminate
              |intros (v & E & N & S); try reflexivity; exfalso; apply S; injection E as E; rewrite <- E; apply H; reflexivity])).
    split; [discriminate|]. intros (v & E & N & _). injection E as E. congruence.
  - split; [discriminate|]. intros (v & E & _). discriminate.
Qed.
Lemma any_iff f l b (P : string -> Prop) : (forall m x, In m l -> f m = Val x -> (x = true <-> P m)) -> any_model f l = Val b -> (b = true <-> exists m, In m l /\ P m).
Proof.
  revert b. induction l as [|m l IH]; intros b H E; cbn in E.
  - apply Val_inj in E. subst b. split; [discriminate|]. intros (m & [] & _).
  - apply pbind_inv in E. destruct E as (x & Ex & E). apply pbind_inv in E. destruct E as (r & Er & E). apply Val_inj in E. subst b.
    specialize (IH r (fun m' y I => H m' y (or_intror I)) Er). specialize (H m x (or_introl eq_refl) Ex). rewrite orb_true_iff, H, IH. split.
    + intros [A|(m' & I & A)]; [exists m; split; [left; reflexivity|exact A]|exists m'; split; [right; exact I|exact A]].
    + intros (m' & [I|I] & A); [left; congruence|right; exists m'; auto].
Qed.
Lemma removed_iff p m : continuum_removed p m <-> given_but "raw" (value p (template_fitting_component m)) = true \/ given_but "raw" (value p (template_combination_component m)) = true.
Proof.
  rewrite !given_but_iff. unfold continuum_removed, template_fitting_component, template_combination_component. split.
  - intros (s & v & [S|[S|[]]] & E & N1 & N2); subst s; [left|right]; exists v; auto.
  - intros [(v & E & N)|(v & E & N)]; eexists; exists v; (split; [|split; [exact E|exact N]]); cbn; auto.
Qed.
Lemma lines_iff p m : continuum_of_lines p m <->
  (is_str "fromSpectrum" (value p (line_model m ++ ["continuumComponent"])) = true \/ is_str "tplFitAuto" (value p (line_model m ++ ["continuumComponent"])) = true) \/
  given_but "never" (value p (line_model m ++ ["continuumReestimation"])) = true.
Proof.
  rewrite given_but_iff, !is_str_iff. unfold continuum_of_lines. change (line_model_parameter m) with (fun k => (line_model m ++ [k])%list). cbv beta. split.
  - intros [(c & E & [C|[C|[]]])|H]; [subst c; auto|subst c; auto|right; exact H].
  - intros [[E|E]|H]; [left; eexists; split; [exact E|cbn; auto]|left; eexists; split; [exact E|cbn; auto]|right; exact H].
Qed.
Lemma needs_iff p ms b : listed p ms -> continuum_removal_presence p = Val b -> (b = true <-> needs_removal p ms).
Proof.
  intros L E. unfold continuum_removal_presence in E. rewrite (listed_models _ _ L) in E. cbn [pbind] in E.
  apply (any_iff _ _ _ (fun m => continuum_removed p m \/ continuum_of_lines p m)) in E; [exact E|]. clear. intros m x _ E. unfold model_needs_removal in E.
  apply pbind_inv in E. destruct E as (a & Ea & E). apply pbind_inv in E. destruct E as (b & Eb & E). apply pbind_inv in E. destruct E as (c & Ec & E). apply pbind_inv in E. destruct E as (r & Er & E).
  apply Val_inj in E. subst x. rewrite (read_value _ _ _ Ea), (read_value _ _ _ Eb), (read_value _ _ _ Ec), (read_value _ _ _ Er), removed_iff, lines_iff, !orb_true_iff. tauto.
Qed.
Lemma catalog_iff p ms b : listed p ms -> catalog_removal_presence p = Val b -> (b = true <-> needs_catalog_removal p ms).
Proof.
  intros L E. unfold catalog_removal_presence in E. rewrite (listed_models _ _ L) in E. cbn [pbind] in E.
  apply (any_iff _ _ _ (fun m => continuum_removed p m)) in E; [exact E|]. clear. intros m x _ E. unfold model_needs_catalog_removal in E.
  apply pbind_inv in E. destruct E as (a & Ea & E). rewrite removed_iff, <- (read_value _ _ _ Ea). destruct (given_but "raw" a).
  - apply Val_inj in E. subst x. tauto.
  - apply pbind_inv in E. destruct E as (b & Eb & E). apply Val_inj in E. subst x. rewrite <- (read_value _ _ _ Eb). split; [auto|]. intros [H|H]; [discriminate|exact H].
Qed.
Lemma hybrid_iff p m b : reestimation_presence p m = Val b -> (b = true <-> hybrid p m).
Proof. intro E. apply pbind_inv in E. destruct E as (f & Ef & E). apply Val_inj in E. subst b. rewrite (read_value _ _ _ Ef). apply is_str_iff. Qed.
Lemma fft_iff p m b : loglambda_presence p m = Val b -> (b = true <-> fft p m).
Proof.
  intro E. apply pbind_inv in E. destruct E as (c & Ec & E). apply read_value in Ec. unfold fft. change (line_model_parameter m "continuumComponent") with (line_model m ++ ["continuumComponent"])%list.
  rewrite <- Ec. assert (H : is_str "tplFit" c || is_str "tplFitAuto" c = true <-> exists s, c = Some (JStr s) /\ In s ["tplFit"; "tplFitAuto"]).
  { rewrite orb_true_iff, !is_str_iff. split; [intros [X|X]; eexists; (split; [exact X|cbn; auto])|]. intros (s & X & [S|[S|[]]]); subst s; auto. }
  destruct (is_str "tplFit" c || is_str "tplFitAuto" c).
  - apply pbind_inv in E. destruct E as (f & Ef & E). apply Val_inj in E. subst b. apply read_value in Ef.
    change [m; "redshiftSolver"; "lineModelSolve"; "lineModel"; "continuumFit"; "fftProcessing"] with (line_model m ++ ["continuumFit"; "fftProcessing"])%list. rewrite <- Ef. destruct f as [v|].
    + split; [intro T; split; [apply H; reflexivity|exists v; auto]|]. intros (_ & w & W & T). congruence.
    + split; [discriminate|]. intros (_ & w & W & _). discriminate.
  - apply Val_inj in E. subst b. split; [discriminate|]. intros (X & _). apply H, X.
Qed.
Lemma median_iff p c b : median_presence p c = Val b -> (b = true <-> median p c).
Proof. intro E. apply pbind_inv in E. destruct E as (f & Ef & E). apply Val_inj in E. subst b. rewrite (read_value _ _ _ Ef). destruct c; apply is_str_iff. Qed.

(** *** writing *)
Definition op := (list string * json)%type.
Definition apart (a b : list string) : Prop := ~ prefix_of a b /\ ~ prefix_of b a.
Definition gives (o : op) (q : list string) (x : json) : Prop := exists r, q = (fst o ++ r)%list /\ at_path r (snd o) = Some x.
Lemma at_app a : forall b j, at_path (a ++ b) j = match at_path a j with Some x => at_path b x | None => None end.
Proof.
  induction a as [|k a IH]; intros b j; [reflexivity|]. cbn [app at_path]. destruct (field k j); [apply IH|reflexivity].
Qed.
Lemma set_same path v : forall d d', set_at path v d = Val d' -> value d' path = Some v.
Proof.
  unfold value. induction path as [|k t IH]; intros d d' E; [discriminate|]. destruct t as [|k' t].
  - cbn in E. apply Val_inj in E. subst d'. cbn. rewrite dget_put, String.eqb_refl. reflexivity.
  - change (match dget k d with None | Some JNull => let! s := set_at (k' :: t) v [] in Val (dput k (JObj s) d)
            | Some (JObj s) => let! s' := set_at (k' :: t) v s in Val (dput k (JObj s') d) | Some _ => Err Python end = Val d') in E.
    assert (G : exists s s', set_at (k' :: t) v s = Val s' /\ d' = dput k (JObj s') d).
    { destruct (dget k d) as [[| | | | |s]|]; try discriminate; apply pbind_inv in E; destruct E as (s' & Es & E); apply Val_inj in E; eexists; exists s'; (split; [exact Es|congruence]). }
    destruct G as (s & s' & Es & ->). cbn [at_path field]. rewrite dget_put, String.eqb_refl. apply (IH s s' Es).
Qed.
Lemma set_gives path v d d' q x : set_at path v d = Val d' -> gives (path, v) q x -> value d' q = Some x.
Proof.
  intros E (r & -> & G). assert (H := set_same _ _ _ _ E). unfold value in *. rewrite at_app. cbn [fst snd] in *. rewrite H. exact G.
Qed.
Lemma set_apart path v : forall d d' q, set_at path v d = Val d' -> apart path q -> value d' q = value d q.
Proof.
  unfold value. induction path as [|k t IH]; intros d d' q E (A & B); [discriminate|]. destruct q as [|k1 q]; [exfalso; apply B; exists (k :: t); reflexivity|].
  destruct t as [|k' t].
  - cbn in E. apply Val_inj in E. subst d'. cbn [at_path field]. rewrite dget_put. destruct (String.eqb_spec k1 k) as [X|X]; [|reflexivity]. exfalso. apply A. exists q. cbn. congruence.
  - change (match dget k d with None | Some JNull => let! s := set_at (k' :: t) v [] in Val (dput k (JObj s) d)
            | Some (JObj s) => let! s' := set_at (k' :: t) v s in Val (dput k (JObj s') d) | Some _ => Err Python end = Val d') in E.
    cbn [at_path field]. destruct (String.eqb_spec k1 k) as [X|X].
    + subst k1. assert (P : apart (k' :: t) q).
      { split; intros (c & C); [apply A|apply B]; exists c; cbn in C |- *; congruence. }
      destruct (dget k d) as [j|].
      * destruct j as [| | | | |s]; try discriminate; apply pbind_inv in E; destruct E as (s' & Es & E); apply Val_inj in E; subst d'; rewrite dget_put, String.eqb_refl, (IH _ _ _ Es P); [|reflexivity].
        destruct q as [|k2 q]; [exfalso; apply (proj2 P); exists (k' :: t); reflexivity|reflexivity].
      * apply pbind_inv in E. destruct E as (s' & Es & E). apply Val_inj in E. subst d'. rewrite dget_put, String.eqb_refl, (IH _ _ _ Es P).
        destruct q as [|k2 q]; [exfalso; apply (proj2 P); exists (k' :: t); reflexivity|reflexivity].
    + assert (G : exists s', d' = dput k (JObj s') d).
      { destruct (dget k d) as [[| | | | |s]|]; try discriminate; apply pbind_inv in E; destruct E as (s' & Es & E); apply Val_inj in E; exists s'; congruence. }
      destruct G as (s' & ->). rewrite dget_put. destruct (String.eqb_spec k1 k); [contradiction|reflexivity].
Qed.
(** the operations, in order *)
Inductive sets : list op -> dict json -> dict json -> Prop :=
| se_nil e : sets [] e e
| se_cons path v W e e1 e2 : set_at path v e = Val e1 -> sets W e1 e2 -> sets ((path, v) :: W) e e2.
Lemma sets_app W1 W2 e e1 e2 : sets W1 e e1 -> sets W2 e1 e2 -> sets (W1 ++ W2) e e2.
Proof. induction 1 as [|path v W e e1 e' E S IH]; intro T; [exact T|]. cbn. econstructor; [exact E|apply IH, T]. Qed.
Lemma sets_apart W e e' q : sets W e e' -> (forall o, In o W -> apart (fst o) q) -> value e' q = value e q.
Proof.
  induction 1 as [|path v W e e1 e' E S IH]; intro H; [reflexivity|]. rewrite IH by (intros o I; apply H; right; exact I).
  apply (set_apart path v); [exact E|]. apply (H (path, v)). left. reflexivity.
Qed.
Lemma sets_gives W e e' q x : sets W e e' -> (forall o, In o W -> apart (fst o) q \/ gives o q x) -> (value e q = Some x \/ exists o, In o W /\ gives o q x) -> value e' q = Some x.
Proof.
  induction 1 as [|path v W e e1 e' E S IH]; intros H G.
  - destruct G as [G|(o & [] & _)]. exact G.
  - apply IH; [intros o I; apply H; right; exact I|]. destruct (H (path, v) (or_introl eq_refl)) as [A|A].
    + destruct G as [G|(o & [I|I] & G)].
      * left. rewrite <- G. apply (set_apart path v); [exact E|exact A].
      * exfalso. subst o. destruct G as (r & -> & _). apply (proj1 A). exists r. reflexivity.
      * right. exists o. auto.
    + left. apply (set_gives path v e); assumption.
Qed.
(** what is written, and when *)
Inductive wanted (p : dict json) (ms : list string) : op -> Prop :=
| wa_removal : ~ needs_removal p ms -> wanted p ms (["continuumRemoval"], default_section)
| wa_catalog : ~ needs_catalog_removal p ms -> wanted p ms (["templateCatalog"; "continuumRemoval"], default_section)
| wa_reestimation m : In m ms -> ~ hybrid p m -> wanted p ms (line_model_parameter m "continuumReestimation", JStr "no")
| wa_loglambda m : In m ms -> ~ fft p m -> wanted p ms (line_model_parameter m "useLogLambdaSampling", JBool false)
| wa_median c k v : ~ median p c -> In (k, v) [("medianKernelWidth", JNum (-1)); ("medianEvenReflection", JBool true)] -> wanted p ms ((removal c ++ [k])%list, v).
Lemma not_false b (P : Prop) : (b = true <-> P) -> b = false -> ~ P.
Proof. intros H E X. apply H in X. congruence. Qed.
Lemma not_true b (P : Prop) : (b = true <-> P) -> b = true -> P.
Proof. intros H E. apply H, E. Qed.
Lemma reestimation_sets p ms : forall l e e', (forall m, In m l -> In m ms) -> extend_reestimation p l e = Val e' ->
  exists W, sets W e e' /\ (forall o, In o W -> wanted p ms o) /\ forall m, In m l -> ~ hybrid p m -> In (line_model_parameter m "continuumReestimation", JStr "no") W.
Proof.
  induction l as [|m l IH]; intros e e' I E; cbn [extend_reestimation] in E.
  - apply Val_inj in E. subst e'. exists []. split; [constructor|]. split; [intros o []|intros m []].
  - apply pbind_inv in E. destruct E as (b & Eb & E). apply pbind_inv in E. destruct E as (e1 & E1 & E).
    destruct (IH e1 e' (fun m' J => I m' (or_intror J)) E) as (W & S & A & B). assert (H := hybrid_iff _ _ _ Eb). destruct b.
    + apply Val_inj in E1. subst e1. exists W. split; [exact S|]. split; [exact A|]. intros m' [J|J] N; [subst m'; exfalso; apply N, H; reflexivity|apply B; assumption].
    + exists ((line_model_parameter m "continuumReestimation", JStr "no") :: W). split; [econstructor; [exact E1|exact S]|]. split.
      * intros o [J|J]; [subst o; apply wa_reestimation; [apply I; left; reflexivity|exact (not_false _ _ H eq_refl)]|apply A, J].
      * intros m' [J|J] N; [left; subst; reflexivity|right; apply B; assumption].
Qed.
Lemma loglambda_sets p ms : forall l e e', (forall m, In m l -> In m ms) -> extend_loglambda p l e = Val e' ->
  exists W, sets W e e' /\ (forall o, In o W -> wanted p ms o) /\ forall m, In m l -> ~ fft p m -> In (line_model_parameter m "useLogLambdaSampling", JBool false) W.
Proof.
  induction l as [|m l IH]; intros e e' I E; cbn [extend_loglambda] in E.
  - apply Val_inj in E. subst e'. exists []. split; [constructor|]. split; [intros o []|intros m []].
  - apply pbind_inv in E. destruct E as (b & Eb & E). apply pbind_inv in E. destruct E as (e1 & E1 & E).
    destruct (IH e1 e' (fun m' J => I m' (or_intror J)) E) as (W & S & A & B). assert (H := fft_iff _ _ _ Eb). destruct b.
    + apply Val_inj in E1. subst e1. exists W. split; [exact S|]. split; [exact A|]. intros m' [J|J] N; [subst m'; exfalso; apply N, H; reflexivity|apply B; assumption].
    + exists ((line_model_parameter m "useLogLambdaSampling", JBool false) :: W). split; [econstructor; [exact E1|exact S]|]. split.
      * intros o [J|J]; [subst o; apply wa_loglambda; [apply I; left; reflexivity|exact (not_false _ _ H eq_refl)]|apply A, J].
      * intros m' [J|J] N; [left; subst; reflexivity|right; apply B; assumption].
Qed.
Lemma median_sets p ms c e e' : extend_median p c e = Val e' ->
  exists W, sets W e e' /\ (forall o, In o W -> wanted p ms o) /\
    (~ median p c -> forall k v, In (k, v) [("medianKernelWidth", JNum (-1)); ("medianEvenReflection", JBool true)] -> In ((removal c ++ [k])%list, v) W).
Proof.
  intro E. unfold extend_median in E. apply pbind_inv in E. destruct E as (b & Eb & E). assert (H := median_iff _ _ _ Eb). destruct b.
  - apply Val_inj in E. subst e'. exists []. split; [constructor|]. split; [intros o []|]. intros N. exfalso. apply N, H. reflexivity.
  - apply pbind_inv in E. destruct E as (e1 & E1 & E). assert (N := not_false _ _ H eq_refl).
    exists [((removal c ++ ["medianKernelWidth"])%list, JNum (-1)); ((removal c ++ ["medianEvenReflection"])%list, JBool true)]. split.
    + econstructor; [destruct c; exact E1|]. econstructor; [destruct c; exact E|]. constructor.
    + split.
      * intros o [J|[J|[]]]; subst o; apply wa_median; try exact N; cbn; auto.
      * intros _ k v [J|[J|[]]]; injection J as Jk Jv; subst k v; cbn; auto.
Qed.
Lemma extend_sets p p' ms : listed p ms -> extend p = Val p' -> exists W, sets W p p' /\ forall o, In o W <-> wanted p ms o.
Proof.
  intros L E. unfold extend in E. apply pbind_inv in E. destruct E as (e1 & E1 & E). apply pbind_inv in E. destruct E as (e2 & E2 & E).
  rewrite (listed_models _ _ L) in E. cbn [pbind] in E. apply pbind_inv in E. destruct E as (e3 & E3 & E). apply pbind_inv in E. destruct E as (e4 & E4 & E).
  apply pbind_inv in E. destruct E as (e5 & E5 & E).
  assert (H1 : exists W, sets W p e1 /\ (forall o, In o W -> wanted p ms o) /\ (~ needs_removal p ms -> In (["continuumRemoval"], default_section) W)).
  { unfold extend_removal in E1. apply pbind_inv in E1. destruct E1 as (b & Eb & E1). assert (H := needs_iff _ _ _ L Eb). destruct b.
    - apply Val_inj in E1. subst e1. exists []. split; [constructor|]. split; [intros o []|]. intro N. apply N, H. reflexivity.
    - eexists. split; [econstructor; [exact E1|constructor]|]. split; [intros o [J|[]]; subst o; apply wa_removal; exact (not_false _ _ H eq_refl)|]. intros _. left. reflexivity. }
  assert (H2 : exists W, sets W e1 e2 /\ (forall o, In o W -> wanted p ms o) /\ (~ needs_catalog_removal p ms -> In (["templateCatalog"; "continuumRemoval"], default_section) W)).
  { unfold extend_catalog_removal in E2. apply pbind_inv in E2. destruct E2 as (b & Eb & E2). assert (H := catalog_iff _ _ _ L Eb). destruct b.
    - apply Val_inj in E2. subst e2. exists []. split; [constructor|]. split; [intros o []|]. intro N. apply N, H. reflexivity.
    - eexists. split; [econstructor; [exact E2|constructor]|]. split; [intros o [J|[]]; subst o; apply wa_catalog; exact (not_false _ _ H eq_refl)|]. intros _. left. reflexivity. }
  destruct H1 as (W1 & S1 & A1 & B1), H2 as (W2 & S2 & A2 & B2), (reestimation_sets p ms ms e2 e3 (fun m I => I) E3) as (W3 & S3 & A3 & B3),
    (loglambda_sets p ms ms e3 e4 (fun m I => I) E4) as (W4 & S4 & A4 & B4), (median_sets p ms false e4 e5 E5) as (W5 & S5 & A5 & B5), (median_sets p ms true e5 p' E) as (W6 & S6 & A6 & B6).
  exists (W1 ++ W2 ++ W3 ++ W4 ++ W5 ++ W6)%list. split.
  - apply (sets_app _ _ _ e1 _ S1), (sets_app _ _ _ e2 _ S2), (sets_app _ _ _ e3 _ S3), (sets_app _ _ _ e4 _ S4), (sets_app _ _ _ e5 _ S5), S6.
  - intro o. rewrite !in_app_iff. split; [intros [I|[I|[I|[I|[I|I]]]]]; auto|]. intro Wt. destruct Wt as [N|N|m I N|m I N|c k v N I].
    + left. apply B1, N.
    + right. left. apply B2, N.
    + right. right. left. apply B3; assumption.
    + right. right. right. left. apply B4; assumption.
    + destruct c; [right; right; right; right; right; apply B6; assumption|right; right; right; right; left; apply B5; assumption].
Qed.
