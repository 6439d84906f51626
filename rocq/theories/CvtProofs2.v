(** One section of version 1 (C97). *)
From Coq Require Import String Ascii.
From Verif Require Import Base RdrModel RdrProofs CvtModel CvtSpec.
Open Scope string_scope.

Lemma dget_remove {A} k k' (d : dict A) : dget k (dremove k' d) = if k =? k' then None else dget k d.
Proof.
  unfold dremove. induction d as [|(a, v) d IH]; cbn; [destruct (k =? k'); reflexivity|].
  destruct (String.eqb_spec a k') as [E|E]; cbn.
  - rewrite IH. destruct (String.eqb_spec k k') as [F|F]; [reflexivity|]. destruct (String.eqb_spec k a) as [G|G]; [exfalso; congruence|reflexivity].
  - destruct (String.eqb_spec k a) as [G|G].
    + destruct (String.eqb_spec k k') as [F|F]; [exfalso; congruence|reflexivity].
    + exact IH.
Qed.
Definition stages_are (d : dict json) (l : list string) : Prop := dget "stages" d = Some (JArr (map JStr l)) \/ (dget "stages" d = None /\ l = []).
Lemma add_stage_spec s d l : stages_are d l -> exists d', add_stage s d = Val d' /\ stages_are d' (l ++ [s])%list /\ forall k, k <> "stages" -> dget k d' = dget k d.
Proof.
  intros [E|(E & ->)]; unfold add_stage; rewrite E; eexists; (split; [reflexivity|]); split.
  - left. rewrite dget_put, String.eqb_refl, map_app. reflexivity.
  - intros k K. rewrite dget_put. destruct (String.eqb_spec k "stages"); [contradiction|reflexivity].
  - left. rewrite dget_put, String.eqb_refl. reflexivity.
  - intros k K. rewrite dget_put. destruct (String.eqb_spec k "stages"); [contradiction|reflexivity].
Qed.
Definition objd (o : option json) : Prop := match o with None | Some (JObj _) => True | _ => False end.
Lemma move_spec rm d : objd (dget "redshiftSolver" d) -> rm <> "redshiftSolver" -> exists d', move_solver rm d = Val d' /\ objd (dget "redshiftSolver" d') /\
  (forall k, on_none (dget "redshiftSolver" d') k = if k =? rm then (match dget rm d with Some v => Some v | None => on_none (dget "redshiftSolver" d) k end) else on_none (dget "redshiftSolver" d) k) /\
  (forall k, k <> "redshiftSolver" -> dget k d' = if k =? rm then None else dget k d).
Proof.
  intros O N. unfold move_solver. destruct (dget rm d) as [v|] eqn:V.
  - destruct (dget "redshiftSolver" d) as [j|] eqn:R.
    + destruct j as [| | | | |s]; try contradiction. eexists. split; [reflexivity|]. rewrite dget_put, String.eqb_refl. split; [exact Logic.I|]. split.
      * intro k. cbn [on_none field]. rewrite dget_put. reflexivity.
      * intros k K. rewrite dget_put, dget_remove. destruct (String.eqb_spec k "redshiftSolver"); [contradiction|reflexivity].
    + eexists. split; [reflexivity|]. rewrite dget_put, String.eqb_refl. split; [exact Logic.I|]. split.
      * intro k. cbn [on_none field dget]. reflexivity.
      * intros k K. rewrite dget_put, dget_remove. destruct (String.eqb_spec k "redshiftSolver"); [contradiction|reflexivity].
  - exists d. split; [reflexivity|]. split; [exact O|]. split.
    + intro k. destruct (k =? rm); reflexivity.
    + intros k K. destruct (String.eqb_spec k rm) as [E|E]; [rewrite E; exact V|reflexivity].
Qed.
Lemma moves_spec d : objd (dget "redshiftSolver" d) -> exists d', move_solvers redshift_methods d = Val d' /\
  (forall k, on_none (dget "redshiftSolver" d') k = if smem k redshift_methods then (match dget k d with Some v => Some v | None => on_none (dget "redshiftSolver" d) k end) else on_none (dget "redshiftSolver" d) k) /\
  (forall k, k <> "redshiftSolver" -> dget k d' = if smem k redshift_methods then None else dget k d).
Proof.
  intro O. unfold redshift_methods. cbn [move_solvers].
  destruct (move_spec "lineModelSolve" d O ltac:(discriminate)) as (d1 & E1 & O1 & S1 & F1). rewrite E1. cbn [pbind].
  destruct (move_spec "templateFittingSolve" d1 O1 ltac:(discriminate)) as (d2 & E2 & O2 & S2 & F2). rewrite E2. cbn [pbind].
  destruct (move_spec "tplCombinationSolve" d2 O2 ltac:(discriminate)) as (d3 & E3 & O3 & S3 & F3). rewrite E3. cbn [pbind].
  exists d3. split; [reflexivity|]. unfold smem. cbn [existsb]. split.
  - intro k. rewrite S3, S2, S1. destruct (String.eqb_spec k "lineModelSolve") as [A|A]; [subst k; cbn; reflexivity|].
    destruct (String.eqb_spec k "templateFittingSolve") as [B|B]; [subst k; cbn; rewrite F1 by discriminate; cbn; reflexivity|].
    destruct (String.eqb_spec k "tplCombinationSolve") as [C|C]; [subst k; cbn; rewrite F2, F1 by discriminate; cbn; reflexivity|]. reflexivity.
  - intros k K. rewrite F3, F2, F1 by exact K. destruct (k =? "lineModelSolve"), (k =? "templateFittingSolve"), (k =? "tplCombinationSolve"); reflexivity.
Qed.
Lemma smem_in x l : smem x l = true <-> In x l.
Proof.
  unfold smem. rewrite existsb_exists. split; [intros (y & I & E); apply String.eqb_eq in E; subst; exact I|intro I; exists x; split; [exact I|apply String.eqb_refl]].
Qed.
Lemma smem_out x l : smem x l = false <-> ~ In x l.
Proof.
  rewrite <- smem_in. destruct (smem x l); split; intro H.
  - discriminate.
  - exfalso. apply H. reflexivity.
  - discriminate.
  - reflexivity.
Qed.
Lemma in3 m : In m redshift_methods -> m <> "method" /\ m <> "stages" /\ m <> "redshiftSolver".
Proof. intros [<-|[<-|[<-|[]]]]; repeat split; discriminate. Qed.

Lemma redshift_spec d : dget "stages" d = None -> dget "redshiftSolver" d = None -> exists d', redshift_part d = Val d' /\
  (exists a, stages_are d' a /\ ((a = ["redshiftSolver"] /\ exists m, asks_redshift d m) \/ (a = [] /\ forall m, ~ asks_redshift d m))) /\
  (forall m, on_none (dget "redshiftSolver" d') "method" = Some (JStr m) <-> asks_redshift d m) /\
  (forall rm, In rm redshift_methods -> on_none (dget "redshiftSolver" d') rm = dget rm d) /\
  (forall k, ~ In k ("method" :: "stages" :: "redshiftSolver" :: redshift_methods) -> dget k d' = dget k d).
Proof.
  intros S0 R0. unfold redshift_part.
  assert (G : (exists m, asks_redshift d m /\ dget "method" d = Some (JStr m) /\ smem m redshift_methods = true) \/
              ((forall m, ~ asks_redshift d m) /\
               forall X (y : string -> X) n, match dget "method" d with Some (JStr m) => if smem m redshift_methods then y m else n | _ => n end = n)).
  { unfold asks_redshift. destruct (dget "method" d) as [j|].
    - destruct j as [| | |m| |]; try (right; split; [intros m (H & _); discriminate|reflexivity]).
      destruct (smem m redshift_methods) eqn:M.
      + left. exists m. split; [split; [reflexivity|apply smem_in, M]|]. split; [reflexivity|exact M].
      + right. split; [|reflexivity]. intros m' (H & I). injection H as H. subst m'. apply smem_out in M. apply M, I.
    - right. split; [intros m (H & _); discriminate|reflexivity]. }
  destruct G as [(m & (A & I) & E & M)|(A & E)].
  - rewrite E, M. destruct (add_stage_spec "redshiftSolver" (dremove "method" d) []) as (d1 & E1 & T1 & F1).
    { right. split; [rewrite dget_remove; cbn; exact S0|reflexivity]. }
    rewrite E1. cbn [pbind]. set (d2 := dput "redshiftSolver" (JObj [("method", JStr m)]) d1).
    assert (R2 : dget "redshiftSolver" d2 = Some (JObj [("method", JStr m)])) by (unfold d2; rewrite dget_put, String.eqb_refl; reflexivity).
    assert (F2 : forall k, k <> "redshiftSolver" -> k <> "stages" -> k <> "method" -> dget k d2 = dget k d).
    { intros k K1 K2 K3. unfold d2. rewrite dget_put. destruct (String.eqb_spec k "redshiftSolver"); [contradiction|]. rewrite F1 by exact K2. rewrite dget_remove.
      destruct (String.eqb_spec k "method"); [contradiction|reflexivity]. }
    destruct (moves_spec d2) as (d' & E' & S' & F'); [rewrite R2; exact Logic.I|]. exists d'. split; [exact E'|]. repeat apply conj.
    + exists ["redshiftSolver"]. split.
      * unfold stages_are. rewrite F' by discriminate. cbn [smem existsb redshift_methods]. change (smem "stages" redshift_methods) with false. cbv iota. unfold d2. rewrite dget_put. cbn. exact T1.
      * left. split; [reflexivity|]. exists m. split; [exact A|exact I].
    + intro m'. rewrite S'. change (smem "method" redshift_methods) with false. cbv iota. rewrite R2. cbn [on_none field dget]. rewrite String.eqb_refl. split.
      * intro H. injection H as H. subst m'. split; [exact A|exact I].
      * intros (H & _). congruence.
    + intros rm J. rewrite S'. destruct (in3 rm J) as (N1 & N2 & N3). rewrite (proj2 (smem_in _ _) J). rewrite F2 by assumption.
      destruct (dget rm d); [reflexivity|]. rewrite R2. cbn [on_none field dget]. destruct (String.eqb_spec rm "method"); [contradiction|reflexivity].
    + intros k K. rewrite F'.
      * rewrite (proj2 (smem_out k redshift_methods)) by (intro J; apply K; right; right; right; exact J). apply F2; intro Q; apply K; subst k; cbn; auto.
      * intro Q. apply K. subst k. cbn. auto.
  - rewrite (E (pres (dict json)) (fun m => let! d0 := add_stage "redshiftSolver" (dremove "method" d) in Val (dput "redshiftSolver" (JObj [("method", JStr m)]) d0)) (Val (dremove "method" d))).
    cbn [pbind]. set (d2 := dremove "method" d).
    assert (R2 : dget "redshiftSolver" d2 = None) by (unfold d2; rewrite dget_remove; cbn; exact R0).
    assert (F2 : forall k, k <> "method" -> dget k d2 = dget k d).
    { intros k K. unfold d2. rewrite dget_remove. destruct (String.eqb_spec k "method"); [contradiction|reflexivity]. }
    destruct (moves_spec d2) as (d' & E' & S' & F'); [rewrite R2; exact Logic.I|]. exists d'. split; [exact E'|]. repeat apply conj.
    + exists []. split; [|right; split; [reflexivity|exact A]]. right. split; [|reflexivity]. rewrite F' by discriminate. change (smem "stages" redshift_methods) with false. cbv iota.
      rewrite F2 by discriminate. exact S0.
    + intro m'. rewrite S'. change (smem "method" redshift_methods) with false. cbv iota. rewrite R2. cbn [on_none]. split; [discriminate|]. intro H. exfalso. apply (A m' H).
    + intros rm J. rewrite S'. destruct (in3 rm J) as (N1 & N2 & N3). rewrite (proj2 (smem_in _ _) J). rewrite F2 by assumption.
      destruct (dget rm d); [reflexivity|]. rewrite R2. reflexivity.
    + intros k K. rewrite F'.
      * rewrite (proj2 (smem_out k redshift_methods)) by (intro J; apply K; right; right; right; exact J). apply F2; intro Q; apply K; subst k; cbn; auto.
      * intro Q. apply K. subst k. cbn. auto.
Qed.

Lemma linemeas_cases d : (asks_linemeas d) \/ (~ asks_linemeas d /\ linemeas_part d = Val (dremove "linemeas_method" d)).
Proof.
  unfold asks_linemeas, linemeas_part. destruct (dget "linemeas_method" d) as [j|]; [|right; split; [discriminate|reflexivity]].
  destruct j as [| | |s| |]; try (right; split; [discriminate|reflexivity]).
  destruct (String.eqb_spec s "lineMeasSolve") as [E|E]; [left; subst; reflexivity|]. right. split; [congruence|].
  repeat (let a := fresh in destruct s as [|a s]; [reflexivity|]; destruct a as [[] [] [] [] [] [] [] []]; try reflexivity).
  destruct s; [exfalso; apply E; reflexivity|reflexivity].
Qed.
Lemma linemeas_yes d l : asks_linemeas d -> stages_are d l ->
  (dget "lineMeasSolve" d = None /\ linemeas_part d = Err Python) \/
  (exists v d', dget "lineMeasSolve" d = Some v /\ linemeas_part d = Val d' /\ stages_are d' (l ++ ["lineMeasSolver"])%list /\
    dget "lineMeasSolver" d' = Some (JObj [("method", JStr "lineMeasSolve"); ("lineMeasSolve", v)]) /\
    forall k, ~ In k ["linemeas_method"; "lineMeasSolve"; "lineMeasSolver"; "stages"] -> dget k d' = dget k d).
Proof.
  intros A T. unfold linemeas_part. rewrite A. cbv zeta.
  destruct (add_stage_spec "lineMeasSolver" (dremove "linemeas_method" d) l) as (d1 & E1 & T1 & F1).
  { unfold stages_are. rewrite dget_remove. cbn. exact T. }
  rewrite E1. cbn [pbind]. rewrite F1 by discriminate. rewrite dget_remove. cbn [String.eqb Ascii.eqb Bool.eqb].
  change ("lineMeasSolve" =? "linemeas_method") with false. cbv iota.
  destruct (dget "lineMeasSolve" d) as [v|] eqn:V; [|left; split; reflexivity]. right. exists v. eexists. split; [reflexivity|]. split; [reflexivity|]. repeat apply conj.
  - unfold stages_are. rewrite dget_put, dget_remove. cbn. exact T1.
  - rewrite dget_put, String.eqb_refl. reflexivity.
  - intros k K. rewrite dget_put, dget_remove.
    destruct (String.eqb_spec k "lineMeasSolver"); [exfalso; apply K; subst; cbn; auto|]. destruct (String.eqb_spec k "lineMeasSolve"); [exfalso; apply K; subst; cbn; auto|].
    rewrite F1 by (intro; apply K; subst; cbn; auto). rewrite dget_remove. destruct (String.eqb_spec k "linemeas_method"); [exfalso; apply K; subst; cbn; auto|reflexivity].
Qed.
Lemma reliability_spec d l : stages_are d l -> dget "reliabilitySolver" d = None ->
  (asks_reliability d /\ dget "reliabilityModel" d = None /\ reliability_part d = Err Python) \/
  (exists d', reliability_part d = Val d' /\
    ((asks_reliability d /\ stages_are d' (l ++ ["reliabilitySolver"])%list /\ exists v, dget "reliabilityModel" d = Some v /\
        dget "reliabilitySolver" d' = Some (JObj [("method", JStr "deepLearningSolver"); ("deepLearningSolver", JObj [("reliabilityModel", v)])])) \/
     (~ asks_reliability d /\ stages_are d' l /\ dget "reliabilitySolver" d' = None)) /\
    forall k, ~ In k ["enable_reliability"; "reliabilityModel"; "reliabilitySolver"; "stages"] -> dget k d' = dget k d).
Proof.
  intros T R. unfold reliability_part. cbv zeta. destruct (match dget "enable_reliability" d with Some j => truthy j | None => false end) eqn:B.
  - assert (A : asks_reliability d) by (unfold asks_reliability; destruct (dget "enable_reliability" d) as [j|]; [exists j; auto|discriminate]).
    destruct (add_stage_spec "reliabilitySolver" (dremove "enable_reliability" d) l) as (d1 & E1 & T1 & F1).
    { unfold stages_are. rewrite dget_remove. cbn. exact T. }
    rewrite E1. cbn [pbind]. rewrite F1 by discriminate. rewrite dget_remove. change ("reliabilityModel" =? "enable_reliability") with false. cbv iota.
    destruct (dget "reliabilityModel" d) as [v|] eqn:V; [|left; auto]. right. eexists. split; [reflexivity|]. split.
    + left. split; [exact A|]. split; [unfold stages_are; rewrite dget_put, dget_remove; cbn; exact T1|]. exists v. split; [reflexivity|]. rewrite dget_put, String.eqb_refl. reflexivity.
    + intros k K. rewrite dget_put, dget_remove.
      destruct (String.eqb_spec k "reliabilitySolver"); [exfalso; apply K; subst; cbn; auto|]. destruct (String.eqb_spec k "reliabilityModel"); [exfalso; apply K; subst; cbn; auto|].
      rewrite F1 by (intro; apply K; subst; cbn; auto). rewrite dget_remove. destruct (String.eqb_spec k "enable_reliability"); [exfalso; apply K; subst; cbn; auto|reflexivity].
  - assert (A : ~ asks_reliability d) by (intros (j & E & J); rewrite E in B; congruence).
    right. eexists. split; [reflexivity|]. split.
    + right. split; [exact A|]. split; [unfold stages_are; rewrite !dget_remove; cbn; exact T|rewrite !dget_remove; cbn; exact R].
    + intros k K. rewrite !dget_remove.
      destruct (String.eqb_spec k "reliabilityModel"); [exfalso; apply K; subst; cbn; auto|].
      destruct (String.eqb_spec k "enable_reliability"); [exfalso; apply K; subst; cbn; auto|reflexivity].
Qed.

Definition convert_section (d : dict json) : pres (dict json) := let! d := redshift_part d in let! d := linemeas_part d in reliability_part d.
Ltac other := cbn; intuition discriminate.
Theorem section_spec d : section_v1 d ->
  (exists d', convert_section d = Val d' /\ same_meaning d d') \/
  (convert_section d = Err Python /\ ((asks_linemeas d /\ dget "lineMeasSolve" d = None) \/ (asks_reliability d /\ dget "reliabilityModel" d = None))).
Proof.
  intro V. unfold convert_section.
  destruct (redshift_spec d) as (d1 & E1 & (a & T1 & C1) & M1 & S1 & F1); [apply V; cbn; auto|apply V; cbn; auto|]. rewrite E1. cbn [pbind].
  assert (A2 : asks_linemeas d1 <-> asks_linemeas d) by (unfold asks_linemeas; rewrite F1 by other; tauto).
  assert (H : (exists d2 b, linemeas_part d1 = Val d2 /\ stages_are d2 (a ++ b) /\ ((b = ["lineMeasSolver"] /\ asks_linemeas d) \/ (b = [] /\ ~ asks_linemeas d)) /\
     (asks_linemeas d -> exists v, dget "lineMeasSolve" d = Some v /\ dget "lineMeasSolver" d2 = Some (JObj [("method", JStr "lineMeasSolve"); ("lineMeasSolve", v)])) /\
     (~ asks_linemeas d -> dget "lineMeasSolver" d2 = None) /\
     (forall k, ~ In k ["linemeas_method"; "lineMeasSolve"; "lineMeasSolver"; "stages"] -> dget k d2 = dget k d1)) \/
     (linemeas_part d1 = Err Python /\ asks_linemeas d /\ dget "lineMeasSolve" d = None)).
  { destruct (linemeas_cases d1) as [A|(A & E)].
    - destruct (linemeas_yes d1 a A T1) as [(N & E)|(v & d2 & N & E & T & L & F)].
      + right. split; [exact E|]. split; [apply A2, A|]. rewrite <- N. symmetry. apply F1. other.
      + left. exists d2, ["lineMeasSolver"]. split; [exact E|]. split; [exact T|]. split; [left; split; [reflexivity|apply A2, A]|]. split.
        * intros _. exists v. split; [|exact L]. rewrite <- N. symmetry. apply F1. other.
        * split; [|exact F]. intro B. exfalso. apply B, A2, A.
    - left. eexists. exists []. split; [exact E|]. split; [rewrite app_nil_r; unfold stages_are; rewrite dget_remove; cbn; exact T1|].
      assert (B : ~ asks_linemeas d) by (intro B; apply A, A2, B). split; [right; split; [reflexivity|exact B]|]. split; [intro X; contradiction|]. split.
      + intros _. rewrite dget_remove. cbn. rewrite F1 by other. apply V. cbn. auto.
      + intros k K. rewrite dget_remove. destruct (String.eqb_spec k "linemeas_method"); [exfalso; apply K; subst; cbn; auto|reflexivity]. }
  destruct H as [(d2 & b & E2 & T2 & C2 & L2 & N2 & F2)|(E & A & N)]; [|right; rewrite E; cbn [pbind]; auto].
  rewrite E2. cbn [pbind].
  assert (A3 : asks_reliability d2 <-> asks_reliability d) by (unfold asks_reliability; rewrite F2 by other; rewrite F1 by other; tauto).
  assert (R2 : dget "reliabilityModel" d2 = dget "reliabilityModel" d) by (rewrite F2 by other; apply F1; other).
  destruct (reliability_spec d2 _ T2) as [(A & N & E)|(d3 & E3 & C3 & F3)].
  - rewrite F2 by other. rewrite F1 by other. apply V. cbn. auto.
  - right. split; [exact E|]. right. split; [apply A3, A|congruence].
  - left. exists d3. split; [exact E3|].
    assert (FS : dget "redshiftSolver" d3 = dget "redshiftSolver" d1) by (rewrite F3 by other; apply F2; other).
    assert (FL : dget "lineMeasSolver" d3 = dget "lineMeasSolver" d2) by (apply F3; other).
    split.
    + destruct C3 as [(A & T & _)|(A & T & _)].
      * exists ((a ++ b) ++ ["reliabilitySolver"])%list. split; [exact T|]. exists a, b, ["reliabilitySolver"]. split; [symmetry; apply app_assoc|]. split; [exact C1|]. split; [exact C2|]. left. split; [reflexivity|apply A3, A].
      * exists (a ++ b)%list. split; [exact T|]. exists a, b, []. split; [rewrite app_nil_r; reflexivity|]. split; [exact C1|]. split; [exact C2|]. right. split; [reflexivity|]. intro B. apply A, A3, B.
    + rewrite FS. exact M1.
    + rewrite FS. exact S1.
    + intro A. destruct (L2 A) as (v & Dv & Sv). rewrite FL, Sv, Dv. cbn. repeat split. discriminate.
    + intro A. rewrite FL. apply N2, A.
    + intro A. apply A3 in A. destruct C3 as [(_ & _ & v & Dv & Sv)|(B & _)]; [|contradiction]. rewrite Sv, <- R2, Dv. cbn. repeat split. discriminate.
    + intro A. destruct C3 as [(B & _)|(_ & _ & B)]; [exfalso; apply A, A3, B|exact B].
    + intros k K. rewrite F3, F2, F1; [reflexivity| | |]; intro I; apply K; cbn in I |- *; tauto.
Qed.

(** *** the tree *)
Definition is_name (j : json) : Prop := exists s, j = JStr s.
Lemma each_spec part ms : forall p p', NoDup ms -> each_model part ms p = Val p' ->
  (forall j, In j ms -> is_name j) /\
  (forall m, In (JStr m) ms -> exists d d', dget m p = Some (JObj d) /\ part d = Val d' /\ dget m p' = Some (JObj d')) /\
  (forall k, ~ In (JStr k) ms -> dget k p' = dget k p).
Proof.
  induction ms as [|j ms IH]; intros p p' N E.
  - cbn in E. apply Val_inj in E. subst p'. repeat split; intros; try contradiction.
  - cbn [each_model] in E. destruct j as [| | |m| |]; try discriminate. destruct (dget m p) as [[| | | | |d]|] eqn:G; try discriminate.
    apply pbind_inv in E. destruct E as (d' & P & E). inversion N as [|? ? N1 N2]. destruct (IH _ _ N2 E) as (H1 & H2 & H3). repeat apply conj.
    + intros j [J|J]; [exists m; congruence|apply H1, J].
    + intros k [K|K].
      * injection K as K. subst k. exists d, d'. split; [exact G|]. split; [exact P|]. rewrite H3 by exact N1. rewrite dget_put, String.eqb_refl. reflexivity.
      * destruct (H2 k K) as (c & c' & Q1 & Q2 & Q3). exists c, c'. rewrite dget_put in Q1. destruct (String.eqb_spec k m) as [Y|Y]; [exfalso; apply N1; congruence|]. auto.
    + intros k K. rewrite H3 by (intro J; apply K; right; exact J). rewrite dget_put. destruct (String.eqb_spec k m) as [Y|Y]; [exfalso; apply K; left; congruence|reflexivity].
Qed.
Lemma each_total part ms : forall p, NoDup ms -> (forall j, In j ms -> exists m d d', j = JStr m /\ dget m p = Some (JObj d) /\ part d = Val d') -> exists p', each_model part ms p = Val p'.
Proof.
  induction ms as [|j ms IH]; intros p N H; [eexists; reflexivity|]. destruct (H j (or_introl eq_refl)) as (m & d & d' & J & G & P). subst j. cbn [each_model]. rewrite G, P. cbn [pbind].
  inversion N as [|? ? N1 N2]. apply (IH _ N2). intros j I. destruct (H j (or_intror I)) as (k & c & c' & J & Q1 & Q2). exists k, c, c'. split; [exact J|]. split; [|exact Q2].
  rewrite dget_put. destruct (String.eqb_spec k m) as [Y|Y]; [exfalso; apply N1; congruence|exact Q1].
Qed.
Lemma models_frame ms p p' : NoDup ms -> models p = Val ms -> forall part, each_model part ms p = Val p' -> models p' = Val ms.
Proof.
  intros N M part E. destruct (each_spec _ _ _ _ N E) as (_ & H & F). unfold models in *. rewrite F; [exact M|]. intro I.
  destruct (H _ I) as (d & d' & G & _). rewrite G in M. discriminate.
Qed.
(** the two passes on the tree *)
Theorem tree_spec raw p' : let p := to_dict (rename_entries rename_str raw) in
  forall ms, models p = Val ms -> NoDup ms -> convert_v1 raw = Val p' ->
  (forall m, In (JStr m) ms -> exists d d', dget m p = Some (JObj d) /\ convert_section d = Val d' /\ dget m p' = Some (JObj d')) /\
  (forall k, ~ In (JStr k) ms -> dget k p' = dget k p).
Proof.
  intros p ms M N E. unfold convert_v1 in E. fold p in E. rewrite M in E. cbn [pbind] in E. apply pbind_inv in E. destruct E as (p1 & E1 & E).
  rewrite (models_frame ms p p1 N M _ E1) in E. cbn [pbind] in E. apply pbind_inv in E. destruct E as (p2 & E2 & E).
  assert (M1 := models_frame ms p p1 N M _ E1). rewrite (models_frame ms p1 p2 N M1 _ E2) in E. cbn [pbind] in E.
  destruct (each_spec _ _ _ _ N E1) as (_ & H1 & F1), (each_spec _ _ _ _ N E2) as (_ & H2 & F2), (each_spec _ _ _ _ N E) as (_ & H3 & F3). split.
  - intros m I. destruct (H1 m I) as (d & d1 & G & P1 & G1), (H2 m I) as (d1' & d2 & G1' & P2 & G2), (H3 m I) as (d2' & d3 & G2' & P3 & G3).
    rewrite G1 in G1'. injection G1' as X. subst d1'. rewrite G2 in G2'. injection G2' as Y. subst d2'.
    exists d, d3. split; [exact G|]. split; [|exact G3]. unfold convert_section. rewrite P1. cbn [pbind]. rewrite P2. cbn [pbind]. exact P3.
  - intros k K. rewrite F3, F2, F1 by exact K. reflexivity.
Qed.
Theorem tree_total raw : let p := to_dict (rename_entries rename_str raw) in
  forall ms, models p = Val ms -> NoDup ms ->
  (forall j, In j ms -> exists m d d', j = JStr m /\ dget m p = Some (JObj d) /\ convert_section d = Val d') -> exists p', convert_v1 raw = Val p'.
Proof.
  intros p ms M N H. unfold convert_v1. fold p. rewrite M. cbn [pbind].
  destruct (each_total redshift_part ms p N) as (p1 & E1).
  { intros j I. destruct (H j I) as (m & d & d' & J & G & P). unfold convert_section in P. apply pbind_inv in P. destruct P as (d1 & P1 & P). exists m, d, d1. auto. }
  rewrite E1. cbn [pbind]. assert (M1 := models_frame ms p p1 N M _ E1). rewrite M1. cbn [pbind]. destruct (each_spec _ _ _ _ N E1) as (_ & H1 & F1).
  destruct (each_total linemeas_part ms p1 N) as (p2 & E2).
  { intros j I. destruct (H j I) as (m & d & d' & J & G & P). unfold convert_section in P. apply pbind_inv in P. destruct P as (d1 & P1 & P). apply pbind_inv in P. destruct P as (d2 & P2 & P).
    subst j. destruct (H1 m I) as (c & c1 & Q & Q1 & Q2). rewrite G in Q. injection Q as X. subst c. rewrite P1 in Q1. apply Val_inj in Q1. subst c1. exists m, d1, d2. auto. }
  rewrite E2. cbn [pbind]. rewrite (models_frame ms p1 p2 N M1 _ E2). cbn [pbind]. destruct (each_spec _ _ _ _ N E2) as (_ & H2 & F2).
  destruct (each_total reliability_part ms p2 N) as (p3 & E3); [|exists p3; exact E3].
  intros j I. destruct (H j I) as (m & d & d' & J & G & P). unfold convert_section in P. apply pbind_inv in P. destruct P as (d1 & P1 & P). apply pbind_inv in P. destruct P as (d2 & P2 & P).
  subst j. destruct (H1 m I) as (c & c1 & Q & Q1 & Q2). rewrite G in Q. injection Q as X. subst c. rewrite P1 in Q1. apply Val_inj in Q1. subst c1.
  destruct (H2 m I) as (c & c2 & Q & Q1 & Q3). rewrite Q2 in Q. injection Q as X. subst c. rewrite P2 in Q1. apply Val_inj in Q1. subst c2. exists m, d2, d'. auto.
Qed.
