(** The conversion of version 1, from the tree of the client (C97). *)
From Coq Require Import String Ascii.
From Verif Require Import Base RdrModel RdrProofs CvtModel CvtSpec CvtProofs CvtProofs2 CvtProofs3.
Open Scope string_scope.

Lemma renamed_fun f : forall j a b, renamed f j a -> renamed f j b -> a = b.
Proof.
  intro j. remember (jsize j) as n eqn:E. assert (H : (jsize j <= n)%nat) by lia. clear E. revert j H.
  induction n as [|n IH]; intros j H a b A B; [destruct j; cbn in H; lia|].
  destruct j as [|x|q|s|l|d].
  - inversion A. inversion B. reflexivity.
  - inversion A. inversion B. reflexivity.
  - inversion A. inversion B. reflexivity.
  - inversion A. inversion B. reflexivity.
  - inversion A as [| | | |l0 la Fa|]. inversion B as [| | | |l1 lb Fb|]. f_equal.
    assert (G : forall x, In x l -> forall a b, renamed f x a -> renamed f x b -> a = b) by (intros x X a' b'; apply IH; assert (K := arr_size l x X); lia).
    clear -G Fa Fb. revert lb Fb. induction Fa as [|x y l la R Fa IHl]; intros lb Fb; inversion Fb as [|x' y' l' lb' R' Fb']; [reflexivity|]. f_equal.
    + apply (G x); [left; reflexivity|exact R|exact R'].
    + apply IHl; [|exact Fb']. intros z Z. apply G. right. exact Z.
  - inversion A as [| | | | |l0 la Fa]. inversion B as [| | | | |l1 lb Fb]. f_equal.
    assert (G : forall k x, In (k, x) d -> forall a b, renamed f x a -> renamed f x b -> a = b) by (intros k x X a' b'; apply IH; assert (K := obj_size d k x X); lia).
    clear -G Fa Fb. revert lb Fb. induction Fa as [|(k, x) (k1, y) l la (R1 & R) Fa IHl]; intros lb Fb; inversion Fb as [|x' y' l' lb' (R1' & R') Fb']; [reflexivity|].
    destruct y' as (k2, y2). cbn [fst snd] in *. f_equal.
    + f_equal; [congruence|]. apply (G k x); [left; reflexivity|exact R|exact R'].
    + apply IHl; [|exact Fb']. intros k0 z Z. apply (G k0). right. exact Z.
Qed.
Lemma renamed_is raw q : distinct rename_str (JObj raw) -> renamed rename_str (JObj raw) (JObj q) -> to_dict (rename_entries rename_str raw) = q.
Proof.
  intros D R. assert (X := renamed_fun _ _ _ _ (rename_tree _ _ D) R). rewrite rename_obj in X. injection X as X. exact X.
Qed.
Lemma nodup_names ms : NoDup ms -> NoDup (map JStr ms).
Proof.
  induction 1 as [|m ms N M IH]; cbn; constructor; [|exact IH]. intro I. apply in_map_iff in I. destruct I as (x & E & I). injection E as E. subst x. contradiction.
Qed.
Lemma in_names m ms : In (JStr m) (map JStr ms) <-> In m ms.
Proof.
  rewrite in_map_iff. split; [intros (x & E & I); injection E as E; subst; exact I|intro I; exists m; auto].
Qed.
Theorem v1_converted raw q ms : distinct rename_str (JObj raw) -> renamed rename_str (JObj raw) (JObj q) ->
  dget "spectrumModels" q = Some (JArr (map JStr ms)) -> NoDup ms -> (forall m, In m ms -> exists d, dget m q = Some (JObj d) /\ section_v1 d) ->
  (forall p, convert_v1 raw = Val p ->
    (forall m d, In m ms -> dget m q = Some (JObj d) -> exists d', dget m p = Some (JObj d') /\ same_meaning d d') /\
    (forall k, ~ In k ms -> dget k p = dget k q)) /\
  ((exists p, convert_v1 raw = Val p) <-> (forall m d, In m ms -> dget m q = Some (JObj d) -> complete d)).
Proof.
  intros D R M N S. assert (E := renamed_is _ _ D R).
  assert (Mo : models (to_dict (rename_entries rename_str raw)) = Val (map JStr ms)) by (rewrite E; unfold models; rewrite M; reflexivity).
  assert (Nm := nodup_names ms N). split; [|split].
  - intros p C. destruct (tree_spec raw p _ Mo Nm C) as (A & B). rewrite E in A, B. split.
    + intros m d I G. destruct (A m (proj2 (in_names m ms) I)) as (d0 & d' & G0 & P & G'). rewrite G in G0. injection G0 as G0. subst d0.
      exists d'. split; [exact G'|]. destruct (S m I) as (d0 & G0 & V). rewrite G in G0. injection G0 as G0. subst d0.
      destruct (section_spec d V) as [(d1 & P1 & SM)|(P1 & _)]; [|congruence]. rewrite P in P1. apply Val_inj in P1. subst d1. exact SM.
    + intros k K. apply B. rewrite in_names. exact K.
  - intros (p & C) m d I G. destruct (tree_spec raw p _ Mo Nm C) as (A & _). rewrite E in A. destruct (A m (proj2 (in_names m ms) I)) as (d0 & d' & G0 & P & _).
    rewrite G in G0. injection G0 as G0. subst d0. destruct (S m I) as (d0 & G0 & V). rewrite G in G0. injection G0 as G0. subst d0.
    destruct (section_spec d V) as [(d1 & P1 & SM)|(P1 & _)]; [|congruence]. split.
    + intro Q. apply (sm_linemeas _ _ SM Q).
    + intro Q. apply (sm_reliability _ _ SM Q).
  - intro H. apply (tree_total raw _ Mo Nm). intros j I. rewrite E. apply in_map_iff in I. destruct I as (m & J & I). destruct (S m I) as (d & G & V).
    destruct (section_spec d V) as [(d' & P & _)|(_ & [(Q & X)|(Q & X)])].
    + exists m, d, d'. auto.
    + exfalso. apply (proj1 (H m d I G) Q X).
    + exfalso. apply (proj2 (H m d I G) Q X).
Qed.
Lemma renamed_keys f d d' : renamed f (JObj d) (JObj d') -> dkeys d' = map f (dkeys d).
Proof.
  intro R. inversion R as [| | | | |l l' F]. clear -F. unfold dkeys. induction F as [|e e' d d' (E & _) F IH]; [reflexivity|]. cbn. rewrite E. f_equal. exact IH.
Qed.
(** the sections accepted by the schema of version 1 have none of the new names *)
Theorem v1_sections d d' : only objects_v1 (JObj d) -> renamed rename_str (JObj d) (JObj d') -> section_v1 d'.
Proof.
  intros O R k I. destruct (dget k d') as [v|] eqn:E; [|reflexivity]. exfalso. assert (K : In k (dkeys d')) by (apply dget_key; exists v; exact E).
  rewrite (renamed_keys _ _ _ R) in K. apply in_map_iff in K. destruct K as (s & F & K). apply O in K.
  assert (C : forallb (fun s => negb (smem (rename_str s) ["stages"; "redshiftSolver"; "lineMeasSolver"; "reliabilitySolver"])) objects_v1 = true) by (vm_compute; reflexivity).
  rewrite forallb_forall in C. specialize (C s K). rewrite F in C. rewrite (proj2 (smem_in _ _) I) in C. discriminate.
Qed.
(** and two of their names are not merged *)
Theorem v1_sections_distinct s t : In s objects_v1 -> In t objects_v1 -> rename_str s = rename_str t -> s = t.
Proof.
  intros I J E. assert (C : forallb (fun s => forallb (fun t => if rename_str s =? rename_str t then s =? t else true) objects_v1) objects_v1 = true) by (vm_compute; reflexivity).
  rewrite forallb_forall in C. specialize (C s I). cbv beta in C. rewrite forallb_forall in C. specialize (C t J). cbv beta in C. rewrite E, String.eqb_refl in C. apply String.eqb_eq, C.
Qed.

(** *** examples *)
Definition ex_galaxy : dict json :=
  [("redshiftstep", JNum 1); ("method", JStr "LineModelSolve"); ("LineModelSolve", JObj [("linemodel", JObj [("lyafit", JBool true)])]); ("linemeas_method", JStr "LineMeasSolve");
   ("LineMeasSolve", JObj [("linemodel", JObj [])]); ("linemeas_dzhalf", JNum 2); ("enable_reliability", JBool true); ("reliability_model", JStr "net")].
Definition ex_star : dict json := [("method", JStr "TemplateFittingSolve"); ("TemplateFittingSolve", JObj [("igmfit", JBool false)]); ("enable_reliability", JBool false); ("reliability_model", JStr "net")].
Definition ex_v1 : dict json := [("version", JNum 1); ("objects", JArr [JStr "galaxy"; JStr "star"]); ("LSF", JObj [("LSFType", JStr "FROMSPECTRUMDATA")]); ("galaxy", JObj ex_galaxy); ("star", JObj ex_star)].
Definition ex_renamed : dict json := to_dict (rename_entries rename_str ex_v1).
Fixpoint distinct_b (fuel : nat) (f : string -> string) (j : json) : bool :=
  match fuel with
  | O => false
  | S n => match j with
           | JArr l => forallb (distinct_b n f) l
           | JObj d => (fix nd (l : list string) := match l with [] => true | x :: t => negb (smem x t) && nd t end) (map (fun e => f (fst e)) d) && forallb (fun e => distinct_b n f (snd e)) d
           | _ => true
           end
  end.
Lemma distinct_b_spec n f : forall j, distinct_b n f j = true -> distinct f j.
Proof.
  induction n as [|n IH]; intros j H; [discriminate|]. destruct j as [| | | |l|d]; try constructor.
  - intros x I. apply IH. cbn in H. rewrite forallb_forall in H. apply H, I.
  - cbn in H. apply andb_true_iff in H. destruct H as (H & _). revert H. generalize (map (fun e : string * json => f (fst e)) d) as l. induction l as [|x l IHl]; intro H; constructor.
    + apply andb_true_iff in H. destruct H as (H & _). apply smem_out. destruct (smem x l); [discriminate|reflexivity].
    + apply IHl. apply andb_true_iff in H. apply H.
  - intros k j I. apply IH. cbn in H. apply andb_true_iff in H. destruct H as (_ & H). rewrite forallb_forall in H. apply (H (k, j) I).
Qed.
Lemma ex_distinct : distinct rename_str (JObj ex_v1).
Proof. apply (distinct_b_spec 6). vm_compute. reflexivity. Qed.
Lemma ex_rename : renamed rename_str (JObj ex_v1) (JObj ex_renamed).
Proof. unfold ex_renamed. rewrite <- rename_obj. apply rename_tree, ex_distinct. Qed.
Lemma ex_hyps : dget "spectrumModels" ex_renamed = Some (JArr (map JStr ["galaxy"; "star"])) /\ NoDup ["galaxy"; "star"] /\
  (forall m, In m ["galaxy"; "star"] -> exists d, dget m ex_renamed = Some (JObj d) /\ section_v1 d) /\
  exists d, dget "galaxy" ex_renamed = Some (JObj d) /\ asks_redshift d "lineModelSolve" /\ asks_linemeas d /\ asks_reliability d.
Proof.
  split; [vm_compute; reflexivity|]. split; [|split].
  - constructor; [intros [E|[]]; discriminate|]. constructor; [intros []|constructor].
  - intros m [E|[E|[]]]; subst m; (eexists; split; [vm_compute; reflexivity|]); intros k [K|[K|[K|[K|[]]]]]; subst k; vm_compute; reflexivity.
  - eexists. split; [vm_compute; reflexivity|]. split; [split; [vm_compute; reflexivity|left; reflexivity]|]. split; [vm_compute; reflexivity|].
    exists (JBool true). split; vm_compute; reflexivity.
Qed.
Lemma ex_stages : exists p, convert_v1 ex_v1 = Val p /\ get_stages p "galaxy" = map JStr ["redshiftSolver"; "lineMeasSolver"; "reliabilitySolver"] /\
  get_stages p "star" = [JStr "redshiftSolver"] /\ get_linemeas_method p "galaxy" = Some (JStr "lineMeasSolve") /\ get_linemeas_dzhalf p "galaxy" = Some (JNum 2) /\
  get_redshift_solver_method p "star" = Some (JStr "templateFittingSolve").
Proof. eexists. split; [vm_compute; reflexivity|]. repeat split; vm_compute; reflexivity. Qed.
(** strings of the client are renamed as well *)
Theorem v1_user_strings : exists raw p, convert_v1 raw = Val p /\ dget "additional_cols" raw = Some (JArr [JStr "weight_map"; JStr "linemodel"]) /\
  dget "additionalCols" p = Some (JArr [JStr "weight_map"; JStr "lineModel"]).
Proof. exists [("additional_cols", JArr [JStr "weight_map"; JStr "linemodel"])]. eexists. split; [vm_compute; reflexivity|]. split; vm_compute; reflexivity. Qed.
(** version 2 *)
Definition ex_v2 : dict json :=
  [("version", JNum 2); ("spectrumModels", JArr [JStr "galaxy"]); ("lambdaRange", JArr [JNum 1; JNum 2]);
   ("spectrumModel_galaxy", JObj [("stages", JArr [JStr "redshiftSolver"; JStr "lineMeasSolver"]); ("linemeasDzHalf", JNum 2); ("lineMeasSolver", JObj [("lineModel", JObj [])])]);
   ("lsf", JObj [("lsfType", JStr "gaussianVariableWidth"); ("gaussianVariablewidthFileName", JStr "width.fits")])].
Lemma ex_v2_accepted : accepted_v2 ex_v2 /\ no_collision ex_v2.
Proof.
  split; [split; [|split; [|split]]|split].
  - vm_compute. repeat (constructor; [cbn; intuition discriminate|]). constructor.
  - intros k I. cbn in I. destruct I as [E|[E|[E|[E|[E|[]]]]]]; subst k; try (left; cbn; tauto). right. reflexivity.
  - intros k j I P. cbn in I. destruct I as [E|[E|[E|[E|[E|[]]]]]]; injection E as Ek Ej; subst k j; try discriminate P. split.
    + intros k K. cbn in K |- *. tauto.
    + intros s E. cbn in E. injection E as E. subst s. intros k K. cbn in K |- *. tauto.
  - intros j I. cbn in I. destruct I as [E|[E|[E|[E|[E|[]]]]]]; try discriminate E. injection E as E. subst j. intros k K. cbn in K |- *. tauto.
  - vm_compute. repeat (constructor; [cbn; intuition discriminate|]). constructor.
  - intros k I. cbn in I. destruct I as [E|[E|[E|[E|[E|[]]]]]]; subst k; vm_compute; reflexivity.
Qed.
Lemma ex_v2_stages : get_stages (convert_v2 ex_v2) "galaxy" = [JStr "redshiftSolver"; JStr "lineMeasSolver"] /\ get_linemeas_method (convert_v2 ex_v2) "galaxy" = None /\ ~ In "galaxy" general_v2.
Proof. split; [vm_compute; reflexivity|]. split; [vm_compute; reflexivity|]. cbn. intuition discriminate. Qed.
(** the stage accepted by the schema is never run, and the parameters accepted for it are never read *)
Theorem v2_linemeas_never : exists raw m s, accepted_v2 raw /\ get_stages (convert_v2 raw) m = s /\ In (JStr "lineMeasSolver") s /\ get_linemeas_method (convert_v2 raw) m = None.
Proof.
  exists ex_v2, "galaxy". eexists. destruct ex_v2_stages as (A & B & _). split; [apply ex_v2_accepted|]. split; [exact A|]. split; [right; left; reflexivity|exact B].
Qed.
(** a section whose name is the one of a general parameter replaces it *)
Theorem v2_collision : exists raw, accepted_v2 raw /\ dget "lambdaRange" raw = Some (JArr [JNum 1; JNum 2]) /\ dget "lambdaRange" (convert_v2 raw) = Some (JObj []).
Proof.
  exists [("lambdaRange", JArr [JNum 1; JNum 2]); ("spectrumModel_lambdaRange", JObj [])]. split; [split; [|split; [|split]]|split; vm_compute; reflexivity].
  - vm_compute. repeat (constructor; [cbn; intuition discriminate|]). constructor.
  - intros k [E|[E|[]]]; subst k; [left; cbn; tauto|right; reflexivity].
  - intros k j [E|[E|[]]] P; injection E as Ek Ej; subst k j; [discriminate P|]. split; [intros k []|intros s E; discriminate E].
  - intros j [E|[E|[]]]; discriminate E.
Qed.
