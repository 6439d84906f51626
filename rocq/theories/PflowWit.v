(** Witnesses for C95. *)
From Coq Require Import String Ascii.
From Verif Require Import Base ScopeModel PflowModel PflowSpec PflowProofs PflowProofs2 PflowProofs3 PflowProofs4 PflowProofs5 PflowProofs6 PflowProofs7.
Open Scope string_scope.

Definition empty_state : state := mkState [] [] [].
Definition all_fine : history -> event -> outcome := fun _ _ => Okay.
Definition failing (m st code : string) : history -> event -> outcome := fun _ e =>
  match snd e with [(m', SPECTRUMMODEL); (st', STAGE)] => if (m =? m') && (st =? st') then AmzError code else Okay | _ => Okay end.
Definition failing_init : history -> event -> outcome := fun _ e => match fst e with Initialise => AmzError "INVALID_SPECTRUM" | _ => Okay end.

(** three models: a line model with everything, a template fitting, line measurements alone *)
Definition galaxy : section := mkSection (Some "lineModelSolve") (Some "tplRatio") true (Some "lineMeasSolve") true.
Definition star : section := mkSection (Some "templateFittingSolve") None false None false.
Definition lines_only : section := mkSection None None true (Some "lineMeasSolve") false.
Definition three : setup := mkSetup ["galaxy"; "star"; "qso"]
  (fun m => if m =? "galaxy" then Some galaxy else if m =? "star" then Some star else if m =? "qso" then Some lines_only else None)
  ["qso"] ["galaxy"].

Lemma three_regular : regular three.
Proof.
  constructor.
  - cbn. repeat (constructor; [cbn; intuition discriminate|]). constructor.
  - cbn. intros m [<-|[<-|[<-|[]]]]; split; discriminate.
  - cbn. intros m [<-|[<-|[<-|[]]]]; cbn; eauto.
  - cbn. intros m s z [<-|[<-|[<-|[]]]] H; cbn in H; inversion H; subst; intros [E N]; cbn in E; inversion E; cbn; tauto.
  - cbn. intros m s z [<-|[<-|[<-|[]]]] H; cbn in H; inversion H; subst; intros (A & E & N); cbn in E, A; inversion E; try discriminate A; cbn; tauto.
Qed.
Lemma fine_uninterrupted : uninterrupted all_fine. Proof. intros h e. discriminate. Qed.
Lemma failing_uninterrupted m st code : uninterrupted (failing m st code).
Proof. intros h [a k]. unfold failing. cbn [snd]. destruct k as [|[? []] [|[? []] []]]; try discriminate. destruct (_ && _); discriminate. Qed.
Lemma failing_init_uninterrupted : uninterrupted failing_init.
Proof. intros h [a k]. unfold failing_init. cbn [fst]. destruct a; discriminate. Qed.

(** the calls of a run *)
Definition calls_of (c : setup) (w : history -> event -> outcome) : history := rev (st_trace (fst (run c w empty_state))).
Lemma calls_made c w : made [] (st_trace (fst (run c w empty_state))) (calls_of c w).
Proof. unfold made, calls_of. rewrite rev_involutive, app_nil_r. reflexivity. Qed.

Example ex_everything : calls_of three all_fine =
  [(root_call Initialise, Okay); (root_call StoreFlags, Okay);
   (call "galaxy" "redshiftSolver" (Compute "lineModelSolve"), Okay); (call "galaxy" "subClassifSolver" SubTypes, Okay);
   (call "galaxy" "reliabilitySolver" Reliability, Okay); (call "galaxy" "linemeas_catalog_load" LoadLinemeas, Okay);
   (call "galaxy" "lineMeasSolver" (Compute "lineMeasSolve"), Okay);
   (call "star" "redshiftSolver" (Compute "templateFittingSolve"), Okay);
   (call "qso" "lineMeasSolver" (Compute "lineMeasSolve"), Okay);
   (classification_call, Okay); (load_call, Okay)].
Proof. vm_compute. reflexivity. Qed.
Example ex_isolated : calls_of three (failing "galaxy" "redshiftSolver" "INTERNAL_ERROR") =
  [(root_call Initialise, Okay); (root_call StoreFlags, Okay);
   (call "galaxy" "redshiftSolver" (Compute "lineModelSolve"), AmzError "INTERNAL_ERROR");
   (call "star" "redshiftSolver" (Compute "templateFittingSolve"), Okay);
   (call "qso" "lineMeasSolver" (Compute "lineMeasSolve"), Okay);
   (classification_call, Okay); (load_call, Okay)].
Proof. vm_compute. reflexivity. Qed.

(** every redshift solver fails, and the classification runs: a model without redshift solver has not failed *)
Definition two : setup := mkSetup ["star"; "qso"]
  (fun m => if m =? "star" then Some star else if m =? "qso" then Some lines_only else None) ["qso"] [].
Lemma two_regular : regular two.
Proof.
  constructor.
  - cbn. repeat (constructor; [cbn; intuition discriminate|]). constructor.
  - cbn. intros m [<-|[<-|[]]]; split; discriminate.
  - cbn. intros m [<-|[<-|[]]]; cbn; eauto.
  - cbn. intros m s z [<-|[<-|[]]] H; cbn in H; inversion H; subst; intros [E N]; cbn in E; inversion E; cbn; tauto.
  - cbn. intros m s z [<-|[<-|[]]] H; cbn in H; inversion H; subst; intros (A & E & N); cbn in E, A; inversion E; try discriminate A; cbn; tauto.
Qed.
Lemma classified_anyway : exists c world s1 r calls, regular c /\ uninterrupted world /\
  run c world empty_state = (s1, r) /\ made [] (st_trace s1) calls /\ solver_used c /\
  (forall m s z, In m (models c) -> sections c m = Some s -> solver_of s z -> failed calls m "redshiftSolver") /\
  In (classification_call, Okay) calls /\ root_error s1 "classification" = None.
Proof.
  set (w := failing "star" "redshiftSolver" "INTERNAL_ERROR").
  exists two, w, (fst (run two w empty_state)), (snd (run two w empty_state)), (calls_of two w).
  split; [exact two_regular|]. split; [apply failing_uninterrupted|]. split; [destruct (run _ _ _); reflexivity|]. split; [apply calls_made|].
  split; [exists "star", star, "templateFittingSolve"; cbn; repeat split; auto; discriminate|]. split; [|split].
  - intros m s z I H S. cbn in I. destruct I as [<-|[<-|[]]]; cbn in H; inversion H; subst s.
    + exists (Compute "templateFittingSolve"), (AmzError "INTERNAL_ERROR"). split; [vm_compute; tauto|discriminate].
    + destruct S as [S _]. discriminate S.
  - vm_compute. tauto.
  - vm_compute. reflexivity.
Qed.

(** nothing fails, and a requested stage is neither run nor reported *)
Definition silent_conf : setup := mkSetup ["galaxy"]
  (fun m => if m =? "galaxy" then Some (mkSection (Some "templateFittingSolve") None true (Some "lineMeasSolve") true) else None) ["galaxy"] [].
Lemma silently_skipped : exists c world s1 calls m s, regular c /\ uninterrupted world /\
  run c world empty_state = (s1, Ret) /\ made [] (st_trace s1) calls /\ In m (models c) /\ sections c m = Some s /\
  (exists l, linemeas_of s l) /\ rel_listed s = true /\
  ~ called calls m "lineMeasSolver" /\ ~ called calls m "reliabilitySolver" /\ st_errors s1 = [].
Proof.
  set (S0 := mkSection (Some "templateFittingSolve") None true (Some "lineMeasSolve") true).
  exists silent_conf, all_fine, (fst (run silent_conf all_fine empty_state)), (calls_of silent_conf all_fine), "galaxy", S0.
  split.
  { constructor.
    - cbn. repeat (constructor; [cbn; intuition discriminate|]). constructor.
    - cbn. intros m [<-|[]]; split; discriminate.
    - cbn. intros m [<-|[]]; cbn; eauto.
    - cbn. intros m s z [<-|[]] H; cbn in H; inversion H; subst; intros [E N]; cbn in E; inversion E; cbn; tauto.
    - cbn. intros m s z [<-|[]] H; cbn in H; inversion H; subst; intros (A & E & N); cbn in E; inversion E; cbn; tauto. }
  split; [exact fine_uninterrupted|]. split; [vm_compute; reflexivity|]. split; [apply calls_made|].
  split; [left; reflexivity|]. split; [reflexivity|]. split; [exists "lineMeasSolve"; cbn; repeat split; discriminate|].
  split; [reflexivity|].
  assert (CS : calls_of silent_conf all_fine = [(root_call Initialise, Okay); (root_call StoreFlags, Okay);
     (call "galaxy" "redshiftSolver" (Compute "templateFittingSolve"), Okay); (classification_call, Okay); (load_call, Okay)])
    by (vm_compute; reflexivity).
  rewrite CS. split; [|split; [|vm_compute; reflexivity]];
  intros (a & o & I); cbn in I; unfold call, root_call, classification_call, load_call in I; intuition discriminate.
Qed.

(** the initialisation fails: the loading stage is reported for the model which never loads, and not for the
    one which does *)
Lemma load_stage_reported : exists c world s1 r calls, regular c /\ uninterrupted world /\
  run c world empty_state = (s1, r) /\ made [] (st_trace s1) calls /\
  In "galaxy" (models c) /\ In "qso" (models c) /\
  called (calls_of c all_fine) "galaxy" "linemeas_catalog_load" /\ ~ called (calls_of c all_fine) "qso" "linemeas_catalog_load" /\
  model_error s1 "galaxy" "linemeas_catalog_load" = None /\ model_error s1 "qso" "linemeas_catalog_load" = Some (NotRun "init").
Proof.
  exists three, failing_init, (fst (run three failing_init empty_state)), (snd (run three failing_init empty_state)), (calls_of three failing_init).
  split; [exact three_regular|]. split; [exact failing_init_uninterrupted|]. split; [destruct (run _ _ _); reflexivity|]. split; [apply calls_made|].
  split; [cbn; tauto|]. split; [cbn; tauto|]. rewrite ex_everything. split; [|split; [|split; vm_compute; reflexivity]].
  - exists LoadLinemeas, Okay. cbn; tauto.
  - intros (a & o & I); cbn in I; unfold call, root_call, classification_call, load_call in I; intuition discriminate.
Qed.
(** the redshift solver fails: the loading stage which it prevents is not reported *)
Lemma load_not_reported : exists c world s1 r, regular c /\ uninterrupted world /\
  run c world empty_state = (s1, r) /\ called (calls_of c all_fine) "galaxy" "linemeas_catalog_load" /\
  ~ called (calls_of c world) "galaxy" "linemeas_catalog_load" /\ model_error s1 "galaxy" "linemeas_catalog_load" = None.
Proof.
  set (w := failing "galaxy" "redshiftSolver" "INTERNAL_ERROR").
  exists three, w, (fst (run three w empty_state)), (snd (run three w empty_state)).
  split; [exact three_regular|]. split; [apply failing_uninterrupted|]. split; [destruct (run _ _ _); reflexivity|].
  rewrite ex_everything. unfold w at 1. rewrite ex_isolated. split; [exists LoadLinemeas, Okay; cbn; tauto|]. split; [|vm_compute; reflexivity].
  intros (a & o & I); cbn in I; unfold call, root_call, classification_call, load_call in I; intuition discriminate.
Qed.
(** a model named "classification" makes every run fail *)
Definition reserved : setup := mkSetup ["classification"] (fun m => if m =? "classification" then Some star else None) [] [].
Lemma reserved_name : exists c, models c = ["classification"] /\ sections c "classification" = Some star /\
  exists e, snd (run c all_fine empty_state) = Exc e.
Proof. exists reserved. split; [reflexivity|]. split; [reflexivity|]. eexists. vm_compute. reflexivity. Qed.
