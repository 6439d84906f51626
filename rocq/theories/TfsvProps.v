(** C85: the template fitting method. *)
From Coq Require Import String Lqa.
From Verif Require Import Base PhotModel PhotSpec TfsvModel TfsvSpec TfsvProofs2 TfsvProofs3.
Open Scope Q_scope.

(** ** a run that ends: the results of every component and template, the array of the pdf, the candidates; the types are restored *)
Theorem C85_method : forall fit cp pdf model component fft phot ext dust s s' es, (forall c, results c s = []) -> compute fit cp pdf model component fft phot ext dust s = (s', Ok es) ->
  exists t, ParseComponent component = Ok t /\ (fft && phot)%bool = false /\ s_spcs s' = s_spcs s /\ s_tpls s' = s_tpls s /\ s_log s' = false /\ s_tpls s <> [] /\ NoDup (map fst (s_tpls s)) /\
    (forall c, In c (components t) -> right_results fit (List.length (s_spcs s)) fft (map fst (s_tpls s)) c ext (dusty t c dust) (results c s')) /\
    (forall c, ~ In c (components t) -> results c s' = []) /\
    exists a cs n0 r0 m', right_array cp (results (scope_of t) s') a /\ pdf a = Ok cs /\ cs <> [] /\ results (scope_of t) s' = (n0, r0) :: m' /\ same_redshifts (results (scope_of t) s') (fr_zs r0) /\
      Forall2 (fun c e => right_candidate (results (scope_of t) s') (fr_zs r0) (fst c) (snd c) (fst e) /\ right_models model (List.length (s_spcs s)) (fst e) (snd e)) cs es.
Proof. exact compute_ok. Qed.
Print Assumptions C85_method.
(** ** it ends when the fits succeed at the same redshifts and the candidates are redshifts of the grid *)
Theorem C85_succeeds : forall fit cp pdf model component fft phot ext dust s t zs cst, (forall c, results c s = []) -> (fft && phot)%bool = false -> ParseComponent component = Ok t -> s_tpls s <> [] -> NoDup (map fst (s_tpls s)) ->
  (forall c n, In c (components t) -> In n (map fst (s_tpls s)) -> exists r, fit (repeat c (List.length (s_spcs s))) fft n c ext (dusty t c dust) = Ok r /\ (c = scope_of t -> good_fit zs cst r)) ->
  (forall m a, right_array cp m a -> exists cs, pdf a = Ok cs /\ cs <> [] /\ forall id z, In (id, z) cs -> exists x, In x zs /\ x == z) -> (forall k n z e g a, exists f, model k false n z e g a = Ok f) ->
  exists s' es, compute fit cp pdf model component fft phot ext dust s = (s', Ok es).
Proof. exact compute_succ. Qed.
Print Assumptions C85_succeeds.
(** ** the components: three of the four names accepted by the schema of the parameters *)
Theorem C85_components : ParseComponent "raw" = Ok (One Raw) /\ ParseComponent "continuum" = Ok (One ContinuumOnly) /\ ParseComponent "all" = Ok All /\ Forall (fun n => exists t, ParseComponentCombination n = Ok t) ["raw"; "noContinuum"; "continuum"; "all"]%string.
Proof. repeat split; repeat constructor; eexists; reflexivity. Qed.
Print Assumptions C85_components.
(** the fourth one, noContinuum, is refused: the method never runs without continuum *)
Theorem C85_components_refuted : forall fit cp pdf model fft ext dust s, compute fit cp pdf model "noContinuum" fft false ext dust s = (set_log fft s, Throw INTERNAL_ERROR).
Proof. intros. unfold compute. rewrite andb_false_r. reflexivity. Qed.
Print Assumptions C85_components_refuted.
(** ** a fit that fails leaves the spectra and the template with the type of the component, and the catalogue log sampled *)
Theorem C85_failure_refuted : forall fit cp pdf model component c fft ext dust n ty pl sp e s, ParseComponent component = Ok (One c) -> s_tpls s = (n, ty) :: pl -> s_spcs s = sp ->
  fit (repeat c (List.length sp)) fft n c ext (dusty (One c) c dust) = Throw e ->
  exists s', compute fit cp pdf model component fft false ext dust s = (s', Throw e) /\ s_spcs s' = repeat c (List.length sp) /\ s_tpls s' = (n, c) :: pl /\ s_log s' = fft.
Proof. exact failed. Qed.
Print Assumptions C85_failure_refuted.
(** ** undefined: a candidate that is not on the grid, or with no finite chi square *)
Theorem C85_off_grid_refuted : forall model n r m nspc zs id z, List.length (fr_rows r) = List.length zs -> (forall x, In x zs -> ~ x == z) -> extremum model ((n, r) :: m) nspc zs (id, z) = UB.
Proof. exact off_grid. Qed.
Print Assumptions C85_off_grid_refuted.
Theorem C85_no_merit_refuted : forall model m nspc zs id z i, first_index zs z i -> (forall n r, bound m n r -> exists x, nth_error (fr_rows r) i = Some x /\ r_chi x = None) -> extremum model m nspc zs (id, z) = UB.
Proof. exact no_merit. Qed.
Print Assumptions C85_no_merit_refuted.
(** ** the constants of the likelihoods are compared, but with the first when it is -1 *)
Definition ex_row (c : Q) : row := mkRow (Some c) 0 c 1 0 (-1) 2 3 4 5.
Definition ex_res (l : list Q) (cst : Q) : fitresult := mkFit [1; 2] (map ex_row l) (map (fun c => [[c; c + 1]]) l) cst.
Theorem C85_constants : forall cp m a, BuildChisquareArray cp m = Ok a -> (forall n r, bound m n r -> ~ fr_cst r == -(1)) -> forall n r n' r', bound m n r -> bound m n' r' -> fr_cst r == fr_cst r'.
Proof.
  intros cp m a E N n r n' r' B B'. destruct (array_ok _ _ _ E) as (_ & _ & _ & _ & _ & C). rewrite <- (C N n r B), <- (C N n' r' B'). reflexivity.
Qed.
Print Assumptions C85_constants.
Theorem C85_constants_refuted : exists a, BuildChisquareArray (fun n => repeat 0 n) [("a"%string, ex_res [3; 4] (-(1))); ("b"%string, ex_res [3; 4] 7)] = Ok a /\ a_cst a = 7.
Proof. eexists. split; reflexivity. Qed.
Print Assumptions C85_constants_refuted.

(** ** a case: two spectra, two templates, all the components, the candidate at the second redshift *)
Definition ex_fit (sp : list etype) (log : bool) (n : string) (t : etype) (ext dust : bool) : res fitresult := if String.eqb n "b" then Ok (ex_res [5; 3] 7) else Ok (ex_res [6; 4] 7).
Definition ex_pdf (a : array) : res (list (string * Q)) := match a_zs a with [_; z] => Ok [("EXT0"%string, z)] | _ => Throw PDF_PEAK_NOT_FOUND end.
Definition ex_state : state := mkState [Raw; Raw] [("b"%string, Raw); ("a"%string, Raw)] false [] [] [].
Example C85_case : exists s' f, compute ex_fit (fun n => repeat 0 n) ex_pdf (fun _ _ _ _ _ _ a => Ok [a]) "all" true false true true ex_state = (s', Ok [(mkCand "EXT0" 2 "b" 3 0 (-1) 0 3 1 2 3 4 5, f)]) /\
  f = [[3]; [3]] /\ s_spcs s' = [Raw; Raw] /\ keys (s_cont s') = ["a"; "b"]%string.
Proof. eexists. eexists. split; [vm_compute; reflexivity|]. repeat split. Qed.
Example C85_good : good_fit [1; 2] 7 (ex_res [5; 3] 7).
Proof.
  split; [reflexivity|]. split; [reflexivity|]. split; [reflexivity|]. split; [intros x [<-|[<-|[]]]; discriminate|]. split; [reflexivity|].
  exists 1%nat, 2%nat. intros t [<-|[<-|[]]]; (split; [reflexivity|intros c [<-|[]]; reflexivity]).
Qed.
