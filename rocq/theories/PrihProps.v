(** C75: the prior tables p(ebv, template | z), p(A) and p(z). *)
From Coq Require Import String Reals Qreals Lra.
From Verif Require Import Base MeikModel EfitModel PrihModel PrihSpec PrihProofs.
Open Scope Q_scope.

(** what is loaded: each cell of each table is the number at its place in the file of its kind, 0 when it is missing or not positive *)
Theorem C75_tables : forall ts zf bA bTE bZ h, Init (Some (ts, zf)) bA bTE bZ = Ok h -> h_failed h = false /\ h_names h = map t_name ts /\ h_bA h = bA /\ h_bTE h = bTE /\ h_bZ h = bZ /\ shaped h /\
  (forall k t kz ke, nth_error ts k = Some t -> (kz < nZ)%nat -> (ke < nEbv)%nat -> exists d row e mf sf, nth_error (h_data h) k = Some d /\ nth_error d kz = Some row /\ nth_error row ke = Some e /\ t_amean t = Some mf /\ t_asigma t = Some sf /\
    cell (t_ezt t) kz ke (e_p e) /\ cell mf kz ke (e_mean e) /\ cell sf kz ke (e_sigma e)) /\
  exists f, zf = Some f /\ forall kz, (kz < nZ)%nat -> exists v, nth_error (h_pz h) kz = Some v /\ z_cell f kz v.
Proof. exact Init_spec. Qed.
Print Assumptions C75_tables.
(** complete files are loaded *)
Theorem C75_loads : forall ts f bA bTE bZ, (forall t, In t ts -> exists mf sf, t_amean t = Some mf /\ t_asigma t = Some sf /\ (nZ <= List.length (content (t_ezt t)))%nat /\ (nZ <= List.length (content mf))%nat /\ (nZ <= List.length (content sf))%nat) ->
  List.length (content f) = nZ -> (forall l, In l (content f) -> l <> []) -> exists h, Init (Some (ts, Some f)) bA bTE bZ = Ok h.
Proof. exact Init_total. Qed.
Print Assumptions C75_loads.
(** the priors of a template, below redshift 6: for each redshift the row of its bin, with the logarithms of the three densities and the betas *)
Theorem C75_densities : forall h n zs r, shaped h -> h_failed h = false -> (forall z, In z zs -> z < 6) -> GetTplPriorData h n zs 0 = Ok r ->
  some_beta h /\ exists idx d, first_named h n idx /\ nth_error (h_data h) idx = Some d /\ List.length r = List.length zs /\
    forall i z, nth_error zs i = Some z -> exists k row out, bin z k /\ nth_error d k = Some row /\ nth_error r i = Some out /\ List.length out = nEbv /\
      forall ke e, nth_error row ke = Some e -> exists q, nth_error out ke = Some q /\ 0 < e_p e /\ densities h k e q.
Proof. exact Get_spec. Qed.
Print Assumptions C75_densities.
Theorem C75_available : forall h n zs, shaped h -> h_failed h = false -> some_beta h -> In n (h_names h) -> (forall z, In z zs -> z < 6) -> (forall d row e, In d (h_data h) -> In row d -> In e row -> 0 < e_p e) ->
  exists r, GetTplPriorData h n zs 0 = Ok r.
Proof. exact Get_total. Qed.
Print Assumptions C75_available.
(** errors: no positive beta; an unknown template; a failed loading gives no prior *)
Theorem C75_errors : forall h n zs mode, (~ some_beta h -> GetTplPriorData h n zs mode = Throw INTERNAL_ERROR) /\ (some_beta h -> h_failed h = true -> GetTplPriorData h n zs mode = Ok []) /\
  (some_beta h -> h_failed h = false -> ~ In n (h_names h) -> GetTplPriorData h n zs mode = Throw INTERNAL_ERROR).
Proof.
  intros h n zs mode. unfold GetTplPriorData. split; [|split].
  - intros B. apply betas in B. rewrite B. reflexivity.
  - intros B F. destruct (_ && _ && _)%bool eqn:E; [apply betas in E; contradiction|]. rewrite F. reflexivity.
  - intros B F N. destruct (_ && _ && _)%bool eqn:E; [apply betas in E; contradiction|]. rewrite F. unfold getTemplateIndex. apply (find_name_none n _ 0) in N. rewrite N. reflexivity.
Qed.
Print Assumptions C75_errors.
(** with the check of the range, redshifts of the table are in their bin and those from 6 or up to -0.25 are an error *)
Theorem C75_checked : forall z, (0 <= z < 6 -> exists k, getRedshiftIndex z 1 = Ok (Z.of_nat k) /\ bin z k) /\ (z <= - (1 # 4) \/ 6 <= z -> getRedshiftIndex z 1 = Throw INTERNAL_ERROR).
Proof. exact checked. Qed.
Print Assumptions C75_checked.
(** one value: the one of its extinction in the row of the redshift; other indices are an error *)
Theorem C75_one : forall h n ebv z mode, (forall row q, GetTplPriorData h n [z] mode = Ok [row] -> List.length row = nEbv -> (0 <= ebv)%Z -> nth_error row (Z.to_nat ebv) = Some q -> GetTZEPriorData h n ebv z mode = Ok q) /\
  ((ebv < 0)%Z \/ (10 <= ebv)%Z -> GetTZEPriorData h n ebv z mode = Throw INTERNAL_ERROR).
Proof.
  intros h n ebv z mode. unfold GetTZEPriorData, nEbv. split.
  - intros row q H L P Q. assert (Z.to_nat ebv < 10)%nat by (rewrite <- L; apply nth_error_Some; congruence). destruct (Z.ltb_spec ebv 0); [lia|]. destruct (Z.ltb_spec (Z.of_nat 10 - 1) ebv); [lia|]. cbn [orb]. rewrite H. cbn [rbind vget nth_error]. unfold zget. destruct (Z.ltb_spec ebv 0); [lia|]. unfold vget. rewrite Q. reflexivity.
  - intros H. destruct (Z.ltb_spec ebv 0); [reflexivity|]. destruct (Z.ltb_spec (Z.of_nat 10 - 1) ebv); [reflexivity|lia].
Qed.
Print Assumptions C75_one.

(** * a concrete case *)
Definition ex_line (p : Q) : line := Values (repeat (Some p) 10).
Definition ex_file (p : Q) : list line := Comment :: repeat (ex_line p) 24.
Definition ex_dir : list tplfiles := [mkFiles "a" (ex_file (1 # 2)) (Some (ex_file 3)) (Some (ex_file 2)); mkFiles "b" (ex_file (1 # 5)) (Some (ex_file 7)) (Some (ex_file 0))].
Definition ex_z : list line := repeat (Values [Some (1 # 24)]) 24.
Example C75_case : exists h, Init (Some (ex_dir, Some ex_z)) 1 1 1 = Ok h /\ h_names h = ["a"; "b"]%string /\ (exists d, nth_error (h_data h) 1 = Some d /\ nth_error d 23 = Some (repeat (mkEntry (1 # 5) 0 7) 10)) /\ shaped h /\
  (exists r, GetTplPriorData h "b" [-1; 1 # 10; 599 # 100] 0 = Ok r) /\ (forall n, n <> "a"%string -> n <> "b"%string -> GetTplPriorData h n [0] 0 = Throw INTERNAL_ERROR).
Proof.
  eexists. split; [vm_compute; reflexivity|]. split; [reflexivity|]. split; [eexists; split; reflexivity|].
  match goal with |- shaped ?h /\ _ => assert (H : Init (Some (ex_dir, Some ex_z)) 1 1 1 = Ok h) by (vm_compute; reflexivity) end. destruct (C75_tables _ _ _ _ _ _ H) as (F & N & _ & _ & _ & S & _).
  split; [exact S|]. split.
  - apply C75_available; [exact S|exact F|left; reflexivity|right; left; reflexivity| |].
    + intros z [<-|[<-|[<-|[]]]]; vm_compute; reflexivity.
    + clear. cbn. intros d row e [<-|[<-|[]]]; intros D; repeat (destruct D as [<-|D]; [intros E; repeat (destruct E as [<-|E]; [vm_compute; reflexivity|]); destruct E|]); destruct D.
  - intros n A B. apply C75_errors; [left; reflexivity|exact F|]. rewrite N. cbn. intuition.
Qed.

(** * refuted.  "extend ... n-1 value for z > z0 + dZ nZ": the index is limited to nZ and not to nZ - 1, out of the table *)
Theorem C75_last_refuted : forall h n z zs idx, shaped h -> h_failed h = false -> some_beta h -> first_named h n idx -> 6 <= z -> GetTplPriorData h n (z :: zs) 0 = UB.
Proof. exact high_ub. Qed.
Print Assumptions C75_last_refuted.
(** "return error if z outside prior range": redshifts between -0.25 and 0 are accepted, as the index is rounded towards 0 *)
Theorem C75_low_refuted : forall z, - (1 # 4) < z < 0 -> getRedshiftIndex z 1 = Ok 0%Z.
Proof. exact low. Qed.
Print Assumptions C75_low_refuted.
(** a table with missing lines is read out of its bounds instead of being an error *)
Theorem C75_short_refuted : forall f, (List.length (content f) < nZ)%nat -> table (loadFileEZ f) = UB.
Proof. exact table_short. Qed.
Print Assumptions C75_short_refuted.
(** invalid and null values are replaced by a minimal value which is 0, and a null value is an error for all the requests in its bin *)
Theorem C75_null_refuted : forall h n z idx d row e k, shaped h -> h_failed h = false -> some_beta h -> first_named h n idx -> nth_error (h_data h) idx = Some d -> z < 6 -> bin z k -> nth_error d k = Some row -> In e row -> e_p e = priorminval ->
  GetTplPriorData h n [z] 0 = Throw INTERNAL_ERROR.
Proof. exact null_throws. Qed.
Print Assumptions C75_null_refuted.
(** after a failed loading the request for one value reads an empty list *)
Theorem C75_failed_refuted : forall h n ebv z mode, h_failed h = true -> some_beta h -> (0 <= ebv < 10)%Z -> GetTZEPriorData h n ebv z mode = UB.
Proof. exact failed_one. Qed.
Print Assumptions C75_failed_refuted.
(** the templates are known by the names of their files, with the tag of the file: a template T with the file of its priors is unknown *)
Theorem C75_name_refuted : exists ts zf h, Init (Some (ts, Some zf)) 1 1 1 = Ok h /\ (forall t, In t ts -> exists n, t_name t = ("prior_continuum_hist_Ebmvc_Z_Tplc_" ++ n)%string /\ GetTplPriorData h n [0] 0 = Throw INTERNAL_ERROR) /\ ts <> [].
Proof.
  exists [mkFiles "prior_continuum_hist_Ebmvc_Z_Tplc_T" (ex_file (1 # 2)) (Some (ex_file 3)) (Some (ex_file 2))], ex_z. eexists. split; [vm_compute; reflexivity|]. split; [|discriminate].
  intros t [<-|[]]. exists "T"%string. split; [reflexivity|]. apply C75_errors; [left; reflexivity|reflexivity|]. cbn. intros [H|[]]. discriminate.
Qed.
Print Assumptions C75_name_refuted.
