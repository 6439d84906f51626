(** C99: the use of the reliability network, the parameters of the stored grids and the sub types. *)
From Coq Require Import String Reals Lra.
From Verif Require Import Base RdrModel RdrProofs RelyModel RelySpec RelyProofs RelyProofs2.
Open Scope string_scope.
Open Scope R_scope.

(** the network is used exactly when the number of points is its own and the grid fits the one of the training *)
Theorem C99_network_used : forall zgrid pdfval model par, redshifts zgrid ->
  ((exists d, get_probas zgrid pdfval model par = Val d) <->
   List.length pdfval = n_input model /\ fits zgrid par /\ ((List.length (classes par) <= 1)%nat \/ (List.length (classes par) <= List.length (predict model (map exp pdfval)))%nat)).
Proof. exact probas_iff. Qed.
Print Assumptions C99_network_used.
Theorem C99_shape_rejected : forall zgrid pdfval model par, zgrid <> [] -> List.length pdfval <> n_input model -> get_probas zgrid pdfval model par = Err incompatible.
Proof. exact probas_shape. Qed.
Print Assumptions C99_shape_rejected.
(** every class after the first one is reported with the probability of its position, and nothing else; the network is given the probabilities, not their logarithms *)
Theorem C99_classes : forall zgrid pdfval model par d c x, NoDup (tl (classes par)) -> get_probas zgrid pdfval model par = Val d ->
  (dget c d = Some x <-> probability_of (classes par) (predict model (map exp pdfval)) c x).
Proof. exact probas_reported. Qed.
Print Assumptions C99_classes.
(** the reliability is the probability of the class success *)
Theorem C99_reliability : forall zgrid pdfval model par x, NoDup (tl (classes par)) -> compute zgrid pdfval model par = Val x ->
  probability_of (classes par) (predict model (map exp pdfval)) "success" x.
Proof. exact compute_success. Qed.
Print Assumptions C99_reliability.
Theorem C99_reliability_total : forall zgrid pdfval model par, redshifts zgrid -> NoDup (tl (classes par)) -> List.length pdfval = n_input model -> fits zgrid par ->
  (List.length (classes par) <= List.length (predict model (map exp pdfval)))%nat -> In "success" (tl (classes par)) ->
  exists x, compute zgrid pdfval model par = Val x.
Proof. exact compute_total. Qed.
Print Assumptions C99_reliability_total.
(** REFUTED: "the grid is the one of the training": the tests are one-sided, a last redshift a hundred times smaller and a coarser step are accepted *)
Theorem C99_same_grid_refuted : exists zgrid pdfval model par, get_probas zgrid pdfval model par = Val [("success", 1)] /\
  zgrid = [0; 1] /\ zgrid_end par = 100 /\ exp (zrange_step par) = 1.
Proof. exact grid_refuted. Qed.
Print Assumptions C99_same_grid_refuted.

(** the file of the network is accepted exactly when its version is not after the installed one and its range and step are the ones of the solver *)
Theorem C99_file : forall v s range solver_range step solver_step,
  check_model v s range solver_range step solver_step = Val tt <-> newer v s = false /\ solver_range = range /\ solver_step = step.
Proof. exact check_iff. Qed.
Print Assumptions C99_file.
(** the versions of one digit are compared as numbers *)
Theorem C99_version_digits : forall m s, (m < 10)%nat -> (s < 10)%nat -> (newer (digit m) (digit s) = true <-> (s < m)%nat).
Proof. exact newer_digits. Qed.
Print Assumptions C99_version_digits.
(** REFUTED beyond: a network of version 10 is accepted by version 9, one of version 9 is rejected by version 10 *)
Theorem C99_version_refuted : newer "10" "9" = false /\ newer "9" "10" = true.
Proof. exact newer_refuted. Qed.
Print Assumptions C99_version_refuted.

(** the i-th grid has the values of the i-th row of the table *)
Theorem C99_grid_parameters : forall first_pass cols n l, NoDup (dkeys cols) -> rectangular cols n -> buildPdfParams first_pass cols = Val l ->
  List.length l = n /\ forall i p, nth_error l i = Some p -> grid_at first_pass cols i p.
Proof. exact params_rows. Qed.
Print Assumptions C99_grid_parameters.
Theorem C99_grid_parameters_total : forall first_pass cols n, NoDup (dkeys cols) -> rectangular cols n -> (forall k, In k (columns first_pass) -> In k (dkeys cols)) ->
  exists l, buildPdfParams first_pass cols = Val l.
Proof. exact params_total. Qed.
Print Assumptions C99_grid_parameters_total.
(** REFUTED for columns of different lengths: the rows after the end of the shortest one are lost without an error *)
Theorem C99_short_column_refuted : exists cols l, buildPdfParams false cols = Val l /\ entry cols "zmin" 1 1 /\ List.length l = 1%nat.
Proof. exact params_refuted. Qed.
Print Assumptions C99_short_column_refuted.

(** one sub type per candidate, the one of the line ratios of this candidate *)
Theorem C99_sub_types : forall catalog n ratio l, sub_types catalog n ratio = Val l ->
  List.length l = n /\ forall i s, nth_error l i = Some s -> exists r conf, ratio i = Val r /\ dget r catalog = Some conf /\ dget "sub_type" conf = Some s.
Proof. exact subtypes_each. Qed.
Print Assumptions C99_sub_types.
Theorem C99_sub_types_total : forall catalog n ratio, (forall i, (i < n)%nat -> exists r conf s, ratio i = Val r /\ dget r catalog = Some conf /\ dget "sub_type" conf = Some s) ->
  exists l, sub_types catalog n ratio = Val l.
Proof. exact subtypes_total. Qed.
Print Assumptions C99_sub_types_total.

(** non-vacuity *)
Definition ex_par := mkNetParams 1 0 ["failure"; "success"; "other"].
Definition ex_net := mkNet 2 (fun l => [0; nth 0 l 0; 5]).
Example ex_fits : redshifts [0; 1] /\ fits [0; 1] ex_par /\ NoDup (tl (classes ex_par)) /\ In "success" (tl (classes ex_par)).
Proof.
  split; [exists [], 0, 1; split; [reflexivity | lra] |].
  split; [exists [], 0, 1; split; [reflexivity |]; cbn; rewrite exp_0; lra |].
  split; [| left; reflexivity]. cbn. repeat constructor; cbn; intuition discriminate.
Qed.
Example ex_compute : exists x, compute [0; 1] [0; 0] ex_net ex_par = Val x.
Proof. destruct ex_fits as (A & B & C & D). apply compute_total; cbn; auto. Qed.
Example ex_value : forall x, compute [0; 1] [0; 0] ex_net ex_par = Val x -> x = 1.
Proof.
  intros x H. destruct ex_fits as (A & B & C & D). destruct (compute_success _ _ _ _ _ C H) as (i & I1 & I2 & I3).
  destruct i as [| [| [| i]]]; cbn in I2; [discriminate | | discriminate | destruct i; discriminate].
  cbn in I3. injection I3 as <-. apply exp_0.
Qed.
Example ex_file : check_model "2" "2" [0; 1] [0; 1] 1 1 = Val tt.
Proof. apply check_iff. repeat split; reflexivity. Qed.
Example ex_cols : NoDup (dkeys [("FPZmin", [0; 1]); ("FPZmax", [2; 3]); ("FPZstep", [4; 5])]) /\ rectangular [("FPZmin", [0; 1]); ("FPZmax", [2; 3]); ("FPZstep", [4; 5])] 2
  /\ buildPdfParams true [("FPZmin", [0; 1]); ("FPZmax", [2; 3]); ("FPZstep", [4; 5])] = Val [mkParam 0 2 4 None; mkParam 1 3 5 None].
Proof.
  split; [cbn; repeat constructor; cbn; intuition discriminate |]. split; [| reflexivity]. split; [discriminate |].
  intros k c H. apply dget_in in H. cbn in H. destruct H as [H | [H | [H | []]]]; injection H as <- <-; reflexivity.
Qed.
Example ex_sub : sub_types [("a", [("sub_type", "A")]); ("b", [("sub_type", "B")])] 2 (fun i => Val (nth i ["b"; "a"] "")) = Val ["B"; "A"].
Proof. reflexivity. Qed.
