(** Property C31: redshift error of a candidate. *)
From Verif Require Import Base RBase DeltazModel DeltazSpec DeltazProofs.
Open Scope R_scope.

(** the error is sqrt(1/c) for the least-squares curvature c of the log density within 5 samples of the candidate if it
    is positive, else within 2 samples, else the default *)
Theorem C31_error_from_the_curvature : forall z pdf iz x0,
  Rstrictly_increasing z -> length pdf = length z -> (2 <= length z)%nat -> nth_error z iz = Some x0 ->
  exists c5 c2, curvature z pdf iz 5 c5 /\ curvature z pdf iz 2 c2 /\
    GetDeltaz z pdf x0 = Ok (if Rlt_dec 0 c5 then sqrt (1 / c5) else if Rlt_dec 0 c2 then sqrt (1 / c2) else 1 / 1000).
Proof. exact GetDeltaz_spec. Qed.
Print Assumptions C31_error_from_the_curvature.
Theorem C31_error_is_positive : forall z pdf x0, Rstrictly_increasing z -> length pdf = length z -> In x0 z ->
  exists dz, GetDeltaz z pdf x0 = Ok dz /\ 0 < dz.
Proof. exact GetDeltaz_positive. Qed.
Print Assumptions C31_error_is_positive.
Theorem C31_redshift_not_in_the_grid : forall z pdf x, z <> [] -> ~ In x z -> GetDeltaz z pdf x = Throw INTERNAL_ERROR.
Proof. exact GetDeltaz_missing. Qed.
Print Assumptions C31_redshift_not_in_the_grid.
Theorem C31_empty_grid : forall pdf x, GetDeltaz [] pdf x = Throw INTERNAL_ERROR.
Proof. exact GetDeltaz_empty. Qed.
Print Assumptions C31_empty_grid.
(** a Gaussian density of standard deviation s gets the error sqrt(2) s: the error is not the standard deviation *)
Theorem C31_gaussian_density : forall z pdf iz x0 A s,
  Rstrictly_increasing z -> length pdf = length z -> (2 <= length z)%nat -> nth_error z iz = Some x0 -> 0 < s ->
  (forall k x y, nth_error z k = Some x -> nth_error pdf k = Some y -> y = A - (x - x0) ^ 2 / (2 * s ^ 2)) ->
  GetDeltaz z pdf x0 = Ok (sqrt 2 * s).
Proof. exact GetDeltaz_gaussian. Qed.
Print Assumptions C31_gaussian_density.
Example C31_nonvacuous : Rstrictly_increasing [0; 1; 3] /\ nth_error [0; 1; 3] 1 = Some 1 /\
  (forall k x y, nth_error [0; 1; 3] k = Some x -> nth_error [-1/2; 0; -2] k = Some y -> y = 0 - (x - 1) ^ 2 / (2 * 1 ^ 2)).
Proof.
  split; [|split; [reflexivity|]].
  - intros i j x y Hij Hx Hy.
    destruct i as [|[|[|i]]]; destruct j as [|[|[|j]]]; simpl in *; try lia; try (destruct j; discriminate);
    try (destruct i; discriminate); injection Hx as <-; injection Hy as <-; lra.
  - intros [|[|[|k]]] x y Hx Hy; simpl in *; try (destruct k; discriminate); injection Hx as <-; injection Hy as <-; lra.
Qed.
