(** C98: the parameters added by default. *)
From Coq Require Import String.
From Verif Require Import Base RdrModel CvtModel PextModel PextSpec PextProofs PextProofs2 PextProofs3.
Open Scope string_scope.

(** every entry which is not needed from the client is there, with its default *)
Theorem C98_written : forall p p' ms q x, listed p ms -> ~ In "continuumRemoval" ms -> ~ In "templateCatalog" ms -> extend p = Val p' -> written p ms q x -> value p' q = Some x.
Proof. exact extend_written. Qed.
Print Assumptions C98_written.
(** everything else is what the client gave *)
Theorem C98_untouched : forall p p' ms q, listed p ms -> extend p = Val p' -> untouched p ms q -> value p' q = value p q.
Proof. exact extend_untouched. Qed.
Print Assumptions C98_untouched.
(** in particular what is needed is the client's *)
Theorem C98_reestimation_kept : forall p p' ms m, listed p ms -> ~ In "continuumRemoval" ms -> ~ In "templateCatalog" ms -> extend p = Val p' -> In m ms -> hybrid p m ->
  value p' (line_model_parameter m "continuumReestimation") = value p (line_model_parameter m "continuumReestimation").
Proof. exact kept_reestimation. Qed.
Print Assumptions C98_reestimation_kept.
Theorem C98_loglambda_kept : forall p p' ms m, listed p ms -> ~ In "continuumRemoval" ms -> ~ In "templateCatalog" ms -> extend p = Val p' -> In m ms -> fft p m ->
  value p' (line_model_parameter m "useLogLambdaSampling") = value p (line_model_parameter m "useLogLambdaSampling").
Proof. exact kept_loglambda. Qed.
Print Assumptions C98_loglambda_kept.
Theorem C98_removal_kept : forall p p' ms, listed p ms -> ~ In "continuumRemoval" ms -> extend p = Val p' -> needs_removal p ms ->
  value p' ["continuumRemoval"; "method"] = value p ["continuumRemoval"; "method"] /\
  (median p false -> forall k, value p' ["continuumRemoval"; k] = value p ["continuumRemoval"; k]).
Proof. exact kept_method. Qed.
Print Assumptions C98_removal_kept.
Theorem C98_catalog_removal_kept : forall p p' ms, listed p ms -> ~ In "templateCatalog" ms -> extend p = Val p' -> needs_catalog_removal p ms ->
  value p' ["templateCatalog"; "continuumRemoval"; "method"] = value p ["templateCatalog"; "continuumRemoval"; "method"] /\
  (median p true -> forall k, value p' ["templateCatalog"; "continuumRemoval"; k] = value p ["templateCatalog"; "continuumRemoval"; k]).
Proof. exact kept_catalog. Qed.
Print Assumptions C98_catalog_removal_kept.
(** the parameters are always accepted when their sections are sections *)
Theorem C98_accepts : forall p ms, listed p ms -> sections p ms -> exists p', extend p = Val p'.
Proof. exact extend_accepts. Qed.
Print Assumptions C98_accepts.

(** *** refuted *)
(** the values given by the client are kept: they are replaced without a word when the extension does not consider them needed *)
Theorem C98_client_values_refuted : exists p p', extend p = Val p' /\
  value p (line_model_parameter "galaxy" "useLogLambdaSampling") = Some (JBool true) /\ value p' (line_model_parameter "galaxy" "useLogLambdaSampling") = Some (JBool false) /\
  value p ["continuumRemoval"; "medianKernelWidth"] = Some (JNum 150) /\ value p' ["continuumRemoval"; "medianKernelWidth"] = Some (JNum (-1)).
Proof. exact client_values_replaced. Qed.
Print Assumptions C98_client_values_refuted.
(** no reestimation means that the continuum is not removed: the value "no" written by the extension counts as a reestimation (the condition expects "never") *)
Theorem C98_no_reestimation_refuted : exists p p' ms, listed p ms /\ extend p = Val p' /\ ~ needs_removal p ms /\ needs_removal p' ms.
Proof. exact no_reestimation_needs_removal. Qed.
Print Assumptions C98_no_reestimation_refuted.

(** *** the hypotheses are met *)
Example C98_ex : listed ex_params ["galaxy"; "star"] /\ sections ex_params ["galaxy"; "star"] /\ hybrid ex_params "galaxy" /\ ~ fft ex_params "galaxy" /\ ~ hybrid ex_params "star".
Proof. exact (conj ex_listed (conj ex_sections ex_hybrid)). Qed.
Example C98_ex_extended : exists p', extend ex_params = Val p' /\ value p' (line_model_parameter "star" "continuumReestimation") = Some (JStr "no") /\
  value p' (line_model_parameter "galaxy" "continuumReestimation") = Some (JStr "never") /\ value p' (line_model_parameter "galaxy" "useLogLambdaSampling") = Some (JBool false) /\
  value p' ["continuumRemoval"; "method"] = Some (JStr "default") /\ value p' ["templateCatalog"; "continuumRemoval"; "medianKernelWidth"] = Some (JNum (-1)) /\
  value p' ["star"; "redshiftSolver"; "method"] = Some (JStr "templateFittingSolve").
Proof. exact ex_extended. Qed.
