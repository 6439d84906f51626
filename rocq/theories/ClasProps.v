(** C83: classification from the evidences of the categories. *)
From Coq Require Import String.
From Verif Require Import Base RBase ClasModel ClasSpec ClasProofs ClasProofs2.
Open Scope R_scope.

(** The probabilities are between 0 and 1, sum to 1, are in the ratio of the evidences, 0 without
    result; the label is the first of the most probable categories, whatever the previous label. *)
Theorem C83_probabilities result lab cats : usual result cats -> (exists c x, In c cats /\ has result c x) ->
  exists cl label, compute result lab cats = (Ok cl, label) /\ cl_label cl = label /\
    exists p : string -> R,
      cl_proba cl = map (fun c => (c, Fin (p c))) cats /\
      (forall c, In c cats -> 0 <= p c <= 1) /\ total p cats = 1 /\
      (forall c, In c cats -> (forall x, ~ has result c x) -> p c = 0) /\
      (forall c d x y, In c cats -> In d cats -> has result c x -> has result d y -> p c / p d = exp (x - y)) /\
      (exists before after, cats = (before ++ label :: after)%list /\ (exists x, has result label x) /\
         (forall c, In c before -> p c < p label) /\ (forall c, In c cats -> p c <= p label)).
Proof. exact (proba_spec result lab cats). Qed.
Print Assumptions C83_probabilities.

(** The evidence of each category is reported, -inf without result. *)
Theorem C83_evidences result lab cats cl label : compute result lab cats = (Ok cl, label) ->
  cl_evidence cl = map (fun c => (c, match result c with Some e => e | None => MInf end)) cats.
Proof. exact (evidence_spec result lab cats cl label). Qed.
Print Assumptions C83_evidences.

(** Without any finite evidence the classification fails with NO_CLASSIFICATION and the label is kept. *)
Theorem C83_no_evidence result lab cats : usual result cats -> (forall c x, In c cats -> ~ has result c x) ->
  compute result lab cats = (Throw NO_CLASSIFICATION, lab).
Proof. exact (compute_none result lab cats). Qed.
Print Assumptions C83_no_evidence.

(** The probabilities do not depend on the order of the categories nor on previous calls. *)
Theorem C83_order_free result lab lab' cats cats' cl cl' l l' : usual result cats -> Permutation cats cats' ->
  compute result lab cats = (Ok cl, l) -> compute result lab' cats' = (Ok cl', l') -> Permutation (cl_proba cl) (cl_proba cl').
Proof. exact (order_free result lab lab' cats cats' cl cl' l l'). Qed.
Print Assumptions C83_order_free.

(** Nor on a constant added to every log-evidence. *)
Theorem C83_shift_free result k lab lab' cats cl cl' l l' : usual result cats -> usual (fun c => shifted k (result c)) cats ->
  compute result lab cats = (Ok cl, l) -> compute (fun c => shifted k (result c)) lab' cats = (Ok cl', l') ->
  cl_proba cl = cl_proba cl'.
Proof. exact (shift_free result k lab lab' cats cl cl' l l'). Qed.
Print Assumptions C83_shift_free.

(** A NaN evidence makes every probability NaN without any error. *)
Theorem C83_NaN_refuted result c0 lab cats : result c0 = Some NaN -> In c0 cats ->
  exists cl label, compute result lab cats = (Ok cl, label) /\
    forall c e, In c cats -> result c = Some e -> In (c, NaN) (cl_proba cl).
Proof. exact (compute_NaN result c0 lab cats). Qed.
Print Assumptions C83_NaN_refuted.

(** Non-vacuity: a galaxy and a star with evidences, no quasar. *)
Definition ex_result (c : string) : option ext :=
  if String.eqb c "galaxy" then Some (Fin 1) else if String.eqb c "star" then Some MInf else None.
Example C83_nonvacuous : usual ex_result ["galaxy"; "star"; "qso"]%string /\ has ex_result "galaxy" 1.
Proof.
  split; [|reflexivity]. intros c e [<-|[<-|[<-|[]]]] H; cbn in H; injection H as <- || discriminate H.
  - right. exists 1. split; [reflexivity|]. unfold minus_max.
    assert (0 < (2 - / 2 ^ 52) * 2 ^ 1023); [|lra]. apply Rmult_lt_0_compat; [|apply pow_lt; lra].
    assert (/ 2 ^ 52 <= 1); [|lra]. rewrite <- Rinv_1. apply Rinv_le_contravar; [lra|]. apply pow_R1_Rle. lra.
  - left. reflexivity.
Qed.
