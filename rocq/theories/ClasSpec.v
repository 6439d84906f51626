(** Probabilities of the categories from their evidences. *)
From Coq Require Import String.
From Verif Require Import Base RBase ClasModel.
Open Scope R_scope.

(** the evidence (not its logarithm) of a category: 0 without result or when the logarithm is -inf *)
Definition weight (result : string -> option ext) (c : string) : R :=
  match result c with Some (Fin x) => exp x | _ => 0 end.
Fixpoint total (f : string -> R) (cats : list string) : R :=
  match cats with [] => 0 | c :: r => f c + total f r end.
(** the log-evidences of the categories are finite doubles or -inf *)
Definition usual (result : string -> option ext) (cats : list string) : Prop :=
  forall c e, In c cats -> result c = Some e -> e = MInf \/ exists x, e = Fin x /\ minus_max < x.
(** [c] has a finite log-evidence *)
Definition has (result : string -> option ext) (c : string) (x : R) : Prop := result c = Some (Fin x).
(** the log-evidence with a constant added *)
Definition shifted (k : R) (e : option ext) : option ext := match e with Some (Fin x) => Some (Fin (x + k)) | _ => e end.
