(** Classification: RedshiftLibrary/src/lib/method/classificationsolve.cpp:49-111, classificationsolve.h:62.
    Reals with the special values of double where they matter (rounding and underflow of exp are not
    modelled).  [result c]: the evidence (CPdfSolveResult::getEvidence) of the result of category [c]
    in the result store for its method, None when the store has none.  A stored result which is not
    a CPdfSolveResult (null pointer after the cast) is not modelled. *)
From Coq Require Import String.
From Verif Require Import Base RBase.
Open Scope R_scope.

(** a double *)
Inductive ext := Fin (x : R) | PInf | MInf | NaN.
(** -DBL_MAX = -(2 - 2^-52)·2^1023 *)
Definition minus_max : R := - ((2 - / 2 ^ 52) * 2 ^ 1023).
(** a > b *)
Definition gtb (a b : ext) : bool :=
  match a, b with
  | Fin x, Fin y => Rltb y x
  | PInf, Fin _ | PInf, MInf | Fin _, MInf => true
  | _, _ => false
  end.
(** exp(a - b) *)
Definition exp_diff (a b : ext) : ext :=
  match a, b with
  | NaN, _ | _, NaN => NaN
  | Fin x, Fin y => Fin (exp (x - y))
  | PInf, PInf | MInf, MInf => NaN
  | PInf, _ | _, MInf => PInf
  | MInf, _ | _, PInf => Fin 0
  end.
Definition add (a b : ext) : ext :=
  match a, b with
  | NaN, _ | _, NaN => NaN
  | Fin x, Fin y => Fin (x + y)
  | PInf, MInf | MInf, PInf => NaN
  | PInf, _ | _, PInf => PInf
  | MInf, _ | _, MInf => MInf
  end.
(** division of a probability by the sum: the only cases that occur after the test of the sum *)
Definition div (a s : ext) : ext :=
  match a, s with
  | Fin x, Fin y => Fin (x / y)
  | Fin _, PInf => Fin 0
  | _, _ => NaN
  end.
(** sum <= 0 *)
Definition le0 (s : ext) : bool :=
  match s with Fin x => negb (Rltb 0 x) | MInf => true | _ => false end.

(** CClassificationResult: label, probability and evidence of each category *)
Record classif := mkClassif { cl_label : string; cl_proba : list (string * ext); cl_evidence : list (string * ext) }.

Section Compute.
  Context (result : string -> option ext).

  (** lines 73-85: the largest evidence and its category *)
  Fixpoint best (cats : list string) (m : ext) (label : string) : ext * string :=
    match cats with
    | [] => (m, label)
    | c :: r =>
        match result c with
        | Some e => if gtb e m then best r e c else best r m label
        | None => best r m label
        end
    end.
  (** lines 87-94 *)
  Fixpoint sumProba (m : ext) (cats : list string) (s : ext) : ext :=
    match cats with
    | [] => s
    | c :: r => match result c with
                | Some e => sumProba m r (add s (exp_diff e m))
                | None => sumProba m r s
                end
    end.
  (** compute, lines 49-111; [typeLabel] is the member's value before the call ("U" in a new object).
      Returns the result and the new member *)
  Definition compute (typeLabel : string) (cats : list string) : res classif * string :=
    let '(m, label) := best cats (Fin minus_max) typeLabel in
    let s := sumProba m cats (Fin 0) in
    if le0 s then (Throw NO_CLASSIFICATION, label)
    else
      (Ok (mkClassif label
             (map (fun c => (c, match result c with Some e => div (exp_diff e m) s | None => Fin 0 end)) cats)
             (map (fun c => (c, match result c with Some e => e | None => MInf end)) cats)), label).
End Compute.
