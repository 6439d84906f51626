(** Vocabulary for C15 and C16. *)
From Coq Require Import String Ascii.
From Verif Require Import Base ScopeModel ScopeSpec StoreModel.
Open Scope string_scope.

Section S.
  Context {R : Type}.
  Definition is_sreset (o : store_op R) : bool := match o with SReset => true | _ => false end.
  (** the calls made after the last reset *)
  Fixpoint after_reset (ops : list (store_op R)) : list (store_op R) :=
    match ops with
    | [] => []
    | o :: t => if existsb is_sreset ops then after_reset t else ops
    end.
  (** the first value offered for a global key / for a key of a template *)
  Fixpoint first_global (ops : list (store_op R)) (key : string) : option R :=
    match ops with
    | [] => None
    | SGlobal p n r :: t => if String.eqb (full_name p n) key then Some r else first_global t key
    | _ :: t => first_global t key
    end.
  Fixpoint first_template (ops : list (store_op R)) (tpl key : string) : option R :=
    match ops with
    | [] => None
    | STemplate u p n r :: t =>
        if (String.eqb u tpl && String.eqb (full_name p n) key)%bool then Some r else first_template t tpl key
    | _ :: t => first_template t tpl key
    end.
End S.

(** the parameter written at a path of the parameter tree *)
Definition value_at (t : ptree) (p : list string) : option string :=
  match pwalk t p with Some c => Some (pdata c) | None => None end.
(** a boolean parameter: set to true / absent or well-formed *)
Definition flag_true (t : ptree) (p : list string) : Prop := exists s, value_at t p = Some s /\ conv_bool s = Some true.
Definition flag_well_formed (t : ptree) (p : list string) : Prop := forall s, value_at t p = Some s -> conv_bool s <> None.
Definition method_is (t : ptree) (sm m : string) : Prop := value_at t [sm; "redshiftSolver"; "method"] = Some m.
Definition proper_prefix (q p : list string) : Prop := exists x r, p = (q ++ x :: r)%list.
(** the methods of the redshift solver, and where each keeps its ISM / IGM / FFT switches *)
Definition known_method (m : string) : Prop := m = "templateFittingSolve" \/ m = "tplCombinationSolve" \/ m = "lineModelSolve".
Definition ism_paths sm m : list (list string) :=
  if (String.eqb m "templateFittingSolve" || String.eqb m "tplCombinationSolve")%bool then [[sm; "redshiftSolver"; m; "ismFit"]]
  else if String.eqb m "lineModelSolve" then [[sm; "redshiftSolver"; m; "lineModel"; "continuumFit"; "ismFit"]; [sm; "redshiftSolver"; m; "lineModel"; "tplRatioIsmFit"]]
  else [].
Definition igm_path sm m : list string :=
  if (String.eqb m "templateFittingSolve" || String.eqb m "tplCombinationSolve")%bool then [sm; "redshiftSolver"; m; "igmFit"]
  else [sm; "redshiftSolver"; m; "lineModel"; "continuumFit"; "igmFit"].

Definition fft_path sm m : list string :=
  if String.eqb m "templateFittingSolve" then [sm; "redshiftSolver"; m; "fftProcessing"]
  else [sm; "redshiftSolver"; m; "lineModel"; "continuumFit"; "fftProcessing"].
