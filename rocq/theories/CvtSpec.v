(** Vocabulary for C97: the parameters before and after their conversion. *)
From Coq Require Import String.
From Verif Require Import Base RdrModel CvtModel.
Open Scope string_scope.

(** the same tree, its strings renamed *)
Inductive renamed (f : string -> string) : json -> json -> Prop :=
| rn_null : renamed f JNull JNull
| rn_bool b : renamed f (JBool b) (JBool b)
| rn_num q : renamed f (JNum q) (JNum q)
| rn_str s : renamed f (JStr s) (JStr (f s))
| rn_arr l l' : Forall2 (renamed f) l l' -> renamed f (JArr l) (JArr l')
| rn_obj d d' : Forall2 (fun e e' => fst e' = f (fst e) /\ renamed f (snd e) (snd e')) d d' -> renamed f (JObj d) (JObj d').
(** the keys of every object are still distinct when renamed *)
Inductive distinct (f : string -> string) : json -> Prop :=
| di_null : distinct f JNull
| di_bool b : distinct f (JBool b)
| di_num q : distinct f (JNum q)
| di_str s : distinct f (JStr s)
| di_arr l : (forall j, In j l -> distinct f j) -> distinct f (JArr l)
| di_obj d : NoDup (map (fun e => f (fst e)) d) -> (forall k j, In (k, j) d -> distinct f j) -> distinct f (JObj d).

(** what a section of version 1 asks for *)
Definition asks_redshift (d : dict json) (m : string) : Prop := dget "method" d = Some (JStr m) /\ In m redshift_methods.
Definition asks_linemeas (d : dict json) : Prop := dget "linemeas_method" d = Some (JStr "lineMeasSolve").
Definition asks_reliability (d : dict json) : Prop := exists j, dget "enable_reliability" d = Some j /\ truthy j = true.
(** no name of the converted sections (the schema of version 1 has none) *)
Definition section_v1 (d : dict json) : Prop := forall k, In k ["stages"; "redshiftSolver"; "lineMeasSolver"; "reliabilitySolver"] -> dget k d = None.
(** names with a meaning for the conversion *)
Definition concerned : list string :=
  ["method"; "lineModelSolve"; "templateFittingSolve"; "tplCombinationSolve"; "linemeas_method"; "lineMeasSolve"; "enable_reliability"; "reliabilityModel";
   "stages"; "redshiftSolver"; "lineMeasSolver"; "reliabilitySolver"].
(** what is asked for is given *)
Definition complete (d : dict json) : Prop := (asks_linemeas d -> dget "lineMeasSolve" d <> None) /\ (asks_reliability d -> dget "reliabilityModel" d <> None).
(** the section [d'] says in the vocabulary of version 2 what [d] says in the one of version 1 *)
Record same_meaning (d d' : dict json) : Prop := {
  sm_stages : exists l, (dget "stages" d' = Some (JArr (map JStr l)) \/ (dget "stages" d' = None /\ l = [])) /\
    exists a b c, l = (a ++ b ++ c)%list /\
      ((a = ["redshiftSolver"] /\ exists m, asks_redshift d m) \/ (a = [] /\ forall m, ~ asks_redshift d m)) /\
      ((b = ["lineMeasSolver"] /\ asks_linemeas d) \/ (b = [] /\ ~ asks_linemeas d)) /\
      ((c = ["reliabilitySolver"] /\ asks_reliability d) \/ (c = [] /\ ~ asks_reliability d));
  sm_method : forall m, on_none (dget "redshiftSolver" d') "method" = Some (JStr m) <-> asks_redshift d m;
  sm_solver : forall rm, In rm redshift_methods -> on_none (dget "redshiftSolver" d') rm = dget rm d;
  sm_linemeas : asks_linemeas d -> on_none (dget "lineMeasSolver" d') "method" = Some (JStr "lineMeasSolve") /\
                  on_none (dget "lineMeasSolver" d') "lineMeasSolve" = dget "lineMeasSolve" d /\ dget "lineMeasSolve" d <> None;
  sm_no_linemeas : ~ asks_linemeas d -> dget "lineMeasSolver" d' = None;
  sm_reliability : asks_reliability d -> on_none (on_none (dget "reliabilitySolver" d') "deepLearningSolver") "reliabilityModel" = dget "reliabilityModel" d /\
                     on_none (dget "reliabilitySolver" d') "method" = Some (JStr "deepLearningSolver") /\ dget "reliabilityModel" d <> None;
  sm_no_reliability : ~ asks_reliability d -> dget "reliabilitySolver" d' = None;
  sm_others : forall k, ~ In k concerned -> dget k d' = dget k d }.

(** the name of an entry of version 2 after the conversion *)
Definition final (k : string) : string := if contains mark k then new_key k else k.
(** no two entries get the same name *)
Definition no_collision (raw : dict json) : Prop :=
  NoDup (map final (dkeys raw)) /\ forall k, In k (dkeys raw) -> contains mark (final k) = false.
