(** Model of the processing of one spectrum, pylibamazed/ProcessFlow.py, with the parts it relies on of
    ScopeManager.py, ResultStoreOutput.py, AbstractOutput.py and Parameters.py.
    What the calibration, the reader, the C++ solvers, the store and pandas do is not modelled: every such
    call appears in the trace and ends with an arbitrary outcome, which may depend on all that came before. *)
From Coq Require Import String.
From Verif Require Import Base ScopeModel.
Open Scope string_scope.

(** The scope stack, bottom first, each element with its type (C13 relates this list to the C++ stack). *)
Definition stack := list (string * scope_type).

(** What the process flow calls. *)
Inductive action :=
| Initialise                   (* ProcessFlow.py:197-228, the body of initialize *)
| StoreFlags                   (* 185-188 *)
| Compute (method : string)    (* 289-301, solver.Compute() *)
| Reliability                  (* 249-252 *)
| SubTypes                     (* 257-265 *)
| LoadLinemeas                 (* 243-244 *)
| LoadRoot                     (* AbstractOutput.py:386 *)
| LoadAll.                     (* AbstractOutput.py:117-126 *)
Inductive outcome := Okay | AmzError (code : string) | OtherError | Interrupted.
(** a call, with the scope in which it is made, and its outcome *)
Definition event := (action * stack)%type.
Definition history := list (event * outcome).

(** ** Parameters *)
(** the section of one spectrum model: "redshiftSolver.method", "lineModelSolve.lineModel.lineRatioType",
    whether "lineMeasSolver" is in the stages, "lineMeasSolver.method", whether "reliabilitySolver" is in the
    stages *)
Record section := mkSection {
  z_method : option string; ratio_type : option string;
  lm_listed : bool; lm_method : option string; rel_listed : bool }.
(** "spectrumModels", the sections, the keys of config["linemeascatalog"], those of
    calibration_library.reliability_models *)
Record setup := mkSetup {
  models : list string; sections : string -> option section;
  lm_catalog : list string; rel_models : list string }.

Definition mem (x : string) (l : list string) : bool := existsb (String.eqb x) l.
(** truth value of an optional string *)
Definition truthy (x : option string) : bool :=
  match x with Some s => negb (s =? "") | None => false end.
Definition is_some {A} (x : option A) : bool := match x with Some _ => true | None => false end.

(** dict.get *)
Definition sect (c : setup) (m : option string) : option section :=
  match m with Some n => sections c n | None => None end.
(** ParametersAccessor.py:89-96 *)
Definition get_redshift_solver_method (c : setup) (m : option string) : option string :=
  match sect c m with
  | None => None
  | Some s => match z_method s with Some n => if n =? "" then None else Some n | None => None end
  end.
(** ParametersAccessor.py:83-84, 102-105.  [None]: the section is missing, None.get raises AttributeError *)
Definition get_linemeas_method (c : setup) (m : option string) : option (option string) :=
  match sect c m with
  | None => None
  | Some s => Some (if lm_listed s then lm_method s else None)
  end.
(** ParametersAccessor.py:123-124 *)
Definition get_reliability_enabled (c : setup) (m : option string) : option bool :=
  match sect c m with None => None | Some s => Some (rel_listed s) end.
(** Parameters.py:165-170 *)
Definition is_tplratio_catalog_needed (c : setup) (m : option string) : bool :=
  match get_redshift_solver_method c m with
  | Some n =>
      if n =? "lineModelSolve" then
        match sect c m with
        | Some s => match ratio_type s with Some r => (r =? "tplRatio") || (r =? "tplCorr") | None => false end
        | None => false end
      else false
  | None => false end.
(** Parameters.py:172-185; [None]: an exception *)
Definition stage_enabled (c : setup) (m : option string) (st : string) : option bool :=
  if st =? "redshiftSolver" then Some (is_some (get_redshift_solver_method c m))
  else if st =? "lineMeasSolver" then
    match get_linemeas_method c m with None => None | Some x => Some (is_some x) end
  else if st =? "linemeas_catalog_load" then
    match get_linemeas_method c m with
    | None => None
    | Some x => Some (is_some x && negb (is_some (get_redshift_solver_method c m))) end
  else if st =? "reliabilitySolver" then get_reliability_enabled c m
  else if st =? "subClassifSolver" then Some (is_tplratio_catalog_needed c m)
  else None.
(** Parameters.py:202-208 *)
Definition is_a_redshift_solver_used (c : setup) : bool :=
  existsb (fun m => is_some (get_redshift_solver_method c (Some m))) (models c).

(** ** State and exceptions *)
(** an error of the output: the code of an exception, or the stage that caused another one not to run
    (ResultStoreOutput.py:268-298; message, line, file and method are not modelled) *)
Inductive error := Failed (code : string) | NotRun (cause : string).
Record state := mkState { st_stack : stack; st_errors : list (string * error); st_trace : history }.
Definition set_stack (s : state) (k : stack) : state := mkState k (st_errors s) (st_trace s).
Definition set_errors (s : state) (e : list (string * error)) : state := mkState (st_stack s) e (st_trace s).

(** Python exceptions: AmzException, ProcessFlowException, the other Exceptions, and those which are not
    Exceptions (KeyboardInterrupt, SystemExit) *)
Inductive exn := Amz (code : string) | ProcessFlowException | Py | Base.
Inductive pyres := Ret | Exc (e : exn).
Definition comp := state -> state * pyres.
Definition ret : comp := fun s => (s, Ret).
Definition raise (e : exn) : comp := fun s => (s, Exc e).
Definition seq (a b : comp) : comp := fun s => match a s with (s1, Ret) => b s1 | r => r end.
Infix ";;" := seq (at level 60, right associativity).
Definition when (b : bool) (a : comp) : comp := if b then a else ret.

(** ** The errors of the output (a dict: assignment replaces) *)
Fixpoint find_error (k : string) (l : list (string * error)) : option error :=
  match l with [] => None | (k', e) :: r => if k =? k' then Some e else find_error k r end.
Definition put_error (k : string) (e : error) (l : list (string * error)) : list (string * error) := (k, e) :: l.

(** AbstractOutput.py:111-115 (str(None) is "None") *)
Definition show (x : option string) : string := match x with Some s => s | None => "None" end.
Definition full_name (m st : option string) : string :=
  if truthy m then show st ++ "_" ++ show m else show st.
(** AbstractOutput.py:105-106 *)
Definition has_error (s : state) (m st : option string) : bool :=
  is_some (find_error (full_name m st) (st_errors s)).

(** AbstractOutput.py:49-55 *)
Definition spectrum_model_stages : list (string * list string) :=
  [("redshiftSolver", ["lineMeasSolver"; "reliabilitySolver"; "subClassifSolver"]);
   ("linemeas_catalog_load", ["lineMeasSolver"]);
   ("lineMeasSolver", []); ("reliabilitySolver", []); ("subClassifSolver", [])].
Fixpoint assoc {A} (k : string) (l : list (string * A)) : option A :=
  match l with [] => None | (k', v) :: r => if k =? k' then Some v else assoc k r end.

(** ResultStoreOutput.py:291-298 *)
Definition store_consequent_error (m : option string) (st cause : string) : comp := fun s =>
  (set_errors s (put_error (full_name m (Some st)) (NotRun cause) (st_errors s)), Ret).
(** ResultStoreOutput.py:284-285, 288-289 *)
Fixpoint propagate (c : setup) (m : option string) (l : list string) (cause : string) : comp :=
  match l with
  | [] => ret
  | d :: r =>
      match stage_enabled c m d with
      | None => raise Py
      | Some b => when b (store_consequent_error m d cause) ;; propagate c m r cause
      end
  end.
Fixpoint propagate_all (c : setup) (ms : list string) (cause : string) : comp :=
  match ms with
  | [] => ret
  | m :: r => propagate c (Some m) (map fst spectrum_model_stages) cause ;; propagate_all c r cause
  end.
(** ResultStoreOutput.py:268-289 *)
Definition store_error (c : setup) (code : string) (m st : option string) : comp := fun s =>
  (let s1 := set_errors s (put_error (full_name m st) (Failed code) (st_errors s)) in
   if negb (truthy m) && (show st =? "init") then propagate_all c (models c) "init" s1
   else match m with
        | None => ret s1
        | Some _ =>
            match st with
            | None => raise Py s1                         (* KeyError *)
            | Some t =>
                match assoc t spectrum_model_stages with
                | None => raise Py s1
                | Some deps => propagate c m deps t s1
                end
            end
        end).

(** ** The scope, ScopeManager.py:60-114 *)
Definition find_type (t : scope_type) (k : stack) : option string :=
  match find (fun p => st_eqb (snd p) t) k with Some (n, _) => Some n | None => None end.
(** 60-72, context.h:148-154 *)
Definition get_scope_spectrum_model (k : stack) : option string :=
  match find_type SPECTRUMMODEL k with
  | Some m => if m =? "classification" then None else Some m
  | None => None end.
(** 75-86, context.h:156-162 *)
Definition get_scope_stage (k : stack) : option string :=
  match find_type STAGE k, get_scope_spectrum_model k with
  | None, None => Some "init"
  | st, _ => st end.
(** scopestack.cpp:72-106, for the types used here *)
Definition may_push_b (k : stack) (t : scope_type) : bool :=
  let has u := is_some (find_type u k) in
  match t with
  | UNDEFINED => true
  | SPECTRUMMODEL => negb (has SPECTRUMMODEL) && negb (has STAGE)
  | STAGE => negb (has STAGE) && negb (has METHOD)
  | METHOD => match rev k with (_, STAGE) :: _ => negb (has METHOD) | _ => false end
  end.
(** 100-114: the push is outside the try; the element is popped whatever the body does *)
Definition with_scope (n : string) (t : scope_type) (body : comp) : comp := fun s =>
  if may_push_b (st_stack s) t then
    match body (set_stack s (st_stack s ++ [(n, t)])%list) with
    | (s1, r) => (set_stack s1 (removelast (st_stack s1)), r)
    end
  else (s, Exc (Amz "SCOPESTACK_ERROR")).

(** ** ProcessFlow.py *)
Definition as_exn (o : outcome) : pyres :=
  match o with Okay => Ret | AmzError c => Exc (Amz c) | OtherError => Exc Py | Interrupted => Exc Base end.

Section Flow.
Variable c : setup.
(** the outcome of a call, given all the earlier ones *)
Variable world : history -> event -> outcome.

Definition act (a : action) : comp := fun s =>
  let e := (a, st_stack s) in
  let o := world (st_trace s) e in
  (mkState (st_stack s) (st_errors s) ((e, o) :: st_trace s), as_exn o).

(** ProcessFlow.py:70-92 *)
Definition handler (raise_pfe : bool) (body : comp) : comp := fun s =>
  match body s with
  | (s1, Ret) => (s1, Ret)
  | (s1, Exc Base) => (s1, Exc Base)
  | (s1, Exc e) =>
      let code := match e with Amz k => k | _ => "PYTHON_API_ERROR" end in
      (store_error c code (get_scope_spectrum_model (st_stack s1)) (get_scope_stage (st_stack s1)) ;;
       when raise_pfe (raise ProcessFlowException)) s1
  end.

(** 289-301 (the solver classes are all imported) *)
Definition known_methods : list string :=
  ["classificationSolve"; "lineMeasSolve"; "lineModelSolve"; "templateFittingSolve"; "tplCombinationSolve"].
Definition run_method (m : string) : comp := if mem m known_methods then act (Compute m) else raise Py.

(** 230-233 *)
Definition run_redshift_solver (m : string) : comp :=
  with_scope "redshiftSolver" STAGE (handler true (run_method m)).
(** 235-238 *)
Definition run_linemeas_solver (m : string) : comp :=
  with_scope "lineMeasSolver" STAGE (handler false (run_method m)).
(** 240-244 *)
Definition run_load_linemeas_params : comp :=
  with_scope "linemeas_catalog_load" STAGE (handler true (act LoadLinemeas)).
(** 246-252 *)
Definition run_reliability_solver : comp :=
  with_scope "reliabilitySolver" STAGE (handler false (act Reliability)).
(** 254-265 *)
Definition run_sub_classification_solver : comp :=
  with_scope "subClassifSolver" STAGE (handler false (act SubTypes)).

(** 151-175 *)
Definition process_spectrum_model : comp := fun s =>
  (let sm := get_scope_spectrum_model (st_stack s) in
   match get_linemeas_method c sm with
   | None => raise Py
   | Some lm =>
       let alone := match sm with Some m => mem m (lm_catalog c) | None => false end in
       match get_redshift_solver_method c sm with
       | Some z =>
           run_redshift_solver z ;;
           when (is_tplratio_catalog_needed c sm) run_sub_classification_solver ;;
           match get_reliability_enabled c sm with
           | None => raise Py
           | Some en =>
               when (en && match sm with Some m => mem m (rel_models c) | None => false end) run_reliability_solver ;;
               when (truthy lm && negb alone) (run_load_linemeas_params ;; run_linemeas_solver (show lm))
           end
       | None => when (truthy lm && alone) (run_linemeas_solver (show lm))
       end
   end) s.

(** 137-142 *)
Definition catch_pfe (a : comp) : comp := fun s =>
  match a s with (s1, Exc ProcessFlowException) => (s1, Ret) | r => r end.
Fixpoint process_models (l : list string) : comp :=
  match l with
  | [] => ret
  | m :: r => with_scope m SPECTRUMMODEL (catch_pfe process_spectrum_model) ;; process_models r
  end.

(** 267-273 *)
Definition all_redshift_solver_failed (s : state) : bool :=
  forallb (fun m => has_error s (Some m) (Some "redshiftSolver")) (models c).
(** 275-282 *)
Definition run_classification_solver : comp :=
  with_scope "classification" SPECTRUMMODEL (with_scope "classification" STAGE (handler false (fun s =>
    if all_redshift_solver_failed s then raise (Amz "NO_CLASSIFICATION") s
    else run_method "classificationSolve" s))).
(** 284-287 *)
Definition load_result_store : comp := with_scope "load_result_store" STAGE (handler false (act LoadAll)).

(** 190-195: the flags are stored whatever happens; if that fails its exception replaces the other *)
Definition flags_handler (body : comp) : comp := fun s =>
  match body s with
  | (s1, r) => match act StoreFlags s1 with (s2, Ret) => (s2, r) | r' => r' end
  end.
(** 197-228 *)
Definition initialize : comp := handler true (act Initialise).

(** Exception.py:73-90 *)
Definition exception_decorator (a : comp) : comp := fun s =>
  match a s with
  | (s1, Exc ProcessFlowException) | (s1, Exc Py) => (s1, Exc (Amz "PYTHON_API_ERROR"))
  | r => r end.

(** 122-149; a run has its own output, without error at the start *)
Definition run : comp := exception_decorator (fun s0 =>
  let s := set_errors s0 [] in
  match flags_handler initialize s with
  | (s1, Ret) =>
      (process_models (models c) ;;
       when (is_a_redshift_solver_used c) run_classification_solver ;;
       load_result_store) s1
  | (s1, Exc ProcessFlowException) => act LoadRoot s1
  | r => r
  end).

(** A session: one run per spectrum; an exception does not prevent the next run. *)
Fixpoint session (n : nat) (s : state) : state :=
  match n with O => s | S k => session k (fst (run s)) end.
End Flow.
