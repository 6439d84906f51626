(** Model of the result store (src/lib/processflow/resultstore.cpp) and of the parameter store
    (src/lib/processflow/parameterstore.cpp, parameterstore.h). *)
From Coq Require Import String Ascii.
From Verif Require Import Base ScopeModel.
Open Scope string_scope.

(** ** std::map<string, V> *)
Section Map.
  Context {V : Type}.
  Definition smap := list (string * V).
  Fixpoint mfind (m : smap) (k : string) : option V :=
    match m with [] => None | (u, v) :: r => if String.eqb u k then Some v else mfind r k end.
  (** operator[] assignment *)
  Fixpoint mset (m : smap) (k : string) (v : V) : smap :=
    match m with
    | [] => [(k, v)]
    | (u, w) :: r => if String.eqb u k then (u, v) :: r else (u, w) :: mset r k v
    end.
End Map.
Arguments smap V : clear implicits.

(** ** Results.  A result is identified by a value of [R] (the shared_ptr). *)
Section Results.
  Context {R : Type}.
  (** resultstore.h:232-233 *)
  Record result_store := mkStore { rs_global : smap R; rs_tpl : smap (smap R) }.
  Definition store_empty : result_store := mkStore [] [].
  Definition full_name (path name : string) : string := prefix_name path name.
  (** resultstore.cpp:62-78 *)
  Definition StoreResult (m : smap R) (path name : string) (r : R) : smap R * res unit :=
    match mfind m (full_name path name) with
    | Some _ => (m, Throw INTERNAL_ERROR)
    | None => (mset m (full_name path name) r, Ok tt)
    end.
  (** resultstore.cpp:91-95 *)
  Definition StoreGlobalResult (s : result_store) (path name : string) (r : R) : result_store * res unit :=
    let '(m, o) := StoreResult (rs_global s) path name r in (mkStore m (rs_tpl s), o).
  (** resultstore.cpp:80-89 (a template is designated by its name) *)
  Definition StorePerTemplateResult (s : result_store) (tpl path name : string) (r : R) : result_store * res unit :=
    let tm := match mfind (rs_tpl s) tpl with Some _ => rs_tpl s | None => mset (rs_tpl s) tpl [] end in
    match mfind tm tpl with
    | None => (s, UB)
    | Some m => let '(m', o) := StoreResult m path name r in (mkStore (rs_global s) (mset tm tpl m'), o)
    end.
  (** resultstore.cpp:153-161 *)
  Definition GetGlobalResult (s : result_store) (name : string) : res R :=
    match mfind (rs_global s) name with Some r => Ok r | None => Throw UNKNOWN_ATTRIBUTE end.
  (** resultstore.cpp:97-112 *)
  Definition GetPerTemplateResult (s : result_store) (tpl name : string) : res R :=
    match mfind (rs_tpl s) tpl with
    | Some m => match mfind m name with Some r => Ok r | None => Throw INTERNAL_ERROR end
    | None => Throw INTERNAL_ERROR
    end.
  (** resultstore.cpp:120-136, returned as the list of its (template, result) entries *)
  Definition GetPerTemplateResultMap (s : result_store) (name : string) : smap R :=
    flat_map (fun p => match mfind (snd p) name with Some r => [(fst p, r)] | None => [] end) (rs_tpl s).
  (** resultstore.cpp:168-181 *)
  Definition buildFullname (spectrumModel stage method name : string) : string :=
    (if String.eqb spectrumModel "" then "" else spectrumModel ++ ".") ++
    (if String.eqb stage "" then "" else stage ++ ".") ++
    (if String.eqb method "" then "" else method ++ ".") ++ name.
  (** resultstore.cpp:183-187, 371-378 *)
  Definition GetGlobalResult4 (s : result_store) (sm st me name : string) : res R :=
    GetGlobalResult s (buildFullname sm st me name).
  Definition HasDataset (s : result_store) (sm st me name : string) : bool :=
    match mfind (rs_global s) (buildFullname sm st me name) with Some _ => true | None => false end.
  (** resultstore.cpp:419-433, 163-166, 114-118 *)
  Definition StoreScopedGlobalResult (sc : scope_stack) (s : result_store) (name : string) (r : R) :=
    StoreGlobalResult s (GetCurrentScopeName sc) name r.
  Definition StoreScopedPerTemplateResult (sc : scope_stack) (s : result_store) (tpl name : string) (r : R) :=
    StorePerTemplateResult s tpl (GetCurrentScopeName sc) name r.
  Definition GetScopedGlobalResult (sc : scope_stack) (s : result_store) (name : string) : res R :=
    GetGlobalResult s (GetScopedName sc name).
  Definition GetScopedPerTemplateResult (sc : scope_stack) (s : result_store) (tpl name : string) : res R :=
    GetPerTemplateResult s tpl (GetScopedName sc name).
  (** resultstore.cpp:380-396 *)
  Definition hasContextWarningFlag (s : result_store) : bool :=
    match mfind (rs_global s) "context_warningFlag" with Some _ => true | None => false end.
  Definition hasInitWarningFlag (s : result_store) : bool :=
    match mfind (rs_global s) "init_warningFlag" with Some _ => true | None => false end.
  Definition hasCurrentMethodWarningFlag (sc : scope_stack) (s : result_store) : res bool :=
    do n <- GetScopedNameAtType sc "warningFlag" METHOD;
    Ok (match mfind (rs_global s) n with Some _ => true | None => false end).
  (** resultstore.h:205-208 *)
  Definition store_reset (s : result_store) : result_store := store_empty.

  (** call histories *)
  Inductive store_op :=
  | SGlobal (path name : string) (r : R)
  | STemplate (tpl path name : string) (r : R)
  | SReset.
  Definition store_step (s : result_store) (o : store_op) : result_store * res unit :=
    match o with
    | SGlobal p n r => StoreGlobalResult s p n r
    | STemplate t p n r => StorePerTemplateResult s t p n r
    | SReset => (store_reset s, Ok tt)
    end.
  Definition store_run (ops : list store_op) : result_store :=
    fold_left (fun s o => fst (store_step s o)) ops store_empty.
End Results.
Arguments result_store R : clear implicits.
Arguments store_op R : clear implicits.

(** ** Parameters: boost::property_tree (not in /repo): a node has a string datum and ordered children. *)
Inductive ptree := PNode (data : string) (children : list (string * ptree)).
Definition pdata (t : ptree) : string := match t with PNode d _ => d end.
Definition pchildren (t : ptree) : list (string * ptree) := match t with PNode _ c => c end.
(** boost string_path<'.'>: fragments between dots; a trailing empty fragment is dropped, "" is the node itself *)
Fixpoint split_dot (s : string) : list string :=
  match s with
  | "" => [""]
  | String c r => match split_dot r with
                  | h :: t => if Ascii.eqb c "."%char then "" :: h :: t else String c h :: t
                  | [] => [] end
  end.
Definition path_of (s : string) : list string :=
  let l := split_dot s in if String.eqb (last l "") "" then removelast l else l.
(** walk_path: first child with the key at each level *)
Fixpoint pwalk (t : ptree) (p : list string) : option ptree :=
  match p with
  | [] => Some t
  | k :: r => match mfind (pchildren t) k with Some c => pwalk c r | None => None end
  end.
(** get_child_optional / get_optional<T>: the translation of the datum may fail *)
Definition get_child_optional (t : ptree) (name : string) : option ptree := pwalk t (path_of name).
Definition get_optional {T} (conv : string -> option T) (t : ptree) (name : string) : option T :=
  match get_child_optional t name with Some c => conv (pdata c) | None => None end.
(** translators: a string is taken as it is; boost's bool translator accepts 0/1 and true/false *)
Definition conv_string (s : string) : option string := Some s.
Definition conv_bool (s : string) : option bool :=
  if String.eqb s "true" then Some true else if String.eqb s "1" then Some true
  else if String.eqb s "false" then Some false else if String.eqb s "0" then Some false else None.

(** ptree::put: creates the missing nodes, then sets the datum *)
Fixpoint pput (p : list string) (v : string) (t : ptree) : ptree :=
  match p with
  | [] => PNode v (pchildren t)
  | k :: r =>
      let child := match mfind (pchildren t) k with Some c => c | None => PNode "" [] end in
      PNode (pdata t) (mset (pchildren t) k (pput r v child))
  end.
(** ptree::put_child: creates the missing parents, replaces the node *)
Fixpoint pput_child (p : list string) (v : ptree) (t : ptree) : ptree :=
  match p with
  | [] => v
  | k :: r =>
      let child := match mfind (pchildren t) k with Some c => c | None => PNode "" [] end in
      PNode (pdata t) (mset (pchildren t) k (pput_child r v child))
  end.

(** parameterstore.h:63-72: true as soon as the node exists, convertible or not *)
Definition Has {T} (conv : string -> option T) (t : ptree) (name : string) : bool :=
  match get_optional conv t name with
  | Some _ => true
  | None => match get_child_optional t name with Some _ => true | None => false end
  end.
(** parameterstore.h:93-99 *)
Definition Get {T} (conv : string -> option T) (t : ptree) (name : string) : res T :=
  match get_optional conv t name with Some x => Ok x | None => Throw MISSING_PARAMETER end.
(** parameterstore.h:74-76, 101-108 *)
Definition HasScoped {T} (conv : string -> option T) (sc : scope_stack) (t : ptree) (name : string) : bool :=
  Has conv t (GetScopedName sc name).
Definition GetScoped {T} (conv : string -> option T) (sc : scope_stack) (t : ptree) (name : string) : res T :=
  if Has conv t (GetScopedName sc name) then Get conv t (GetScopedName sc name) else Throw MISSING_PARAMETER.
(** parameterstore.h:116-124 *)
Definition GetScopedAt {T} (conv : string -> option T) (sc : scope_stack) (t : ptree) (name : string) (depth : Z) : res T :=
  do n <- GetScopedNameAt sc name depth;
  if Has conv t n then Get conv t n else Throw MISSING_PARAMETER.
(** parameterstore.h:126-140; get_value<T> throws ptree_bad_data on a bad item *)
Fixpoint list_items {T} (conv : string -> option T) (l : list (string * ptree)) : res (list T) :=
  match l with
  | [] => Ok []
  | (_, c) :: r => match conv (pdata c) with
                   | None => Throw STD_other
                   | Some x => do xs <- list_items conv r; Ok (x :: xs) end
  end.
Definition GetList {T} (conv : string -> option T) (t : ptree) (name : string) : res (list T) :=
  match get_child_optional t name with
  | None => Throw MISSING_PARAMETER
  | Some c => list_items conv (pchildren c)
  end.
(** parameterstore.h:142-148 *)
Definition GetListScoped {T} (conv : string -> option T) (sc : scope_stack) (t : ptree) (name : string) : res (list T) :=
  if HasScoped conv sc t name then GetList conv t (GetScopedName sc name) else GetList conv t name.
(** parameterstore.h:167-172: reads two items without checking the length *)
Definition GetRange (conv : string -> option Q) (t : ptree) (name : string) : res (Q * Q) :=
  do l <- GetList conv t name;
  do a <- vget l 0; do b <- vget l 1; Ok (a, b).

(** parameterstore.cpp:123-147: scalar Set (the datum is the printed value) *)
Definition Set_scalar (name : string) (v : string) (t : ptree) : ptree := pput (path_of name) v t.
(** parameterstore.cpp:50-121: list Set *)
Definition Set_list (name : string) (v : list string) (t : ptree) : ptree :=
  pput_child (path_of name) (PNode "" (map (fun x => ("", PNode x [])) v)) t.

(** ** Feature queries, parameterstore.cpp:158-282 *)
(** "if (Has<bool>(p)) x = Get<bool>(p)" *)
Definition read_flag (t : ptree) (name : string) (default : bool) : res bool :=
  if Has conv_bool t name then Get conv_bool t name else Ok default.
(** parameterstore.cpp:158-184 *)
Definition HasTplIsmExtinction (t : ptree) (sm : string) : res bool :=
  let methodScope := sm ++ ".redshiftSolver.method" in
  if negb (Has conv_string t methodScope) then Ok false
  else
    do method <- Get conv_string t methodScope;
    if (String.eqb method "templateFittingSolve" || String.eqb method "tplCombinationSolve")%bool
    then read_flag t (sm ++ ".redshiftSolver." ++ method ++ ".ismFit") false
    else if String.eqb method "lineModelSolve"
    then
      do e <- read_flag t (sm ++ ".redshiftSolver." ++ method ++ ".lineModel.continuumFit.ismFit") false;
      do f <- read_flag t (sm ++ ".redshiftSolver." ++ method ++ ".lineModel.tplRatioIsmFit") false;
      Ok (e || f)%bool
    else Ok false.
(** parameterstore.cpp:186-204: for any other method the flag read is the node of the method itself *)
Definition HasTplIgmExtinction (t : ptree) (sm : string) : res bool :=
  let methodScope := sm ++ ".redshiftSolver.method" in
  if negb (Has conv_string t methodScope) then Ok false
  else
    do method <- Get conv_string t methodScope;
    let scope := sm ++ ".redshiftSolver." ++ method in
    let scope :=
      if (String.eqb method "templateFittingSolve" || String.eqb method "tplCombinationSolve")%bool
      then scope ++ ".igmFit"
      else if String.eqb method "lineModelSolve" then scope ++ ".lineModel.continuumFit.igmFit" else scope in
    read_flag t scope false.
(** parameterstore.cpp:206-227 *)
Definition HasFFTProcessing (t : ptree) (sm : string) : res bool :=
  let methodScope := sm ++ ".redshiftSolver.method" in
  if negb (Has conv_string t methodScope) then Ok false
  else
    do method <- Get conv_string t methodScope;
    if String.eqb method "templateFittingSolve"
    then read_flag t (sm ++ ".redshiftSolver.templateFittingSolve.fftProcessing") false
    else if String.eqb method "lineModelSolve"
    then read_flag t (sm ++ ".redshiftSolver.lineModelSolve.lineModel.continuumFit.fftProcessing") false
    else Ok false.
(** parameterstore.cpp:229-247 *)
Definition HasToOrthogonalizeTemplates (t : ptree) (sm : string) : res bool :=
  let methodScope := sm ++ ".redshiftSolver.method" in
  do o <- (if Has conv_string t methodScope
           then (do m <- Get conv_string t methodScope; Ok (String.eqb m "lineModelSolve")) else Ok false);
  if o then
    do u <- Get conv_string t (sm ++ ".redshiftSolver.lineModelSolve");
    do c <- Get conv_string t (sm ++ ".redshiftSolver.lineModelSolve.lineModel.continuumComponent");
    Ok (String.eqb c "tplFit" || String.eqb c "tplFitAuto")%bool
  else Ok false.
(** parameterstore.cpp:249-258 *)
Definition EnableTemplateOrthogonalization (t : ptree) (sm : string) : res bool :=
  do e <- HasToOrthogonalizeTemplates t sm;
  if e then (do b <- Get conv_bool t (sm ++ ".redshiftSolver.lineModelSolve.lineModel.continuumFit.ignoreLineSupport");
             Ok (negb b)) else Ok false.
(** parameterstore.cpp:260-270: per-category answers, and whether one of them is true *)
Fixpoint hasToLogRebin (t : ptree) (categories : list string) (fft : smap bool) (use : bool) : res (bool * smap bool) :=
  match categories with
  | [] => Ok (use, fft)
  | c :: r => do b <- HasFFTProcessing t c; hasToLogRebin t r (mset fft c b) (use || b)
  end.
(** parameterstore.cpp:272-282: [None] stands for DBL_MAX, which no finite step exceeds *)
Fixpoint getMinZStep (conv : string -> option Q) (t : ptree) (fft : smap bool) (acc : option Q) : res (option Q) :=
  match fft with
  | [] => Ok acc
  | (_, false) :: r => getMinZStep conv t r acc
  | (c, true) :: r =>
      do s <- Get conv t (c ++ ".redshiftStep");
      getMinZStep conv t r (Some (match acc with None => s | Some a => if Qltb a s then a else s end))
  end.
