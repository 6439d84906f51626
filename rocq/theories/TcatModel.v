(** Model of CTemplateCatalog (RedshiftLibrary/src/lib/spectrum/template/catalog.cpp and
    RedshiftLibrary/RedshiftLibrary/spectrum/template/catalog.h). *)
From Coq Require Import String.
From Verif Require Import Base ScopeModel StoreModel.

(** a template; [t_data] stands for its axes and everything else *)
Record tpl := mkTpl { t_name : string; t_cat : string; t_data : Q }.
(** the lists of shared_ptr ([None] is the null pointer) of one category *)
Definition tlist := list (option tpl).
(** catalog.h:108-126: m_ListMatrix[ortho][logsampling], m_orthogonal, m_logsampling and m_ortho_LSFWidth ([None] is NaN).
    The iteration order of the maps is not modelled. *)
Record tcat := mkTC { tc_lists : bool -> bool -> smap tlist; tc_ortho : bool; tc_log : bool; tc_width : option Q }.
(** catalog.cpp:55 *)
Definition tc_new (sampling : bool) : tcat := mkTC (fun _ _ => []) false sampling None.
Definition set_lists (t : tcat) (o g : bool) (d : smap tlist) : tcat :=
  mkTC (fun o' g' => if (Bool.eqb o o' && Bool.eqb g g')%bool then d else tc_lists t o' g') (tc_ortho t) (tc_log t) (tc_width t).
Definition set_width (t : tcat) (w : option Q) : tcat := mkTC (tc_lists t) (tc_ortho t) (tc_log t) w.
Definition set_flags (t : tcat) (o g : bool) : tcat := mkTC (tc_lists t) o g (tc_width t).
(** resetCatalogState, catalog.h:77-80 *)
Definition resetCatalogState (t : tcat) : tcat := set_flags t false false.
(** GetTemplateCount, catalog.cpp:132-143 *)
Definition GetTemplateCount (t : tcat) (c : string) (o g : bool) : nat :=
  match mfind (tc_lists t o g) c with None => 0%nat | Some l => length l end.
Definition nonnull (l : tlist) : nat := length (filter (fun x => match x with Some _ => true | None => false end) l).
(** GetNonNullTemplateCount, catalog.cpp:145-159 *)
Definition GetNonNullTemplateCount (t : tcat) (c : string) (o g : bool) : nat :=
  if Nat.eqb (GetTemplateCount t c o g) 0 then 0%nat else match mfind (tc_lists t o g) c with None => 0%nat | Some l => nonnull l end.
(** GetCategoryList, catalog.cpp:119-125 *)
Definition GetCategoryList (t : tcat) : list string := map fst (tc_lists t (tc_ortho t) (tc_log t)).
(** Add, catalog.cpp:172-177; the second component is the outcome *)
Definition Add (t : tcat) (r : tpl) : tcat * res unit :=
  if String.eqb (t_cat r) "" then (t, Throw INTERNAL_ERROR) else
  let d := tc_lists t (tc_ortho t) (tc_log t) in
  let old := match mfind d (t_cat r) with Some l => l | None => [] end in
  (set_lists t (tc_ortho t) (tc_log t) (mset d (t_cat r) (old ++ [Some r])%list), Ok tt).
(** vector::at(i) = x; a negative i converts to a huge index *)
Definition at_set (l : tlist) (i : Z) (x : option tpl) : res tlist :=
  if (i <? 0)%Z then Throw STD_out_of_range else if (Z.of_nat (length l) <=? i)%Z then Throw STD_out_of_range else vset l (Z.to_nat i) x.
(** vector::at(i) *)
Definition at_get (l : tlist) (i : Z) : res (option tpl) :=
  if (i <? 0)%Z then Throw STD_out_of_range else match nth_error l (Z.to_nat i) with Some x => Ok x | None => Throw STD_out_of_range end.
(** sequencing of the calls which may throw and keep what they have already changed *)
Definition andthen (x : tcat * res unit) (k : tcat -> tcat * res unit) : tcat * res unit :=
  match x with (t, Ok _) => k t | (t, e) => (t, e) end.
(** ClearTemplates, catalog.cpp:197-229; the recursion is bounded by [n] (exhausting it is [UB]: never reached with 4, proved) *)
Fixpoint clear_rec (n : nat) (t : tcat) (c : string) (o g : bool) (i : Z) (all : bool) : tcat * res unit :=
  match n with
  | O => (t, UB)
  | S m =>
      if Nat.eqb (GetTemplateCount t c o g) 0 then (t, Ok tt) else
      let l := match mfind (tc_lists t o g) c with Some l => l | None => [] end in
      andthen
        (if all then
           let t1 := set_lists t o g (mset (tc_lists t o g) c []) in
           (if o then if Nat.eqb (GetTemplateCount t1 c o (negb g)) 0 then set_width t1 None else t1 else t1, Ok tt)
         else
           match at_set l i None with
           | Ok l' =>
               let t1 := set_lists t o g (mset (tc_lists t o g) c l') in
               if Nat.eqb (GetNonNullTemplateCount t1 c o g) 0 then clear_rec m t1 c o g 0 true else (t1, Ok tt)
           | Throw e => (t, Throw e)
           | UB => (t, UB)
           end)
        (fun t2 =>
           andthen (if negb o then clear_rec m t2 c true g i all else (t2, Ok tt))
             (fun t3 => if (negb g && negb o)%bool then clear_rec m t3 c false true i all else (t3, Ok tt)))
  end.
Definition ClearTemplates (t : tcat) (c : string) (o g : bool) (i : Z) (all : bool) : tcat * res unit := clear_rec 4 t c o g i all.
(** catalog.cpp:191-194 *)
Definition ClearTemplateList (t : tcat) (c : string) (o g : bool) : tcat * res unit := ClearTemplates t c o g 0 true.
(** SetTemplate, catalog.cpp:176-188 *)
Definition SetTemplate (t : tcat) (r : tpl) (i : Z) : tcat * res unit :=
  let o := tc_ortho t in let g := tc_log t in
  andthen (ClearTemplates t (t_cat r) o g i false) (fun t1 =>
    if Nat.eqb (GetTemplateCount t1 (t_cat r) o g) 0 then Add t1 r else
    match mfind (tc_lists t1 o g) (t_cat r) with
    | None => (t1, Throw STD_out_of_range)
    | Some l => match at_set l i (Some r) with
                | Ok l' => (set_lists t1 o g (mset (tc_lists t1 o g) (t_cat r) l'), Ok tt)
                | Throw e => (t1, Throw e)
                | UB => (t1, UB)
                end
    end).
(** GetTemplate, catalog.h:132-141 *)
Definition GetTemplate (t : tcat) (c : string) (i : Z) (o g : bool) : res (option tpl) :=
  match mfind (tc_lists t o g) c with None => Throw STD_out_of_range | Some l => at_get l i end.
(** GetTemplateList_, catalog.cpp:80-95 *)
Fixpoint GetTemplateList (t : tcat) (cats : list string) (o g : bool) : tlist :=
  match cats with
  | [] => []
  | c :: r => match mfind (tc_lists t o g) c with None => GetTemplateList t r o g | Some l => (l ++ GetTemplateList t r o g)%list end
  end.
(** the loop over the templates of one category, catalog.cpp:105-107: a null pointer is dereferenced *)
Fixpoint find_name (l : tlist) (name : string) : res (option tpl) :=
  match l with
  | [] => Ok None
  | None :: _ => UB
  | Some x :: r => if String.eqb (t_name x) name then Ok (Some x) else find_name r name
  end.
(** GetTemplateByName, catalog.cpp:97-111 *)
Fixpoint GetTemplateByName (t : tcat) (cats : list string) (name : string) (o g : bool) : res tpl :=
  match cats with
  | [] => Throw INTERNAL_ERROR
  | c :: r =>
      match mfind (tc_lists t o g) c with
      | None => GetTemplateByName t r name o g
      | Some l => do f <- find_name l name; match f with Some x => Ok x | None => GetTemplateByName t r name o g end
      end
  end.
