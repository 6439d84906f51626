(** Model of the maintenance of the derived templates: CTemplatesOrthogonalization::Orthogonalize
    (RedshiftLibrary/src/lib/linemodel/templatesortho.cpp) and CSpectrumLogRebinning::logRebinTemplateCatalog
    (RedshiftLibrary/src/lib/spectrum/logrebinning.cpp). *)
From Coq Require Import String.
From Verif Require Import Base ScopeModel StoreModel TcatModel.

Section Ortho.
  (** OrthogonalizeTemplate (templatesortho.cpp:186-273) with the LSF of that width: not modelled, assumed not to throw *)
  Context (orth : Q -> tpl -> tpl).
  Definition width_differs (t : tcat) (w : Q) : bool := match tc_width t with Some v => negb (Qeq_bool v w) | None => true end.
  (** hasLogRebinnedTemplatesChanged, templatesortho.cpp:151-176: also leaves the flags of the catalog changed *)
  Definition hasLogRebinnedTemplatesChanged (t : tcat) (c : string) : tcat * bool :=
    let t1 := set_flags t false true in
    if Nat.eqb (GetTemplateCount t1 c false true) 0 then (t1, false) else
    let t2 := set_flags t1 true true in
    if Nat.eqb (GetTemplateCount t2 c true true) 0 then (t2, true) else
    (t2, negb (Nat.eqb (GetNonNullTemplateCount t2 c true true) (GetTemplateCount t2 c true true))).
  (** prepareTplCatForOrthogonalization, templatesortho.cpp:106-149: the catalog, whether there is something to do, and for which samplings *)
  Definition prepare (t : tcat) (c : string) (w : Q) : tcat * res (option (list bool)) :=
    let first := Nat.eqb (GetTemplateCount t c true false) 0 in
    let diff := width_differs t w in
    let t1 := if diff then set_width t (Some w) else t in
    if first then (t1, Ok (Some [false; true])) else
    if diff then
      match ClearTemplateList t1 c true false with
      | (t2, Ok _) => match ClearTemplateList t2 c true true with
                      | (t3, Ok _) => (t3, Ok (Some [false; true]))
                      | (t3, Throw e) => (t3, Throw e) | (t3, UB) => (t3, UB) end
      | (t2, Throw e) => (t2, Throw e) | (t2, UB) => (t2, UB)
      end
    else let (t2, b) := hasLogRebinnedTemplatesChanged t1 c in (t2, Ok (if b then Some [true] else None)).
  (** templatesortho.cpp:87-100: [l] are the templates from the i-th one *)
  Fixpoint ortho_loop (t : tcat) (c : string) (w : Q) (partial : bool) (i : nat) (l : tlist) : tcat * res unit :=
    match l with
    | [] => (t, Ok tt)
    | None :: _ => (t, UB)
    | Some x :: r =>
        let next := andthen (if partial then SetTemplate t (orth w x) (Z.of_nat i) else Add t (orth w x)) (fun t1 => ortho_loop t1 c w partial (S i) r) in
        if partial then match GetTemplate t c (Z.of_nat i) (tc_ortho t) (tc_log t) with
                        | Ok (Some _) => (t, Ok tt)
                        | Ok None => next
                        | Throw e => (t, Throw e)
                        | UB => (t, UB)
                        end
        else next
    end.
  (** templatesortho.cpp:77-101 *)
  Fixpoint ortho_samplings (t : tcat) (c : string) (w : Q) (ss : list bool) : tcat * res unit :=
    match ss with
    | [] => (t, Ok tt)
    | s :: r =>
        let t1 := set_flags t false s in
        let l := GetTemplateList t1 [c] false s in
        let t2 := set_flags t1 true s in
        let partial := (s && negb (Nat.eqb (GetTemplateCount t2 c true s) 0))%bool in
        andthen (ortho_loop t2 c w partial 0 l) (fun t3 => ortho_samplings t3 c w r)
    end.
  (** Orthogonalize, templatesortho.cpp:46-104 *)
  Definition Orthogonalize (t : tcat) (c : string) (w : Q) : tcat * res unit :=
    let cur := tc_log t in
    match prepare t c w with
    | (t1, Throw e) => (t1, Throw e)
    | (t1, UB) => (t1, UB)
    | (t1, Ok None) => (set_flags t1 false cur, Ok tt)
    | (t1, Ok (Some ss)) => andthen (ortho_samplings t1 c w ss) (fun t2 => (set_flags t2 false cur, Ok tt))
    end.
End Ortho.

Section Rebin.
  (** isRebinningNeeded (logrebinning.cpp:383-399) and loglambdaRebinTemplate, for the current grid: not modelled *)
  Context (needs : tpl -> bool) (rebin : tpl -> tpl).
  (** logrebinning.cpp:345-367: [n] templates from the i-th one *)
  Fixpoint rebin_loop (t : tcat) (c : string) (i n : nat) : tcat * res unit :=
    match n with
    | O => (t, Ok tt)
    | S m =>
        match GetTemplate t c (Z.of_nat i) (tc_ortho t) (tc_log t) with
        | Ok None => (t, UB)
        | Ok (Some x) =>
            if needs x then
              let t1 := set_flags t (tc_ortho t) false in
              match GetTemplateByName t1 [c] (t_name x) (tc_ortho t1) (tc_log t1) with
              | Ok y => let t2 := set_flags t1 (tc_ortho t1) true in andthen (SetTemplate t2 (rebin y) (Z.of_nat i)) (fun t3 => rebin_loop t3 c (S i) m)
              | Throw e => (t1, Throw e)
              | UB => (t1, UB)
              end
            else rebin_loop t c (S i) m
        | Throw e => (t, Throw e)
        | UB => (t, UB)
        end
    end.
  (** logrebinning.cpp:368-380 *)
  Fixpoint rebin_all (t : tcat) (l : tlist) : tcat * res unit :=
    match l with
    | [] => (t, Ok tt)
    | None :: _ => (t, UB)
    | Some x :: r => andthen (Add t (rebin x)) (fun t1 => rebin_all t1 r)
    end.
  (** logRebinTemplateCatalog from logrebinning.cpp:336 on *)
  Definition logRebinTemplateCatalog (t : tcat) (c : string) : tcat * res unit :=
    let t1 := set_flags t (tc_ortho t) true in
    let n := GetTemplateCount t1 c (tc_ortho t1) (tc_log t1) in
    andthen
      (if Nat.eqb n 0 then
         let t2 := set_flags t1 (tc_ortho t1) false in
         let l := GetTemplateList t2 [c] (tc_ortho t2) (tc_log t2) in
         rebin_all (set_flags t2 (tc_ortho t2) true) l
       else rebin_loop t1 c 0 n)
      (fun t3 => (set_flags t3 (tc_ortho t3) false, Ok tt)).
End Rebin.
