(** Model of the search loop of CLineMatchingSolve::compute (RedshiftLibrary/src/lib/method/linematchingsolve.cpp:200-355).
    The line detection (C72) and the matching with its filter (C71, C73) are functions of the four varied parameters, given to the loop: any answers.
    The decimal constants are exact rationals; the stored products and the logs are left out. *)
From Verif Require Import Base.
Open Scope Q_scope.

(** the parameters which vary: :204-228 *)
Record params := mkPar { p_cut : Q; p_strong : Q; p_win : Q; p_fwhh : Q }.
(** :202-231 *)
Record search := mkSt { cur : params; best : params; nbest : Z; prev : Z; newv : bool; bypass : bool; icmpt : Z }.
Definition cutMinimum : Q := 1 # 10.
Definition cutStep : Q := (10 - (1 # 10)) / 5.
Definition fwhhMinimum : Q := 1 # 1000.
Definition fwhhMaximum : Q := 10.
Definition fwhhStep : Q := (10 - (1 # 1000)) / 5.
Definition strongMinimum : Q := 1 # 100.
Definition strongMaximum : Q := 10.
Definition strongStep : Q := (10 - (1 # 100)) / 5.
Definition winMinimum : Q := 1000.
Definition winMaximum : Q := 10000.
Definition winStep : Q := (10000 - 1000) / 5.
Definition start (p : params) : search := mkSt p p (-1) (-1) false false 0.
Definition cmptMax : Z := 100.

(** std::max: the first argument when equal *)
Definition qmax (a b : Q) : Q := if Qltb a b then b else a.
(** :311-345; None: all the values were used *)
Definition vary (p : params) : option (params * bool) :=
  if Qltb fwhhMinimum (p_fwhh p) then Some (mkPar (p_cut p) (p_strong p) (p_win p) (qmax fwhhMinimum (p_fwhh p - fwhhStep)), false)
  else if Qle_bool cutMinimum (p_cut p) then Some (mkPar (p_cut p - cutStep) (p_strong p) (p_win p) fwhhMaximum, true)
  else if Qltb strongMinimum (p_strong p) then Some (mkPar (p_strong p) (qmax strongMinimum (p_strong p - strongStep)) (p_win p) fwhhMaximum, true)
  else if Qle_bool (p_win p) winMaximum then Some (mkPar (p_strong p) strongMaximum (p_win p + winStep) fwhhMaximum, true)
  else None.
(** how the loop ends: with a redshift, without (one detection only), or at its limit of turns with a warning (:353-359) *)
Inductive ending := Found | Nothing | Limit.
(** :295-350 *)
Definition update (dynamic : bool) (st : search) (n : Z) : res (search + ending) :=
  let better := (nbest st <=? n)%Z in
  let nb := if better then n else nbest st in
  let b := if better then cur st else best st in
  if (n <? prev st)%Z && negb (newv st) then Throw INTERNAL_ERROR
  else if negb dynamic then Throw INTERNAL_ERROR
  else match vary (cur st) with
       | Some (p, nv) => Ok (inl (mkSt p b nb n nv (bypass st) (icmpt st)))
       | None => Ok (inl (mkSt b b nb n true true (icmpt st)))
       end.
(** :232-350: one turn.  All the paths which do not return end with [continue]: the increment of :351 is not reached *)
Definition step (dynamic : bool) (detect : params -> res Z) (match_ : params -> res bool) (st : search) : res (search + ending) :=
  if (icmpt st <? cmptMax)%Z then
    do n <- detect (cur st);
    if ((200 <=? n)%Z || bypass st || negb dynamic)%bool then
      do f <- match_ (cur st);
      if (f : bool) then Ok (inr Found) else if negb dynamic then Ok (inr Nothing) else update dynamic st n
    else update dynamic st n
  else Ok (inr Limit).
(** at most n turns *)
Fixpoint run (dynamic : bool) (detect : params -> res Z) (match_ : params -> res bool) (n : nat) (st : search) : res (search + ending) :=
  match n with
  | O => Ok (inl st)
  | S m => do r <- step dynamic detect match_ st; match r with inl st' => run dynamic detect match_ m st' | inr e => Ok (inr e) end
  end.
