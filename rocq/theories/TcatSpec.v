(** Vocabulary for C43. *)
From Coq Require Import String.
From Verif Require Import Base StoreModel TcatModel.

(** the templates of one category in one of the four lists *)
Definition lst (t : tcat) (c : string) (o g : bool) : tlist := match mfind (tc_lists t o g) c with Some l => l | None => [] end.
(** the list with its i-th template forgotten; nothing is kept of a list without template *)
Definition forget (i : nat) (l : tlist) : tlist := map (fun p => if Nat.eqb (fst p) i then None else snd p) (combine (seq 0 (length l)) l).
Definition erase (i : nat) (l : tlist) : tlist := if existsb (fun x => match x with Some _ => true | None => false end) (forget i l) then forget i l else [].
(** the lists derived from (o, g), itself included: a template is orthogonalized from the list with the same sampling, and the
    log-sampled ones come from the original ones *)
Definition derived (o g o' g' : bool) : bool := ((implb o o') && (implb g g') && (Bool.eqb g g' || negb o))%bool.
(** every list of the category has as many templates as the original one, or none; a list is not empty unless the ones derived from it are *)
Definition coherent (t : tcat) (c : string) : Prop :=
  forall o g o' g', derived o g o' g' = true -> lst t c o' g' = [] \/ length (lst t c o' g') = length (lst t c o g).
(** same flags *)
Definition same_flags (t t' : tcat) : Prop := tc_ortho t' = tc_ortho t /\ tc_log t' = tc_log t.
(** the list with its i-th template replaced *)
Definition replaced (l : tlist) (i : nat) (r : tpl) (l' : tlist) : Prop :=
  length l' = length l /\ nth_error l' i = Some (Some r) /\ forall j, j <> i -> nth_error l' j = nth_error l j.
(** additions in a row *)
Fixpoint AddAll (t : tcat) (l : list tpl) : tcat * res unit :=
  match l with [] => (t, Ok tt) | r :: l' => andthen (Add t r) (fun t1 => AddAll t1 l') end.
Definition of_category (c : string) (l : list tpl) : list tpl := filter (fun r => String.eqb (t_cat r) c) l.
