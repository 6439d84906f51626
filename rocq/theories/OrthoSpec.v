(** Vocabulary for C54 and C55. *)
From Coq Require Import String.
From Verif Require Import Base StoreModel TcatModel TcatSpec OrthoModel.

Definition no_null (l : tlist) : Prop := forall x, In x l -> x <> None.
(** the orthogonalized templates are the ones of the list [l], with the LSF of width w *)
Definition up_to_date (orth : Q -> tpl -> tpl) (w : Q) (l lo : tlist) : Prop := lo = map (option_map (orth w)) l.
(** orthogonalization and rebinning copy the name and the category *)
Definition keeps_identity (f : tpl -> tpl) : Prop := forall x, t_name (f x) = t_name x /\ t_cat (f x) = t_cat x.
Definition in_category (c : string) (l : tlist) : Prop := forall x, In (Some x) l -> t_cat x = c.
