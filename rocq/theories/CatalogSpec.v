(** Vocabulary for C45. *)
From Coq Require Import String Ascii.
From Verif Require Import Base CatalogModel.
Open Scope string_scope.

(** a catalog: lines indexed by their own identifier, without duplicates, each with a profile *)
Definition catalog (m : lmap) : Prop :=
  (forall i j a b, (i < j)%nat -> nth_error m i = Some a -> nth_error m j = Some b -> (fst a < fst b)%Z) /\
  (forall k x, In (k, x) m -> ln_id x = k /\ ln_profile x <> None).
(** the lines of a catalog *)
Definition lines (m : lmap) : list line := map snd m.
(** does a line satisfy a filter? *)
Definition type_matches (t : etype) (x : line) : Prop := t = AllTypes \/ ln_type x = t.
Definition force_matches (f : eforce) (x : line) : Prop := f = AllForces \/ ln_force x = f.
(** first character of a string *)
Definition starts_with (c : ascii) (s : string) : Prop := exists r, s = String c r.
(** sorted by position, then by amplitude *)
Definition before (a b : detected) : Prop := (d_pos a < d_pos b \/ (d_pos a == d_pos b /\ d_amp a <= d_amp b))%Q.
(** [sort] is a sorting function for [det_lt] *)
Definition sorts (sort : list detected -> list detected) : Prop :=
  forall l, Permutation (sort l) l /\
    forall i j a b, (i < j)%nat -> nth_error (sort l) i = Some a -> nth_error (sort l) j = Some b -> det_lt b a = false.
(** the name contains this word somewhere *)
Definition contains (w s : string) : Prop := exists n, substring n (String.length w) s = w.
