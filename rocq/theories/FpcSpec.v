(** Vocabulary of C87, independent of the code of the functions. *)
From Coq Require Import String.
From Verif Require Import Base FpcModel.
Open Scope Q_scope.

(** the redshift of a candidate *)
Definition at_z (c : ranked) (z : Q) : Prop := exists k, snd c = Some k /\ c_z k = z.
(** two candidates are the same redshift when they differ by less than 5e-4 *)
Definition near (a b : Q) : Prop := Qabs (a - b) < 5 # 10000.
(** the candidate b is near no candidate of the list *)
Definition new_in (cs : list ranked) (b : ranked) : Prop := forall c z zb, In c cs -> at_z c z -> at_z b zb -> ~ near zb z.
(** no null pointer *)
Definition real (cs : list ranked) : Prop := forall c, In c cs -> exists z, at_z c z.
(** the arrays of the candidates have the same length *)
Definition whole (p : pass) : Prop := real (p_cands p) /\
  List.length (p_tpl p) = List.length (p_cands p) /\ List.length (p_elv p) = List.length (p_cands p) /\ List.length (p_alv p) = List.length (p_cands p) /\
  List.length (p_gelv p) = List.length (p_cands p) /\ List.length (p_galv p) = List.length (p_cands p).
(** one solution by redshift *)
Definition complete (r : result) : Prop := List.length (r_lines r) = List.length (r_z r) /\ List.length (r_cont r) = List.length (r_z r).
Definition on_grid (r : result) (z : Q) : Prop := exists x, In x (r_z r) /\ x == z.
(** l and t are the solutions of the result at the first sample equal to z *)
Definition solution (r : result) (z : Q) (l : linesol) (t : tplsol) : Prop :=
  exists i x, nth_error (r_z r) i = Some x /\ x == z /\ (forall j y, (j < i)%nat -> nth_error (r_z r) j = Some y -> ~ y == z) /\
    nth_error (r_lines r) i = Some l /\ nth_error (r_cont r) i = Some t.
