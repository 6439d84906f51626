(** Vocabulary for C42. *)
From Verif Require Import Base FitStoreModel.
Open Scope Q_scope.

(** [f] may be ranked before [g]: smaller merit, or the same one and an amplitude at least as significant *)
Definition ranks_before (f g : fit) : Prop := f_merit f < f_merit g \/ (f_merit f == f_merit g /\ Qabs (f_ampsig g) <= Qabs (f_ampsig f)).
Definition same_rank (f g : fit) : bool := (Qeq_bool (f_merit f) (f_merit g) && Qeq_bool (Qabs (f_ampsig f)) (Qabs (f_ampsig g)))%bool.
Definition ranked (l : list fit) : Prop := forall i j f g, (i < j)%nat -> nth_error l i = Some f -> nth_error l j = Some g -> ranks_before f g.
(** the additions made at the redshift z, in order *)
Definition at_redshift (z : Q) (l : list fit) : list fit := filter (fun f => Qeq_bool z (f_z f)) l.
Definition distinct (l : list Q) : Prop := forall i j x y, i <> j -> nth_error l i = Some x -> nth_error l j = Some y -> ~ x == y.
Definition in_grid (l : list Q) (z : Q) : Prop := exists x, In x l /\ x == z.
