(** What is expected of candidate ranges and ranks. *)
From Coq Require Import String.
From Verif Require Import Base RangeModel CandModel.
Open Scope Q_scope.

(** sorting by decreasing redshift *)
Definition sorts_by_z (f : list cand -> list cand) : Prop :=
  forall l, Permutation (f l) l /\
    forall i j a b, (i < j)%nat -> nth_error (f l) i = Some a -> nth_error (f l) j = Some b -> cz b <= cz a.

(** a candidate with a usable width inside the pdf range *)
Definition usable (dzDefault : Q) (pdf : range) (c : cand) : Prop :=
  rbeg pdf <= cz c /\ cz c <= rend pdf /\ (0 < cdz c \/ (cdz c == -1 /\ 0 < dzDefault /\ -1 < cz c)).

(** the full width of a candidate: 3 Deltaz on each side, cut at the bounds of the pdf *)
Definition window_begin (pdf : range) (c : cand) : Q := Qmax (cz c - 3 * cdz c) (rbeg pdf).
Definition window_end (pdf : range) (c : cand) : Q := Qmin (cz c + 3 * cdz c) (rend pdf).

Definition kept (dups : list string) (c : cand) : Prop := ~ In (cid c) dups.

(** a duplicate overlaps, over its full width, one of its neighbours in redshift, and has a lower pdf value than it
    (in case of equality the one at the lower redshift is the duplicate) *)
Definition dup_reason (pdf : range) (out : list (cand * range)) (id : string) : Prop :=
  exists i x y, nth_error out i = Some x /\ nth_error out (S i) = Some y /\
    window_begin pdf (fst x) < window_end pdf (fst y) /\
    ((id = cid (fst x) /\ cval (fst x) < cval (fst y)) \/ (id = cid (fst y) /\ cval (fst y) <= cval (fst x))).

