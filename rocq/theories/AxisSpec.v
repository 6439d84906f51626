(** Vocabulary for C18, C19, C20. *)
From Coq Require Import NArith.
From Verif Require Import Base RangeModel.
Open Scope Q_scope.

(** [out] is what remains of [v] when only the positions whose mask is 1 are kept, in the same order:
    there is an increasing list of positions, made of exactly the masked-in positions, which [out] reads. *)
Definition masked_in (mask : list Q) (i : nat) : Prop := exists m, nth_error mask i = Some m /\ m == 1.
Definition kept_in_order {A} (mask : list Q) (v out : list A) : Prop :=
  exists pos : list nat,
    (forall a b i j, (a < b)%nat -> nth_error pos a = Some i -> nth_error pos b = Some j -> (i < j)%nat) /\
    (forall i, In i pos <-> masked_in mask i) /\
    length out = length pos /\
    forall a i, nth_error pos a = Some i -> nth_error out a = nth_error v i.

(** number of indices of a list satisfying a test *)
Definition count_if {A} (f : A -> bool) (l : list A) : Z := Z.of_nat (length (filter f l)).

(** samples of index i whose wavelength lies in the closed range *)
Definition inside (r : range) (x : Q) : Prop := rbeg r <= x /\ x <= rend r.

(** sub-sampling: index i is end - k*ratio for some k >= 0 and is not below begin *)
Definition on_subgrid (ratio ib ie : Z) (i : nat) : Prop :=
  exists k, (0 <= k)%Z /\ Z.of_nat i = (ie - k * ratio)%Z /\ (ib <= Z.of_nat i)%Z.
