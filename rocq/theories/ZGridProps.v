(** Property C36: refining the redshift grid with sub-grids. *)
From Verif Require Import Base RangeModel RangeSpec RangeProofs ZGridModel ZGridSpec ZGridProofs.
Open Scope Q_scope.

(** Inserting a sub-grid replaces exactly the samples of its zone; the grid stays strictly increasing, contains all the
    sub-grid samples and all the samples outside the zone; the returned position and count delimit the replaced ones. *)
Theorem C36_subgrid_replaces_its_zone : forall sub z, insertable sub z ->
  exists imin ndup sub' z', insertSubgrid sub z = Ok (imin, ndup, sub', z') /\
    inserted sub z sub' /\ strictly_increasing sub' /\
    (forall k x, nth_error z k = Some x -> (replaced sub x <-> (imin <= k < imin + ndup)%nat)) /\
    (1 <= ndup)%nat /\ (ndup <= length sub)%nat /\ (imin + ndup <= length z)%nat /\
    z' = firstn imin z ++ sub' ++ skipn (imin + ndup) z /\ strictly_increasing z' /\
    (forall x, In x z' <-> In x sub' \/ (In x z /\ ~ replaced sub x)).
Proof. exact insertSubgrid_spec. Qed.
Print Assumptions C36_subgrid_replaces_its_zone.

(** A companion array (one value per redshift) updated with the returned position and count stays paired with the grid:
    the new samples have the default value, the others keep theirs. *)
Theorem C36_companion_stays_paired : forall (A : Type) (dflt : A) sub z (c : list A),
  insertable sub z -> length c = length z ->
  exists sub' z' c', update_results dflt [sub] z c = Ok (z', c') /\ inserted sub z sub' /\
    strictly_increasing z' /\ length c' = length z' /\
    forall x v, In (x, v) (combine z' c') <-> (In x sub' /\ v = dflt) \/ (In (x, v) (combine z c) /\ ~ replaced sub x).
Proof. exact @companion_spec. Qed.
Print Assumptions C36_companion_stays_paired.

(** any number of sub-grids *)
Theorem C36_all_candidates : forall (A : Type) (dflt : A) subs z (c : list A),
  insertable_all subs z -> strictly_increasing z -> length c = length z ->
  exists z' c', update_results dflt subs z c = Ok (z', c') /\ insert_all subs z = Ok z' /\ strictly_increasing z' /\ length c' = length z' /\
    (forall x v, In (x, v) (combine z' c') -> v = dflt \/ In (x, v) (combine z c)) /\
    (forall x v, In (x, v) (combine z c) -> (forall s, In s subs -> ~ replaced s x) -> In (x, v) (combine z' c')).
Proof. exact @update_all_spec. Qed.
Print Assumptions C36_all_candidates.

(** a sub-grid coarser than the grid: iterator before the beginning of the sub-grid *)
Theorem C36_coarse_subgrid_refuted : exists sub z, strictly_increasing sub /\ strictly_increasing z /\
  (exists x, In x z /\ replaced sub x) /\ insertSubgrid sub z = UB.
Proof.
  exists [1; 3], [0; 1; (3#2); 2; 3; 4].
  assert (H : forall l : list Q, match l with [] => True | a :: t => True end) by (intros []; exact I).
  split; [|split; [|split; [|reflexivity]]].
  - repeat (apply strictly_increasing_cons; [simpl; intros; intuition (subst; lra)|]). apply strictly_increasing_nil.
  - repeat (apply strictly_increasing_cons; [simpl; intros; intuition (subst; lra)|]). apply strictly_increasing_nil.
  - exists 1. split; [simpl; auto|]. exists 1, 3. unfold eps. split; [reflexivity|]. split; [reflexivity|]. split; lra.
Qed.
Print Assumptions C36_coarse_subgrid_refuted.

(** a sub-grid with two samples below the grid: the result is not sorted *)
Theorem C36_subgrid_beyond_the_grid_refuted : exists sub z i n s' z', strictly_increasing sub /\ strictly_increasing z /\
  insertSubgrid sub z = Ok (i, n, s', z') /\ ~ strictly_increasing z'.
Proof.
  exists [0; (1#2); (3#2)], [1; 2; 3], 0%nat, 1%nat, [1; (1#2); (3#2)], [1; (1#2); (3#2); 2; 3].
  split; [|split; [|split; [reflexivity|]]].
  - repeat (apply strictly_increasing_cons; [simpl; intros; intuition (subst; lra)|]). apply strictly_increasing_nil.
  - repeat (apply strictly_increasing_cons; [simpl; intros; intuition (subst; lra)|]). apply strictly_increasing_nil.
  - intro H. specialize (H 0%nat 1%nat 1 (1#2) ltac:(lia) eq_refl eq_refl). lra.
Qed.
Print Assumptions C36_subgrid_beyond_the_grid_refuted.

Ltac incr := repeat (apply strictly_increasing_cons; [simpl; intros; intuition (subst; lra)|]); apply strictly_increasing_nil.
Example C36_ex_insertable : insertable [(1#2); 1; (3#2)] [0; 1; 2; 3].
Proof.
  assert (R : forall x, replaced [(1#2); 1; (3#2)] x -> (1#2) - eps <= x /\ x <= (3#2) + eps).
  { intros x (a & b & A & B & C & D). simpl in A, B. injection A as <-. injection B as <-. auto. }
  split; [incr|]. split; [incr|]. split; [simpl; lia|]. split.
  - exists 1. split; [simpl; auto|]. exists (1#2), (3#2). unfold eps. split; [reflexivity|]. split; [reflexivity|]. split; lra.
  - split; [|split].
    + intros i j xi xj Hi Hj Ri Rj. apply R in Ri, Rj. unfold eps in *. pose proof (nth_error_len _ _ _ Hj) as Hl. simpl in *. lia || idtac.
      destruct j as [|[|[|[|j]]]]; simpl in Hj; try (injection Hj as <-); try lia; lra.
    + intros k x zf Hk Hx Hz. simpl in Hz. injection Hz as <-. destruct k as [|[|[|k]]]; simpl in Hx; try lia; try (injection Hx as <-; lra). destruct k; discriminate.
    + intros k x zb Hk Hx Hz. simpl in Hz. injection Hz as <-. simpl in Hk. destruct k as [|[|k]]; simpl in Hx; try lia; injection Hx as <-; lra.
Qed.
Example C36_ex_run : insertSubgrid [(1#2); 1; (3#2)] [0; 1; 2; 3] = Ok (1%nat, 1%nat, [(1#2); 1; (3#2)], [0; (1#2); 1; (3#2); 2; 3]).
Proof. reflexivity. Qed.
Example C36_ex_companion : update_results 9%nat [[(1#2); 1; (3#2)]; [2; (5#2); 3]] [0; 1; 2; 3] [10; 11; 12; 13]%nat
  = Ok ([0; (1#2); 1; (3#2); 2; (5#2); 3], [10; 9; 9; 9; 9; 9; 9]%nat).
Proof. reflexivity. Qed.
Example C36_ex_grid : match getZGrid [mkZParam (mkRange 0 1) (1#2) None; mkZParam (mkRange (2#5) (3#5)) (1#10) (Some (1#2))] with
  | Ok z => length z = 5%nat | _ => False end.
Proof. vm_compute. reflexivity. Qed.
