(** C82: the redshift ranges of constant igm correction. *)
From Coq Require Rdefinitions.
From Verif Require LfitModel LfitSpec.
From Verif Require Import Base RangeModel MeikModel ZrngModel ZrngSpec ZrngProofs ZrngProofs2 ZrngProofs3.
Open Scope Q_scope.

(** Every redshift is in exactly one range, in order, and the search never fails. *)
Theorem C82_every_redshift_once zs lambda0 bins :
  strictly_increasing zs -> zs <> [] -> strictly_increasing bins -> bins <> [] ->
  exists l, FindZRanges true lambda0 bins zs = Ok l /\ concat (map indices l) = seq 0 (length zs).
Proof. exact (fun SI N => FindZRanges_cover zs SI N lambda0 bins). Qed.
Print Assumptions C82_every_redshift_once.

(** Without igm there is one range. *)
Theorem C82_without_igm zs lambda0 bins : zs <> [] ->
  FindZRanges false lambda0 bins zs = Ok [(0%Z, (Z.of_nat (length zs) - 1)%Z)].
Proof. exact (fun N => FindZRanges_off zs N lambda0 bins). Qed.
Print Assumptions C82_without_igm.

(** The ranges are not empty when the grid separates the values where the correction changes. *)
Theorem C82_ranges_not_empty zs lambda0 bins l :
  strictly_increasing zs -> zs <> [] -> strictly_increasing bins -> bins <> [] -> separated lambda0 bins zs ->
  FindZRanges true lambda0 bins zs = Ok l -> nonempty_chain 0 l (Z.of_nat (length zs)).
Proof. exact (fun SI N => FindZRanges_chain zs SI N lambda0 bins l). Qed.
Print Assumptions C82_ranges_not_empty.

(** No value where the correction changes is strictly between two redshifts of a range. *)
Theorem C82_no_change_inside zs lambda0 bins l b e i j zi zj t :
  strictly_increasing zs -> zs <> [] -> strictly_increasing bins -> bins <> [] ->
  FindZRanges true lambda0 bins zs = Ok l -> In (b, e) l -> (b <= Z.of_nat i)%Z -> (Z.of_nat j <= e)%Z ->
  nth_error zs i = Some zi -> nth_error zs j = Some zj -> threshold lambda0 bins t -> ~ (zi < t /\ t < zj).
Proof. exact (fun SI N => FindZRanges_const zs SI N lambda0 bins l b e i j zi zj t). Qed.
Print Assumptions C82_no_change_inside.

(** A range ends only at the end of the grid or where the correction changes. *)
Theorem C82_split_only_at_changes zs lambda0 bins l b e :
  strictly_increasing zs -> zs <> [] -> strictly_increasing bins -> bins <> [] ->
  FindZRanges true lambda0 bins zs = Ok l -> In (b, e) l ->
  (0 <= b)%Z /\ (e = (Z.of_nat (length zs) - 1)%Z \/ exists t k, e = Z.of_nat k /\ threshold lambda0 bins t /\ in_cell zs t k).
Proof. exact (fun SI N => FindZRanges_ends zs SI N lambda0 bins l b e). Qed.
Print Assumptions C82_split_only_at_changes.

(** A range is entirely on one side of the redshift where the igm starts to affect the spectrum. *)
Theorem C82_one_side zs lambda0 bins l b e :
  strictly_increasing zs -> zs <> [] -> strictly_increasing bins -> bins <> [] ->
  FindZRanges true lambda0 bins zs = Ok l -> In (b, e) l ->
  let inr z := exists i, (b <= Z.of_nat i)%Z /\ (Z.of_nat i <= e)%Z /\ nth_error zs i = Some z in
  (forall z, inr z -> z <= igm_start lambda0) \/ (forall z, inr z -> igm_start lambda0 <= z).
Proof. exact (fun SI N => FindZRanges_side zs SI N lambda0 bins l b e). Qed.
Print Assumptions C82_one_side.

(** The redshifts of a range on the igm side use the same igm table as its first redshift (the one the
    fit uses), unless the redshift is exactly a bin boundary. *)
Theorem C82_same_table zs lambda0 l b e i j zi zj m :
  strictly_increasing zs -> zs <> [] -> strictly_increasing (mk_zbins m) -> (2 <= length (mk_zbins m))%nat ->
  FindZRanges true lambda0 (mk_zbins m) zs = Ok l -> In (b, e) l ->
  (b <= Z.of_nat i)%Z -> (i <= j)%nat -> (Z.of_nat j <= e)%Z ->
  nth_error zs i = Some zi -> nth_error zs j = Some zj -> igm_start lambda0 <= zi ->
  (forall t, In t (mk_zbins m) -> ~ zj == t) ->
  exists k, getRedshiftIndex m zi = Ok k /\ getRedshiftIndex m zj = Ok k.
Proof. exact (fun SI N => FindZRanges_index zs SI N lambda0 l b e i j zi zj m). Qed.
Print Assumptions C82_same_table.

(** A redshift equal to a bin boundary is left in the range below it and uses the table of that range. *)
Theorem C82_boundary_redshift_refuted : exists m zs lambda0 l z0 z1,
  strictly_increasing zs /\ strictly_increasing (mk_zbins m) /\
  FindZRanges true lambda0 (mk_zbins m) zs = Ok l /\ In (0, 1)%Z l /\
  nth_error zs 0 = Some z0 /\ nth_error zs 1 = Some z1 /\ igm_start lambda0 < z0 /\
  getRedshiftIndex m z0 = Ok 0%Z /\ getRedshiftIndex m z1 = Ok 1%Z.
Proof.
  exists (mkMeik [1; 3; 9] [] [] 0 0 0 (mkRange 0 0) false), [2; 3; 4], 1216, [(0, 1)%Z; (2, 2)%Z], 2, 3.
  split; [|split; [|split; [vm_compute; reflexivity|split; [left; reflexivity|repeat split; vm_compute; reflexivity]]]].
  - intros [|[|[|i]]] [|[|[|j]]] x y L X Y; cbn in *; try lia; inversion X; inversion Y; subst; try reflexivity; destruct j; discriminate.
  - intros [|[|[|i]]] [|[|[|j]]] x y L X Y; cbn in *; try lia; inversion X; inversion Y; subst; try reflexivity; destruct j; discriminate.
Qed.
Print Assumptions C82_boundary_redshift_refuted.

(** The ranges may be empty: two changes in the same cell of the grid. *)
Theorem C82_empty_range_refuted : exists zs lambda0 bins,
  strictly_increasing zs /\ strictly_increasing bins /\
  FindZRanges true lambda0 bins zs = Ok [(0, 0)%Z; (1, 0)%Z; (1, 2)%Z].
Proof.
  exists [0; 10; 20], 2432, [2; 30]. split; [|split; [|vm_compute; reflexivity]].
  - intros [|[|[|i]]] [|[|[|j]]] x y L X Y; cbn in *; try lia; inversion X; inversion Y; subst; try reflexivity; destruct j; discriminate.
  - intros [|[|i]] [|[|j]] x y L X Y; cbn in *; try lia; inversion X; inversion Y; subst; try reflexivity; destruct j; discriminate.
Qed.
Print Assumptions C82_empty_range_refuted.

(** And the fit of a grid with an empty range reads the first element of an empty vector. *)
Theorem C82_fit_of_empty_range_refuted thr enIGM enISM ebmvValue ebmvIndex flux junk (s0 t0 step : Rdefinitions.R) nS N p n data err M E before b rest :
  LfitSpec.setting s0 t0 step nS N p n data err flux M E -> LfitSpec.chain 0 before b -> (1 <= b < n)%nat ->
  LfitModel.FitAllz thr enIGM enISM ebmvValue flux ebmvIndex junk (LfitSpec.log_grid s0 step nS) data err (LfitSpec.log_grid t0 step N) step
    (LfitSpec.redshift_grid s0 (LfitSpec.log_grid t0 step N) p n) M E [] (before ++ (b, (Z.of_nat b - 1)%Z) :: rest) = UB.
Proof. exact (FitAllz_empty thr enIGM enISM ebmvValue ebmvIndex flux junk s0 t0 step nS N p n data err M E before b rest). Qed.
Print Assumptions C82_fit_of_empty_range_refuted.

Example C82_chain_nonvacuous : LfitSpec.chain 0 [(0%nat, 0%Z)] 1 /\ (1 <= 1 < 3)%nat.
Proof. cbn. repeat split; lia. Qed.

(** Non-vacuity: a grid that separates the igm start and a bin. *)
Example C82_nonvacuous : FindZRanges true 2432 [2; 3; 30] [0; (3 # 2); (5 # 2); 20] = Ok [(0, 0)%Z; (1, 1)%Z; (2, 2)%Z; (3, 3)%Z] /\
  separated 2432 [2; 3; 30] [0; (3 # 2); (5 # 2); 20].
Proof.
  split; [vm_compute; reflexivity|].
  assert (E0 : igm_start 2432 == 1) by (vm_compute; reflexivity).
  intros t1 t2 fr bk T1 T2 L F B L1 L2.
  assert (H1 : t1 == 1 \/ t1 == 2 \/ t1 == 3).
  { destruct T1 as [->|[[<-|[<-|[]]] _]]; [left; exact E0|right; left|right; right]; reflexivity. }
  assert (H2 : t2 == 1 \/ t2 == 2 \/ t2 == 3).
  { destruct T2 as [->|[[<-|[<-|[]]] _]]; [left; exact E0|right; left|right; right]; reflexivity. }
  destruct H1 as [H1|[H1|H1]], H2 as [H2|[H2|H2]]; try (exfalso; lra).
  - exists (3 # 2). split; [right; left; reflexivity|lra].
  - exists (3 # 2). split; [right; left; reflexivity|lra].
  - exists (5 # 2). split; [right; right; left; reflexivity|lra].
Qed.
