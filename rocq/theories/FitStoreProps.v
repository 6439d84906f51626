(** C42: the store of the template fits keeps them ranked at every redshift. *)
From Coq Require Import List ZArith QArith Lia Permutation.
From Verif Require Import Base FitStoreModel FitStoreSpec FitStoreProofs.
Import ListNotations.
Open Scope Q_scope.

(** after any additions at redshifts of the grid, the fits kept at each redshift are these additions, best first, equal ones in
    the order they were added *)
Theorem C42_history : forall grid adds, distinct grid -> (forall f, In f adds -> in_grid grid (f_z f)) ->
  exists s, AddAll (fs_new grid) adds = Ok s /\ fs_grid s = grid /\
    forall i z, nth_error grid i = Some z -> exists l, nth_error (fs_vals s) i = Some l /\ ranked l /\ Permutation l (at_redshift z adds) /\
      (forall h, filter (same_rank h) l = filter (same_rank h) (at_redshift z adds)) /\ (length l <= fs_count s)%nat.
Proof. exact history. Qed.
Print Assumptions C42_history.
(** the announced number of candidates is the largest number of fits at one redshift *)
Theorem C42_count : forall grid adds s n, distinct grid -> (forall f, In f adds -> in_grid grid (f_z f)) -> AddAll (fs_new grid) adds = Ok s ->
  (forall z, In z grid -> (length (at_redshift z adds) <= n)%nat) -> (n = 0%nat \/ exists z, In z grid /\ length (at_redshift z adds) = n) -> fs_count s = n.
Proof. exact count_spec. Qed.
Print Assumptions C42_count.
Theorem C42_add_outside_grid : forall s f, ~ in_grid (fs_grid s) (f_z f) -> Add s f = Throw INTERNAL_ERROR.
Proof. exact Add_missing. Qed.
Print Assumptions C42_add_outside_grid.
(** both lookups return the fit of that rank when the redshift has one, and refuse a rank no redshift has *)
Theorem C42_lookup : forall grid adds s i z (r : nat), strictly_increasing grid -> (forall f, In f adds -> in_grid grid (f_z f)) ->
  AddAll (fs_new grid) adds = Ok s -> nth_error grid i = Some z ->
  exists l, ranked l /\ Permutation l (at_redshift z adds) /\
    ((r < length l)%nat -> exists f, nth_error l r = Some f /\ GetFitValues_idx s (Z.of_nat i) (Z.of_nat r) = Ok f /\ GetFitValues_z s z (Z.of_nat r) = Ok f) /\
    ((forall z', In z' grid -> (length (at_redshift z' adds) <= r)%nat) ->
        GetFitValues_idx s (Z.of_nat i) (Z.of_nat r) = Throw INTERNAL_ERROR /\ GetFitValues_z s z (Z.of_nat r) = Throw INTERNAL_ERROR).
Proof. exact lookup. Qed.
Print Assumptions C42_lookup.
(** but a rank that another redshift has is not refused: the lookup reads after the last fit *)
Theorem C42_lookup_outside_refuted : forall grid adds s i z z' (r : nat), strictly_increasing grid -> (forall f, In f adds -> in_grid grid (f_z f)) ->
  AddAll (fs_new grid) adds = Ok s -> nth_error grid i = Some z -> In z' grid ->
  (length (at_redshift z adds) <= r < length (at_redshift z' adds))%nat ->
  GetFitValues_idx s (Z.of_nat i) (Z.of_nat r) = UB /\ GetFitValues_z s z (Z.of_nat r) = UB.
Proof. exact lookup_outside. Qed.
Print Assumptions C42_lookup_outside_refuted.
Theorem C42_lookup_negative : forall s idx z (r : Z), (r < 0)%Z -> GetFitValues_idx s idx r = Throw INTERNAL_ERROR /\ GetFitValues_z s z r = Throw INTERNAL_ERROR.
Proof. exact Get_refused. Qed.
Print Assumptions C42_lookup_negative.
Theorem C42_lookup_index_outside : forall s idx (r : Z), (fs_grid s <> []) -> (idx < 0 \/ Z.of_nat (length (fs_grid s)) <= idx)%Z ->
  GetFitValues_idx s idx r = Throw INTERNAL_ERROR.
Proof. exact Get_idx_outside. Qed.
Print Assumptions C42_lookup_index_outside.
(** a redshift that is not on the grid is refused, if the grid has ten redshifts *)
Theorem C42_lookup_off_grid : forall s z (r : Z), ~ in_grid (fs_grid s) z -> (10 <= length (fs_grid s))%nat -> GetFitValues_z s z r = Throw INTERNAL_ERROR.
Proof. exact Get_z_missing. Qed.
Print Assumptions C42_lookup_off_grid.
(** with fewer, the message of the refusal reads after the grid *)
Theorem C42_lookup_off_grid_refuted : forall s z (r : nat) a b, ~ in_grid (fs_grid s) z -> (length (fs_grid s) < 10)%nat ->
  nth_error (fs_grid s) 0 = Some a -> nth_error (fs_grid s) (length (fs_grid s) - 1) = Some b -> a <= z <= b -> (r < fs_count s)%nat ->
  GetFitValues_z s z (Z.of_nat r) = UB.
Proof. exact Get_z_UB. Qed.
Print Assumptions C42_lookup_off_grid_refuted.
(** the largest significance among the best fits, at the first redshift which has it *)
Theorem C42_max_amplitude_sigma : forall s, length (fs_vals s) = length (fs_grid s) -> fs_grid s <> [] -> (forall l, In l (fs_vals s) -> l <> []) ->
  exists k z l f, FindMaxAmplitudeSigma s = Ok (Some (z, f)) /\ nth_error (fs_grid s) k = Some z /\ nth_error (fs_vals s) k = Some l /\ nth_error l 0 = Some f /\
    forall i l' g, nth_error (fs_vals s) i = Some l' -> nth_error l' 0 = Some g -> f_ampsig g <= f_ampsig f /\ ((i < k)%nat -> f_ampsig g < f_ampsig f).
Proof. exact FindMax_spec. Qed.
Print Assumptions C42_max_amplitude_sigma.
(** a redshift without fit is read all the same *)
Theorem C42_max_amplitude_sigma_refuted : forall grid adds s z, distinct grid -> (forall f, In f adds -> in_grid grid (f_z f)) ->
  AddAll (fs_new grid) adds = Ok s -> In z grid -> at_redshift z adds = [] -> FindMaxAmplitudeSigma s = UB.
Proof. exact FindMax_UB. Qed.
Print Assumptions C42_max_amplitude_sigma_refuted.

Definition C42_grid : list Q := [0; 1 # 2; 1].
Definition C42_adds : list fit := [mkFit (1#2) 5 1 0; mkFit (1#2) 3 1 1; mkFit 1 4 2 2; mkFit (1#2) 3 (-2) 3; mkFit (1#2) 3 2 4].
Example C42_nonvacuous :
  strictly_increasing C42_grid /\ (forall f, In f C42_adds -> in_grid C42_grid (f_z f)) /\
  (exists s, AddAll (fs_new C42_grid) C42_adds = Ok s /\ fs_count s = 4%nat /\
     (do f <- GetFitValues_z s (1#2) 0; Ok (f_tag f)) = Ok 3%nat /\ (do f <- GetFitValues_z s (1#2) 1; Ok (f_tag f)) = Ok 4%nat /\
     (do f <- GetFitValues_idx s 1 2; Ok (f_tag f)) = Ok 1%nat /\
     GetFitValues_idx s 2 3 = UB /\ GetFitValues_z s (1#4) 0 = UB /\ FindMaxAmplitudeSigma s = UB).
Proof.
  split; [|split].
  - intros [|[|[|i]]] [|[|[|j]]] x y L Hx Hy; try lia; simpl in Hx, Hy; try (destruct i; discriminate); try (destruct j; discriminate); injection Hx as <-; injection Hy as <-; reflexivity.
  - intros f Hf. simpl in Hf. unfold in_grid, C42_grid.
    repeat (destruct Hf as [<-|Hf]; [first [exists (1#2); split; [simpl; tauto|reflexivity]|exists 1; split; [simpl; tauto|reflexivity]]|]). contradiction.
  - eexists. repeat split; reflexivity.
Qed.
