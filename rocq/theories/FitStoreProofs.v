From Verif Require Import Base FitStoreModel FitStoreSpec.
Open Scope Q_scope.

Lemma find_Some l z i : find_index l z = Some i -> exists x, nth_error l i = Some x /\ x == z.
Proof.
  revert i; induction l as [|a t IH]; intros i H; simpl in H; [discriminate|]. destruct (Qeq_bool_spec a z) as [E|E].
  - injection H as <-. exists a. auto.
  - destruct (find_index t z) as [k|]; simpl in H; [|discriminate]. injection H as <-. destruct (IH k eq_refl) as [x X]. exists x. exact X.
Qed.
Lemma find_None l z : find_index l z = None <-> ~ in_grid l z.
Proof.
  induction l as [|a t IH]; simpl.
  - split; [intros _ [x [[] _]]|reflexivity].
  - destruct (Qeq_bool_spec a z) as [E|E].
    + split; [discriminate|]. intro H. exfalso. apply H. exists a. split; [left; reflexivity|exact E].
    + destruct (find_index t z) as [k|].
      * split; [discriminate|]. intro H. destruct IH as [_ IH]. assert (X : ~ in_grid t z) by (intros [x [Hx Ex]]; apply H; exists x; split; [right; exact Hx|exact Ex]).
        specialize (IH X). discriminate.
      * split; [|reflexivity]. intros _ [x [[<-|Hx] Ex]]; [exact (E Ex)|]. destruct IH as [IH _]. apply (IH eq_refl). exists x. auto.
Qed.
Lemma ranks_refl_total f g : fit_before (f_merit f) (Qabs (f_ampsig f)) g = false -> ranks_before g f.
Proof.
  unfold fit_before, ranks_before. destruct (Qeq_bool_spec (f_merit f) (f_merit g)) as [E|E]; cbn [negb]; intro H; apply Qltb_false in H.
  - right. split; [symmetry; exact E|exact H].
  - left. destruct (Qlt_le_dec (f_merit g) (f_merit f)) as [L|L]; [exact L|]. exfalso. apply E. apply Qle_antisym; assumption.
Qed.
Lemma before_strict f g : fit_before (f_merit f) (Qabs (f_ampsig f)) g = true -> ranks_before f g /\ same_rank f g = false.
Proof.
  unfold fit_before, ranks_before, same_rank. destruct (Qeq_bool_spec (f_merit f) (f_merit g)) as [E|E]; cbn [negb andb]; intro H; apply Qltb_true in H.
  - split; [right; split; [exact E|lra]|]. destruct (Qeq_bool_spec (Qabs (f_ampsig f)) (Qabs (f_ampsig g))) as [K|K]; [exfalso; lra|reflexivity].
  - split; [left; exact H|reflexivity].
Qed.
Lemma ranks_trans f g h : ranks_before f g -> ranks_before g h -> ranks_before f h.
Proof. unfold ranks_before. intros [A|[A A']] [B|[B B']]; [left; lra|left; lra|left; lra|right; split; [rewrite A; exact B|lra]]. Qed.
Lemma ranked_cons f l : (forall g, In g l -> ranks_before f g) -> ranked l -> ranked (f :: l).
Proof.
  intros H R i j a b L Ha Hb. destruct i as [|i]; destruct j as [|j]; try lia; simpl in *.
  - injection Ha as <-. apply H. eapply nth_error_In; exact Hb.
  - apply (R i j); auto; lia.
Qed.
Lemma ranked_tail f l : ranked (f :: l) -> ranked l.
Proof. intros R i j a b L Ha Hb. apply (R (S i) (S j)); auto; lia. Qed.
Lemma ranked_head f l g : ranked (f :: l) -> In g l -> ranks_before f g.
Proof. intros R H. apply In_nth_error in H. destruct H as [k Hk]. apply (R 0%nat (S k)); auto; lia. Qed.
Lemma insert_In f g l : In g (insert_fit l f) <-> g = f \/ In g l.
Proof.
  induction l as [|a t IH]; simpl; [intuition|]. destruct (fit_before _ _ a); simpl; [intuition|]. rewrite IH. intuition.
Qed.
Lemma insert_length f l : length (insert_fit l f) = S (length l).
Proof. induction l as [|a t IH]; simpl; [reflexivity|]. destruct (fit_before _ _ a); simpl; [reflexivity|]. rewrite IH. reflexivity. Qed.
Lemma insert_perm f l : Permutation (insert_fit l f) (l ++ [f]).
Proof.
  induction l as [|a t IH]; simpl; [apply Permutation_refl|]. destruct (fit_before _ _ a).
  - change (a :: t ++ [f]) with ((a :: t) ++ [f]). apply Permutation_cons_append.
  - apply perm_skip. exact IH.
Qed.
Lemma insert_ranked f l : ranked l -> ranked (insert_fit l f).
Proof.
  induction l as [|a t IH]; intro R; simpl.
  - intros i j x y L Hx Hy. destruct i as [|i], j as [|j]; simpl in *; try lia; try (destruct j; discriminate); destruct i; discriminate.
  - destruct (fit_before (f_merit f) (Qabs (f_ampsig f)) a) eqn:E.
    + destruct (before_strict _ _ E) as [B _]. apply ranked_cons; [|exact R]. intros g [<-|Hg]; [exact B|].
      apply ranks_trans with a; [exact B|]. apply (ranked_head _ _ _ R Hg).
    + apply ranked_cons; [|apply IH; eapply ranked_tail; exact R]. intros g Hg. apply insert_In in Hg. destruct Hg as [->|Hg]; [apply ranks_refl_total; exact E|].
      apply (ranked_head _ _ _ R Hg).
Qed.
Lemma same_rank_trans_l f g h : same_rank h f = true -> same_rank h g = same_rank f g.
Proof.
  unfold same_rank. intro H. apply andb_true_iff in H. destruct H as [A B]. apply Qeq_bool_iff in A, B.
  destruct (Qeq_bool_spec (f_merit h) (f_merit g)) as [X|X]; destruct (Qeq_bool_spec (f_merit f) (f_merit g)) as [Y|Y]; cbn [andb]; try reflexivity;
  try (exfalso; apply Y; rewrite <- A; exact X); try (exfalso; apply X; rewrite A; exact Y).
  destruct (Qeq_bool_spec (Qabs (f_ampsig h)) (Qabs (f_ampsig g))) as [U|U]; destruct (Qeq_bool_spec (Qabs (f_ampsig f)) (Qabs (f_ampsig g))) as [V|V]; try reflexivity; exfalso; lra.
Qed.
(** insertion after the equal ones *)
Lemma insert_stable f l h : ranked l -> filter (same_rank h) (insert_fit l f) = filter (same_rank h) (l ++ [f]).
Proof.
  induction l as [|a t IH]; intro R; [reflexivity|]. simpl insert_fit. destruct (fit_before (f_merit f) (Qabs (f_ampsig f)) a) eqn:E.
  - rewrite filter_app. cbn [filter]. destruct (same_rank h f) eqn:Hf; [|rewrite app_nil_r; reflexivity].
    destruct (before_strict _ _ E) as [B Sf].
    assert (N : forall g, In g (a :: t) -> same_rank h g = false).
    { intros g Hg. rewrite (same_rank_trans_l f g h Hf). destruct Hg as [<-|Hg]; [exact Sf|].
      pose proof (ranked_head _ _ _ R Hg) as Bg. unfold same_rank in *. unfold ranks_before in *.
      destruct (Qeq_bool_spec (f_merit f) (f_merit g)) as [X|X]; [|reflexivity]. cbn [andb].
      destruct (Qeq_bool_spec (Qabs (f_ampsig f)) (Qabs (f_ampsig g))) as [Y|Y]; [|reflexivity]. exfalso.
      destruct (Qeq_bool_spec (f_merit f) (f_merit a)) as [P|P]; [|destruct B as [B|[B _]]; [destruct Bg as [Bg|[Bg _]]; lra|contradiction]].
      cbn [andb] in Sf. destruct (Qeq_bool_spec (Qabs (f_ampsig f)) (Qabs (f_ampsig a))) as [W|W]; [discriminate|].
      destruct B as [B|[_ B]]; [lra|]. destruct Bg as [Bg|[_ Bg]]; [lra|]. apply W. lra. }
    assert (Z : filter (same_rank h) (a :: t) = []).
    { clear - N. induction (a :: t) as [|x l IH]; [reflexivity|]. simpl. rewrite (N x) by (left; reflexivity). apply IH. intros g Hg. apply N. right; exact Hg. }
    change (if same_rank h a then a :: filter (same_rank h) t else filter (same_rank h) t) with (filter (same_rank h) (a :: t)). rewrite Z. reflexivity.
  - cbn [app filter]. rewrite IH by (eapply ranked_tail; exact R). reflexivity.
Qed.

(** ** histories *)
Definition max_len (v : list (list fit)) : nat := fold_right (fun l n => Nat.max (length l) n) 0%nat v.
Definition inv (grid : list Q) (adds : list fit) (s : fstore) : Prop :=
  fs_grid s = grid /\ length (fs_vals s) = length grid /\ fs_count s = max_len (fs_vals s) /\
  forall i z, nth_error grid i = Some z -> exists l, nth_error (fs_vals s) i = Some l /\ ranked l /\ Permutation l (at_redshift z adds) /\
    forall h, filter (same_rank h) l = filter (same_rank h) (at_redshift z adds).
Lemma inv_new grid : inv grid [] (fs_new grid).
Proof.
  split; [reflexivity|]. split; [simpl; apply map_length|]. split; [simpl; induction grid; simpl; auto|].
  intros i z H. exists []. simpl. rewrite nth_error_map, H. split; [reflexivity|]. split; [|split; [constructor|reflexivity]].
  intros [|i'] j x y L Hx; discriminate.
Qed.
Lemma max_len_set v i l l' v' : nth_error v i = Some l -> vset v i l' = Ok v' -> (length l <= length l')%nat -> max_len v' = Nat.max (length l') (max_len v).
Proof.
  revert i v'; induction v as [|a t IH]; intros i v' H S L; [destruct i; discriminate|]. destruct i as [|i]; simpl in *.
  - injection H as ->. injection S as <-. simpl. lia.
  - destruct (vset t i l') as [w|e|] eqn:E; try discriminate. injection S as <-. simpl. rewrite (IH i w H E L). lia.
Qed.
Lemma at_redshift_app z l f : at_redshift z (l ++ [f]) = at_redshift z l ++ (if Qeq_bool z (f_z f) then [f] else []).
Proof. unfold at_redshift. rewrite filter_app. simpl. destruct (Qeq_bool z (f_z f)); reflexivity. Qed.
Lemma Add_inv grid adds s f : distinct grid -> inv grid adds s -> in_grid grid (f_z f) -> exists s', Add s f = Ok s' /\ inv grid (adds ++ [f]) s'.
Proof.
  intros D [G [Lv [C I]]] H. unfold Add, GetRedshiftIndex. rewrite G. destruct (find_index grid (f_z f)) as [i|] eqn:E; [|apply find_None in E; contradiction].
  destruct (find_Some _ _ _ E) as [z [Hz Ez]]. destruct (I i z Hz) as [l [Hl [Rl [Pl Sl]]]].
  assert (V : vget (fs_vals s) i = Ok l) by (apply vget_Ok; exact Hl). rewrite V. cbn [rbind].
  assert (Li : (i < length (fs_vals s))%nat) by (apply nth_error_Some; congruence).
  destruct (vset_ok (fs_vals s) i (insert_fit l f) Li) as [v' [Ev [Lv' [Nv Ov]]]]. rewrite Ev. cbn [rbind]. eexists; split; [reflexivity|].
  split; [reflexivity|]. cbn [fs_vals fs_count fs_grid]. split; [congruence|]. split.
  - pose proof (max_len_set _ _ _ _ _ Hl Ev) as M. rewrite M, C by (rewrite insert_length; lia). destruct (Nat.ltb_spec (max_len (fs_vals s)) (length (insert_fit l f))); lia.
  - intros j w Hw. destruct (Nat.eq_dec j i) as [->|Nj].
    + assert (w = z) by congruence. subst w. exists (insert_fit l f). split; [exact Nv|]. split; [apply insert_ranked; exact Rl|].
      rewrite at_redshift_app. destruct (Qeq_bool_spec z (f_z f)) as [_|X]; [|contradiction]. split.
      * apply Permutation_trans with (1 := insert_perm f l). apply Permutation_app_tail. exact Pl.
      * intro h. rewrite insert_stable by exact Rl. rewrite !filter_app, Sl. reflexivity.
    + destruct (I j w Hw) as [l2 [Hl2 [R2 [P2 S2]]]]. exists l2. rewrite Ov by exact Nj. split; [exact Hl2|]. split; [exact R2|].
      rewrite at_redshift_app. destruct (Qeq_bool_spec w (f_z f)) as [X|X]; [exfalso; apply (D i j z w); auto; rewrite Ez, X; reflexivity|].
      rewrite app_nil_r. auto.
Qed.
Lemma AddAll_inv grid : distinct grid -> forall l adds s, inv grid adds s -> (forall f, In f l -> in_grid grid (f_z f)) ->
  exists s', AddAll s l = Ok s' /\ inv grid (adds ++ l) s'.
Proof.
  intro D. induction l as [|f l IH]; intros adds s I H; [exists s; rewrite app_nil_r; auto|].
  destruct (Add_inv grid adds s f D I) as [s1 [E1 I1]]; [apply H; left; reflexivity|]. cbn [AddAll]. rewrite E1. cbn [rbind].
  destruct (IH (adds ++ [f]) s1 I1) as [s2 [E2 I2]]; [intros g Hg; apply H; right; exact Hg|]. exists s2. rewrite <- app_assoc in I2. auto.
Qed.
Lemma max_len_ge v i l : nth_error v i = Some l -> (length l <= max_len v)%nat.
Proof. revert i; induction v as [|a t IH]; intros [|i] H; simpl in *; try discriminate; [injection H as ->; lia|]. apply IH in H. lia. Qed.
Lemma max_len_le v n : (forall l, In l v -> (length l <= n)%nat) -> (max_len v <= n)%nat.
Proof. induction v as [|a t IH]; intro H; simpl; [lia|]. pose proof (H a (or_introl eq_refl)). assert (max_len t <= n)%nat by (apply IH; intros; apply H; right; assumption). lia. Qed.

Lemma history grid adds : distinct grid -> (forall f, In f adds -> in_grid grid (f_z f)) ->
  exists s, AddAll (fs_new grid) adds = Ok s /\ fs_grid s = grid /\
    forall i z, nth_error grid i = Some z -> exists l, nth_error (fs_vals s) i = Some l /\ ranked l /\ Permutation l (at_redshift z adds) /\
      (forall h, filter (same_rank h) l = filter (same_rank h) (at_redshift z adds)) /\ (length l <= fs_count s)%nat.
Proof.
  intros D H. destruct (AddAll_inv grid D adds [] (fs_new grid) (inv_new grid) H) as [s [E [G [L [C I]]]]]. exists s. split; [exact E|]. split; [exact G|].
  intros i z Hz. destruct (I i z Hz) as [l [A [B [P Q]]]]. exists l. split; [exact A|]. split; [exact B|]. split; [exact P|]. split; [exact Q|].
  rewrite C. eapply max_len_ge; exact A.
Qed.
Lemma count_spec grid adds s n : distinct grid -> (forall f, In f adds -> in_grid grid (f_z f)) -> AddAll (fs_new grid) adds = Ok s ->
  (forall z, In z grid -> (length (at_redshift z adds) <= n)%nat) -> (n = 0%nat \/ exists z, In z grid /\ length (at_redshift z adds) = n) -> fs_count s = n.
Proof.
  intros D H E U A. destruct (AddAll_inv grid D adds [] (fs_new grid) (inv_new grid) H) as [s' [E' [G [L [C I]]]]]. rewrite E in E'. injection E' as <-.
  assert (Le : (max_len (fs_vals s) <= n)%nat).
  { apply max_len_le. intros l Hl. apply In_nth_error in Hl. destruct Hl as [i Hi]. assert (i < length grid)%nat by (rewrite <- L; apply nth_error_Some; congruence).
    destruct (nth_error grid i) as [z|] eqn:Z; [|apply nth_error_None in Z; lia]. destruct (I i z Z) as [l' [Hl' [_ [P _]]]]. assert (l' = l) by congruence. subst l'.
    rewrite (Permutation_length P). simpl. apply U. eapply nth_error_In; exact Z. }
  rewrite C. destruct A as [->|[z [Hz Lz]]]; [lia|]. apply In_nth_error in Hz. destruct Hz as [i Hi]. destruct (I i z Hi) as [l [Hl [_ [P _]]]].
  pose proof (max_len_ge _ _ _ Hl) as M. rewrite (Permutation_length P) in M. simpl in M. lia.
Qed.
Lemma Add_missing s f : ~ in_grid (fs_grid s) (f_z f) -> Add s f = Throw INTERNAL_ERROR.
Proof. intro H. unfold Add, GetRedshiftIndex. apply find_None in H. rewrite H. reflexivity. Qed.
Lemma find_distinct grid i z : distinct grid -> nth_error grid i = Some z -> find_index grid z = Some i.
Proof.
  intros D H. destruct (find_index grid z) as [j|] eqn:E.
  - destruct (find_Some _ _ _ E) as [w [Hw Ew]]. destruct (Nat.eq_dec i j) as [->|N]; [reflexivity|]. exfalso. apply (D j i w z); auto.
  - exfalso. apply find_None in E. apply E. exists z. split; [eapply nth_error_In; exact H|reflexivity].
Qed.
Lemma grid_bounds grid i z a b : strictly_increasing grid -> nth_error grid i = Some z -> nth_error grid 0 = Some a -> nth_error grid (length grid - 1) = Some b -> a <= z /\ z <= b.
Proof.
  intros S Hz Ha Hb. assert (i < length grid)%nat by (apply nth_error_Some; congruence). split.
  - destruct i as [|i]; [assert (a = z) by congruence; subst; lra|]. apply Qlt_le_weak. apply (S 0%nat (Datatypes.S i)); auto; lia.
  - destruct (Nat.eq_dec i (length grid - 1)) as [->|N]; [assert (b = z) by congruence; subst; lra|]. apply Qlt_le_weak. apply (S i (length grid - 1)%nat); auto; lia.
Qed.
Lemma sinc_distinct l : strictly_increasing l -> distinct l.
Proof.
  intros S i j x y N Hx Hy E. destruct (Nat.lt_ge_cases i j) as [L|L]; [pose proof (S i j x y L Hx Hy); lra|].
  assert (K : x > y) by (apply (S j i y x); auto; lia). lra.
Qed.
Lemma Get_spec s i z l (r : nat) : strictly_increasing (fs_grid s) -> nth_error (fs_grid s) i = Some z -> nth_error (fs_vals s) i = Some l -> (length l <= fs_count s)%nat ->
  ((r < length l)%nat -> exists f, nth_error l r = Some f /\ GetFitValues_idx s (Z.of_nat i) (Z.of_nat r) = Ok f /\ GetFitValues_z s z (Z.of_nat r) = Ok f) /\
  ((length l <= r < fs_count s)%nat -> GetFitValues_idx s (Z.of_nat i) (Z.of_nat r) = UB /\ GetFitValues_z s z (Z.of_nat r) = UB) /\
  ((fs_count s <= r)%nat -> GetFitValues_idx s (Z.of_nat i) (Z.of_nat r) = Throw INTERNAL_ERROR /\ GetFitValues_z s z (Z.of_nat r) = Throw INTERNAL_ERROR).
Proof.
  intros S Hz Hl Lc. assert (Li : (i < length (fs_grid s))%nat) by (apply nth_error_Some; congruence).
  assert (A : (r < fs_count s)%nat -> GetFitValues_idx s (Z.of_nat i) (Z.of_nat r) = vget l r /\ GetFitValues_z s z (Z.of_nat r) = vget l r).
  { intro Hr. assert (K : rank_ok s (Z.of_nat r) = true).
    { unfold rank_ok. destruct (Z.ltb_spec (Z.of_nat (fs_count s) - 1) (Z.of_nat r)); [lia|]. destruct (Z.ltb_spec (Z.of_nat r) 0); [lia|reflexivity]. }
    unfold GetFitValues_idx, GetFitValues_z. rewrite K. cbn [negb]. rewrite !Nat2Z.id. apply vget_Ok in Hl. split.
    - destruct (Z.ltb_spec (Z.of_nat i) 0); [lia|]. destruct (Nat.eqb_spec (length (fs_grid s)) 0); [lia|]. cbn [negb andb orb].
      destruct (Z.ltb_spec (Z.of_nat (length (fs_grid s)) - 1) (Z.of_nat i)); [lia|]. rewrite Hl. reflexivity.
    - destruct (vget_in (fs_grid s) 0) as [a Ha]; [lia|]. destruct (vget_in (fs_grid s) (length (fs_grid s) - 1)) as [b Hb]; [lia|]. rewrite Ha, Hb. cbn [rbind].
      apply vget_Ok in Ha, Hb. destruct (grid_bounds _ _ _ _ _ S Hz Ha Hb) as [B1 B2].
      destruct (Qltb_spec z a); [lra|]. destruct (Qltb_spec b z); [lra|]. cbn [orb]. unfold GetRedshiftIndex.
      rewrite (find_distinct _ _ _ (sinc_distinct _ S) Hz), Hl. reflexivity. }
  split; [|split].
  - intro Hr. destruct (A ltac:(lia)) as [A1 A2]. destruct (vget_in l r Hr) as [f F]. exists f. rewrite A1, A2. split; [apply vget_Ok; exact F|auto].
  - intro Hr. destruct (A ltac:(lia)) as [A1 A2]. assert (U : vget l r = UB). { unfold vget. destruct (nth_error l r) eqn:E; [|reflexivity]. assert (r < length l)%nat by (apply nth_error_Some; congruence). lia. }
    rewrite A1, A2, U. auto.
  - intro Hr. assert (K : rank_ok s (Z.of_nat r) = false).
    { unfold rank_ok. destruct (Z.ltb_spec (Z.of_nat (fs_count s) - 1) (Z.of_nat r)); [reflexivity|lia]. }
    unfold GetFitValues_idx, GetFitValues_z. rewrite K. auto.
Qed.
Lemma Get_refused s idx z (r : Z) : (r < 0)%Z -> GetFitValues_idx s idx r = Throw INTERNAL_ERROR /\ GetFitValues_z s z r = Throw INTERNAL_ERROR.
Proof.
  intro H. assert (K : rank_ok s r = false) by (unfold rank_ok; destruct (Z.ltb_spec r 0); [apply andb_false_r|lia]).
  unfold GetFitValues_idx, GetFitValues_z. rewrite K. auto.
Qed.
Lemma Get_idx_outside s idx (r : Z) : (fs_grid s <> []) -> (idx < 0 \/ Z.of_nat (length (fs_grid s)) <= idx)%Z -> GetFitValues_idx s idx r = Throw INTERNAL_ERROR.
Proof.
  intros N H. unfold GetFitValues_idx. destruct (rank_ok s r); [|reflexivity]. cbn [negb].
  destruct (Nat.eqb_spec (length (fs_grid s)) 0) as [E|E]; [apply length_zero_iff_nil in E; contradiction|]. cbn [negb andb].
  destruct (Z.ltb_spec idx 0); [reflexivity|]. cbn [orb]. destruct (Z.ltb_spec (Z.of_nat (length (fs_grid s)) - 1) idx); [reflexivity|lia].
Qed.
Lemma Get_z_missing s z (r : Z) : ~ in_grid (fs_grid s) z -> (10 <= length (fs_grid s))%nat -> GetFitValues_z s z r = Throw INTERNAL_ERROR.
Proof.
  intros N L. unfold GetFitValues_z. destruct (rank_ok s r); [|reflexivity]. cbn [negb].
  destruct (vget_in (fs_grid s) 0) as [a Ha]; [lia|]. destruct (vget_in (fs_grid s) (length (fs_grid s) - 1)) as [b Hb]; [lia|]. rewrite Ha, Hb. cbn [rbind].
  destruct (_ || _)%bool; [reflexivity|]. unfold GetRedshiftIndex. apply find_None in N. rewrite N. destruct (Nat.ltb_spec (length (fs_grid s)) 10); [lia|reflexivity].
Qed.
Lemma max_loop_spec : forall grid vals best, length vals = length grid -> (forall l, In l vals -> l <> []) ->
  exists r, max_loop grid vals best = Ok r /\
    ((r = best /\ forall i l f, nth_error vals i = Some l -> nth_error l 0 = Some f -> match best with Some (_, b) => f_ampsig f <= f_ampsig b | None => False end) \/
     exists k z l f, r = Some (z, f) /\ nth_error grid k = Some z /\ nth_error vals k = Some l /\ nth_error l 0 = Some f /\
       (match best with Some (_, b) => f_ampsig b < f_ampsig f | None => True end) /\
       forall i l' g, nth_error vals i = Some l' -> nth_error l' 0 = Some g -> f_ampsig g <= f_ampsig f /\ ((i < k)%nat -> f_ampsig g < f_ampsig f)).
Proof.
  induction grid as [|z grid IH]; intros vals best L N; destruct vals as [|l vals]; simpl in L; try discriminate.
  - exists best. split; [reflexivity|]. left. split; [reflexivity|]. intros [|i] l f H; discriminate.
  - cbn [max_loop]. destruct l as [|f l]; [exfalso; apply (N []); [left; reflexivity|reflexivity]|]. cbn [vget nth_error rbind].
    set (c := match best with None => true | Some (_, b) => Qltb (f_ampsig b) (f_ampsig f) end).
    destruct (IH vals (if c then Some (z, f) else best) ltac:(lia)) as [r [E R]]; [intros l' Hl'; apply N; right; exact Hl'|]. exists r. split; [exact E|].
    destruct R as [[-> R]|[k [z' [l' [f' [-> [Hz [Hl [Hf [B R]]]]]]]]]].
    + destruct c eqn:C.
      * right. exists 0%nat, z, (f :: l), f. split; [reflexivity|]. split; [reflexivity|]. split; [reflexivity|]. split; [reflexivity|]. split.
        { unfold c in C. destruct best as [[zb b]|]; [|exact Logic.I]. apply Qltb_true. exact C. }
        intros [|i] l' g Hl' Hg; simpl in Hl'; [injection Hl' as <-; simpl in Hg; injection Hg as <-; split; [lra|lia]|]. split; [apply (R i l' g Hl' Hg)|lia].
      * left. split; [reflexivity|]. intros [|i] l' g Hl' Hg; simpl in Hl'.
        { injection Hl' as <-. simpl in Hg. injection Hg as <-. unfold c in C. destruct best as [[zb b]|]; [|discriminate]. apply Qltb_false. exact C. }
        apply (R i l' g Hl' Hg).
    + right. exists (S k), z', l', f'. split; [reflexivity|]. split; [exact Hz|]. split; [exact Hl|]. split; [exact Hf|]. split.
      * destruct c eqn:C; [|exact B]. unfold c in C. destruct best as [[zb b]|]; [|exact Logic.I]. apply Qltb_true in C. simpl in B. lra.
      * intros [|i] l2 g Hl2 Hg; simpl in Hl2.
        { injection Hl2 as <-. simpl in Hg. injection Hg as <-. destruct c eqn:C; [simpl in B; split; [lra|intros _; exact B]|].
          unfold c in C. destruct best as [[zb b]|]; [|discriminate]. apply Qltb_false in C. split; [lra|intros _; lra]. }
        destruct (R i l2 g Hl2 Hg) as [R1 R2]. split; [exact R1|]. intro Hi. apply R2. lia.
Qed.
Lemma FindMax_spec s : length (fs_vals s) = length (fs_grid s) -> fs_grid s <> [] -> (forall l, In l (fs_vals s) -> l <> []) ->
  exists k z l f, FindMaxAmplitudeSigma s = Ok (Some (z, f)) /\ nth_error (fs_grid s) k = Some z /\ nth_error (fs_vals s) k = Some l /\ nth_error l 0 = Some f /\
    forall i l' g, nth_error (fs_vals s) i = Some l' -> nth_error l' 0 = Some g -> f_ampsig g <= f_ampsig f /\ ((i < k)%nat -> f_ampsig g < f_ampsig f).
Proof.
  intros L N H. destruct (max_loop_spec (fs_grid s) (fs_vals s) None L H) as [r [E R]]. unfold FindMaxAmplitudeSigma. rewrite E.
  destruct R as [[-> R]|[k [z [l [f [-> [Hz [Hl [Hf [_ R]]]]]]]]]].
  - exfalso. destruct (fs_vals s) as [|l v] eqn:V; [destruct (fs_grid s); [contradiction|discriminate]|]. destruct l as [|g l]; [apply (H []); [left|]; reflexivity|].
    apply (R 0%nat (g :: l) g); reflexivity.
  - exists k, z, l, f. auto.
Qed.
Lemma FindMax_empty s i : length (fs_vals s) = length (fs_grid s) -> nth_error (fs_vals s) i = Some [] -> FindMaxAmplitudeSigma s = UB.
Proof.
  unfold FindMaxAmplitudeSigma. generalize (fs_grid s) (fs_vals s) (@None (Q * fit)). intros g v. revert g i. induction v as [|l v IH]; intros g i b L H; [destruct i; discriminate|].
  destruct g as [|z g]; [discriminate|]. cbn [max_loop]. destruct i as [|i]; simpl in H; [injection H as ->; reflexivity|].
  destruct l as [|f l]; [reflexivity|]. cbn [vget nth_error rbind]. apply IH with i; [simpl in L; lia|exact H].
Qed.

Lemma lookup grid adds s i z (r : nat) : strictly_increasing grid -> (forall f, In f adds -> in_grid grid (f_z f)) ->
  AddAll (fs_new grid) adds = Ok s -> nth_error grid i = Some z ->
  exists l, ranked l /\ Permutation l (at_redshift z adds) /\
    ((r < length l)%nat -> exists f, nth_error l r = Some f /\ GetFitValues_idx s (Z.of_nat i) (Z.of_nat r) = Ok f /\ GetFitValues_z s z (Z.of_nat r) = Ok f) /\
    ((forall z', In z' grid -> (length (at_redshift z' adds) <= r)%nat) ->
        GetFitValues_idx s (Z.of_nat i) (Z.of_nat r) = Throw INTERNAL_ERROR /\ GetFitValues_z s z (Z.of_nat r) = Throw INTERNAL_ERROR).
Proof.
  intros Si H E Hz. pose proof (sinc_distinct _ Si) as D. destruct (AddAll_inv grid D adds [] (fs_new grid) (inv_new grid) H) as [s' [E' [G [L [C I]]]]].
  rewrite E in E'. injection E' as <-. simpl in I. destruct (I i z Hz) as [l [Hl [Rl [P _]]]]. exists l. split; [exact Rl|]. split; [exact P|].
  assert (Lc : (length l <= fs_count s)%nat) by (rewrite C; eapply max_len_ge; exact Hl).
  rewrite <- G in Si, Hz. destruct (Get_spec s i z l r Si Hz Hl Lc) as [A [_ B]]. split; [exact A|]. intro U. apply B. rewrite C. apply max_len_le.
  intros l2 Hl2. apply In_nth_error in Hl2. destruct Hl2 as [j Hj]. assert (j < length grid)%nat by (rewrite <- L; apply nth_error_Some; congruence).
  destruct (nth_error grid j) as [w|] eqn:W; [|apply nth_error_None in W; lia]. destruct (I j w W) as [l3 [Hl3 [_ [P3 _]]]]. assert (l3 = l2) by congruence. subst l3.
  rewrite (Permutation_length P3). apply U. eapply nth_error_In; exact W.
Qed.
Lemma lookup_outside grid adds s i z z' (r : nat) : strictly_increasing grid -> (forall f, In f adds -> in_grid grid (f_z f)) ->
  AddAll (fs_new grid) adds = Ok s -> nth_error grid i = Some z -> In z' grid ->
  (length (at_redshift z adds) <= r < length (at_redshift z' adds))%nat ->
  GetFitValues_idx s (Z.of_nat i) (Z.of_nat r) = UB /\ GetFitValues_z s z (Z.of_nat r) = UB.
Proof.
  intros Si H E Hz Hz' Hr. pose proof (sinc_distinct _ Si) as D. destruct (AddAll_inv grid D adds [] (fs_new grid) (inv_new grid) H) as [s' [E' [G [L [C I]]]]].
  rewrite E in E'. injection E' as <-. simpl in I. destruct (I i z Hz) as [l [Hl [_ [P _]]]].
  apply In_nth_error in Hz'. destruct Hz' as [j Hj]. destruct (I j z' Hj) as [l2 [Hl2 [_ [P2 _]]]].
  assert (Lc : (length l <= fs_count s)%nat) by (rewrite C; eapply max_len_ge; exact Hl). assert (Lc2 : (length l2 <= fs_count s)%nat) by (rewrite C; eapply max_len_ge; exact Hl2).
  rewrite <- G in Si, Hz. destruct (Get_spec s i z l r Si Hz Hl Lc) as [_ [A _]]. apply A. apply Permutation_length in P, P2. lia.
Qed.
Lemma Get_z_UB s z (r : nat) a b : ~ in_grid (fs_grid s) z -> (length (fs_grid s) < 10)%nat ->
  nth_error (fs_grid s) 0 = Some a -> nth_error (fs_grid s) (length (fs_grid s) - 1) = Some b -> a <= z <= b -> (r < fs_count s)%nat ->
  GetFitValues_z s z (Z.of_nat r) = UB.
Proof.
  intros N L Ha Hb [B1 B2] Hr. unfold GetFitValues_z, rank_ok. destruct (Z.ltb_spec (Z.of_nat (fs_count s) - 1) (Z.of_nat r)); [lia|]. destruct (Z.ltb_spec (Z.of_nat r) 0); [lia|].
  cbn [negb andb]. apply vget_Ok in Ha, Hb. rewrite Ha, Hb. cbn [rbind]. destruct (Qltb_spec z a); [lra|]. destruct (Qltb_spec b z); [lra|]. cbn [orb].
  unfold GetRedshiftIndex. apply find_None in N. rewrite N. destruct (Nat.ltb_spec (length (fs_grid s)) 10); [reflexivity|lia].
Qed.
Lemma FindMax_UB grid adds s z : distinct grid -> (forall f, In f adds -> in_grid grid (f_z f)) ->
  AddAll (fs_new grid) adds = Ok s -> In z grid -> at_redshift z adds = [] -> FindMaxAmplitudeSigma s = UB.
Proof.
  intros D H E Hz Ez. destruct (AddAll_inv grid D adds [] (fs_new grid) (inv_new grid) H) as [s' [E' [G [L [C I]]]]].
  rewrite E in E'. injection E' as <-. simpl in I. apply In_nth_error in Hz. destruct Hz as [i Hi]. destruct (I i z Hi) as [l [Hl [_ [P _]]]].
  rewrite Ez in P. apply Permutation_sym, Permutation_nil in P. subst l. apply FindMax_empty with i; [rewrite L, G; reflexivity|exact Hl].
Qed.
