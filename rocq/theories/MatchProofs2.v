(** Proofs for C71: the theorems. *)
From Coq Require Import String.
From Verif Require Import Base SortLib MatchModel MatchSpec MatchProofs.
Open Scope Q_scope.

Definition seeded (tol : Q) (ds : list det) (rs : list rest) (d : det) (r : rest) : list sol :=
  if Nat.eqb (List.length rs) 1 then [mkSol d r (redshift d r)] else updateSolution (d_id d) (redshift d r) tol ds rs [mkSol d r (redshift d r)].
Lemma nonneg d r : 0 < r_pos r -> (Qltb (redshift d r) 0 = false <-> 0 <= z_of d r).
Proof. intros P. pose proof (redshift_z d r P) as Z. split; intros H; [apply Qltb_false in H; lra|apply Qltb_false; lra]. Qed.
Lemma seeded_cons tol ds rs d r : positive_rest rs -> exists ext, updateSolution (d_id d) (redshift d r) tol ds rs [mkSol d r (redshift d r)] = mkSol d r (redshift d r) :: ext /\
  apart_positions (mkSol d r (redshift d r) :: ext) /\ Forall (sound_item tol (redshift d r) ds rs) ext.
Proof. intros P. destruct (update_sound (d_id d) (redshift d r) tol ds rs P ds [mkSol d r (redshift d r)] (fun _ h => h)) as (ext & A & B & C & _ & _); [repeat constructor|]. exists ext. split; [exact A|]. split; [exact B|exact C]. Qed.
Lemma match_in tol ds rs d : positive_rest rs -> forall l, (forall r, In r l -> In r rs) -> (Nat.eqb (List.length rs) 1 = true -> (List.length l <= 1)%nat) ->
  forall s, In s (match_rest (Nat.eqb (List.length rs) 1) tol ds rs d l) <-> exists r, In r l /\ 0 <= z_of d r /\ s = seeded tol ds rs d r.
Proof.
  intros P. induction l as [|r t IH]; intros Sub L s; cbn [match_rest]; [split; [intros []|intros (r & [] & _)]|]. cbv zeta. assert (Pr : 0 < r_pos r) by (apply P, Sub; left; reflexivity).
  assert (St : forall x, In x t -> In x rs) by (intros; apply Sub; right; assumption). assert (Lt : Nat.eqb (List.length rs) 1 = true -> (List.length t <= 1)%nat) by (intros H; specialize (L H); cbn in L; lia). specialize (IH St Lt s).
  destruct (Qltb (redshift d r) 0) eqn:Q.
  - rewrite IH. split; [intros (x & X & H); exists x; split; [right; exact X|exact H]|]. intros (x & [<-|X] & N & HX); [exfalso; apply (nonneg d r Pr) in N; congruence|exists x; auto].
  - assert (N : 0 <= z_of d r) by (apply (nonneg d r Pr); exact Q). destruct (Nat.eqb (List.length rs) 1) eqn:SG.
    + split.
      * intros [<-|[]]. exists r. split; [left; reflexivity|]. split; [exact N|]. unfold seeded. rewrite SG. reflexivity.
      * intros (x & [<-|X] & _ & ->); [left; unfold seeded; rewrite SG; reflexivity|]. specialize (L eq_refl). cbn in L. destruct t; [destruct X|cbn in L; lia].
    + destruct (seeded_cons tol ds rs d r P) as (ext & U & _). rewrite in_app_iff, IH. split.
      * intros [H|(x & X & H)]; [|exists x; split; [right; exact X|exact H]]. rewrite U in H. destruct H as [<-|[]]. exists r. split; [left; reflexivity|]. split; [exact N|]. unfold seeded. rewrite SG. symmetry. exact U.
      * intros (x & [<-|X] & NX & H); [|right; exists x; auto]. left. rewrite U. left. rewrite H. unfold seeded. rewrite SG. symmetry. exact U.
Qed.
Lemma all_in tol ds rs s : positive_rest rs -> (In s (all_matches tol ds rs) <-> exists d r, In d ds /\ In r rs /\ 0 <= z_of d r /\ s = seeded tol ds rs d r).
Proof.
  intros P. unfold all_matches. rewrite in_flat_map. split.
  - intros (d & D & I). apply match_in in I; [|exact P|auto|intros K; apply Nat.eqb_eq in K; lia]. destruct I as (r & R & H). exists d, r. auto.
  - intros (d & r & D & R & H). exists d. split; [exact D|]. apply match_in; [exact P|auto|intros K; apply Nat.eqb_eq in K; lia|]. exists r. auto.
Qed.
Lemma seeded_inv tol ds rs d r : positive_rest rs -> In d ds -> In r rs -> 0 <= z_of d r -> exists ext, seeded tol ds rs d r = mkSol d r (redshift d r) :: ext /\ apart_positions (mkSol d r (redshift d r) :: ext) /\ Forall (sound_item tol (redshift d r) ds rs) ext.
Proof. intros P D R N. unfold seeded. destruct (Nat.eqb (List.length rs) 1); [|apply seeded_cons; exact P]. exists []. split; [reflexivity|]. split; [repeat constructor|constructor]. Qed.

Definition matches (tol : Q) (ds : list det) (rs : list rest) (lo hi : Q) (thr : Z) : list (list sol) := refine_loop lo hi thr (all_matches tol ds rs) [].
Lemma Compute_matches dcat rcat lo hi thr tol ty dfo rfo : Compute dcat rcat lo hi thr tol ty dfo rfo = match matches tol (filter_det ty dfo dcat) (filter_rest ty rfo rcat) lo hi thr with [] => None | l => Some l end.
Proof. reflexivity. Qed.

Lemma Sound tol ds rs lo hi thr s : positive_rest rs -> In s (matches tol ds rs lo hi thr) ->
  s <> [] /\ by_position s /\ (forall x, In x s -> In (s_d x) ds /\ In (s_r x) rs /\ at_redshift (s_d x) (s_r x) (s_z x) /\ 0 <= s_z x) /\ (0 <= thr <= Z.of_nat (List.length s))%Z /\ lo < mean_redshift s < hi /\
  exists x0, In x0 s /\ forall x, In x s -> x = x0 \/ agree tol (s_z x0) (s_z x).
Proof.
  intros P I. destruct (refine_sound _ _ _ _ _ _ I) as [[]|(s0 & I0 & -> & T & R)]. apply all_in in I0; [|exact P]. destruct I0 as (d & r & D & R0 & N & E). destruct (seeded_inv tol ds rs d r P D R0 N) as (ext & S1 & S2 & S3). rewrite S1 in E. subst s0. set (s0 := _ :: ext) in *.
  pose proof (isort_perm sol_lt s0) as PM. assert (Pr : 0 < r_pos r) by (apply P; exact R0). pose proof (redshift_z d r Pr) as Z. rewrite Forall_forall in S3.
  split; [intros C; rewrite C in PM; apply Permutation_nil in PM; discriminate|]. split; [apply sorted_positions; exact S2|]. split; [|split; [|split]].
  - intros x X. apply (Permutation_in x PM) in X. destruct X as [<-|X].
    + cbn [s_d s_r s_z]. split; [exact D|]. split; [exact R0|]. split; [unfold at_redshift; rewrite Z; apply z_at; exact Pr|lra].
    + destruct (S3 x X) as (A & B & C & (D1 & D2)). split; [exact A|]. split; [exact B|]. rewrite C. pose proof (redshift_z (s_d x) (s_r x) (P _ B)) as ZX. split; [unfold at_redshift; rewrite ZX; apply z_at; apply P; exact B|lra].
  - rewrite (Permutation_length PM). exact T.
  - destruct R as (R1 & R2). rewrite mean_spec in R1, R2. auto.
  - exists (mkSol d r (redshift d r)). split; [apply (Permutation_in _ (Permutation_sym PM)); left; reflexivity|]. intros x X. apply (Permutation_in x PM) in X. destruct X as [<-|X]; [left; reflexivity|]. right. destruct (S3 x X) as (A & B & C & (D1 & D2)). cbn [s_z]. rewrite C. pose proof (redshift_z (s_d x) (s_r x) (P _ B)) as ZX. unfold agree in *. rewrite ZX. exact D2.
Qed.

(** distinct positions and identifiers *)
Section Distinct.
  Variables (tol : Q) (ds : list det) (rs : list rest).
  Hypothesis P : positive_rest rs.
  Hypothesis DP : distinct_positions ds.
  Hypothesis DR : NoDup (map r_id rs).
  Lemma partner_ext z z' d : z == z' -> partner tol z rs d = partner tol z' rs d.
  Proof.
    intros E. unfold partner. clear P DP DR. induction rs as [|r t IH]; [reflexivity|]. cbn [find]. rewrite IH. replace (agreeb tol z (z_of d r)) with (agreeb tol z' (z_of d r)); [reflexivity|].
    unfold agreeb. destruct (Qle_bool_spec (Qabs (z' - z_of d r)) (tol * (1 + (z' + z_of d r) / 2))) as [A|A]; destruct (Qle_bool_spec (Qabs (z - z_of d r)) (tol * (1 + (z + z_of d r) / 2))) as [B|B]; try reflexivity; exfalso; rewrite E in *; contradiction.
  Qed.
  Lemma same_pos a b : In a ds -> In b ds -> d_pos a == d_pos b -> a = b.
  Proof. intros A B E. destruct (FOP_In _ ds (fun x y (N : ~ d_pos x == d_pos y) K => N (Qeq_sym _ _ K)) DP a b A B) as [H|H]; [exact H|contradiction]. Qed.
  Lemma same_id a b : In a rs -> In b rs -> r_id a = r_id b -> a = b.
  Proof.
    clear P DP. intros A B E. induction rs as [|r t IH]; [destruct A|]. cbn in DR. inversion DR as [|? ? N ND]; subst. destruct A as [<-|A]; destruct B as [<-|B]; [reflexivity| | |apply IH; assumption]; exfalso; apply N.
    - rewrite E. apply in_map. exact B.
    - rewrite <- E. apply in_map. exact A.
  Qed.
  Lemma seeded_group d r : In d ds -> In r rs -> seeded tol ds rs d r = sols (group tol ds rs d r).
  Proof.
    intros D R. unfold seeded, group. cbn [sols map fst snd]. destruct (Nat.eqb_spec (List.length rs) 1) as [E|E].
    - destruct rs as [|x [|y t]]; [destruct R|reflexivity|discriminate].
    - rewrite update_exact; [|exact P| |exact DP].
      + cbn [app]. f_equal. assert (G : forall l, flat_map (fun d2 => if (d_id d2 =? d_id d)%Z then [] else match partner tol (redshift d r) rs d2 with Some r2 => [(d2, r2)] | None => [] end) l = flat_map (fun d2 => if (d_id d2 =? d_id d)%Z then [] else match partner tol (z_of d r) rs d2 with Some r2 => [(d2, r2)] | None => [] end) l).
        { induction l as [|x t IH]; cbn [flat_map]; [reflexivity|]. rewrite IH, (partner_ext _ _ x (redshift_z d r (P r R))). reflexivity. }
        rewrite G. destruct rs as [|x [|y t]] eqn:RS; [destruct R|cbn in E; lia|reflexivity].
      + intros x X NX. unfold isLineAlreadyPresent. cbn. rewrite orb_false_r. destruct (Qeq_bool_spec (d_pos d) (d_pos x)) as [Q|Q]; [|reflexivity]. exfalso. apply NX. f_equal. symmetry. apply same_pos; assumption.
  Qed.
  Lemma pairs_sols l : pairs_of (sols l) = l.
  Proof. unfold pairs_of, sols. rewrite map_map. cbn [s_d s_r]. rewrite <- map_id. apply map_ext. intros (a & b). reflexivity. Qed.
  Definition clean (s : list sol) : Prop := forall x, In x s -> In (s_d x) ds /\ In (s_r x) rs /\ s_z x = redshift (s_d x) (s_r x).
  Lemma equal_sets : forall a b, clean a -> clean b -> AreSolutionSetsEqual a b = true -> a = b.
  Proof.
    intros a b A B. unfold AreSolutionSetsEqual. destruct (Nat.eqb_spec (List.length a) (List.length b)) as [E|E]; [|discriminate]. revert b A B E. induction a as [|x s IH]; intros [|y t] A B E H; try discriminate; [reflexivity|]. cbn [same_items] in H.
    destruct (det_ne (s_d x) (s_d y)) eqn:D; [discriminate|]. destruct (Z.eqb_spec (r_id (s_r x)) (r_id (s_r y))) as [F|F]; [|discriminate]. destruct (Qeq_bool (s_z x) (s_z y)) eqn:Z; [|discriminate]. cbn [negb orb] in H.
    destruct (A x (or_introl eq_refl)) as (A1 & A2 & A3). destruct (B y (or_introl eq_refl)) as (B1 & B2 & B3). f_equal; [|apply IH; [intros w W; apply A; right; exact W|intros w W; apply B; right; exact W|inversion E; reflexivity|exact H]].
    assert (ED : s_d x = s_d y). { apply same_pos; [exact A1|exact B1|]. unfold det_ne in D. destruct (Qeq_bool_spec (d_pos (s_d x)) (d_pos (s_d y))) as [Q|Q]; [exact Q|discriminate]. }
    assert (ER : s_r x = s_r y) by (apply same_id; assumption). destruct x as [xd xr xz]; destruct y as [yd yr yz]. cbn [s_d s_r s_z] in *. subst. reflexivity.
  Qed.
  Lemma clean_seeded d r : In d ds -> In r rs -> 0 <= z_of d r -> clean (seeded tol ds rs d r).
  Proof. intros D R N. destruct (seeded_inv tol ds rs d r P D R N) as (ext & E & _ & F). rewrite E. rewrite Forall_forall in F. intros x [<-|X]; [auto|]. destruct (F x X) as (A & B & C & _). auto. Qed.
  Lemma clean_perm a b : Permutation a b -> clean a -> clean b.
  Proof. intros PM C x X. apply C. apply (Permutation_in x (Permutation_sym PM)). exact X. Qed.
  Lemma clean_matches lo hi thr s : In s (matches tol ds rs lo hi thr) -> clean s.
  Proof. intros I. destruct (refine_sound _ _ _ _ _ _ I) as [[]|(s0 & I0 & -> & _)]. apply all_in in I0; [|exact P]. destruct I0 as (d & r & D & R & N & ->). apply (clean_perm (seeded tol ds rs d r)); [apply Permutation_sym, isort_perm|apply clean_seeded; assumption]. Qed.
  Lemma mean_group l : (forall p, In p l -> In (snd p) rs) -> mean_redshift (sols l) == mean_of l.
  Proof.
    intros H. unfold mean_redshift, mean_of. unfold sols at 2. rewrite map_length. assert (E : fold_right (fun x v => s_z x + v) 0 (sols l) == fold_right (fun p s => z_of (fst p) (snd p) + s) 0 l); [|rewrite E; reflexivity].
    induction l as [|p t IH]; cbn [sols map fold_right]; [reflexivity|]. cbn [s_z]. fold (sols t). rewrite IH by (intros; apply H; right; assumption). rewrite (redshift_z (fst p) (snd p)); [reflexivity|]. apply P, H. left. reflexivity.
  Qed.
  Lemma group_rest d r : In r rs -> forall p, In p (group tol ds rs d r) -> In (snd p) rs.
  Proof.
    intros R p [<-|I]; [exact R|]. assert (G : In p (flat_map (fun d2 => if (d_id d2 =? d_id d)%Z then [] else match partner tol (z_of d r) rs d2 with Some r2 => [(d2, r2)] | None => [] end) ds)) by (destruct rs as [|x [|y t]]; [destruct R|destruct I|exact I]).
    apply in_flat_map in G. destruct G as (d2 & _ & G). destruct (d_id d2 =? d_id d)%Z; [destruct G|]. destruct (partner tol (z_of d r) rs d2) as [r2|] eqn:PA; [|destruct G]. destruct G as [<-|[]]. apply partner_spec in PA. exact (proj1 PA).
  Qed.
  Lemma perm_pairs a b : Permutation a b -> Permutation (pairs_of a) (pairs_of b).
  Proof. apply Permutation_map. Qed.
  Lemma Exact_sound lo hi thr s : In s (matches tol ds rs lo hi thr) -> exists d r, In d ds /\ In r rs /\ 0 <= z_of d r /\ Permutation (pairs_of s) (group tol ds rs d r).
  Proof.
    intros I. destruct (refine_sound _ _ _ _ _ _ I) as [[]|(s0 & I0 & -> & _)]. apply all_in in I0; [|exact P]. destruct I0 as (d & r & D & R & N & ->). exists d, r. split; [exact D|]. split; [exact R|]. split; [exact N|].
    rewrite (perm_pairs _ _ (isort_perm sol_lt _)), seeded_group, pairs_sols by assumption. reflexivity.
  Qed.
  Lemma Exact_complete lo hi thr d r : In d ds -> In r rs -> 0 <= z_of d r -> (0 <= thr <= Z.of_nat (List.length (group tol ds rs d r)))%Z -> lo < mean_of (group tol ds rs d r) < hi ->
    exists s, In s (matches tol ds rs lo hi thr) /\ Permutation (pairs_of s) (group tol ds rs d r).
  Proof.
    intros D R N T M. pose proof (seeded_group d r D R) as SG. pose proof (isort_perm sol_lt (seeded tol ds rs d r)) as PM. assert (LG : List.length (seeded tol ds rs d r) = List.length (group tol ds rs d r)) by (rewrite SG; apply map_length).
    destruct (refine_complete lo hi thr (all_matches tol ds rs) [] (seeded tol ds rs d r)) as (n & N1 & N2).
    - apply all_in; [exact P|]. exists d, r. auto.
    - rewrite LG. exact T.
    - unfold in_range. rewrite mean_spec, (mean_perm _ _ PM), SG, (mean_group (group tol ds rs d r) (group_rest d r R)). exact M.
    - exists n. split; [exact N1|]. assert (E : n = isort sol_lt (seeded tol ds rs d r)). { apply equal_sets; [apply (clean_matches lo hi thr); exact N1|apply (clean_perm (seeded tol ds rs d r)); [apply Permutation_sym; exact PM|apply clean_seeded; assumption]|exact N2]. }
      rewrite E, (perm_pairs _ _ PM), SG, pairs_sols. reflexivity.
  Qed.
  Lemma pairs_inj a b : clean a -> clean b -> pairs_of a = pairs_of b -> a = b.
  Proof.
    revert b. induction a as [|x s IH]; intros [|y t] A B E; try discriminate; [reflexivity|]. cbn in E. inversion E. destruct (A x (or_introl eq_refl)) as (_ & _ & A3). destruct (B y (or_introl eq_refl)) as (_ & _ & B3).
    f_equal; [destruct x; destruct y; cbn in *; subst; reflexivity|apply IH; [intros w W; apply A; right; exact W|intros w W; apply B; right; exact W|assumption]].
  Qed.
  Lemma Exact_unique lo hi thr : NoDup (map pairs_of (matches tol ds rs lo hi thr)).
  Proof.
    assert (U : ForallOrdPairs (fun a b => AreSolutionSetsEqual a b = false) (matches tol ds rs lo hi thr)) by (apply refine_unique; constructor).
    assert (C : forall s, In s (matches tol ds rs lo hi thr) -> clean s) by (intros; eapply clean_matches; eassumption).
    induction U as [|a t F _ IH]; cbn [map]; [constructor|]. constructor; [|apply IH; intros; apply C; right; assumption]. intros I. apply in_map_iff in I. destruct I as (b & E & I). rewrite Forall_forall in F. specialize (F b I).
    assert (b = a) by (apply pairs_inj; [apply C; right; exact I|apply C; left; reflexivity|exact E]). subst b. rewrite equal_refl in F. discriminate.
  Qed.
End Distinct.

(** * the queries *)
Lemma Over l k s : In s (GetSolutionsListOverNumber l k) <-> In s l /\ (0 <= k < Z.of_nat (List.length s))%Z.
Proof.
  unfold GetSolutionsListOverNumber. rewrite filter_In. destruct (Z.ltb_spec k 0); split; intros (A & B); try discriminate; (split; [exact A|]); [lia|apply Z.ltb_lt in B; lia|apply Z.ltb_lt; lia].
Qed.
Lemma strong_spec rcat s : getNStrongRestLines rcat s = Z.of_nat (strong_count rcat s).
Proof.
  unfold getNStrongRestLines, strong_count. do 2 f_equal. apply filter_ext. intros x. unfold near_strong, filter_rest. induction rcat as [|r t IH]; [reflexivity|]. cbn [filter existsb]. rewrite <- IH. unfold keeps. destruct (r_em r); destruct (r_strong r); reflexivity.
Qed.
Lemma best_spec rcat : forall l best, match best with Some (b, nb) => nb = Z.of_nat (strong_count rcat b) | None => True end ->
  match best_loop rcat l best with
  | Some (s, n) => exists pre post, (match best with Some (b, _) => b :: l | None => l end) = (pre ++ s :: post)%list /\ (forall x, In x pre -> better rcat s x) /\ (forall x, In x post -> ~ better rcat x s)
  | None => l = [] /\ best = None
  end.
Proof.
  induction l as [|s t IH]; intros best H; cbn [best_loop].
  - destruct best as [(b & nb)|]; [|auto]. exists [], []. split; [reflexivity|]. split; intros x [].
  - rewrite strong_spec. destruct best as [(b & nb)|].
    + subst nb. set (nxt := if (_ <? _)%Z then _ else _). assert (NX : (nxt = Some (s, Z.of_nat (strong_count rcat s)) /\ better rcat s b) \/ (nxt = Some (b, Z.of_nat (strong_count rcat b)) /\ ~ better rcat s b)).
      { unfold nxt. destruct (Z.ltb_spec (Z.of_nat (strong_count rcat b)) (Z.of_nat (strong_count rcat s))); [left; split; [reflexivity|left; lia]|]. destruct (Z.eqb_spec (Z.of_nat (strong_count rcat s)) (Z.of_nat (strong_count rcat b))).
        - destruct (Nat.ltb_spec (List.length b) (List.length s)); cbn [andb]; [left; split; [reflexivity|right; lia]|right; split; [reflexivity|]]. intros [B|(_ & B)]; lia.
        - cbn [andb]. right. split; [reflexivity|]. intros [B|(B & _)]; lia. }
      destruct NX as [(-> & B)|(-> & B)].
      * specialize (IH (Some (s, Z.of_nat (strong_count rcat s))) eq_refl). destruct (best_loop rcat t _) as [(w & n)|]; [|destruct IH; discriminate]. destruct IH as (pre & post & E & H1 & H2). destruct pre as [|p pre]; cbn [app] in E; inversion E; subst.
        -- exists [b], post. split; [reflexivity|]. split; [intros x [<-|[]]; exact B|exact H2].
        -- exists (b :: p :: pre), post. split; [reflexivity|]. split; [|exact H2]. intros x [<-|X]; [|apply H1; exact X]. pose proof (H1 p (or_introl eq_refl)) as K. unfold better in *. lia.
      * specialize (IH (Some (b, Z.of_nat (strong_count rcat b))) eq_refl). destruct (best_loop rcat t _) as [(w & n)|]; [|destruct IH; discriminate]. destruct IH as (pre & post & E & H1 & H2). destruct pre as [|p pre]; cbn [app] in E; inversion E; subst.
        -- exists [], (s :: post). split; [reflexivity|]. split; [intros x []|]. intros x [<-|X]; [exact B|apply H2; exact X].
        -- exists (p :: s :: pre), post. split; [reflexivity|]. split; [|exact H2]. intros x [<-|[<-|X]]; [apply H1; left; reflexivity| |apply H1; right; exact X]. pose proof (H1 p (or_introl eq_refl)) as K. unfold better in *. lia.
    + specialize (IH (Some (s, Z.of_nat (strong_count rcat s))) eq_refl). destruct (best_loop rcat t _) as [(w & n)|]; [|destruct IH; discriminate]. exact IH.
Qed.
Lemma Best rcat l : let two := filter (fun s => Nat.leb 2 (List.length s)) l in
  (two = [] -> GetBestRedshift rcat l = None) /\
  (two <> [] -> exists z n pre s post, GetBestRedshift rcat l = Some (z, n) /\ two = (pre ++ s :: post)%list /\ z == mean_redshift s /\ n = List.length s /\ (forall x, In x pre -> better rcat s x) /\ (forall x, In x post -> ~ better rcat x s)).
Proof.
  intros two. assert (T : GetSolutionsListOverNumber l 1 = two). { unfold GetSolutionsListOverNumber, two. apply filter_ext. intros s. cbn [Z.ltb]. destruct (Nat.leb_spec 2 (List.length s)); destruct (Z.ltb_spec 1 (Z.of_nat (List.length s))); try reflexivity; lia. }
  unfold GetBestRedshift. rewrite T. pose proof (best_spec rcat two None I) as B. destruct (best_loop rcat two None) as [(s & n)|].
  - destruct B as (pre & post & E & H1 & H2). split; [intros C; rewrite C in E; destruct pre; discriminate|]. intros _. exists (mean_z s), (List.length s), pre, s, post. split; [reflexivity|]. split; [exact E|]. split; [apply mean_spec|]. split; [reflexivity|]. split; assumption.
  - destruct B as (-> & _). split; [reflexivity|congruence].
Qed.
Lemma max_spec l : forall m, (0 <= m)%Z -> let r := fold_left (fun m s => if (m <? Z.of_nat (List.length s))%Z then Z.of_nat (@List.length sol s) else m) l m in (m <= r)%Z /\ (forall s, In s l -> (Z.of_nat (List.length s) <= r)%Z) /\ (r = m \/ exists s, In s l /\ r = Z.of_nat (List.length s)).
Proof.
  induction l as [|s t IH]; intros m M; cbn [fold_left]; [split; [lia|]; split; [intros x []|left; reflexivity]|]. destruct (Z.ltb_spec m (Z.of_nat (List.length s))) as [L|L].
  - destruct (IH (Z.of_nat (List.length s)) ltac:(lia)) as (A & B & C). split; [lia|]. split; [intros x [<-|X]; [lia|apply B; exact X]|]. right. destruct C as [C|(x & X & C)]; [exists s; split; [left; reflexivity|exact C]|exists x; split; [right; exact X|exact C]].
  - destruct (IH m M) as (A & B & C). split; [lia|]. split; [intros x [<-|X]; [lia|apply B; exact X]|]. destruct C as [C|(x & X & C)]; [left; exact C|right; exists x; split; [right; exact X|exact C]].
Qed.
Lemma Best_number l : (forall s, In s l -> s <> []) -> (l = [] -> GetBestMatchNumRedshift l = ((-1)%Z, None)) /\
  (l <> [] -> exists n z pre s post, GetBestMatchNumRedshift l = (Z.of_nat n, Some z) /\ l = (pre ++ s :: post)%list /\ n = List.length s /\ z == mean_redshift s /\ (forall x, In x pre -> (List.length x < n)%nat) /\ (forall x, In x l -> (List.length x <= n)%nat)).
Proof.
  intros NE. split; [intros ->; reflexivity|]. intros NL. unfold GetBestMatchNumRedshift. set (n := GetMaxMatchingNumber l). assert (M : (forall s, In s l -> (Z.of_nat (List.length s) <= n)%Z) /\ exists s, In s l /\ n = Z.of_nat (List.length s)).
  { unfold n, GetMaxMatchingNumber. destruct l as [|s t] eqn:L; [congruence|]. rewrite <- L in *. destruct (max_spec l 0 ltac:(lia)) as (A & B & C). replace (match l with [] => (-1)%Z | _ => _ end) with (fold_left (fun m s => if (m <? Z.of_nat (List.length s))%Z then Z.of_nat (@List.length sol s) else m) l 0%Z) by (rewrite L; reflexivity).
    split; [exact B|]. destruct C as [C|C]; [|exact C]. exfalso. assert (IS : In s l) by (rewrite L; left; reflexivity). specialize (B s IS). specialize (NE s IS). destruct s; [congruence|]. cbn [List.length] in B. lia. }
  destruct M as (M1 & (s1 & I1 & M2)). assert (GE : (1 <= n)%Z). { specialize (NE s1 I1). destruct s1; [congruence|]. cbn [List.length] in M2. lia. }
  assert (G : forall q, exists pre post, (forall x, In x pre -> (Z.of_nat (List.length x) < n)%Z) /\ ((exists s, q = (pre ++ s :: post)%list /\ (n <= Z.of_nat (List.length s))%Z /\ exists k, GetSolutionsListOverNumber q (n - 1) = s :: k) \/ (q = pre /\ GetSolutionsListOverNumber q (n - 1) = []))).
  { induction q as [|x t IH]; [exists [], []; split; [intros x []|]; right; auto|]. unfold GetSolutionsListOverNumber. cbn [filter]. fold (GetSolutionsListOverNumber t (n - 1)). destruct (Z.ltb_spec (n - 1) 0) as [C0|C0]; [lia|]. destruct (Z.ltb_spec (n - 1) (Z.of_nat (List.length x))) as [L|L].
    - exists [], t. split; [intros y []|]. left. exists x. split; [reflexivity|]. split; [lia|]. eexists. reflexivity.
    - destruct IH as (pre & post & P1 & H). exists (x :: pre), post. split; [intros y [<-|Y]; [lia|apply P1; exact Y]|]. destruct H as [(s & E & Ls & k & F)|(E & F)]; [left; exists s; split; [rewrite E; reflexivity|]; split; [exact Ls|]; exists k; exact F|right; split; [rewrite E; reflexivity|exact F]]. }
  destruct (G l) as (pre & post & P1 & H). destruct H as [(s & E & Ls & k & F)|(E & F)].
  - assert (IS : In s l) by (rewrite E; apply in_or_app; right; left; reflexivity). pose proof (M1 s IS) as MS. exists (List.length s), (mean_z s), pre, s, post. rewrite F. split; [f_equal; lia|]. split; [exact E|]. split; [reflexivity|]. split; [apply mean_spec|]. split; [intros x X; specialize (P1 x X); lia|]. intros x X. specialize (M1 x X). lia.
  - exfalso. subst pre. specialize (P1 s1 I1). lia.
Qed.
Lemma to_int_spec x : 0 <= x -> inject_Z (to_int x) <= x < inject_Z (to_int x) + 1.
Proof. intros H. unfold to_int. destruct (Qltb_spec x 0); [lra|]. split; [apply Qfloor_le|]. pose proof (Qlt_floor x). rewrite inject_Z_plus in H0. exact H0. Qed.
Lemma Rounded l k step : 0 < step -> (forall s, In s l -> 0 <= mean_redshift s) -> List.length (GetRoundedRedshiftCandidatesOverNumber l k step) = List.length (GetSolutionsListOverNumber l k) /\
  forall i s, nth_error (GetSolutionsListOverNumber l k) i = Some s -> exists v m, nth_error (GetRoundedRedshiftCandidatesOverNumber l k step) i = Some v /\ v == inject_Z m * step /\ Qabs (v - mean_redshift s) <= step / 2.
Proof.
  intros SP NN. unfold GetRoundedRedshiftCandidatesOverNumber, GetAverageRedshiftListOverNumber. split; [rewrite !map_length; reflexivity|]. intros i s H. rewrite map_map. set (x := mean_z s / step + (1 # 2)).
  exists (inject_Z (to_int x) * step), (to_int x). split; [apply (map_nth_error (fun z => inject_Z (to_int (mean_z z / step + (1 # 2))) * step) i _ H)|]. split; [reflexivity|].
  assert (IS : In s l) by (apply nth_error_In in H; apply Over in H; exact (proj1 H)). pose proof (NN s IS) as N0. pose proof (mean_spec s) as MS. assert (XN : 0 <= x) by (unfold x; assert (0 <= mean_z s / step) by (apply Qle_shift_div_l; lra); lra). destruct (to_int_spec x XN) as (A & B).
  assert (EX : x * step == mean_z s + step / 2) by (unfold x; field; lra). assert (A2 : inject_Z (to_int x) * step <= x * step) by (apply Qmult_le_compat_r; lra). assert (B2 : x * step < (inject_Z (to_int x) + 1) * step) by (apply Qmult_lt_compat_r; lra).
  rewrite EX in A2, B2. assert (D : step / 2 == step * (1 # 2)) by field. rewrite D in *. apply Qabs_Qle_condition. split; lra.
Qed.
Lemma uniq_cons a b t : uniq (a :: b :: t) = if Qeq_bool a b then match uniq (b :: t) with [] => [a] | _ :: k => a :: k end else a :: uniq (b :: t).
Proof. reflexivity. Qed.
Lemma uniq_head a t : exists k, uniq (a :: t) = a :: k.
Proof.
  revert a. induction t as [|b t IH]; intros a; [exists []; reflexivity|]. rewrite uniq_cons. destruct (IH b) as (k & E). rewrite E. destruct (Qeq_bool a b); eexists; reflexivity.
Qed.
Lemma uniq_spec l : StronglySorted (fun x y => x <= y) l -> strictly_increasing (uniq l) /\ (forall x, In x (uniq l) -> In x l) /\ (forall x, In x l -> exists y, In y (uniq l) /\ y == x).
Proof.
  induction 1 as [|a t H IH F]; [split; [constructor|]; split; intros x []|]. destruct t as [|b t]; [split; [repeat constructor|]; split; intros x X; [exact X|exists x; split; [exact X|reflexivity]]|].
  rewrite uniq_cons. destruct (uniq_head b t) as (k & E). rewrite E in *. destruct IH as (I1 & I2 & I3). assert (AB : a <= b) by (inversion F; assumption). inversion I1 as [|? ? K1 K2]; subst. rewrite Forall_forall in K2. destruct (Qeq_bool_spec a b) as [Q|Q].
  - split; [constructor; [exact K1|]; rewrite Forall_forall; intros y Y; specialize (K2 y Y); lra|]. split.
    + intros x [<-|X]; [left; reflexivity|right; apply I2; right; exact X].
    + intros x [<-|X]; [exists a; split; [left; reflexivity|reflexivity]|]. destruct (I3 x X) as (y & [<-|Y] & EY); [exists a; split; [left; reflexivity|lra]|exists y; split; [right; exact Y|exact EY]].
  - split; [constructor; [exact I1|]; rewrite Forall_forall; intros y [<-|Y]; [lra|specialize (K2 y Y); lra]|]. split.
    + intros x [<-|X]; [left; reflexivity|right; apply I2; exact X].
    + intros x [<-|X]; [exists a; split; [left; reflexivity|reflexivity]|]. destruct (I3 x X) as (y & Y & EY). exists y. split; [right; exact Y|exact EY].
Qed.
Lemma offsets_in h i : (0 <= h)%Z -> (In i (offsets h) <-> (- h <= i < h)%Z).
Proof.
  intros H. unfold offsets. rewrite in_map_iff. split.
  - intros (k & <- & K). apply in_seq in K. lia.
  - intros K. exists (Z.to_nat (i + h)). split; [lia|]. apply in_seq. lia.
Qed.
Lemma Extended l k step width : 0 < step -> 0 <= width -> let out := GetExtendedRedshiftCandidatesOverNumber l k step width in exists h, (inject_Z h <= width / step / 2 < inject_Z h + 1) /\ strictly_increasing out /\
  (forall v, (exists y, In y out /\ y == v) <-> exists c i, In c (GetRoundedRedshiftCandidatesOverNumber l k step) /\ (- h <= i < h)%Z /\ v == c + inject_Z i * step).
Proof.
  intros SP W out. set (h := to_int (width / step / 2)). assert (WN : 0 <= width / step / 2) by (apply Qle_shift_div_l; [reflexivity|]; setoid_replace (0 * 2) with 0 by ring; apply Qle_shift_div_l; lra). exists h. destruct (to_int_spec _ WN) as (A & B). fold h in A, B. split; [auto|].
  assert (HN : (0 <= h)%Z). { destruct (Z_le_gt_dec 0 h) as [L|L]; [exact L|]. exfalso. assert (h + 1 <= 0)%Z by lia. rewrite Zle_Qle in H. rewrite inject_Z_plus in H. change (inject_Z 0) with 0 in H. change (inject_Z 1) with 1 in H. lra. }
  unfold out, GetExtendedRedshiftCandidatesOverNumber. fold h. set (full := flat_map _ _). destruct (uniq_spec (qsort full) (qsort_sorted_strong full)) as (U1 & U2 & U3). split; [exact U1|]. intros v. split.
  - intros (y & Y & E). apply U2 in Y. apply (Permutation_in y (qsort_perm full)) in Y. unfold full in Y. apply in_flat_map in Y. destruct Y as (c & C & Y). apply in_map_iff in Y. destruct Y as (i & <- & I0). apply offsets_in in I0; [|exact HN]. exists c, i. split; [exact C|]. split; [exact I0|]. symmetry. exact E.
  - intros (c & i & C & I0 & E). destruct (U3 (c + inject_Z i * step)) as (y & Y & EY); [apply (Permutation_in _ (Permutation_sym (qsort_perm full))); unfold full; apply in_flat_map; exists c; split; [exact C|apply in_map_iff; exists i; split; [reflexivity|apply offsets_in; assumption]]|]. exists y. split; [exact Y|]. rewrite EY. symmetry. exact E.
Qed.
Lemma By_index l i : (l = [] -> GetMeanRedshiftSolutionByIndex l i = UB) /\
  (l <> [] -> forall s, (0 <= i)%Z -> nth_error l (Z.to_nat i) = Some s -> exists z, GetMeanRedshiftSolutionByIndex l i = Ok z /\ z == mean_redshift s) /\
  (l <> [] -> (i < 0 \/ Z.of_nat (List.length l) <= i)%Z -> exists z, GetMeanRedshiftSolutionByIndex l i = Ok z /\ z == -1).
Proof.
  split; [intros ->; reflexivity|]. split.
  - intros NE s P H. assert (L : (Z.to_nat i < List.length l)%nat) by (apply nth_error_Some; congruence). unfold GetMeanRedshiftSolutionByIndex. destruct l as [|x t]; [congruence|]. replace ((i <? 0)%Z || (Z.of_nat (List.length (x :: t)) - 1 <? i)%Z)%bool with false by (symmetry; apply orb_false_iff; split; apply Z.ltb_ge; lia). unfold vget. rewrite H. cbn [rbind]. eexists. split; [reflexivity|apply mean_spec].
  - intros NE O. unfold GetMeanRedshiftSolutionByIndex. destruct l as [|x t]; [congruence|]. replace ((i <? 0)%Z || (Z.of_nat (List.length (x :: t)) - 1 <? i)%Z)%bool with true by (symmetry; apply orb_true_iff; destruct O; [left|right]; apply Z.ltb_lt; lia). eexists. split; [reflexivity|reflexivity].
Qed.
Lemma Filter check l removed codes : FilterWithRules check l removed codes =
  (filter (fun s => Z.leb (check (mean_z s) s) 0) l, (removed ++ filter (fun s => negb (Z.leb (check (mean_z s) s) 0)) l)%list, (codes ++ map (fun s => check (mean_z s) s) (filter (fun s => negb (Z.leb (check (mean_z s) s) 0)) l))%list).
Proof.
  assert (G : forall l k f c, filter_rules check l (k, f, c) = ((k ++ filter (fun s => Z.leb (check (mean_z s) s) 0) l)%list, (f ++ filter (fun s => negb (Z.leb (check (mean_z s) s) 0)) l)%list, (c ++ map (fun s => check (mean_z s) s) (filter (fun s => negb (Z.leb (check (mean_z s) s) 0)) l))%list)).
  { clear. induction l as [|s t IH]; intros k f c; cbn [filter_rules filter map]; [rewrite !app_nil_r; reflexivity|]. destruct (check (mean_z s) s <=? 0)%Z; cbn [negb]; rewrite IH; [rewrite <- app_assoc; reflexivity|]. cbn [map]. rewrite <- !app_assoc. reflexivity. }
  unfold FilterWithRules. destruct l as [|s t]; [cbn [filter map]; rewrite !app_nil_r; reflexivity|]. rewrite G. reflexivity.
Qed.
Lemma keeps_spec f b : keeps f b = true <-> forall c, f = Some c -> b = c.
Proof. destruct f as [c|]; cbn [keeps]; [|split; [discriminate|reflexivity]]. split; [intros H x X; apply Bool.eqb_prop in H; congruence|intros H; rewrite (H c eq_refl); destruct c; reflexivity]. Qed.
Lemma Compute_answer dcat rcat lo hi thr tol ty dfo rfo :
  Compute dcat rcat lo hi thr tol ty dfo rfo = match matches tol (filter_det ty dfo dcat) (filter_rest ty rfo rcat) lo hi thr with [] => None | l => Some l end /\
  (forall d, In d (filter_det ty dfo dcat) <-> In d dcat /\ (forall b, ty = Some b -> d_em d = b) /\ (forall b, dfo = Some b -> d_strong d = b)) /\
  (forall r, In r (filter_rest ty rfo rcat) <-> In r rcat /\ (forall b, ty = Some b -> r_em r = b) /\ (forall b, rfo = Some b -> r_strong r = b)).
Proof.
  split; [reflexivity|]. split; intros x; unfold filter_det, filter_rest; rewrite filter_In, andb_true_iff, !keeps_spec; reflexivity.
Qed.
Lemma Exact_unique_all tol ds rs : positive_rest rs -> distinct_positions ds -> NoDup (map r_id rs) -> forall lo hi thr, NoDup (map pairs_of (matches tol ds rs lo hi thr)).
Proof. intros P _ _. apply Exact_unique; assumption. Qed.
Lemma Over_negative l k : (k < 0)%Z -> GetSolutionsListOverNumber l k = [].
Proof. intros H. unfold GetSolutionsListOverNumber. apply Z.ltb_lt in H. rewrite H. induction l; [reflexivity|exact IHl]. Qed.
