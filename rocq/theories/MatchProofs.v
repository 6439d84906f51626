(** Proofs for C71: the matching. *)
From Coq Require Import String.
From Verif Require Import Base SortLib MatchModel MatchSpec.
Open Scope Q_scope.

Definition positive_rest (rs : list rest) : Prop := forall r, In r rs -> 0 < r_pos r.
Lemma redshift_z d r : 0 < r_pos r -> redshift d r == z_of d r.
Proof. intros P. unfold redshift, z_of. field. lra. Qed.
Lemma z_at d r : 0 < r_pos r -> at_redshift d r (z_of d r).
Proof. intros P. unfold at_redshift, z_of. field. lra. Qed.

Definition ok_pair (tol z : Q) (d : det) (r : rest) : Prop := 0 <= z_of d r /\ agree tol z (z_of d r).
Lemma partner_spec tol z rs d r : partner tol z rs d = Some r -> In r rs /\ ok_pair tol z d r.
Proof.
  unfold partner. intros F. apply find_some in F. destruct F as (I & F). split; [exact I|]. apply andb_prop in F. destruct F as (A & B). apply Qle_bool_iff in A, B. split; assumption.
Qed.
Lemma partner_none tol z rs d : partner tol z rs d = None -> forall r, In r rs -> ~ ok_pair tol z d r.
Proof.
  unfold partner. intros F r I (A & B). pose proof (find_none _ _ F r I) as N. cbv beta in N. apply andb_false_iff in N. destruct N as [N|N].
  - assert (Qle_bool 0 (z_of d r) = true) by (apply Qle_bool_iff; exact A). congruence.
  - assert (agreeb tol z (z_of d r) = true) by (apply Qle_bool_iff; exact B). congruence.
Qed.
Lemma present_after d s x : isLineAlreadyPresent d (s ++ [mkSol d x (redshift d x)]) = true.
Proof. unfold isLineAlreadyPresent. rewrite existsb_app. cbn. rewrite (proj2 (Qeq_bool_iff _ _) (Qeq_refl _)). rewrite orb_true_r. reflexivity. Qed.
Lemma update_present tol z d rs : forall s, isLineAlreadyPresent d s = true -> update_rest tol z d rs s = s.
Proof. induction rs as [|r t IH]; intros s H; cbn [update_rest]; [reflexivity|]. cbv zeta. rewrite (IH s H). rewrite H. destruct (Qltb _ 0); [reflexivity|]. destruct (Qltb _ _); reflexivity. Qed.
Lemma Qltb_ext a a2 b b2 : a == a2 -> b == b2 -> Qltb a b = Qltb a2 b2.
Proof. intros E F. destruct (Qltb_spec a b); destruct (Qltb_spec a2 b2); try reflexivity; exfalso; rewrite <- E, <- F in *; contradiction. Qed.
Lemma update_rest_spec tol z d rs : positive_rest rs -> forall s, isLineAlreadyPresent d s = false ->
  update_rest tol z d rs s = match partner tol z rs d with Some r => (s ++ [mkSol d r (redshift d r)])%list | None => s end.
Proof.
  induction rs as [|r t IH]; intros P s H; [reflexivity|]. assert (Pt : positive_rest t) by (intros x I; apply P; right; exact I). assert (Pr : 0 < r_pos r) by (apply P; left; reflexivity). pose proof (redshift_z d r Pr) as Z.
  cbn [update_rest]. cbv zeta. unfold partner. cbn [find]. fold (partner tol z t d).
  replace (Qle_bool 0 (z_of d r)) with (negb (Qltb (redshift d r) 0)) by (rewrite (Qltb_ext _ _ 0 0 Z (Qeq_refl 0)); unfold Qltb; apply negb_involutive).
  destruct (Qltb (redshift d r) 0); cbn [negb andb]; [apply IH; assumption|].
  replace (agreeb tol z (z_of d r)) with (negb (Qltb (tol * (1 + (z + redshift d r) * (1 # 2))) (Qabs (z - redshift d r)))).
  2:{ rewrite (Qltb_ext _ (tol * (1 + (z + z_of d r) / 2)) _ (Qabs (z - z_of d r))); [unfold Qltb, agreeb; apply negb_involutive|rewrite Z; field|rewrite Z; reflexivity]. }
  destruct (Qltb (tol * _) _); cbn [negb]; [apply IH; assumption|]. rewrite H. apply update_present. apply present_after.
Qed.

(** the invariants of a solution, for any detected lines *)
Definition sound_item (tol z : Q) (ds : list det) (rs : list rest) (x : sol) : Prop := In (s_d x) ds /\ In (s_r x) rs /\ s_z x = redshift (s_d x) (s_r x) /\ ok_pair tol z (s_d x) (s_r x).
Definition apart_positions (s : list sol) : Prop := ForallOrdPairs (fun a b => ~ d_pos (s_d a) == d_pos (s_d b)) s.
Lemma FOP_snoc {A} (R : A -> A -> Prop) l x : ForallOrdPairs R l -> (forall y, In y l -> R y x) -> ForallOrdPairs R (l ++ [x]).
Proof.
  induction 1 as [|a t Fa _ IH]; intros H; cbn [app]; [repeat constructor|]. constructor; [|apply IH; intros; apply H; right; assumption]. apply Forall_app. split; [exact Fa|]. constructor; [apply H; left; reflexivity|constructor].
Qed.
Lemma absent d s : isLineAlreadyPresent d s = false -> forall y, In y s -> ~ d_pos (s_d y) == d_pos d.
Proof. intros H y I E. assert (isLineAlreadyPresent d s = true); [|congruence]. apply existsb_exists. exists y. split; [exact I|]. apply Qeq_bool_iff. exact E. Qed.
Lemma update_sound id z tol all rs : positive_rest rs -> forall ds s, (forall d, In d ds -> In d all) -> apart_positions s ->
  exists ext, updateSolution id z tol ds rs s = (s ++ ext)%list /\ apart_positions (s ++ ext) /\ Forall (sound_item tol z all rs) ext /\ (forall x, In x ext -> d_id (s_d x) <> id) /\
    (forall d r, In d ds -> d_id d <> id -> In r rs -> ok_pair tol z d r -> exists x, In x (s ++ ext) /\ d_pos (s_d x) == d_pos d).
Proof.
  intros P. induction ds as [|d t IH]; intros s Sub A; cbn [updateSolution].
  - exists []. rewrite app_nil_r. split; [reflexivity|]. split; [exact A|]. split; [constructor|]. split; [intros x []|]. intros d r [].
  - assert (St : forall x, In x t -> In x all) by (intros; apply Sub; right; assumption).
    destruct (Z.eqb_spec id (d_id d)) as [E|N].
    + destruct (IH s St A) as (ext & E1 & E2 & E3 & E4 & E5). exists ext. split; [exact E1|]. split; [exact E2|]. split; [exact E3|]. split; [exact E4|]. intros x r [<-|I] NI; [congruence|]. apply E5; assumption.
    + destruct (isLineAlreadyPresent d s) eqn:PR.
      * rewrite update_present by exact PR. destruct (IH s St A) as (ext & E1 & E2 & E3 & E4 & E5). exists ext. split; [exact E1|]. split; [exact E2|]. split; [exact E3|]. split; [exact E4|]. intros x r [<-|I] NI; [|apply E5; assumption].
        intros _ _. apply existsb_exists in PR. destruct PR as (y & Y1 & Y2). exists y. split; [apply in_or_app; left; exact Y1|apply Qeq_bool_iff; exact Y2].
      * rewrite update_rest_spec by assumption. destruct (partner tol z rs d) as [r|] eqn:PA.
        -- destruct (partner_spec _ _ _ _ _ PA) as (IR & OK). destruct (IH (s ++ [mkSol d r (redshift d r)])%list St) as (ext & E1 & E2 & E3 & E4 & E5); [apply FOP_snoc; [exact A|apply absent; exact PR]|].
           exists (mkSol d r (redshift d r) :: ext). rewrite E1, <- app_assoc in *. cbn [app] in *. split; [reflexivity|]. split; [exact E2|]. split; [constructor; [split; [apply Sub; left; reflexivity|]; cbn [s_d s_r s_z]; auto|exact E3]|].
           split; [intros x [<-|I]; [cbn; congruence|apply E4; exact I]|]. intros x r2 [<-|I] NI IR2 OK2; [|eapply E5; eassumption].
           exists (mkSol d r (redshift d r)). split; [apply in_or_app; right; left; reflexivity|reflexivity].
        -- destruct (IH s St A) as (ext & E1 & E2 & E3 & E4 & E5). exists ext. split; [exact E1|]. split; [exact E2|]. split; [exact E3|]. split; [exact E4|]. intros x r [<-|I] NI IR OK; [exfalso; exact (partner_none _ _ _ _ PA r IR OK)|eapply E5; eassumption].
Qed.
(** distinct positions: exactly the group *)
Definition sols (l : list (det * rest)) : list sol := map (fun p => mkSol (fst p) (snd p) (redshift (fst p) (snd p))) l.
Lemma update_exact id z tol rs : positive_rest rs -> forall ds s, (forall d, In d ds -> d_id d <> id -> isLineAlreadyPresent d s = false) -> distinct_positions ds ->
  updateSolution id z tol ds rs s = (s ++ sols (flat_map (fun d2 => if Z.eqb (d_id d2) id then [] else match partner tol z rs d2 with Some r2 => [(d2, r2)] | None => [] end) ds))%list.
Proof.
  intros P. induction ds as [|d t IH]; intros s H D; cbn [updateSolution flat_map]; [symmetry; apply app_nil_r|]. inversion D as [|? ? D1 D2]; subst. rewrite Z.eqb_sym.
  destruct (Z.eqb_spec (d_id d) id) as [E|N]; [apply IH; [intros; apply H; [right; assumption|assumption]|exact D2]|].
  rewrite update_rest_spec by (try apply H; try (left; reflexivity); assumption). destruct (partner tol z rs d) as [r|].
  - rewrite IH; [unfold sols; cbn [map app fst snd]; rewrite <- app_assoc; reflexivity| |exact D2]. intros x I NX. unfold isLineAlreadyPresent. rewrite existsb_app. fold (isLineAlreadyPresent x s). rewrite (H x (or_intror I) NX). cbn. rewrite orb_false_r.
    rewrite Forall_forall in D1. specialize (D1 x I). destruct (Qeq_bool_spec (d_pos d) (d_pos x)); [contradiction|reflexivity].
  - apply IH; [intros; apply H; [right; assumption|assumption]|exact D2].
Qed.

(** sorting *)
Lemma sol_lt_asym x y : sol_lt x y = true -> sol_lt y x = false.
Proof.
  unfold sol_lt. destruct (Qeq_bool_spec (d_pos (s_d x)) (d_pos (s_d y))) as [E|E]; destruct (Qeq_bool_spec (d_pos (s_d y)) (d_pos (s_d x))) as [F|F]; intros H; apply Qltb_true in H; apply Qltb_false; lra.
Qed.
Lemma sol_le_trans x y z : sol_lt y x = false -> sol_lt z y = false -> sol_lt z x = false.
Proof.
  unfold sol_lt. destruct (Qeq_bool_spec (d_pos (s_d y)) (d_pos (s_d x))) as [E|E]; destruct (Qeq_bool_spec (d_pos (s_d z)) (d_pos (s_d y))) as [F|F]; destruct (Qeq_bool_spec (d_pos (s_d z)) (d_pos (s_d x))) as [G|G]; intros H K; apply Qltb_false in H, K; apply Qltb_false; try lra;
    exfalso; try (apply G; lra); try (apply F; lra); try (apply E; lra).
Qed.
Lemma sol_lt_false x y : ~ d_pos (s_d x) == d_pos (s_d y) -> sol_lt y x = false -> d_pos (s_d x) < d_pos (s_d y).
Proof. intros N. unfold sol_lt. destruct (Qeq_bool_spec (d_pos (s_d y)) (d_pos (s_d x))) as [E|E]; [exfalso; apply N; symmetry; exact E|]. intros H. apply Qltb_false in H. destruct (Qlt_le_dec (d_pos (s_d x)) (d_pos (s_d y))) as [L|L]; [exact L|]. exfalso. apply N. lra. Qed.
Lemma FOP_In {A} (R : A -> A -> Prop) l : (forall x y, R x y -> R y x) -> ForallOrdPairs R l -> forall a b, In a l -> In b l -> a = b \/ R a b.
Proof. intros SY H a b Ia Ib. destruct (ForallOrdPairs_In H a b Ia Ib) as [E|[E|E]]; auto. Qed.
Lemma FOP_perm {A} (R : A -> A -> Prop) l l' : (forall x y, R x y -> R y x) -> Permutation l l' -> ForallOrdPairs R l -> ForallOrdPairs R l'.
Proof.
  intros SY. induction 1 as [|x l l' P IH|x y l|l l' l'' P1 IH1 P2 IH2]; intros H; [exact H| | |auto].
  - inversion H as [|? ? F K]; subst. constructor; [|apply IH; exact K]. rewrite Forall_forall in *. intros z I. apply F. apply (Permutation_in z (Permutation_sym P)). exact I.
  - inversion H as [|? ? F K]; subst. inversion K as [|? ? G L]; subst. inversion F as [|? ? F1 F2]; subst. constructor; [constructor; [apply SY; exact F1|exact G]|constructor; [exact F2|exact L]].
Qed.
Lemma sorted_positions s : apart_positions s -> by_position (isort sol_lt s).
Proof.
  intros A. assert (A2 : apart_positions (isort sol_lt s)) by (eapply FOP_perm; [intros x y N E; apply N; symmetry; exact E|apply Permutation_sym, isort_perm|exact A]).
  pose proof (isort_sorted sol_lt sol_lt_asym sol_le_trans s) as L. unfold lesorted in L. unfold by_position. induction L as [|x t Lt IH F]; [constructor|]. inversion A2 as [|? ? F2 A3]; subst. constructor; [apply IH; exact A3|].
  rewrite Forall_forall in *. intros y I. apply sol_lt_false; [apply F2; exact I|apply F; exact I].
Qed.

(** refining *)
Definition in_range (lo hi : Q) (s : list sol) : Prop := lo < mean_z s < hi.
Lemma below_false n k : below n k = false -> (0 <= k <= Z.of_nat n)%Z.
Proof. unfold below. intros H. apply orb_false_iff in H. destruct H as (A & B). apply Z.ltb_ge in A, B. lia. Qed.
Lemma below_true n k : below n k = true -> (k < 0 \/ Z.of_nat n < k)%Z.
Proof. unfold below. intros H. apply orb_true_iff in H. destruct H as [H|H]; apply Z.ltb_lt in H; lia. Qed.
Lemma refine_sound lo hi thr : forall l new s, In s (refine_loop lo hi thr l new) -> In s new \/ exists s0, In s0 l /\ s = isort sol_lt s0 /\ (0 <= thr <= Z.of_nat (List.length s0))%Z /\ in_range lo hi s.
Proof.
  induction l as [|s0 t IH]; intros new s I; cbn [refine_loop] in I; [left; exact I|]. destruct (below (List.length s0) thr) eqn:B.
  - destruct (IH _ _ I) as [H|(x & X & H)]; [left; exact H|right; exists x; split; [right; exact X|exact H]].
  - cbv zeta in I. destruct (existsb _ new) eqn:X.
    + destruct (IH _ _ I) as [H|(x & Y & H)]; [left; exact H|right; exists x; split; [right; exact Y|exact H]].
    + destruct (IH _ _ I) as [H|(x & Y & H)]; [|right; exists x; split; [right; exact Y|exact H]].
      destruct (Qltb_spec lo (mean_z (isort sol_lt s0))) as [L|L]; destruct (Qltb_spec (mean_z (isort sol_lt s0)) hi) as [R|R]; cbn [andb] in H; try (left; exact H).
      apply in_app_or in H. destruct H as [H|[<-|[]]]; [left; exact H|]. right. exists s0. split; [left; reflexivity|]. split; [reflexivity|]. split; [apply below_false; exact B|]. split; assumption.
Qed.
Lemma refine_keeps lo hi thr : forall l new s, In s new -> In s (refine_loop lo hi thr l new).
Proof.
  induction l as [|s0 t IH]; intros new s I; cbn [refine_loop]; [exact I|]. destruct (below _ _); [apply IH; exact I|]. cbv zeta. destruct (existsb _ new); [apply IH; exact I|]. apply IH. destruct (Qltb lo _ && Qltb _ hi)%bool; [apply in_or_app; left|]; exact I.
Qed.
Lemma same_refl s : same_items s s = true.
Proof.
  induction s as [|x t IH]; [reflexivity|]. cbn [same_items]. unfold det_ne. rewrite !(proj2 (Qeq_bool_iff _ _) (Qeq_refl _)), Z.eqb_refl. cbn. exact IH.
Qed.
Lemma equal_refl s : AreSolutionSetsEqual s s = true.
Proof. unfold AreSolutionSetsEqual. rewrite Nat.eqb_refl. apply same_refl. Qed.
Lemma refine_complete lo hi thr : forall l new s0, In s0 l -> (0 <= thr <= Z.of_nat (List.length s0))%Z -> in_range lo hi (isort sol_lt s0) ->
  exists n, In n (refine_loop lo hi thr l new) /\ AreSolutionSetsEqual n (isort sol_lt s0) = true.
Proof.
  induction l as [|x t IH]; intros new s0 I0 T R; [destruct I0|]. cbn [refine_loop]. destruct I0 as [E0|I].
  - rewrite <- E0 in *; clear s0 E0. replace (below (List.length x) thr) with false. 2:{ symmetry. unfold below. apply orb_false_iff. split; apply Z.ltb_ge; lia. }
    cbv zeta. destruct (existsb _ new) eqn:X.
    + apply existsb_exists in X. destruct X as (n & N1 & N2). exists n. split; [apply refine_keeps; exact N1|exact N2].
    + destruct R as (R1 & R2). apply Qltb_true in R1, R2. rewrite R1, R2. cbn [andb]. exists (isort sol_lt x). split; [apply refine_keeps; apply in_or_app; right; left; reflexivity|apply equal_refl].
  - destruct (below (List.length x) thr); [apply IH; assumption|]. cbv zeta. destruct (existsb _ new); apply IH; assumption.
Qed.
Lemma refine_unique lo hi thr : forall l new, ForallOrdPairs (fun a b => AreSolutionSetsEqual a b = false) new -> ForallOrdPairs (fun a b => AreSolutionSetsEqual a b = false) (refine_loop lo hi thr l new).
Proof.
  induction l as [|x t IH]; intros new H; cbn [refine_loop]; [exact H|]. destruct (below _ _); [apply IH; exact H|]. cbv zeta. destruct (existsb _ new) eqn:X; [apply IH; exact H|]. apply IH. destruct (Qltb lo _ && Qltb _ hi)%bool; [|exact H].
  apply FOP_snoc; [exact H|]. intros y Y. destruct (AreSolutionSetsEqual y (isort sol_lt x)) eqn:E; [|reflexivity]. assert (existsb (fun n => AreSolutionSetsEqual n (isort sol_lt x)) new = true) by (apply existsb_exists; exists y; auto). congruence.
Qed.
(** means *)
Lemma sum_z_spec s : forall a, fold_left (fun v x => v + s_z x) s a == a + fold_right (fun x v => s_z x + v) 0 s.
Proof. induction s as [|x t IH]; intros a; cbn [fold_left fold_right]; [ring|]. rewrite IH. ring. Qed.
Lemma mean_spec s : mean_z s == mean_redshift s.
Proof. unfold mean_z, mean_redshift, sum_z. rewrite sum_z_spec. setoid_replace (0 + fold_right (fun x v => s_z x + v) 0 s) with (fold_right (fun x v => s_z x + v) 0 s) by ring. reflexivity. Qed.
Lemma mean_perm a b : Permutation a b -> mean_redshift a == mean_redshift b.
Proof.
  intros P. unfold mean_redshift. rewrite (Permutation_length P). assert (E : fold_right (fun x v => s_z x + v) 0 a == fold_right (fun x v => s_z x + v) 0 b); [|rewrite E; reflexivity].
  induction P as [|x l l' P IH|x y l|l l' l'' P1 IH1 P2 IH2]; cbn [fold_right]; [reflexivity|rewrite IH; reflexivity|ring|rewrite IH1; exact IH2].
Qed.
