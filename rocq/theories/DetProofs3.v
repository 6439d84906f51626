(** Proofs for C72, third part: the retest near strong lines. *)
From Verif Require Import Base SortLib F64 AxisModel AxisSpec AxisProofs MedianModel MedianSpec PeakModel PeakSpec PeakProofs MatchModel MatchProofs MatchProofs2 DetModel DetSpec DetProofs DetProofs2.
Open Scope Q_scope.

Lemma line_lt_spec a b : line_lt a b = true <-> l_pos a < l_pos b \/ l_pos a == l_pos b /\ l_amp a < l_amp b.
Proof.
  unfold line_lt. destruct (Qeq_bool (l_pos a) (l_pos b)) eqn:E.
  - apply Qeq_bool_iff in E. rewrite Qltb_true. split; [auto|]. intros [X|(_ & X)]; [lra|exact X].
  - assert (N : ~ l_pos a == l_pos b) by (intros X; apply Qeq_bool_iff in X; congruence). rewrite Qltb_true. split; [auto|]. intros [X|(X & _)]; [exact X|contradiction].
Qed.
Lemma line_ge a b : line_lt b a = false <-> l_pos a < l_pos b \/ l_pos a == l_pos b /\ l_amp a <= l_amp b.
Proof.
  split.
  - intros H. assert (N : ~ (l_pos b < l_pos a \/ l_pos b == l_pos a /\ l_amp b < l_amp a)) by (intros X; apply line_lt_spec in X; congruence).
    destruct (Qlt_le_dec (l_pos a) (l_pos b)) as [L|L]; [auto|]. right. destruct (Qlt_le_dec (l_pos b) (l_pos a)) as [L'|L']; [exfalso; apply N; auto|]. assert (E : l_pos a == l_pos b) by lra. split; [exact E|]. destruct (Qlt_le_dec (l_amp b) (l_amp a)) as [M|M]; [exfalso; apply N; right; split; [symmetry; exact E|exact M]|exact M].
  - intros H. apply not_true_is_false. intros X. apply line_lt_spec in X. destruct H as [H|(H1 & H2)]; destruct X as [X|(X1 & X2)]; lra.
Qed.
Lemma isort_in_order l : in_order (isort line_lt l).
Proof.
  assert (H : lesorted line_lt (isort line_lt l)).
  { apply isort_sorted.
    - intros x y X. apply line_ge. apply line_lt_spec in X. destruct X as [X|(X & Y)]; [auto|]. right. split; [exact X|lra].
    - intros x y z X Y. apply line_ge in X, Y. apply line_ge. destruct X as [X|(X1 & X2)]; destruct Y as [Y|(Y1 & Y2)]; [left; lra|left; lra|left; lra|right; split; lra]. }
  unfold lesorted in H. unfold in_order. induction H as [|a t S IH F]; constructor; [exact IH|]. rewrite Forall_forall in *. intros x X. apply line_ge. apply F. exact X.
Qed.

Lemma retest_loop_spec red winsize cut idx : forall sel k cat cat', retest_loop red winsize cut idx k sel cat = Ok cat' ->
  exists added, Permutation cat' (cat ++ added) /\ (added = [] -> cat' = cat) /\ (added <> [] -> in_order cat') /\
    forall x, In x added <-> exists i p g, nth_error sel i = Some (p, g) /\ again red winsize cut idx (k + i) p g x.
Proof.
  induction sel as [|(p, g) t IH]; intros k cat cat' H; cbn [retest_loop] in H.
  { inversion H; subst. exists []. split; [rewrite app_nil_r; reflexivity|]. split; [reflexivity|]. split; [congruence|]. intros x. split; [intros []|intros (i & p & g & N & _); destruct i; discriminate]. }
  destruct (zvget idx (fst p)) as [a| |] eqn:A; [|discriminate|discriminate]. cbn [rbind] in H. destruct (zvget idx (snd p)) as [b| |] eqn:B; [|discriminate|discriminate]. cbn [rbind] in H. destruct (ComputeFluxes red winsize (a, b) []) as [((ratio, h), d)| |] eqn:C; [|discriminate|discriminate]. cbn [rbind] in H.
  apply IH in H. destruct H as (added & P & E1 & E2 & IN). destruct (flt (Fin cut) ratio) eqn:F.
  - set (x0 := mkLine k true (gp_pos g) false (gp_amp g) (gp_width g) ratio (-1) (-1) (-1)) in *. exists (x0 :: added). split; [|split; [discriminate|split]].
    + rewrite P, isort_perm, <- app_assoc. reflexivity.
    + intros _. destruct added as [|y l]; [rewrite (E1 eq_refl); apply isort_in_order|apply E2; discriminate].
    + intros x. cbn [In]. rewrite IN. split.
      * intros [<-|(i & q & g' & N & X)]; [exists 0%nat, p, g; split; [reflexivity|]; exists a, b, ratio, h, d; rewrite Nat.add_0_r; auto 6|exists (S i), q, g'; split; [exact N|]; replace (k + S i)%nat with (S k + i)%nat by lia; exact X].
      * intros ([|i] & q & g' & N & X); [left|right; exists i, q, g'; replace (k + S i)%nat with (S k + i)%nat in X by lia; auto]. cbn in N. inversion N; subst q g'. destruct X as (a' & b' & r' & h' & d' & A' & B' & C' & _ & ->). rewrite A in A'; inversion A'; subst a'. rewrite B in B'; inversion B'; subst b'. rewrite C in C'; inversion C'; subst. rewrite Nat.add_0_r. reflexivity.
  - exists added. split; [exact P|]. split; [exact E1|]. split; [exact E2|]. intros x. rewrite IN. split.
    + intros (i & q & g' & N & X); exists (S i), q, g'; split; [exact N|]; replace (k + S i)%nat with (S k + i)%nat by lia; exact X.
    + intros ([|i] & q & g' & N & X); [exfalso|exists i, q, g'; replace (k + S i)%nat with (S k + i)%nat in X by lia; auto]. cbn in N. inversion N; subst q g'. destruct X as (a' & b' & r' & h' & d' & A' & B' & C' & F' & ->). rewrite A in A'; inversion A'; subst a'. rewrite B in B'; inversion B'; subst b'. rewrite C in C'; inversion C'; subst. congruence.
Qed.
Lemma near_spec winsize c l : near winsize c l = true <-> Qabs (l_pos l - c) < inject_Z winsize / 2.
Proof. unfold near. rewrite andb_true_iff, !Qltb_true, Qabs_Qlt_condition. split; intros (A & B); split; lra. Qed.
Lemma zvget_sample lam i x : zvget lam i = Ok x <-> sample lam i x.
Proof. unfold zvget, sample. destruct (Z.ltb_spec i 0) as [L|L]; [split; [discriminate|intros (X & _); lia]|]. rewrite vget_Ok. split; [auto|intros (_ & X); exact X]. Qed.
Lemma select_spec lam winsize strong : forall l sel, select lam winsize strong l = Ok sel -> forall p g, In (p, g) sel <-> In (p, g) l /\ exists x, In x strong /\ beside lam winsize p x.
Proof.
  induction l as [|(q, g0) t IH]; intros sel H p g; cbn [select] in H; [inversion H; cbn; tauto|].
  destruct (zvget lam (fst q)) as [a| |] eqn:A; [|discriminate|discriminate]. cbn [rbind] in H. destruct (zvget lam (snd q)) as [b| |] eqn:B; [|discriminate|discriminate]. cbn [rbind] in H. destruct (select lam winsize strong t) as [k| |] eqn:K; [|discriminate|discriminate]. cbn [rbind] in H. inversion H; subst sel. rewrite in_app_iff, (IH k eq_refl p g), in_map_iff. cbn [In].
  apply zvget_sample in A, B. split.
  - intros [(x & E & X)|(I0 & X)]; [|auto]. inversion E; subst. apply filter_In in X. destruct X as (X & N). split; [auto|]. exists x. split; [exact X|]. exists a, b. split; [exact A|]. split; [exact B|]. apply near_spec in N. setoid_replace ((a + b) / 2) with ((b + a) / 2) by (field; discriminate). exact N.
  - intros ([E|I0] & x & X & BS); [|right; split; [exact I0|eauto]]. inversion E; subst. left. exists x. split; [reflexivity|]. apply filter_In. split; [exact X|]. destruct BS as (a' & b' & A' & B' & BS). rewrite <- (sample_inj _ _ _ _ A A') in BS. rewrite <- (sample_inj _ _ _ _ B B') in BS. apply near_spec. setoid_replace ((b + a) / 2) with ((a + b) / 2) by (field; discriminate). exact BS.
Qed.
Lemma select_total lam winsize strong : forall l, (forall p g, In (p, g) l -> (0 <= fst p < Z.of_nat (List.length lam))%Z /\ (0 <= snd p < Z.of_nat (List.length lam))%Z) -> exists sel, select lam winsize strong l = Ok sel.
Proof.
  induction l as [|(q, g0) t IH]; intros H; cbn [select]; [eauto|]. destruct (H q g0 (or_introl eq_refl)) as (H1 & H2). destruct (vget_sample lam (fst q) H1) as (a & A & _). destruct (vget_sample lam (snd q) H2) as (b & B & _). unfold zvget. rewrite A. cbn [rbind]. rewrite B. cbn [rbind]. destruct IH as (k & K); [intros p g I0; apply (H p g); right; exact I0|]. rewrite K. cbn [rbind]. eauto.
Qed.

(** ** the exclusion of the strong lines *)
Lemma excluded_spec ex w : excluded ex w = true <-> exists e, In e ex /\ within e w.
Proof. unfold excluded. rewrite existsb_exists. split; intros (e & E & X); exists e; (split; [exact E|]); [apply andb_true_iff in X; destruct X as (X & Y); apply Qle_bool_iff in X, Y; split; assumption|destruct X as (X & Y); apply andb_true_iff; split; apply Qle_bool_iff; assumption]. Qed.
Lemma trim_shrinks l e w : within (trim l e) w -> within e w.
Proof.
  unfold trim, within. destruct (Z.ltb_spec (fst e) (snd l)) as [A|A]; cbn [andb]; [|auto]. destruct (Z.ltb_spec (fst l) (snd e)) as [B|B]; [|auto]. destruct (Z.ltb_spec (fst l) (fst e)) as [C|C]; cbn [fst snd]; intros (X & Y); (split; [|]); auto.
  - apply Zlt_le_weak in A. rewrite Zle_Qle in A. lra.
  - apply Zlt_le_weak in B. rewrite Zle_Qle in B. lra.
Qed.
Lemma trim_clears l e w : inject_Z (fst l) < w < inject_Z (snd l) -> ~ within (trim l e) w.
Proof.
  unfold trim, within. intros (L1 & L2). destruct (Z.ltb_spec (fst e) (snd l)) as [A|A]; cbn [andb].
  - destruct (Z.ltb_spec (fst l) (snd e)) as [B|B].
    + destruct (Z.ltb_spec (fst l) (fst e)) as [C|C]; cbn [fst snd]; intros (X & Y); lra.
    + rewrite Zle_Qle in B. intros (X & Y). lra.
  - rewrite Zle_Qle in A. intros (X & Y). lra.
Qed.
Lemma trims_spec lam : forall sel ex ex', trims lam sel ex = Ok ex' -> forall w, excluded ex' w = true ->
  excluded ex w = true /\ forall p g a b, In (p, g) sel -> sample lam (fst p) a -> sample lam (snd p) b -> ~ (inject_Z (to_int a) < w < inject_Z (to_int b)).
Proof.
  induction sel as [|(q, g0) t IH]; intros ex ex' H w X; cbn [trims] in H; [inversion H; subst; split; [exact X|intros p g a b []]|].
  destruct (zvget lam (fst q)) as [a| |] eqn:A; [|discriminate|discriminate]. cbn [rbind] in H. destruct (zvget lam (snd q)) as [b| |] eqn:B; [|discriminate|discriminate]. cbn [rbind] in H. destruct (IH _ _ H w X) as (E & R). apply excluded_spec in E. destruct E as (e' & E' & W). apply in_map_iff in E'. destruct E' as (e & <- & E). split.
  - apply excluded_spec. exists e. split; [exact E|]. apply trim_shrinks in W. exact W.
  - intros p g a' b' [I0|I0] SA SB; [|apply (R p g a' b' I0 SA SB)]. inversion I0; subst. apply zvget_sample in A, B. rewrite (sample_inj _ _ _ _ SA A), (sample_inj _ _ _ _ SB B). intros N. apply (trim_clears (to_int a, to_int b) e w N W).
Qed.
Lemma trims_total lam : forall sel ex, (forall p g, In (p, g) sel -> (0 <= fst p < Z.of_nat (List.length lam))%Z /\ (0 <= snd p < Z.of_nat (List.length lam))%Z) -> exists ex', trims lam sel ex = Ok ex'.
Proof.
  induction sel as [|(q, g0) t IH]; intros ex H; cbn [trims]; [eauto|]. destruct (H q g0 (or_introl eq_refl)) as (H1 & H2). destruct (vget_sample lam (fst q) H1) as (a & A & _). destruct (vget_sample lam (snd q) H2) as (b & B & _). unfold zvget. rewrite A. cbn [rbind]. rewrite B. cbn [rbind]. apply IH. intros p g I0. apply (H p g). right. exact I0.
Qed.
Lemma exclusions_spec : forall l ex, exclusions l = Ok ex -> forall e, In e ex <-> exists x c, In x l /\ l_cut x = Fin c /\ e = (to_int (l_pos x - (235 # 100) * c), to_int (l_pos x + (235 # 100) * c)).
Proof.
  induction l as [|x t IH]; intros ex H e; cbn [exclusions] in H; [inversion H; split; [intros []|intros (x & c & [] & _)]|]. destruct (exclusion x) as [e0| |] eqn:E; [|discriminate|discriminate]. cbn [rbind] in H. destruct (exclusions t) as [k| |]; [|discriminate|discriminate]. cbn [rbind] in H. inversion H; subst. cbn [In]. rewrite (IH k eq_refl). unfold exclusion in E. destruct (l_cut x) as [| | |c] eqn:C; try discriminate. inversion E; subst. clear E. split.
  - intros [<-|(y & c' & Y & C' & ->)]; [exists x, c; auto|exists y, c'; auto].
  - intros (y & c' & [<-|Y] & C' & ->); [left; rewrite C in C'; inversion C'; reflexivity|right; eauto].
Qed.
Lemma exclusions_total : forall l, (forall x, In x l -> exists c, l_cut x = Fin c) -> exists ex, exclusions l = Ok ex.
Proof. induction l as [|x t IH]; intros H; cbn [exclusions]; [eauto|]. destruct (H x (or_introl eq_refl)) as (c & C). unfold exclusion. rewrite C. cbn [rbind]. destruct IH as (k & K); [intros y Y; apply H; right; exact Y|]. rewrite K. cbn [rbind]. eauto. Qed.

(** ** the reduced spectrum *)
Lemma index_from_nth : forall mask v k, (k < List.length mask)%nat -> nth_error (index_from v mask) k = Some (v + Z.of_nat (kept_before mask (S k)))%Z.
Proof.
  induction mask as [|m t IH]; intros v k L; [cbn in L; lia|]. cbn [index_from]. unfold kept_before. cbn [firstn filter]. destruct k as [|k].
  - cbn [nth_error firstn filter]. destruct (Qeq_bool m 0); cbn [negb filter List.length]; f_equal; lia.
  - cbn [nth_error]. rewrite IH by (cbn in L; lia). unfold kept_before. destruct (Qeq_bool m 0); cbn [negb List.length]; f_equal; lia.
Qed.
Lemma reducedindexes_nth m t k : (k < List.length (m :: t))%nat -> nth_error (reducedindexes (m :: t)) k = Some (Z.of_nat (kept_before (m :: t) (S k)) - (if Qeq_bool m 0 then 0 else 1))%Z.
Proof.
  intros L. cbn [reducedindexes]. unfold kept_before. cbn [firstn filter]. destruct k as [|k].
  - cbn [nth_error firstn filter]. destruct (Qeq_bool m 0); reflexivity.
  - cbn [nth_error]. rewrite index_from_nth by (cbn in L; lia). unfold kept_before. destruct (Qeq_bool m 0); cbn [negb List.length]; f_equal; lia.
Qed.
Lemma keep_nth {A} : forall mask (v : list A) k m, flags mask -> List.length v = List.length mask -> nth_error mask k = Some m -> m <> 0 -> nth_error (keep_masked mask v) (kept_before mask k) = nth_error v k.
Proof.
  induction mask as [|m0 t IH]; intros v k m F L N M; [destruct k; discriminate|]. destruct v as [|x v]; [discriminate|]. cbn [keep_masked]. unfold kept_before. destruct k as [|k].
  - cbn in N. inversion N; subst. destruct (F m (or_introl eq_refl)) as [-> | ->]; [congruence|]. reflexivity.
  - cbn [firstn filter nth_error]. specialize (IH v k m (fun y Y => F y (or_intror Y)) ltac:(cbn in L; lia) N M). unfold kept_before in IH. destruct (F m0 (or_introl eq_refl)) as [-> | ->]; cbn; exact IH.
Qed.
Lemma keep_length {A} : forall mask (v : list A), flags mask -> List.length v = List.length mask -> List.length (keep_masked mask v) = kept_before mask (List.length mask).
Proof.
  induction mask as [|m0 t IH]; intros v F L; [reflexivity|]. destruct v as [|x v]; [discriminate|]. cbn [keep_masked List.length]. unfold kept_before. cbn [firstn filter]. specialize (IH v (fun y Y => F y (or_intror Y)) ltac:(cbn in L; lia)). unfold kept_before in IH. destruct (F m0 (or_introl eq_refl)) as [-> | ->]; cbn; rewrite IH; reflexivity.
Qed.
Lemma kept_mono mask i j : (i <= j)%nat -> (kept_before mask i <= kept_before mask j)%nat.
Proof.
  intros L. unfold kept_before. revert i j L. induction mask as [|m t IH]; intros i j L; [destruct i, j; cbn; lia|]. destruct i as [|i]; [cbn; lia|]. destruct j as [|j]; [lia|]. cbn [firstn filter]. specialize (IH i j ltac:(lia)). destruct (negb _); cbn [List.length]; lia.
Qed.
Lemma kept_first m t k : Qeq_bool m 0 = false -> (1 <= kept_before (m :: t) (S k))%nat.
Proof. intros H. unfold kept_before. cbn [firstn filter]. rewrite H. cbn. lia. Qed.
Lemma strong_mask_flags lam ex : flags (strong_mask lam ex).
Proof. intros m M. apply in_map_iff in M. destruct M as (w & <- & _). destruct (excluded ex w); auto. Qed.
Lemma kept_last m t mask k : mask = m :: t -> nth_error mask k = Some 1 -> kept_before mask (S k) = S (kept_before mask k).
Proof.
  intros -> . unfold kept_before. generalize (m :: t). clear. intros l. revert k. induction l as [|x l IH]; intros k N; [destruct k; discriminate|]. destruct k as [|k]; [cbn in N; inversion N; reflexivity|]. cbn [nth_error] in N. specialize (IH k N). change (firstn (S (S k)) (x :: l)) with (x :: firstn (S k) l). change (firstn (S k) (x :: l)) with (x :: firstn k l). cbn [filter]. destruct (negb (Qeq_bool x 0)); cbn [List.length]; rewrite IH; reflexivity.
Qed.
(** the index of a kept sample, and of one which is not *)
Lemma reduced_index {A} m t (v : list A) k mk i : flags (m :: t) -> m = 1 -> List.length v = List.length (m :: t) -> nth_error (m :: t) k = Some mk -> nth_error (reducedindexes (m :: t)) k = Some i ->
  (mk = 1 -> nth_error (keep_masked (m :: t) v) (Z.to_nat i) = nth_error v k) /\ (0 <= i < Z.of_nat (List.length (keep_masked (m :: t) v)))%Z.
Proof.
  intros F -> LV NM NI. assert (K : (k < List.length (1%Q :: t))%nat) by (apply nth_error_Some; congruence). rewrite reducedindexes_nth in NI by exact K. change (Qeq_bool 1 0) with false in NI. cbv iota in NI. assert (EI : i = (Z.of_nat (kept_before (1%Q :: t) (S k)) - 1)%Z) by congruence. clear NI. subst i. pose proof (kept_first 1 t k eq_refl) as KF. split.
  - intros ->. rewrite (kept_last 1 t _ k eq_refl NM). replace (Z.to_nat (Z.of_nat (S (kept_before (1%Q :: t) k)) - 1)) with (kept_before (1%Q :: t) k) by lia. apply (keep_nth (1%Q :: t) v k 1 F LV NM). discriminate.
  - rewrite keep_length by assumption. pose proof (kept_mono (1%Q :: t) (S k) (List.length (1%Q :: t)) ltac:(lia)). lia.
Qed.
Lemma reducedindexes_length mask : List.length (reducedindexes mask) = List.length mask.
Proof. destruct mask as [|m t]; [reflexivity|]. cbn. f_equal. generalize 0%Z. induction t as [|x t IH]; intros v; [reflexivity|]. cbn. f_equal. apply IH. Qed.
