(** Proofs for C17. *)
From Verif Require Import Base RBase RX AxisModel AxisSpec AxisProofs AxisFlagModel AxisFlagSpec.
Open Scope R_scope.

Lemma Rsi_tail a l : Rstrictly_increasing (a :: l) -> Rstrictly_increasing l.
Proof. intros H i j x y Hij Hx Hy. apply (H (S i) (S j) x y); simpl; auto; lia. Qed.
Lemma Rsi_cons2 a b l : a < b -> Rstrictly_increasing (b :: l) -> Rstrictly_increasing (a :: b :: l).
Proof.
  intros Hab H i j x y Hij Hx Hy. destruct j as [|j]; [lia|]. simpl in Hy. destruct i as [|i]; simpl in Hx.
  - inversion Hx; subst. destruct j as [|j]; simpl in Hy; [inversion Hy; subst; auto|].
    assert (b < y) by (apply (H 0%nat (S j)); simpl; auto; lia). lra.
  - apply (H i j); auto; lia.
Qed.

Lemma check_sorted_cons2 a b l : check_sorted (a :: b :: l) = (Rltb a b && check_sorted (b :: l))%bool.
Proof.
  unfold check_sorted. change (is_sorted (a :: b :: l)) with (if Rltb b a then false else is_sorted (b :: l)).
  change (has_adjacent_equal (a :: b :: l)) with (if Reqb a b then true else has_adjacent_equal (b :: l)).
  destruct (Rltb_spec b a); destruct (Reqb_spec a b); destruct (Rltb_spec a b); try lra; cbn; auto; try apply andb_false_r.
Qed.
Lemma check_sorted_spec l : check_sorted l = true <-> Rstrictly_increasing l.
Proof.
  induction l as [|a [|b l] IH].
  - split; auto. intros _ i j x y _ H. destruct i; discriminate.
  - split; auto. intros _ i j x y Hij Hx Hy. destruct j as [|[|j]]; try lia; discriminate.
  - rewrite check_sorted_cons2, andb_true_iff, IH. destruct (Rltb_spec a b) as [H|H].
    + split; [intros [_ K]; apply Rsi_cons2; auto|]. intro K. split; auto. eapply Rsi_tail; eauto.
    + split; [intros [K _]; discriminate|]. intro K. exfalso. apply H. apply (K 0%nat 1%nat); simpl; auto.
Qed.
Lemma check_sorted_short l : (length l < 2)%nat -> check_sorted l = true.
Proof. destruct l as [|a [|b l]]; simpl; intro H; try lia; reflexivity. Qed.

Lemma check_sorted_map f l : (forall x y, x < y <-> f x < f y) -> check_sorted (map f l) = check_sorted l.
Proof.
  intro Hf. induction l as [|a [|b l] IH]; try reflexivity.
  cbn [map] in *. rewrite !check_sorted_cons2. rewrite IH. f_equal.
  destruct (Rltb_spec (f a) (f b)); destruct (Rltb_spec a b); auto; exfalso; pose proof (Hf a b); tauto.
Qed.
Lemma check_sorted_map_rev f l : (forall x y, x < y -> f y <= f x) -> (2 <= length l)%nat ->
  check_sorted l = true -> check_sorted (map f l) = false.
Proof.
  intros Hf Hl Hs. destruct l as [|a [|b l]]; simpl in Hl; try lia.
  rewrite check_sorted_cons2 in Hs. apply andb_true_iff in Hs. destruct Hs as [Hs _].
  cbn [map]. rewrite check_sorted_cons2.
  destruct (Rltb_spec a b); [|discriminate]. destruct (Rltb_spec (f a) (f b)); auto.
  specialize (Hf a b r). lra.
Qed.
Lemma check_sorted_map_const (f : R -> R) c (l : list R) : (forall x, f x = c) -> check_sorted (map f l) = Nat.ltb (length l) 2.
Proof.
  intro Hf. destruct l as [|a [|b l]]; try reflexivity.
  cbn [map]. rewrite check_sorted_cons2, !Hf. destruct (Rltb_spec c c); [lra|]. reflexivity.
Qed.

Definition Sinv (a : axis) : Prop := srt a = None \/ srt a = Some (check_sorted (samples a)).

Lemma scaling_inv (f : R -> R) c (l : list R) s :
  (0 < c -> forall x y, x < y <-> f x < f y) -> (c < 0 -> forall x y, x < y -> f y <= f x) ->
  (c = 0 -> forall x, f x = 0) -> (0 <= c \/ (2 <= length l)%nat) ->
  s = None \/ s = Some (check_sorted l) ->
  sorted_after_scaling c (length l) s = None \/ sorted_after_scaling c (length l) s = Some (check_sorted (map f l)).
Proof.
  intros Hp Hn Hz Hc Hs. unfold sorted_after_scaling.
  destruct (Reqb_spec c 0) as [E|E].
  - right. f_equal. symmetry. apply (check_sorted_map_const f 0). auto.
  - destruct (Rltb_spec c 0) as [L|L].
    + destruct Hs as [->| ->]; auto. destruct (check_sorted l) eqn:K; auto.
      right. f_equal. symmetry. apply check_sorted_map_rev; auto. destruct Hc; [lra|auto].
    + rewrite check_sorted_map; auto. intros; apply Hp; lra.
Qed.

Lemma firstn_si n l : Rstrictly_increasing l -> Rstrictly_increasing (firstn n l).
Proof.
  intros H i j x y Hij Hx Hy.
  assert (G : forall k z, nth_error (firstn n l) k = Some z -> nth_error l k = Some z).
  { clear. revert l. induction n; intros l k z Hk; [destruct k; discriminate|].
    destruct l; [destruct k; discriminate|]. destruct k; simpl in *; auto. }
  apply (H i j); auto.
Qed.
Lemma skipn_si n l : Rstrictly_increasing l -> Rstrictly_increasing (skipn n l).
Proof.
  revert l. induction n; intros l H; auto. destruct l; auto. apply IHn. eapply Rsi_tail; eauto.
Qed.
Lemma mask_si mask l out : length mask = length l -> maskVector mask l = Ok out -> Rstrictly_increasing l -> Rstrictly_increasing out.
Proof.
  intros Hl Hm Hs. destruct (proj2 (maskVector_spec mask l) Hl) as (out' & E & (p & I & M & L & N)).
  rewrite E in Hm; inversion Hm; subst out'.
  intros i j x y Hij Hx Hy.
  assert (Hj : (j < length out)%nat) by (eapply nth_error_len; eauto).
  destruct (nth_error_lt p i) as [a Ha]; [lia|]. destruct (nth_error_lt p j) as [b Hb]; [lia|].
  rewrite (N _ _ Ha) in Hx. rewrite (N _ _ Hb) in Hy. eapply (Hs a b); eauto.
Qed.

Lemma Sinv_keep l l' s : s = None \/ s = Some (check_sorted l) -> Rstrictly_increasing l -> Rstrictly_increasing l' ->
  s = None \/ s = Some (check_sorted l').
Proof.
  intros Hs H1 H2. apply check_sorted_spec in H1. apply check_sorted_spec in H2. rewrite H1 in Hs. rewrite H2. auto.
Qed.

Lemma Sinv_step a o a' : Sinv a -> keeps_sorted_verdict (samples a) o -> ax_step a o = Ok a' -> Sinv a'.
Proof.
  intros Ha Hk Hst. unfold Sinv in *. destruct o; cbn [ax_step keeps_sorted_verdict] in *.
  - inversion Hst; subst; clear Hst. cbn [scale samples srt].
    apply (scaling_inv (fun x => x * c) c); auto.
    + intros Hc x y. split; intro; nra.
    + intros Hc x y Hxy. nra.
    + intros -> x. ring.
  - inversion Hst; subst; clear Hst. cbn [divide samples srt].
    apply (scaling_inv (fun x => x / c) c); auto.
    + intros Hc x y. unfold Rdiv. assert (0 < / c) by (apply Rinv_0_lt_compat; auto). split; intro; nra.
    + intros Hc x y Hxy. unfold Rdiv. assert (/ c < 0) by (apply Rinv_lt_0_compat; auto). nra.
    + intros E; destruct Hk as [?|[? ?]]; lra.
    + destruct Hk as [?|[? ?]]; [left; lra|right; auto].
  - destruct (maskVector mask (samples a)) as [l| |] eqn:E; try discriminate. cbn [rbind] in Hst.
    inversion Hst; subst; clear Hst. cbn [samples srt].
    destruct (Nat.ltb_spec (length l) 2).
    + right. rewrite check_sorted_short; auto.
    + eapply Sinv_keep; eauto. eapply mask_si; eauto.
      unfold maskVector in E. destruct (Nat.eqb_spec (length mask) (length (samples a))); auto. discriminate.
  - destruct (Z.ltb_spec n 0); [discriminate|].
    set (l := (firstn (Z.to_nat n) (samples a) ++ repeat 0 (Z.to_nat n - length (samples a)))%list) in *.
    assert (Hlen : length l = Z.to_nat n).
    { unfold l. rewrite app_length, firstn_length, repeat_length. lia. }
    destruct (Z.ltb_spec n 2).
    + inversion Hst; subst a'. cbn [samples srt]. right. rewrite check_sorted_short; auto. lia.
    + destruct (Nat.ltb_spec (length (samples a)) (Z.to_nat n)); inversion Hst; subst a'; cbn [samples srt]; auto.
      destruct Hk as [Hk|[Hk|Hk]]; try lia.
      eapply Sinv_keep; eauto. unfold l.
      replace (Z.to_nat n - length (samples a))%nat with 0%nat by lia. cbn [repeat]. rewrite app_nil_r.
      apply firstn_si; auto.
  - destruct (Rltb_spec off 0); [discriminate|]. destruct (Reqb_spec off 0); [inversion Hst; subst; auto|].
    assert (Hp : 0 < off) by lra.
    destruct d; inversion Hst; subst; cbn [scale divide samples srt].
    + apply (scaling_inv (fun x => x * off) off); auto; try lra.
      intros Hc x y. split; intro; nra.
    + apply (scaling_inv (fun x => x / off) off); auto; try lra.
      intros Hc x y. unfold Rdiv. assert (0 < / off) by (apply Rinv_0_lt_compat; auto). split; intro; nra.
  - inversion Hst; subst; clear Hst. cbn [samples srt]. rewrite check_sorted_map; auto. intros; split; intro; lra.
  - destruct (samples a) as [|s0 t] eqn:E.
    + inversion Hst; subst. cbn [samples srt]. auto.
    + destruct ((i <=? S j)%nat && (j <? length (s0 :: t))%nat)%bool; [|discriminate].
      inversion Hst; subst; clear Hst. cbn [samples srt]. rewrite <- E in *.
      eapply Sinv_keep; eauto. apply firstn_si, skipn_si; auto.
  - destruct (write (samples a) i x); try discriminate. inversion Hst; subst. cbn. auto.
  - inversion Hst; subst. cbn. auto.
  - inversion Hst; subst. cbn. auto.
  - contradiction.
  - inversion Hst; subst; clear Hst. unfold isSorted. destruct (srt a) eqn:E; cbn [snd].
    + rewrite E. auto.
    + cbn. auto.
  - unfold IsLogSampled in Hst. destruct (lg a); cbn [rbind] in Hst; [inversion Hst; subst; auto|].
    unfold CheckLoglambdaSampling in Hst. destruct (samples a) as [|s0 [|s1 t]] eqn:E; try discriminate.
    rewrite <- E in *. destruct (some_bad_step (logstep s0 s1) (samples a)); cbn [rbind] in Hst.
    + inversion Hst; subst. cbn [snd samples srt]. auto.
    + destruct (back (samples a)); try discriminate. cbn [rbind] in Hst. inversion Hst; subst. cbn [snd samples srt]. auto.
Qed.

Lemma sorted_history_gen ops : forall a, Sinv a -> safe_history keeps_sorted_verdict a ops ->
  forall a', ax_run a ops = Ok a' -> Sinv a'.
Proof.
  induction ops as [|o t IH]; intros a Ha Hs a' Hr; cbn [ax_run safe_history] in *.
  - inversion Hr; subst; auto.
  - destruct Hs as [H1 H2]. destruct (ax_step a o) as [b| |] eqn:E; try discriminate. cbn [rbind] in Hr.
    eapply IH; [eapply Sinv_step; eauto|eauto|eauto].
Qed.
Lemma sorted_history l ops a : safe_history keeps_sorted_verdict (fresh l) ops -> ax_run (fresh l) ops = Ok a ->
  (fst (isSorted a) = true <-> Rstrictly_increasing (samples a)).
Proof.
  intros Hs Hr. assert (H : Sinv a) by (eapply sorted_history_gen; eauto; left; reflexivity).
  rewrite <- check_sorted_spec. unfold isSorted. destruct H as [H|H]; rewrite H; cbn [fst]; tauto.
Qed.

(** ** log verdict *)
Definition Linv (a : axis) : Prop :=
  lg a = None \/
  exists b a2, CheckLoglambdaSampling (fresh (samples a)) = Ok (b, a2) /\ lg a = Some b /\ (b = true -> stp a = stp a2).

Lemma logstep_map f l1 l2 :
  (xdiv (XFin (f l2)) (XFin (f l1)) = xdiv (XFin l2) (XFin l1)) -> logstep (f l1) (f l2) = logstep l1 l2.
Proof. intro H. unfold logstep. rewrite H. reflexivity. Qed.

Definition ratio_ok (f : R -> R) (l : list R) : Prop :=
  forall x y, In x l -> In y l -> logstep (f x) (f y) = logstep x y.
Lemma some_bad_step_map f s l : ratio_ok f l -> some_bad_step s (map f l) = some_bad_step s l.
Proof.
  induction l as [|a [|b l] IH]; intro H; try reflexivity.
  change (map f (a :: b :: l)) with (f a :: f b :: map f l).
  change (some_bad_step s (f a :: f b :: map f l)) with (if bad_step s (f a) (f b) then true else some_bad_step s (map f (b :: l))).
  change (some_bad_step s (a :: b :: l)) with (if bad_step s a b then true else some_bad_step s (b :: l)).
  rewrite IH; [|intros x y Hx Hy; apply H; right; auto].
  unfold bad_step. rewrite (H a b); simpl; auto.
Qed.
Lemma back_map {A B} (f : A -> B) l : back (map f l) = match back l with Ok b => Ok (f b) | Throw e => Throw e | UB => UB end.
Proof.
  unfold back. destruct l as [|a t]; [reflexivity|].
  change (map f (a :: t)) with (f a :: map f t). unfold vget.
  change (f a :: map f t) with (map f (a :: t)). rewrite map_length, nth_error_map.
  destruct (nth_error (a :: t) (length (a :: t) - 1)); reflexivity.
Qed.
Lemma back_in {A} (l : list A) b : back l = Ok b -> In b l.
Proof. unfold back. destruct l; [discriminate|]. intro H. apply vget_Ok in H. eapply nth_error_In; eauto. Qed.

Lemma CheckLog_map f l b a2 : ratio_ok f l -> CheckLoglambdaSampling (fresh l) = Ok (b, a2) ->
  exists a3, CheckLoglambdaSampling (fresh (map f l)) = Ok (b, a3) /\ stp a3 = stp a2.
Proof.
  intros Hr. unfold CheckLoglambdaSampling. cbn [fresh samples srt stp].
  destruct l as [|s0 [|s1 t]]; try discriminate.
  change (map f (s0 :: s1 :: t)) with (f s0 :: f s1 :: map f t). cbn match.
  change (f s0 :: f s1 :: map f t) with (map f (s0 :: s1 :: t)).
  rewrite some_bad_step_map; auto. rewrite (Hr s0 s1); [|simpl; auto|simpl; auto].
  destruct (some_bad_step (logstep s0 s1) (s0 :: s1 :: t)).
  - intro H; inversion H; subst. eexists; split; [reflexivity|]. reflexivity.
  - rewrite back_map. destruct (back (s0 :: s1 :: t)) as [b0| |] eqn:Eb; try discriminate. cbn [rbind].
    intro H; inversion H; subst. eexists; split; [reflexivity|]. cbn [stp].
    rewrite (Hr s0 b0); [|simpl; auto|eapply back_in; eauto]. rewrite map_length. reflexivity.
Qed.

Lemma xdiv_scale c x y : (0 < c \/ (c < 0 /\ x <> 0)) ->
  xdiv (XFin (y * c)) (XFin (x * c)) = xdiv (XFin y) (XFin x).
Proof.
  intro Hc. unfold xdiv. assert (c <> 0) by (destruct Hc as [|[? ?]]; lra).
  destruct (Reqb_spec x 0) as [E|E].
  - subst x. rewrite Rmult_0_l. destruct (Reqb_spec 0 0); [|lra].
    destruct Hc as [Hc|[Hc Hx]]; [|lra].
    destruct (Reqb_spec (y * c) 0); destruct (Reqb_spec y 0); auto.
    + exfalso. apply Rmult_integral in e0. lra.
    + subst y. exfalso. apply n. ring.
    + f_equal. destruct (Rltb_spec (y * c) 0); destruct (Rltb_spec y 0); auto; nra.
  - destruct (Reqb_spec (x * c) 0) as [K|K]; [apply Rmult_integral in K; lra|].
    f_equal. field. auto.
Qed.
Lemma ratio_scale c l : (0 < c \/ (c < 0 /\ Forall (fun x => x <> 0) l)) -> ratio_ok (fun x => x * c) l.
Proof.
  intros Hc x y Hx Hy. apply (logstep_map (fun x => x * c)). apply xdiv_scale.
  destruct Hc as [|[? HF]]; auto. right. split; auto. rewrite Forall_forall in HF. auto.
Qed.
Lemma ratio_div c l : (0 < c \/ (c < 0 /\ Forall (fun x => x <> 0) l)) -> ratio_ok (fun x => x / c) l.
Proof.
  intros Hc x y Hx Hy. unfold Rdiv. apply (ratio_scale (/ c) l); auto.
  destruct Hc as [|[? HF]]; [left; apply Rinv_0_lt_compat; auto|right; split; auto; apply Rinv_lt_0_compat; auto].
Qed.

Lemma Linv_map f a s : Linv a -> ratio_ok f (samples a) -> Linv (mkAxis (map f (samples a)) s (lg a) (stp a)).
Proof.
  intros [H|(b & a2 & H1 & H2 & H3)] Hr; [left; auto|right]. cbn [samples lg stp].
  destruct (CheckLog_map f (samples a) b a2 Hr H1) as (a3 & E1 & E2).
  exists b, a3. repeat split; auto. intro Hb. rewrite E2. auto.
Qed.

Lemma CheckLog_fresh a b a2 : CheckLoglambdaSampling a = Ok (b, a2) ->
  exists a3, CheckLoglambdaSampling (fresh (samples a)) = Ok (b, a3) /\ samples a2 = samples a /\ lg a2 = Some b /\ (b = true -> stp a2 = stp a3).
Proof.
  unfold CheckLoglambdaSampling. cbn [fresh samples srt stp].
  destruct (samples a) as [|s0 [|s1 t]]; try discriminate.
  destruct (some_bad_step (logstep s0 s1) (s0 :: s1 :: t)).
  - intro H; inversion H; subst. eexists; split; [reflexivity|]. repeat split. discriminate.
  - destruct (back (s0 :: s1 :: t)) as [b0| |]; try discriminate. cbn [rbind].
    intro H; inversion H; subst. eexists; split; [reflexivity|]. repeat split.
Qed.

Lemma Linv_step a o a' : Linv a -> keeps_log_verdict (samples a) o -> ax_step a o = Ok a' -> Linv a'.
Proof.
  intros Ha Hk Hst. destruct o; cbn [ax_step keeps_log_verdict] in *.
  - inversion Hst; subst. apply (Linv_map (fun x => x * c)); auto. apply ratio_scale; auto.
  - inversion Hst; subst. apply (Linv_map (fun x => x / c)); auto. apply ratio_div; auto.
  - destruct (maskVector mask (samples a)); try discriminate. inversion Hst; subst. left; reflexivity.
  - destruct (Z.ltb_spec n 0); [discriminate|]. destruct (Z.ltb_spec n 2); [lia|].
    destruct (Nat.ltb_spec (length (samples a)) (Z.to_nat n)); [|lia]. inversion Hst; subst. left; reflexivity.
  - destruct (Rltb_spec off 0); [discriminate|]. destruct (Reqb_spec off 0); [inversion Hst; subst; auto|].
    destruct d; inversion Hst; subst.
    + apply (Linv_map (fun x => x * off)); auto. apply ratio_scale; left; lra.
    + apply (Linv_map (fun x => x / off)); auto. apply ratio_div; left; lra.
  - contradiction.
  - contradiction.
  - destruct (write (samples a) i x); try discriminate. inversion Hst; subst. left; reflexivity.
  - inversion Hst; subst. left; reflexivity.
  - inversion Hst; subst. left; reflexivity.
  - contradiction.
  - inversion Hst; subst. unfold isSorted. destruct (srt a); auto.
  - unfold IsLogSampled in Hst. destruct (lg a) eqn:E; cbn [rbind] in Hst; [inversion Hst; subst; auto|].
    destruct (CheckLoglambdaSampling a) as [[b a2]| |] eqn:C; try discriminate. cbn [rbind snd] in Hst.
    inversion Hst; subst. destruct (CheckLog_fresh a b a' C) as (a3 & E1 & E2 & E3 & E4).
    right. exists b, a3. rewrite E2. auto.
Qed.
Lemma log_history_gen ops : forall a, Linv a -> safe_history keeps_log_verdict a ops ->
  forall a', ax_run a ops = Ok a' -> Linv a'.
Proof.
  induction ops as [|o t IH]; intros a Ha Hs a' Hr; cbn [ax_run safe_history] in *.
  - inversion Hr; subst; auto.
  - destruct Hs as [H1 H2]. destruct (ax_step a o) as [b| |] eqn:E; try discriminate. cbn [rbind] in Hr.
    eapply IH; [eapply Linv_step; eauto|eauto|eauto].
Qed.
Lemma log_history l ops a : safe_history keeps_log_verdict (fresh l) ops -> ax_run (fresh l) ops = Ok a ->
  answer (IsLogSampled a) = answer (IsLogSampled (fresh (samples a))) /\
  answer (GetlogGridStep a) = answer (GetlogGridStep (fresh (samples a))).
Proof.
  intros Hs Hr. assert (H : Linv a) by (eapply log_history_gen; eauto; left; reflexivity).
  unfold answer, GetlogGridStep, IsLogSampled. cbn [fresh lg].
  destruct H as [H|(b & a2 & H1 & H2 & H3)].
  - rewrite H. destruct (CheckLoglambdaSampling a) as [[b a2]|e|] eqn:C.
    + destruct (CheckLog_fresh a b a2 C) as (a3 & E1 & E2 & E3 & E4). fold (fresh (samples a)). rewrite E1. cbn [rbind fst snd].
      split; auto. destruct b; cbn [rbind fst]; auto. rewrite E4; auto.
    + exfalso. unfold CheckLoglambdaSampling in C. destruct (samples a) as [|s0 [|s1 t]]; try discriminate.
      destruct (some_bad_step _ _); try discriminate. destruct (back_map (fun x : R => x) (s0 :: s1 :: t)).
      unfold back, vget in C. destruct (nth_error _ _); discriminate.
    + fold (fresh (samples a)).
      assert (C' : CheckLoglambdaSampling (fresh (samples a)) = UB).
      { unfold CheckLoglambdaSampling in *. cbn [fresh samples srt stp]. destruct (samples a) as [|s0 [|s1 t]]; auto.
        destruct (some_bad_step _ _); try discriminate. destruct (back (s0 :: s1 :: t)); try discriminate; auto. }
      rewrite C'. cbn. auto.
  - rewrite H2. fold (fresh (samples a)). rewrite H1. cbn [rbind fst snd]. split; auto.
    destruct b; cbn [rbind fst]; auto. rewrite H3; auto.
Qed.

(** ** what a new axis answers *)
Lemma logstep_pos x y : 0 < x -> 0 < y -> logstep x y = XFin (ln (y / x)).
Proof.
  intros Hx Hy. unfold logstep, xdiv, xlog. destruct (Reqb_spec x 0); [lra|].
  assert (0 < y / x) by (apply Rdiv_lt_0_compat; auto).
  destruct (Rltb_spec 0 (y / x)); [reflexivity|lra].
Qed.
Lemma bad_step_pos st x y : 0 < x -> 0 < y -> st <> 0 ->
  bad_step (XFin st) x y = true <-> ~ Rabs (ln (y / x) - st) <= 1 / 10 * Rabs st.
Proof.
  intros Hx Hy Hst. unfold bad_step. rewrite logstep_pos; auto. unfold xsub, xneg, xadd, xdiv.
  destruct (Reqb_spec st 0); [contradiction|]. unfold xabs, xgt.
  assert (E : Rabs ((ln (y / x) + - st) / st) = Rabs (ln (y / x) - st) / Rabs st).
  { unfold Rdiv at 1. rewrite Rabs_mult, Rabs_inv. reflexivity. }
  rewrite E. assert (Hp : 0 < Rabs st) by (apply Rabs_pos_lt; auto).
  destruct (Rltb_spec (1 / 10) (Rabs (ln (y / x) - st) / Rabs st)) as [H|H].
  - split; auto. intros _ K. assert (Rabs (ln (y / x) - st) / Rabs st <= 1 / 10).
    { apply (Rmult_le_reg_r (Rabs st)); auto. unfold Rdiv at 1. rewrite Rmult_assoc, Rinv_l; lra. } lra.
  - split; [discriminate|]. intro K. exfalso. apply K. apply Rnot_lt_le in H.
    apply (Rmult_le_compat_r (Rabs st)) in H; [|lra]. unfold Rdiv at 1 in H. rewrite Rmult_assoc, Rinv_l in H; lra.
Qed.
Lemma some_bad_step_spec st l : positive_samples l -> st <> 0 ->
  some_bad_step (XFin st) l = false <->
  forall i x y, nth_error l i = Some x -> nth_error l (S i) = Some y -> Rabs (ln (y / x) - st) <= 1 / 10 * Rabs st.
Proof.
  intros Hp Hst. induction l as [|a [|b l] IH].
  - split; auto. intros _ i x y H; destruct i; discriminate.
  - split; auto. intros _ i x y H K. destruct i; discriminate.
  - change (some_bad_step (XFin st) (a :: b :: l)) with (if bad_step (XFin st) a b then true else some_bad_step (XFin st) (b :: l)).
    inversion Hp; subst. inversion H2; subst.
    pose proof (bad_step_pos st a b H1 H3 Hst) as B.
    destruct (bad_step (XFin st) a b).
    + split; [discriminate|]. intro K. exfalso. apply B; auto. apply (K 0%nat); reflexivity.
    + rewrite IH; auto. split.
      * intros K i x y Hx Hy. destruct i as [|i]; [|apply (K i); auto].
        inversion Hx; inversion Hy; subst. destruct (Rle_dec (Rabs (ln (y / x) - st)) (1 / 10 * Rabs st)); auto.
        exfalso. apply B in n. discriminate.
      * intros K i x y Hx Hy. apply (K (S i)); auto.
Qed.
Lemma fresh_log_spec l s0 s1 b : positive_samples l -> nth_error l 0 = Some s0 -> nth_error l 1 = Some s1 -> s0 <> s1 ->
  nth_error l (length l - 1) = Some b ->
  (log_regular l -> answer (IsLogSampled (fresh l)) = Ok true /\
      answer (GetlogGridStep (fresh l)) = Ok (XFin (ln (b / s0) / (INR (length l) - 1)))) /\
  (~ log_regular l -> answer (IsLogSampled (fresh l)) = Ok false).
Proof.
  intros Hp H0 H1 Hne Hb. unfold GetlogGridStep, IsLogSampled, CheckLoglambdaSampling. cbn [fresh samples lg srt stp].
  destruct l as [|a [|c t]]; try discriminate. inversion H0; inversion H1; subst a c.
  assert (P0 : 0 < s0) by (inversion Hp; auto). assert (P1 : 0 < s1) by (inversion Hp; inversion H4; auto).
  rewrite logstep_pos; auto.
  assert (Hst : ln (s1 / s0) <> 0).
  { intro E. apply Hne. rewrite <- ln_1 in E. apply ln_inv in E; try lra.
    - apply (Rmult_eq_compat_r s0) in E. unfold Rdiv in E. rewrite Rmult_assoc, Rinv_l in E; lra.
    - apply Rdiv_lt_0_compat; auto. }
  pose proof (some_bad_step_spec _ (s0 :: s1 :: t) Hp Hst) as S.
  assert (RL : log_regular (s0 :: s1 :: t) <-> some_bad_step (XFin (ln (s1 / s0))) (s0 :: s1 :: t) = false).
  { rewrite S. unfold log_regular. simpl nth_error at 1 2. split; intro K.
    - apply K; reflexivity.
    - intros x0 x1 Hx0 Hx1. inversion Hx0; inversion Hx1; subst. exact K. }
  assert (Eb : back (s0 :: s1 :: t) = Ok b) by (unfold back; apply vget_Ok; auto).
  assert (Pb : 0 < b). { apply nth_error_In in Hb. unfold positive_samples in Hp. rewrite Forall_forall in Hp. auto. }
  rewrite RL. rewrite Eb.
  destruct (some_bad_step (XFin (ln (s1 / s0))) (s0 :: s1 :: t)); split; intro K; try congruence; auto.
  cbn [rbind answer fst snd]. split; [reflexivity|]. unfold answer. cbn [rbind fst snd stp]. rewrite logstep_pos; auto.
  unfold xdiv. destruct (Reqb_spec (INR (length (s0 :: s1 :: t)) - 1) 0) as [E|E]; [|reflexivity].
  exfalso. cbn [length] in E. rewrite !S_INR in E. pose proof (pos_INR (length t)). lra.
Qed.

(** ** stale verdicts *)
Lemma Rltb_true x y : x < y -> Rltb x y = true.
Proof. intro. destruct (Rltb_spec x y); auto; lra. Qed.
Lemma Rltb_false x y : y <= x -> Rltb x y = false.
Proof. intro. destruct (Rltb_spec x y); auto; lra. Qed.
Lemma Reqb_true x y : x = y -> Reqb x y = true.
Proof. intro. destruct (Reqb_spec x y); auto; lra. Qed.
Lemma Reqb_false x y : x <> y -> Reqb x y = false.
Proof. intro. destruct (Reqb_spec x y); auto; lra. Qed.

Lemma unsorted_321 : check_sorted [3; 1; 2] = false.
Proof. rewrite check_sorted_cons2. rewrite Rltb_false; [reflexivity|lra]. Qed.
Lemma sorted_12 : check_sorted [1; 2] = true.
Proof. rewrite check_sorted_cons2. rewrite Rltb_true; [reflexivity|lra]. Qed.
Lemma unsorted_120 : check_sorted [1; 2; 0] = false.
Proof. rewrite !check_sorted_cons2. rewrite (Rltb_false 2 0); [rewrite andb_false_r; reflexivity|lra]. Qed.
Lemma unsorted_21 : check_sorted [2; 1] = false.
Proof. rewrite check_sorted_cons2. rewrite Rltb_false; [reflexivity|lra]. Qed.

Lemma stale_after_mask : stale_sorted [3; 1; 2] [OQuerySorted; OMask [0%Q; 1%Q; 1%Q]].
Proof.
  exists (mkAxis [1; 2] (Some (check_sorted [3; 1; 2])) None XNaN). split; [reflexivity|].
  unfold isSorted. cbn [srt samples fst fresh]. rewrite unsorted_321, sorted_12. discriminate.
Qed.
Lemma stale_after_extract : stale_sorted [3; 1; 2] [OQuerySorted; OExtract 1 2].
Proof.
  exists (mkAxis [1; 2] (Some (check_sorted [3; 1; 2])) None XNaN). split; [reflexivity|].
  unfold isSorted. cbn [srt samples fst fresh]. rewrite unsorted_321, sorted_12. discriminate.
Qed.
Lemma stale_after_shrink : stale_sorted [1; 2; 0] [OQuerySorted; OSetSize 2].
Proof.
  exists (mkAxis [1; 2] (Some (check_sorted [1; 2; 0])) None XNaN). split; [reflexivity|].
  unfold isSorted. cbn [srt samples fst fresh]. rewrite unsorted_120, sorted_12. discriminate.
Qed.
Lemma stale_after_raw_write : stale_sorted [2; 1] [OQuerySorted; ORawWrite 0 0].
Proof.
  exists (mkAxis [0; 1] (Some (check_sorted [2; 1])) None XNaN). split; [reflexivity|].
  unfold isSorted. cbn [srt samples fst fresh]. rewrite unsorted_21.
  rewrite check_sorted_cons2, Rltb_true; [discriminate|lra].
Qed.
Lemma stale_after_negation : stale_sorted [1] [OQuerySorted; OScale (-1)].
Proof.
  exists (mkAxis [1 * -1] (sorted_after_scaling (-1) 1 (Some (check_sorted [1]))) None XNaN).
  split; [reflexivity|]. unfold sorted_after_scaling.
  rewrite (Rltb_true (-1) 0); [|lra]. rewrite (Reqb_false (-1) 0); [|lra].
  rewrite check_sorted_short; [|simpl; lia]. unfold isSorted. cbn [srt samples fst fresh map].
  rewrite check_sorted_short; [|simpl; lia]. discriminate.
Qed.

Lemma ln_2_pos : 0 < ln 2.
Proof. rewrite <- ln_1. apply ln_increasing; lra. Qed.
Lemma regular_from_ratio l s0 s1 : nth_error l 0 = Some s0 -> nth_error l 1 = Some s1 ->
  (forall i x y, nth_error l i = Some x -> nth_error l (S i) = Some y -> y / x = s1 / s0) -> log_regular l.
Proof.
  intros H0 H1 H s0' s1' E0 E1 i x y Hx Hy. rewrite H0 in E0. rewrite H1 in E1. inversion E0; inversion E1; subst.
  rewrite (H i x y Hx Hy). rewrite Rminus_diag_eq; auto. rewrite Rabs_R0.
  pose proof (Rabs_pos (ln (s1' / s0'))). lra.
Qed.
Lemma log_run l o b : answer (IsLogSampled (fresh l)) = Ok b ->
  exists a, IsLogSampled (fresh l) = Ok (b, a) /\ samples a = l /\ lg a = Some b /\
   ax_run (fresh l) [OQueryLog; o] = ax_step a o.
Proof.
  intro H. unfold answer in H. cbn [ax_run ax_step].
  destruct (IsLogSampled (fresh l)) as [[b' a]| |] eqn:E; try discriminate. cbn [rbind fst] in H. inversion H; subst b'.
  exists a. unfold IsLogSampled in E. cbn [fresh lg] in E. fold (fresh l) in E.
  destruct (CheckLog_fresh _ _ _ E) as (a3 & E1 & E2 & E3 & E4). repeat split; auto.
  cbn [rbind snd]. destruct (ax_step a o); reflexivity.
Qed.

Definition g3 : list R := [1 / 5; 6 / 5; 36 / 5].
Lemma g3_regular : log_regular g3.
Proof.
  apply (regular_from_ratio g3 (1/5) (6/5)); auto. intros i x y Hx Hy.
  destruct i as [|[|i]]; simpl in *; inversion Hx; inversion Hy; subst; try field. destruct i; discriminate.
Qed.
Lemma g3_positive : positive_samples g3.
Proof. unfold g3. repeat constructor; lra. Qed.
Lemma irregular_128 : positive_samples [1; 2; 8] /\ ~ log_regular [1; 2; 8].
Proof.
  split; [repeat constructor; lra|]. intro H.
  specialize (H 1 2 eq_refl eq_refl 1%nat 2 8 eq_refl eq_refl).
  replace (8 / 2) with (2 * 2) in H by field. replace (2 / 1) with 2 in H by field.
  rewrite ln_mult in H; try lra. pose proof ln_2_pos.
  rewrite !Rabs_right in H; lra.
Qed.
Lemma stale_after_offset : stale_log g3 [OQueryLog; OOffset (4 / 5)].
Proof.
  destruct (fresh_log_spec g3 (1/5) (6/5) (36/5)) as [F _]; auto using g3_positive; try reflexivity; try lra.
  destruct (F g3_regular) as [F1 _].
  destruct (log_run g3 (OOffset (4/5)) true F1) as (a & E1 & E2 & E3 & E4).
  unfold stale_log. rewrite E4. cbn [ax_step]. eexists; split; [reflexivity|].
  rewrite Reqb_false; [|lra]. rewrite E2, E3.
  destruct irregular_128 as [P N].
  destruct (fresh_log_spec [1;2;8] 1 2 8) as [_ G]; auto; try lra. specialize (G N).
  cbn [samples]. unfold g3. cbn [map].
  replace (1 / 5 + 4 / 5) with 1 by field. replace (6 / 5 + 4 / 5) with 2 by field. replace (36 / 5 + 4 / 5) with 8 by field.
  rewrite G. unfold IsLogSampled. cbn [lg answer rbind fst]. split; discriminate.
Qed.
Lemma stale_after_null_offset : stale_log g3 [OOffset 0].
Proof.
  unfold stale_log. cbn [ax_run ax_step rbind]. eexists; split; [reflexivity|].
  rewrite Reqb_true; auto. cbn [fresh samples].
  assert (E : map (fun x => x + 0) g3 = g3) by (unfold g3; cbn [map]; rewrite !Rplus_0_r; reflexivity). rewrite E.
  destruct (fresh_log_spec g3 (1/5) (6/5) (36/5)) as [F _]; auto using g3_positive; try reflexivity; try lra.
  destruct (F g3_regular) as [F1 _]. unfold fresh in *. rewrite F1. unfold IsLogSampled. cbn [lg answer rbind fst]. split; discriminate.
Qed.
(** extraction keeps a verdict computed from another first step *)
Lemma irregular_1_2_8_32 : positive_samples [1; 2; 8; 32] /\ ~ log_regular [1; 2; 8; 32].
Proof.
  split; [repeat constructor; lra|]. intro H.
  specialize (H 1 2 eq_refl eq_refl 1%nat 2 8 eq_refl eq_refl).
  replace (8 / 2) with (2 * 2) in H by field. replace (2 / 1) with 2 in H by field.
  rewrite ln_mult in H; try lra. pose proof ln_2_pos.
  rewrite !Rabs_right in H; lra.
Qed.
Lemma regular_2_8_32 : positive_samples [2; 8; 32] /\ log_regular [2; 8; 32].
Proof.
  split; [repeat constructor; lra|].
  apply (regular_from_ratio _ 2 8); auto. intros i x y Hx Hy.
  destruct i as [|[|i]]; simpl in *; inversion Hx; inversion Hy; subst; try field. destruct i; discriminate.
Qed.
Lemma stale_log_after_extract : stale_log [1; 2; 8; 32] [OQueryLog; OExtract 1 3].
Proof.
  destruct irregular_1_2_8_32 as [P N].
  destruct (fresh_log_spec [1;2;8;32] 1 2 32) as [_ F]; auto; try lra.
  specialize (F N).
  destruct (log_run _ (OExtract 1 3) false F) as (a & E1 & E2 & E3 & E4).
  unfold stale_log. rewrite E4. cbn [ax_step]. rewrite E2. cbn [Nat.leb Nat.ltb length andb].
  eexists; split; [reflexivity|]. rewrite E3. cbn [samples skipn firstn Nat.sub].
  destruct regular_2_8_32 as [P2 R2].
  destruct (fresh_log_spec [2;8;32] 2 8 32) as [G _]; auto; try lra. destruct (G R2) as [G1 _]. rewrite G1.
  unfold IsLogSampled. cbn [lg answer rbind fst]. split; discriminate.
Qed.
(** a NaN first step passes the test: an axis crossing zero is declared regular *)
Lemma crossing_zero_passes : answer (IsLogSampled (fresh [-1; 1; 5; 6])) = Ok true.
Proof.
  unfold answer, IsLogSampled, CheckLoglambdaSampling. cbn [fresh samples lg srt stp].
  assert (E : logstep (-1) 1 = XNaN).
  { unfold logstep, xdiv. rewrite Reqb_false; [|lra]. unfold xlog.
    rewrite Rltb_false; [|lra]. rewrite Reqb_false; [reflexivity|lra]. }
  rewrite E.
  assert (B : forall x y, bad_step XNaN x y = false).
  { intros x y. unfold bad_step, xsub, xneg. unfold xadd. destruct (logstep x y); reflexivity. }
  cbn [some_bad_step]. rewrite !B. reflexivity.
Qed.
