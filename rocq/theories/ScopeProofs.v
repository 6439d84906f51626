From Coq Require Import String Ascii.
From Verif Require Import Base ScopeModel ScopeSpec.
Open Scope list_scope.

Lemma st_eqb_spec a b : reflect (a = b) (st_eqb a b).
Proof. destruct a, b; simpl; constructor; congruence. Qed.
Lemma st_rank_inj a b : st_rank a = st_rank b -> a = b.
Proof. destruct a, b; simpl; congruence. Qed.

Lemma lv_find_In m t k : NoDup (map fst m) -> (lv_find m t = Some k <-> In (t, k) m).
Proof.
  induction m as [|[u n] m IH]; simpl; intro H; [split; [discriminate|tauto]|].
  inversion H as [|? ? Hn Hm]; subst. destruct (st_eqb_spec u t) as [->|E].
  - split; [intro G; inversion G; auto|]. intros [G|G]; [inversion G; reflexivity|].
    exfalso. apply Hn. apply in_map_iff. exists (t, k). auto.
  - rewrite (IH Hm). split; [auto|]. intros [G|G]; [inversion G; congruence|exact G].
Qed.
Lemma lv_find_None m t : lv_find m t = None <-> ~ In t (map fst m).
Proof.
  induction m as [|[u n] m IH]; simpl; [tauto|]. destruct (st_eqb_spec u t) as [->|E].
  - split; [discriminate|]. intro H; exfalso; apply H; auto.
  - rewrite IH. intuition congruence.
Qed.
Lemma lv_insert_perm m t n : Permutation (lv_insert m t n) ((t, n) :: m).
Proof.
  induction m as [|[u k] m IH]; simpl; [reflexivity|]. destruct (Nat.ltb _ _); [reflexivity|].
  rewrite IH. apply perm_swap.
Qed.
Lemma lv_insert_find m t n u k : NoDup (map fst m) -> lv_find m t = None ->
  (lv_find (lv_insert m t n) u = Some k <-> (u = t /\ k = n) \/ lv_find m u = Some k).
Proof.
  intros H E.
  assert (H' : NoDup (map fst ((t, n) :: m))) by (simpl; constructor; [apply lv_find_None; exact E|exact H]).
  assert (Hi : NoDup (map fst (lv_insert m t n))).
  { eapply Permutation_NoDup; [|exact H']. apply Permutation_sym, Permutation_map, lv_insert_perm. }
  rewrite (lv_find_In _ u k Hi). rewrite (lv_find_In m u k H).
  split; intro G.
  - apply (Permutation_in _ (lv_insert_perm m t n)) in G. destruct G as [G|G]; [inversion G; auto|auto].
  - apply (Permutation_in _ (Permutation_sym (lv_insert_perm m t n))). destruct G as [[-> ->]|G]; simpl; auto.
Qed.
Lemma lv_insert_NoDup m t n : NoDup (map fst m) -> lv_find m t = None -> NoDup (map fst (lv_insert m t n)).
Proof.
  intros H E. apply (Permutation_NoDup (l := map fst ((t, n) :: m))).
  - apply Permutation_sym, Permutation_map, lv_insert_perm.
  - simpl. constructor; [apply lv_find_None; exact E|exact H].
Qed.

(** the representation invariant *)
Definition Rep (s : scope_stack) (a : astack) : Prop :=
  sc_names s = map fst a /\ NoDup (map fst (sc_level s)) /\
  (forall t k, lv_find (sc_level s) t = Some k <-> t <> UNDEFINED /\ at_level a t k) /\ well_nested a.

Lemma at_level_lt a t k : at_level a t k -> (k < length a)%nat.
Proof. intros [n H]. eapply nth_error_len; eauto. Qed.
Lemma at_level_In a t : In t (types a) <-> exists k, at_level a t k.
Proof.
  unfold types, at_level. rewrite in_map_iff. split.
  - intros [[n u] [E H]]. simpl in E. subst u. apply In_nth_error in H. destruct H as [k Hk]. eauto.
  - intros [k [n H]]. exists (n, t). split; auto. eapply nth_error_In; eauto.
Qed.
Lemma at_level_app a x t k : at_level (a ++ [x]) t k <->
  at_level a t k \/ (k = length a /\ snd x = t).
Proof.
  unfold at_level. destruct (lt_eq_lt_dec k (length a)) as [[H|H]|H].
  - rewrite nth_error_app1 by exact H. split; [auto|]. intros [G|[G _]]; [exact G|lia].
  - subst k. rewrite nth_error_app2 by lia. rewrite Nat.sub_diag. simpl. split.
    + intros [n E]. inversion E; subst. auto.
    + intros [[n E]|[_ E]]; [apply nth_error_len in E; lia|]. destruct x as [n u]. simpl in E. subst. eauto.
  - split.
    + intros [n E]. apply nth_error_len in E. rewrite app_length in E. simpl in E. lia.
    + intros [[n E]|[E _]]; [apply nth_error_len in E; lia|lia].
Qed.
Lemma at_level_det a t u k : at_level a t k -> at_level a u k -> t = u.
Proof. intros [n H] [m G]. congruence. Qed.
Lemma top_is_level a t : top_is a t <-> exists k, at_level a t k /\ length a = S k.
Proof.
  split.
  - intros (b & n & ->). exists (length b). split; [apply at_level_app; auto|]. rewrite app_length. simpl. lia.
  - intros (k & [n H] & L). destruct a as [|x0 a0] eqn:Ea; [discriminate|]. rewrite <- Ea in *.
    assert (Hne : a <> []) by (subst; discriminate).
    exists (removelast a), n. rewrite (app_removelast_last x0 Hne) at 1. f_equal. f_equal.
    rewrite (app_removelast_last x0 Hne) in H.
    assert (length (removelast a) = k).
    { pose proof (f_equal (@length _) (app_removelast_last x0 Hne)) as E. rewrite app_length in E. simpl in E. lia. }
    rewrite nth_error_app2 in H by lia. replace (k - length (removelast a))%nat with 0%nat in H by lia. simpl in H. congruence.
Qed.

Lemma Rep_init l : Rep (scope_of l) (map (fun n => (n, UNDEFINED)) l).
Proof.
  assert (U : forall t k, at_level (map (fun n : string => (n, UNDEFINED)) l) t k -> t = UNDEFINED).
  { intros t k [n H]. rewrite nth_error_map in H. destruct (nth_error l k); simpl in H; congruence. }
  unfold Rep, scope_of; simpl. split; [|split; [constructor|split]].
  - rewrite map_map. simpl. rewrite map_id. reflexivity.
  - intros t k. split; [discriminate|]. intros [H1 H2]. elim H1. eapply U; eauto.
  - split; [|split].
    + intros t i j H1 H2 H3. elim H1. eapply U; eauto.
    + intros i j H. apply U in H. discriminate.
    + intros i H. apply U in H. discriminate.
Qed.

Lemma has_type_iff s a t : Rep s a -> t <> UNDEFINED -> (has_type s t = true <-> In t (types a)).
Proof.
  intros (_ & _ & L & _) Ht. unfold has_type. rewrite at_level_In.
  destruct (lv_find (sc_level s) t) as [k|] eqn:E.
  - split; auto. intros _. exists k. apply L in E. tauto.
  - split; [discriminate|]. intros [k H]. assert (lv_find (sc_level s) t = Some k) by (apply L; auto). congruence.
Qed.

(** set_type_level accepts exactly the allowed pushes *)
Lemma may_push_dec s a t : Rep s a -> may_push a t \/ ~ may_push a t.
Proof.
  intro R. destruct t; simpl; [left; exact I| | |].
  - rewrite <- !(has_type_iff s a) by (auto; discriminate).
    destruct (has_type s SPECTRUMMODEL), (has_type s STAGE); intuition congruence.
  - rewrite <- !(has_type_iff s a) by (auto; discriminate).
    destruct (has_type s STAGE), (has_type s METHOD); intuition congruence.
  - rewrite top_is_level. destruct R as (_ & _ & L & W).
    destruct (lv_find (sc_level s) STAGE) as [k|] eqn:E.
    + apply L in E. destruct (Nat.eq_dec (length a) (S k)) as [G|G]; [left; exists k; tauto|].
      right. intros (k' & H & H'). apply G. destruct W as (W & _). rewrite H'. f_equal. apply (W STAGE); try discriminate; tauto.
    + right. intros (k & H & _). assert (lv_find (sc_level s) STAGE = Some k) by (apply L; split; [discriminate|exact H]). congruence.
Qed.

Lemma insert_ok s a t : Rep s a -> t <> UNDEFINED -> lv_find (sc_level s) t = None ->
  forall k u, lv_find (lv_insert (sc_level s) t (length (sc_names s))) u = Some k <->
     u <> UNDEFINED /\ ((u = t /\ k = length a) \/ at_level a u k).
Proof.
  intros (N & ND & L & W) Ht E k u. rewrite lv_insert_find by auto. rewrite L, N, map_length.
  split; [intros [[-> ->]|H]|intros [Hu [[-> ->]|H]]]; auto; tauto.
Qed.

Lemma set_type_level_spec s a t : Rep s a ->
  (may_push a t -> exists m, set_type_level s t = (m, Ok tt) /\ NoDup (map fst m) /\
      forall k u, lv_find m u = Some k <-> u <> UNDEFINED /\ ((u = t /\ k = length a) \/ at_level a u k)) /\
  (~ may_push a t -> set_type_level s t = (sc_level s, Throw SCOPESTACK_ERROR)).
Proof.
  intro R. pose proof R as (N & ND & L & W1 & W2 & W3).
  assert (Fnone : forall t, t <> UNDEFINED -> (lv_find (sc_level s) t = None <-> ~ In t (types a))).
  { intros u Hu. rewrite <- (has_type_iff s a u R Hu). unfold has_type. destruct (lv_find (sc_level s) u); intuition congruence. }
  assert (Ins : forall t, t <> UNDEFINED -> ~ In t (types a) ->
     exists m, (match lv_find (sc_level s) t with
                | Some _ => (sc_level s, Throw SCOPESTACK_ERROR)
                | None => (lv_insert (sc_level s) t (length (sc_names s)), Ok tt) end) = (m, Ok tt) /\ NoDup (map fst m) /\
       forall k u, lv_find m u = Some k <-> u <> UNDEFINED /\ ((u = t /\ k = length a) \/ at_level a u k)).
  { intros u Hu Hn. apply Fnone in Hn; auto. rewrite Hn. eexists. split; [reflexivity|].
    split; [apply lv_insert_NoDup; auto|]. apply insert_ok; auto. }
  assert (Dup : forall t, t <> UNDEFINED -> ~ ~ In t (types a) ->
     (match lv_find (sc_level s) t with
                | Some _ => (sc_level s, Throw SCOPESTACK_ERROR)
                | None => (lv_insert (sc_level s) t (length (sc_names s)), Ok tt) end) = (sc_level s, @Throw unit SCOPESTACK_ERROR)).
  { intros u Hu Hn. destruct (lv_find (sc_level s) u) eqn:E; auto. apply Fnone in E; auto. contradiction. }
  destruct t; cbn [may_push set_type_level].
  - split; [|intro H; elim H; exact I]. intros _. exists (sc_level s). split; [reflexivity|]. split; [exact ND|].
    intros k u. rewrite L. split; [tauto|]. intros [H [[-> _]|G]]; [congruence|auto].
  - pose proof (has_type_iff s a STAGE R ltac:(discriminate)) as HS.
    destruct (has_type s STAGE); split.
    + intros [_ H]. elim H. apply HS. reflexivity.
    + reflexivity.
    + intros [H _]. apply Ins; [discriminate|exact H].
    + intro H. apply Dup; [discriminate|]. intro G. apply H. split; [exact G|]. rewrite <- HS. discriminate.
  - pose proof (has_type_iff s a METHOD R ltac:(discriminate)) as HS.
    destruct (has_type s METHOD); split.
    + intros [_ H]. elim H. apply HS. reflexivity.
    + reflexivity.
    + intros [H _]. apply Ins; [discriminate|exact H].
    + intro H. apply Dup; [discriminate|]. intro G. apply H. split; [exact G|]. rewrite <- HS. discriminate.
  - rewrite top_is_level. destruct (lv_find (sc_level s) STAGE) as [l|] eqn:E.
    + apply L in E. destruct E as [_ E].
      destruct (Nat.eqb_spec (l + 1) (length (sc_names s))) as [G|G]; rewrite N, map_length in G.
      * split; [|intro H; elim H; exists l; split; [exact E|lia]]. intros _. apply Ins; [discriminate|].
        intro H. apply at_level_In in H. destruct H as [i Hi]. destruct (W3 i Hi) as (j & -> & Hj).
        apply at_level_lt in Hi. assert (j = l) by (apply (W1 STAGE); auto; discriminate). lia.
      * split; [|reflexivity]. intros (k & H & H'). exfalso. apply G.
        assert (k = l) by (apply (W1 STAGE); auto; discriminate). lia.
    + split; [|reflexivity]. intros (k & H & _). exfalso.
      assert (lv_find (sc_level s) STAGE = Some k) by (apply L; split; [discriminate|exact H]). congruence.
Qed.

Lemma well_nested_push a n t : well_nested a -> may_push a t -> well_nested (a ++ [(n, t)]).
Proof.
  intros (W1 & W2 & W3) M. assert (Lt : forall u k, at_level a u k -> (k < length a)%nat) by (intros; eapply at_level_lt; eauto).
  split; [|split].
  - intros u i j Hu Hi Hj. apply at_level_app in Hi, Hj. simpl in Hi, Hj.
    assert (F : u = t -> ~ exists k, at_level a u k).
    { intros -> G. apply at_level_In in G. destruct t; simpl in M; [congruence|tauto|tauto|].
      apply at_level_In in G. destruct G as [k Hk]. destruct (W3 k Hk) as (j' & -> & Hj').
      apply top_is_level in M. destruct M as (k' & Hk' & L).
      assert (j' = k') by (apply (W1 STAGE); auto; discriminate). apply Lt in Hk. lia. }
    destruct Hi as [Hi|[Hi Ei]]; destruct Hj as [Hj|[Hj Ej]].
    + apply (W1 u); auto.
    + exfalso. apply F; eauto.
    + exfalso. apply F; eauto.
    + lia.
  - intros i j Hi Hj. apply at_level_app in Hi, Hj. simpl in Hi, Hj.
    destruct Hi as [Hi|[Hi Ei]]; destruct Hj as [Hj|[Hj Ej]].
    + auto.
    + apply Lt in Hi. lia.
    + exfalso. subst t. simpl in M. destruct M as [_ M]. apply M, at_level_In. eauto.
    + congruence.
  - intros i Hi. apply at_level_app in Hi. simpl in Hi. destruct Hi as [Hi|[Hi Ei]].
    + destruct (W3 i Hi) as (j & E & Hj). exists j. split; auto. apply at_level_app. auto.
    + subst t. simpl in M. apply top_is_level in M. destruct M as (k & Hk & L). exists k. split; [lia|].
      apply at_level_app. auto.
Qed.

Lemma push_Rep s a n t : Rep s a ->
  (may_push a t -> exists s', push_back s n t = (s', Ok tt) /\ Rep s' (a ++ [(n, t)])) /\
  (~ may_push a t -> push_back s n t = (s, Throw SCOPESTACK_ERROR)).
Proof.
  intro R. pose proof (set_type_level_spec s a t R) as [H1 H2]. unfold push_back. split; intro M.
  - destruct (H1 M) as (m & E & ND & F). rewrite E. eexists. split; [reflexivity|].
    destruct R as (N & _ & L & W). unfold Rep; simpl. split; [rewrite N, map_app; reflexivity|].
    split; [exact ND|]. split; [|apply well_nested_push; auto].
    intros u k. rewrite F, at_level_app. simpl. split; intros [A B]; (split; [exact A|]); intuition congruence.
  - rewrite (H2 M). destruct s; reflexivity.
Qed.

Lemma well_nested_pop a x : well_nested (a ++ [x]) -> well_nested a.
Proof.
  intros (W1 & W2 & W3). assert (Lt : forall u k, at_level a u k -> (k < length a)%nat) by (intros; eapply at_level_lt; eauto).
  split; [|split].
  - intros t i j Ht Hi Hj. apply (W1 t); auto; apply at_level_app; auto.
  - intros i j Hi Hj. apply W2; apply at_level_app; auto.
  - intros i Hi. destruct (W3 i) as (j & E & Hj); [apply at_level_app; auto|]. exists j. split; auto.
    apply at_level_app in Hj. destruct Hj as [Hj|[Hj _]]; [exact Hj|]. apply Lt in Hi. lia.
Qed.
Lemma NoDup_filter_keys m (f : scope_type * nat -> bool) : NoDup (map fst m) -> NoDup (map fst (filter f m)).
Proof.
  induction m as [|p m IH]; simpl; intro H; [constructor|]. inversion H; subst. destruct (f p); simpl; auto.
  constructor; auto. intro G. apply H2. apply in_map_iff in G. destruct G as (q & E & Hq). apply filter_In in Hq.
  apply in_map_iff. exists q. tauto.
Qed.
Lemma lv_find_filter m (f : scope_type * nat -> bool) t k : NoDup (map fst m) ->
  (lv_find (filter f m) t = Some k <-> lv_find m t = Some k /\ f (t, k) = true).
Proof.
  intro H. rewrite (lv_find_In m t k H). rewrite (lv_find_In _ t k (NoDup_filter_keys m f H)). rewrite filter_In. tauto.
Qed.
Lemma pop_Rep s a x : Rep s (a ++ [x]) -> exists s', pop_back s = (s', Ok tt) /\ Rep s' a.
Proof.
  intros (N & ND & L & W). unfold pop_back. rewrite N, map_app. simpl.
  destruct (map fst a ++ [fst x]) eqn:E; [destruct (map fst a); discriminate|]. rewrite <- E.
  rewrite removelast_last. eexists. split; [reflexivity|]. unfold Rep; simpl. split; [reflexivity|].
  split; [apply NoDup_filter_keys; exact ND|]. split; [|eapply well_nested_pop; eauto].
  intros t k. unfold reset_type_level. rewrite lv_find_filter by exact ND. rewrite L, at_level_app. simpl.
  rewrite map_length. split.
  - intros [[A [B|[B _]]] C]; auto. subst. rewrite Nat.leb_refl in C. discriminate.
  - intros [A B]. split; [auto|]. apply at_level_lt in B. apply negb_true_iff, Nat.leb_gt. exact B.
Qed.

Lemma Rep_shows s a : Rep s a -> shows s a.
Proof.
  intro R. pose proof R as (N & ND & L & W1 & W2 & W3).
  assert (Lev : forall t k, t <> UNDEFINED -> (get_type_level s t = Ok k <-> at_level a t k)).
  { intros t k Ht. unfold get_type_level. specialize (L t).
    destruct (lv_find (sc_level s) t) as [l|] eqn:E.
    - split; [intro H; inversion H; subst; apply L; reflexivity|]. intro H.
      assert (Some l = Some k) by (apply L; auto). congruence.
    - split; [discriminate|]. intro H. assert (None = Some k) by (apply L; auto). discriminate. }
  split; [exact N|]. split; [intros; apply has_type_iff; auto|]. split; [exact Lev|]. split.
  - intros t n Ht. unfold get_type_value. destruct (get_type_level s t) as [k|e|] eqn:E.
    + apply Lev in E; auto. cbn [rbind]. rewrite N, nth_error_map. destruct E as [n' E]. rewrite E. simpl. split.
      * intro H. inversion H; subst. eapply nth_error_In; eauto.
      * intro H. apply In_nth_error in H. destruct H as [k' Hk']. assert (k = k') by (apply (W1 t); auto; [exists n'|exists n]; auto).
        subst. congruence.
    + split; [discriminate|]. intro H. apply In_nth_error in H. destruct H as [k' Hk'].
      assert (get_type_level s t = Ok k') by (apply Lev; auto; exists n; auto). congruence.
    + split; [discriminate|]. intro H. apply In_nth_error in H. destruct H as [k' Hk'].
      assert (get_type_level s t = Ok k') by (apply Lev; auto; exists n; auto). congruence.
  - unfold get_current_type. rewrite N, map_length.
    assert (Top : forall b x, a = b ++ [x] -> last (types a) UNDEFINED = snd x /\ at_level a (snd x) (length b) /\ length a = S (length b)).
    { intros b x ->. unfold types. rewrite map_app. simpl. rewrite last_last. split; auto. split; [apply at_level_app; auto|].
      rewrite app_length. simpl. lia. }
    destruct (find _ (sc_level s)) as [[t k]|] eqn:F.
    + apply find_some in F. destruct F as [F1 F2]. simpl in F2. apply Nat.eqb_eq in F2.
      apply lv_find_In in F1; auto. apply L in F1. destruct F1 as [Ht F1].
      assert (Hne : a <> []) by (intro; subst; simpl in *; lia).
      destruct (exists_last Hne) as (b & x & Eb). destruct (Top b x Eb) as (T1 & T2 & T3). rewrite T1.
      eapply at_level_det; eauto. replace (length b) with k in * by lia. exact T2.
    + destruct a as [|a0 a1] eqn:Ea; [reflexivity|]. rewrite <- Ea in *.
      assert (Hne : a <> []) by (subst; discriminate).
      destruct (exists_last Hne) as (b & x & Eb). destruct (Top b x Eb) as (T1 & T2 & T3). rewrite T1.
      destruct (st_eqb_spec (snd x) UNDEFINED) as [E|E]; [congruence|]. exfalso.
      assert (G : lv_find (sc_level s) (snd x) = Some (length b)) by (apply L; auto).
      apply lv_find_In in G; auto. eapply find_none in F; [|exact G]. simpl in F. apply Nat.eqb_neq in F. lia.
Qed.

(** ** histories *)
Lemma run_refines ops : forall s a b, Rep s a -> ref_run a ops b -> exists s', scope_run s ops = Ok s' /\ Rep s' b.
Proof.
  induction ops as [|o ops IH]; intros s a b R H; inversion H; subst.
  - exists s. auto.
  - destruct (push_Rep s a n t R) as [P _]. destruct P as (s' & E & R'); auto. simpl. rewrite E.
    eapply IH; eauto.
  - destruct (push_Rep s a n t R) as [_ P]. simpl. rewrite (P ltac:(auto)). eapply IH; eauto.
  - destruct (pop_Rep s a0 x R) as (s' & E & R'). simpl. rewrite E. eapply IH; eauto.
Qed.
Theorem scope_history l ops b : ref_run (map (fun n => (n, UNDEFINED)) l) ops b ->
  exists s, scope_run (scope_of l) ops = Ok s /\ shows s b /\ well_nested b.
Proof.
  intro H. destruct (run_refines ops _ _ b (Rep_init l) H) as (s & E & R). exists s. split; auto.
  split; [apply Rep_shows; exact R|]. apply R.
Qed.
(** every history that never pops an empty stack has a reference run *)
Lemma run_total ops : forall s a s', Rep s a -> scope_run s ops = Ok s' -> exists b, ref_run a ops b.
Proof.
  induction ops as [|o ops IH]; intros s a s' R H; [exists a; constructor|]. simpl in H. destruct o as [n t|]; simpl in H.
  - destruct (push_Rep s a n t R) as [P1 P2]. destruct (may_push_dec s a t R) as [M|M].
    + destruct (P1 M) as (s1 & E & R'). rewrite E in H. destruct (IH _ _ _ R' H) as [b Hb]. exists b. apply ref_push; auto.
    + rewrite (P2 M) in H. destruct (IH _ _ _ R H) as [b Hb]. exists b. apply ref_reject; auto.
  - destruct a as [|a0 a1] eqn:Ea.
    + unfold pop_back in H. destruct R as (N & _). rewrite N in H. simpl in H. discriminate.
    + rewrite <- Ea in *. assert (Hne : a <> []) by (subst; discriminate). destruct (exists_last Hne) as (b & x & Eb).
      rewrite Eb in *. destruct (pop_Rep s b x R) as (s1 & E & R'). rewrite E in H. destruct (IH _ _ _ R' H) as [c Hc]. exists c.
      apply ref_pop; auto.
Qed.
Theorem scope_history_complete l ops s : scope_run (scope_of l) ops = Ok s ->
  exists b, ref_run (map (fun n => (n, UNDEFINED)) l) ops b /\ shows s b /\ well_nested b.
Proof.
  intro H. destruct (run_total ops _ _ _ (Rep_init l) H) as [b Hb]. exists b. split; auto.
  destruct (scope_history l ops b Hb) as (s' & E & S & W). rewrite H in E. inversion E; subst. auto.
Qed.
(** what one push does in any reachable state *)
Theorem scope_push l ops s b n t : scope_run (scope_of l) ops = Ok s ->
  ref_run (map (fun n => (n, UNDEFINED)) l) ops b ->
  (may_push b t -> exists s', push_back s n t = (s', Ok tt) /\ shows s' (b ++ [(n, t)]) /\ well_nested (b ++ [(n, t)])) /\
  (~ may_push b t -> push_back s n t = (s, Throw SCOPESTACK_ERROR)).
Proof.
  intros H Hb. destruct (run_refines ops _ _ b (Rep_init l) Hb) as (s1 & E & R). rewrite H in E. inversion E; subst s1.
  destruct (push_Rep s b n t R) as [P1 P2]. split; auto. intro M. destruct (P1 M) as (s' & E' & R'). exists s'. split; auto.
  split; [apply Rep_shows; exact R'|apply R'].
Qed.

(** ** RAII *)
Lemma exec_Rep p : forall s a, Rep s a -> exists s' r, exec p s = (s', r) /\ Rep s' a /\ r <> UB /\
   sc_names s' = sc_names s.
Proof.
  induction p as [|e|p IHp q IHq|n t p IHp|p IHp q IHq]; intros s a R; simpl.
  - exists s, (Ok tt). split; [reflexivity|]; split; [exact R|]; split; [discriminate|reflexivity].
  - exists s, (Throw e). split; [reflexivity|]; split; [exact R|]; split; [discriminate|reflexivity].
  - destruct (IHp s a R) as (s1 & r1 & E1 & R1 & N1 & M1). rewrite E1. destruct r1 as [[]|e|]; [|exists s1, (Throw e); auto|congruence].
    destruct (IHq s1 a R1) as (s2 & r2 & E2 & R2 & N2 & M2). exists s2, r2. rewrite M2, M1. auto.
  - destruct (push_Rep s a n t R) as [P1 P2]. destruct (may_push_dec s a t R) as [M|M].
    + destruct (P1 M) as (s1 & E1 & R1). rewrite E1. destruct (IHp s1 _ R1) as (s2 & r2 & E2 & R2 & N2 & M2). rewrite E2.
      destruct (pop_Rep s2 a (n, t) R2) as (s3 & E3 & R3).
      assert (sc_names s3 = sc_names s) by (destruct R3 as [-> _]; destruct R as [-> _]; reflexivity).
      destruct r2 as [u|e|]; [| |congruence]; rewrite E3; [exists s3, (Ok u)|exists s3, (Throw e)]; (split; [reflexivity|]; split; [exact R3|]; split; [discriminate|assumption]).
    + rewrite (P2 M). exists s, (Throw SCOPESTACK_ERROR). split; [reflexivity|]; split; [exact R|]; split; [discriminate|reflexivity].
  - destruct (IHp s a R) as (s1 & r1 & E1 & R1 & N1 & M1). rewrite E1. destruct r1 as [u|e|]; [exists s1, (Ok u); auto| |congruence].
    destruct (IHq s1 a R1) as (s2 & r2 & E2 & R2 & N2 & M2). exists s2, r2. rewrite M2, M1. auto.
Qed.
Theorem raii_balanced l ops s a p : scope_run (scope_of l) ops = Ok s ->
  ref_run (map (fun n => (n, UNDEFINED)) l) ops a ->
  exists s' r, exec p s = (s', r) /\ r <> UB /\ sc_names s' = sc_names s /\
    (forall t, has_type s' t = has_type s t) /\ (forall t, get_type_level s' t = get_type_level s t) /\
    get_current_type s' = get_current_type s.
Proof.
  intros H Ha. destruct (run_refines ops _ _ a (Rep_init l) Ha) as (s1 & E & R). rewrite H in E. inversion E; subst s1.
  destruct (exec_Rep p s a R) as (s' & r & E' & R' & N & M). exists s', r. split; [exact E'|]. split; [exact N|]. split; [exact M|].
  assert (F : forall t, lv_find (sc_level s') t = lv_find (sc_level s) t).
  { intro t. destruct R as (_ & _ & L & _). destruct R' as (_ & _ & L' & _).
    destruct (lv_find (sc_level s') t) as [k|] eqn:A.
    - apply L', L in A. auto.
    - destruct (lv_find (sc_level s) t) as [k|] eqn:B; auto. apply L, L' in B. congruence. }
  split; [intro t; unfold has_type; rewrite F; reflexivity|]. split; [intro t; unfold get_type_level; rewrite F; reflexivity|].
  pose proof (Rep_shows _ _ R) as (_ & _ & _ & _ & T). pose proof (Rep_shows _ _ R') as (_ & _ & _ & _ & T'). congruence.
Qed.

(** ** names *)
Open Scope string_scope.
Lemma append_assoc_s a b c : (a ++ b) ++ c = a ++ (b ++ c).
Proof. induction a; simpl; congruence. Qed.
Lemma dot_fold_dotted : forall r h, dot_fold h r = dotted (h :: r).
Proof.
  unfold dot_fold. induction r as [|x r IH]; intro h; [reflexivity|]. cbn [fold_left]. rewrite IH.
  destruct r; cbn [dotted]; rewrite ?append_assoc_s; reflexivity.
Qed.
Lemma GetCurrentScopeName_dotted s : GetCurrentScopeName s = dotted (sc_names s).
Proof. unfold GetCurrentScopeName. destruct (sc_names s); [reflexivity|apply dot_fold_dotted]. Qed.
Lemma dotted_nonempty h t : h <> "" -> dotted (h :: t) <> "".
Proof. destruct h; [congruence|]. destruct t; simpl; discriminate. Qed.
Lemma dotted_cons h t : t <> [] -> dotted (h :: t) = h ++ "." ++ dotted t.
Proof. destruct t; [congruence|reflexivity]. Qed.
Lemma prefix_name_nonempty a x : a <> "" -> prefix_name a x = a ++ "." ++ x.
Proof. destruct a; [congruence|reflexivity]. Qed.
Lemma dotted_app l x : Forall (fun s => s <> "") l -> prefix_name (dotted l) x = dotted (l ++ [x]).
Proof.
  induction l as [|h t IH]; intro H; [reflexivity|]. inversion H; subst.
  rewrite prefix_name_nonempty by (apply dotted_nonempty; auto).
  destruct t as [|h' t']; [reflexivity|].
  rewrite <- app_comm_cons. rewrite (dotted_cons h ((h' :: t') ++ [x])) by discriminate.
  rewrite <- IH by auto. rewrite prefix_name_nonempty by (apply dotted_nonempty; inversion H3; auto).
  rewrite (dotted_cons h (h' :: t')) by discriminate. rewrite !append_assoc_s. reflexivity.
Qed.
Theorem scoped_name s x : Forall (fun n => n <> "") (sc_names s) ->
  GetScopedName s x = dotted (sc_names s ++ [x]).
Proof. intro H. unfold GetScopedName. rewrite GetCurrentScopeName_dotted. apply dotted_app. exact H. Qed.

Fixpoint split_dots (s : string) : list string :=
  match s with
  | "" => [""]
  | String c r => match split_dots r with
                  | h :: t => if Ascii.eqb c dot then "" :: h :: t else String c h :: t
                  | [] => [] end
  end.
Lemma split_no_dot a : no_dot a -> split_dots a = [a].
Proof.
  induction a as [|c a IH]; simpl; intro H; [reflexivity|]. destruct H as [H1 H2]. rewrite (IH H2).
  destruct (Ascii.eqb_spec c dot); [contradiction|reflexivity].
Qed.
Lemma split_app a b : no_dot a -> split_dots (a ++ "." ++ b) = a :: split_dots b.
Proof.
  induction a as [|c a IH]; intro H.
  - cbn [append]. cbn [split_dots]. change (Ascii.eqb "." dot) with true.
    assert (split_dots b <> []) by (clear; induction b as [|c b IH]; simpl; [discriminate|]; destruct (split_dots b); [congruence|]; destruct (Ascii.eqb c dot); discriminate).
    destruct (split_dots b); [congruence|reflexivity].
  - destruct H as [H1 H2]. change (String c a ++ "." ++ b) with (String c (a ++ "." ++ b)). cbn [split_dots]. rewrite (IH H2).
    destruct (Ascii.eqb_spec c dot); [contradiction|reflexivity].
Qed.
Lemma split_dotted l : l <> [] -> Forall no_dot l -> split_dots (dotted l) = l.
Proof.
  induction l as [|h t IH]; intros Hne H; [congruence|]. inversion H; subst. destruct t as [|h' t'].
  - apply split_no_dot. exact H2.
  - change (dotted (h :: h' :: t')) with (h ++ "." ++ dotted (h' :: t')). rewrite split_app by exact H2.
    rewrite IH; [reflexivity|discriminate|exact H3].
Qed.
Theorem scoped_names_injective s s' x y : Forall plain (sc_names s) -> Forall plain (sc_names s') -> no_dot x -> no_dot y ->
  GetScopedName s x = GetScopedName s' y -> sc_names s = sc_names s' /\ x = y.
Proof.
  intros H1 H2 Hx Hy E. rewrite !scoped_name in E.
  2:{ eapply Forall_impl; [|exact H2]. intros a [A _]; exact A. }
  2:{ eapply Forall_impl; [|exact H1]. intros a [A _]; exact A. }
  assert (E' : (sc_names s ++ [x])%list = (sc_names s' ++ [y])%list).
  { rewrite <- (split_dotted (sc_names s ++ [x])%list), <- (split_dotted (sc_names s' ++ [y])%list), E; auto.
    - destruct (sc_names s'); discriminate.
    - apply Forall_app. split; [eapply Forall_impl; [|exact H2]; intros a [_ A]; exact A|constructor; auto].
    - destruct (sc_names s); discriminate.
    - apply Forall_app. split; [eapply Forall_impl; [|exact H1]; intros a [_ A]; exact A|constructor; auto]. }
  apply app_inj_tail in E'. exact E'.
Qed.
Lemma scoped_names_dots_collide : exists s s' x, sc_names s <> sc_names s' /\ GetScopedName s x = GetScopedName s' x.
Proof. exists (scope_of ["a.b"]), (scope_of ["a"; "b"]), "c". split; [discriminate|reflexivity]. Qed.

Theorem scoped_name_at s x k : Forall (fun n => n <> "") (sc_names s) ->
  GetScopedNameAt s x k = if ((0 <=? k) && (k <=? Z.of_nat (length (sc_names s))))%Z
                          then Ok (dotted (firstn (Z.to_nat k) (sc_names s) ++ [x])) else Throw INTERNAL_ERROR.
Proof.
  intro H. unfold GetScopedNameAt, getCurrentScopeNameAt.
  destruct (Z.ltb_spec k 0) as [A|A]; destruct (Z.leb_spec 0 k) as [B|B]; try lia; simpl; [reflexivity|].
  destruct (Z.ltb_spec (Z.of_nat (length (sc_names s))) k) as [C|C]; destruct (Z.leb_spec k (Z.of_nat (length (sc_names s)))) as [D|D]; try lia;
    [reflexivity|].
  destruct (Z.eqb_spec k 0) as [->|Hk]; [reflexivity|].
  destruct (firstn (Z.to_nat k) (sc_names s)) as [|h t] eqn:E.
  - apply (f_equal (@length _)) in E. rewrite firstn_length in E. simpl in E. lia.
  - cbn [rbind]. rewrite dot_fold_dotted. f_equal. apply dotted_app. rewrite <- E.
    rewrite <- (firstn_skipn (Z.to_nat k) (sc_names s)) in H. apply Forall_app in H. tauto.
Qed.
