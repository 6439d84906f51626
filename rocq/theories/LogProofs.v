(** Proofs for C41, C47. *)
From Coq Require Import String.
From Verif Require Import Base LogModel LogSpec.
Open Scope nat_scope.

Fixpoint somes (t : list (option nat)) : list nat :=
  match t with [] => [] | Some h :: r => h :: somes r | None :: r => somes r end.
Lemma somes_le t : (length (somes t) <= length t)%nat.
Proof. induction t as [|[h|] t IH]; simpl; lia. Qed.
Lemma add_length h t : length (add_handler h t) = length t.
Proof. induction t as [|[g|] t IH]; simpl; auto. Qed.
Lemma remove_length h t : length (remove_handler h t) = length t.
Proof. induction t as [|[g|] t IH]; simpl; auto. destruct (Nat.eqb g h); simpl; auto. Qed.
Lemma add_somes h t : Permutation (somes (add_handler h t))
  (if Nat.ltb (length (somes t)) (length t) then h :: somes t else somes t).
Proof.
  induction t as [|[g|] t IH]; simpl; auto.
  - change (S (length (somes t)) <? S (length t)) with (length (somes t) <? length t).
    rewrite IH. destruct (Nat.ltb (length (somes t)) (length t)); [apply perm_swap|reflexivity].
  - destruct (Nat.ltb_spec (length (somes t)) (S (length t))) as [H|H]; [reflexivity|]. pose proof (somes_le t). lia.
Qed.
Lemma remove_somes h t : NoDup (somes t) -> somes (remove_handler h t) = remove Nat.eq_dec h (somes t).
Proof.
  induction t as [|[g|] t IH]; simpl; intro H; auto.
  inversion H as [|? ? Hn Hd]; subst. destruct (Nat.eqb_spec g h) as [->|E]; simpl.
  - destruct (Nat.eq_dec h h); [|contradiction]. symmetry. apply notin_remove. exact Hn.
  - destruct (Nat.eq_dec h g); [congruence|]. rewrite IH; auto.
Qed.
Lemma nodup_remove h l : NoDup l -> NoDup (remove Nat.eq_dec h l).
Proof.
  induction 1 as [|a l Hn Hd IH]; simpl; [constructor|]. destruct (Nat.eq_dec h a); auto.
  constructor; auto. intro Hi. apply Hn. apply in_remove in Hi. tauto.
Qed.
Lemma perm_remove h l l' : NoDup l -> Permutation l l' -> Permutation (remove Nat.eq_dec h l) (remove Nat.eq_dec h l').
Proof.
  intros Hd Hp. apply NoDup_Permutation; [apply nodup_remove; auto|apply nodup_remove; apply (Permutation_NoDup Hp Hd)|].
  intro x. split; intro Hx; apply in_remove in Hx; destruct Hx as [A B]; apply in_in_remove; auto.
  - apply (Permutation_in _ Hp A).
  - apply (Permutation_in _ (Permutation_sym Hp) A).
Qed.

Lemma placed_live ops : history ops -> incl (placed ops) (live ops) /\ NoDup (placed ops) /\ NoDup (live ops).
Proof.
  induction ops as [|o r IH]; intro H.
  - split; [intros x []|]. split; constructor.
  - assert (Hr : history r) by (destruct o; simpl in H; tauto). specialize (IH Hr). destruct IH as (A & B & C).
    destruct o; simpl in *.
    + destruct H as [H _]. split; [|split].
      * intros x Hx. destruct (Nat.ltb (length (placed r)) 8); [destruct Hx as [->|Hx]; [left; auto|right; auto]|right; auto].
      * destruct (Nat.ltb (length (placed r)) 8); auto. constructor; auto.
      * constructor; auto.
    + split; [|split; apply nodup_remove; auto]. intros x Hx. apply in_remove in Hx. apply in_in_remove; [tauto|]. apply A. tauto.
    + auto.
Qed.

Definition run_rev (ops : list log_op) : log_state := log_run (rev ops).
Lemma run_rev_cons o r : run_rev (o :: r) = log_step (run_rev r) o.
Proof. unfold run_rev, log_run. simpl. rewrite fold_left_app. reflexivity. Qed.

Lemma table_inv ops : history ops ->
  length (tbl (run_rev ops)) = 8 /\ Permutation (somes (tbl (run_rev ops))) (placed ops) /\
  forall h, mask (run_rev ops) h = level_of ops h.
Proof.
  induction ops as [|o r IH]; intro H.
  - unfold run_rev, log_run. simpl. auto.
  - assert (Hr : history r) by (destruct o; simpl in H; tauto). specialize (IH Hr). destruct IH as (A & B & C).
    destruct (placed_live r Hr) as (P1 & P2 & _).
    rewrite run_rev_cons. destruct o; cbn [log_step tbl mask placed level_of].
    + split; [rewrite add_length; exact A|]. split.
      * rewrite add_somes, A, (Permutation_length B). destruct (Nat.ltb (length (placed r)) 8); [constructor; exact B|exact B].
      * intro g. unfold upd. rewrite (Nat.eqb_sym g h). destruct (Nat.eqb h g); [reflexivity|apply C].
    + split; [rewrite remove_length; exact A|]. split; [|exact C].
      assert (Hd : NoDup (somes (tbl (run_rev r)))) by (apply (Permutation_NoDup (Permutation_sym B) P2)).
      rewrite remove_somes by exact Hd. apply perm_remove; auto.
    + split; [exact A|]. split; [exact B|]. intro g. unfold upd. rewrite (Nat.eqb_sym g h). destruct (Nat.eqb h g); [reflexivity|apply C].
Qed.

Lemma logEntry_to s l m : map to (logEntry s l m) = filter (fun h => (mask s h <=? level_code l)%Z) (somes (tbl s)).
Proof.
  unfold logEntry. induction (tbl s) as [|[h|] t IH]; simpl; auto. destruct (mask s h <=? level_code l)%Z; simpl; rewrite IH; reflexivity.
Qed.
Lemma logEntry_text s l m d : In d (logEntry s l m) -> at_level d = l /\ text d = (GetHeader l ++ m)%string.
Proof.
  unfold logEntry. rewrite in_flat_map. intros (o & _ & Hd). destruct o as [h|]; simpl in Hd; [|destruct Hd].
  destruct (mask s h <=? level_code l)%Z; [|destruct Hd]. destruct Hd as [<-|[]]. auto.
Qed.

Theorem delivery_spec ops l m : history ops ->
  let ds := logEntry (log_run (rev ops)) l m in
  NoDup (map to ds) /\
  (forall d, In d ds -> at_level d = l /\ text d = (GetHeader l ++ m)%string) /\
  (forall h, In h (map to ds) <-> In h (placed ops) /\ (level_of ops h <= level_code l)%Z).
Proof.
  intro H. cbv zeta. destruct (table_inv ops H) as (A & B & C). destruct (placed_live ops H) as (_ & P2 & _).
  change (log_run (rev ops)) with (run_rev ops). rewrite logEntry_to. split; [|split].
  - apply NoDup_filter. apply (Permutation_NoDup (Permutation_sym B) P2).
  - apply logEntry_text.
  - intro h. rewrite filter_In, C, Z.leb_le. split; intros [X Y]; split; auto.
    + apply (Permutation_in _ B X).
    + apply (Permutation_in _ (Permutation_sym B) X).
Qed.

(** with never more than eight live handlers, all have a place *)
Theorem all_placed ops : history ops ->
  (forall a r, ops = a ++ r -> (length (live r) <= 8)%nat) -> forall h, In h (placed ops) <-> In h (live ops).
Proof.
  induction ops as [|o r IH]; intros H Hn h; [tauto|].
  assert (Hr : history r) by (destruct o; simpl in H; tauto).
  assert (Hn' : forall a r', r = a ++ r' -> (length (live r') <= 8)%nat) by (intros a r' E; apply (Hn (o :: a) r'); rewrite E; reflexivity).
  specialize (IH Hr Hn'). destruct (placed_live r Hr) as (P1 & P2 & P3). destruct o as [g|g|g z]; simpl.
  - assert (Hlen : (length (placed r) <= length (live r))%nat) by (apply NoDup_incl_length; auto).
    pose proof (Hn [] _ eq_refl) as H8. simpl in H8.
    destruct (Nat.ltb_spec (length (placed r)) 8) as [L|L]; [|lia]. simpl. rewrite IH. tauto.
  - split; intro Hx; apply in_remove in Hx; destruct Hx as [A B]; apply in_in_remove; auto; apply IH; exact A.
  - apply IH.
Qed.

(** a handler keeps its slot as long as it lives *)
Lemma add_keeps h g : forall t i, nth_error t i = Some (Some g) -> nth_error (add_handler h t) i = Some (Some g).
Proof.
  induction t as [|[x|] t IH]; intros i Hi; [destruct i; discriminate| |]; destruct i as [|i]; simpl in *; auto; discriminate.
Qed.
Lemma remove_keeps h g : g <> h -> forall t i, nth_error t i = Some (Some g) -> nth_error (remove_handler h t) i = Some (Some g).
Proof.
  intro E. induction t as [|[x|] t IH]; intros i Hi; [destruct i; discriminate| |].
  - simpl. destruct (Nat.eqb_spec x h) as [->|X]; destruct i as [|i]; simpl in *; auto. injection Hi as ->. congruence.
  - destruct i as [|i]; simpl in *; auto.
Qed.
Theorem slot_kept s o i g : nth_error (tbl s) i = Some (Some g) -> o <> Destroy g -> nth_error (tbl (log_step s o)) i = Some (Some g).
Proof.
  intros H Ho. destruct o as [h|h|h m]; cbn [log_step tbl]; [apply add_keeps; auto| |exact H].
  apply remove_keeps; congruence.
Qed.

(** ** Concurrency *)
Lemma set_nth_same ts t th : (t < length ts)%nat -> nth_error (set_thread ts t th) t = Some th.
Proof.
  intro H. unfold set_thread. rewrite nth_error_app2 by (rewrite firstn_length; lia).
  rewrite firstn_length, Nat.min_l by lia. rewrite Nat.sub_diag. reflexivity.
Qed.
Lemma set_nth_other ts t t' th : (t < length ts)%nat -> t' <> t -> nth_error (set_thread ts t th) t' = nth_error ts t'.
Proof.
  intros H Hne. unfold set_thread. destruct (Nat.lt_ge_cases t' t) as [L|L].
  - rewrite nth_error_app1 by (rewrite firstn_length; lia). rewrite <- (firstn_skipn t ts) at 2.
    rewrite nth_error_app1 by (rewrite firstn_length; lia). reflexivity.
  - rewrite nth_error_app2 by (rewrite firstn_length; lia). rewrite firstn_length, Nat.min_l by lia.
    replace (t' - t) with (S (t' - S t)) by lia. simpl.
    rewrite <- (firstn_skipn (S t) ts) at 2. rewrite nth_error_app2 by (rewrite firstn_length; lia).
    rewrite firstn_length, Nat.min_l by lia. reflexivity.
Qed.
Lemma set_length ts t th : (t < length ts)%nat -> length (set_thread ts t th) = length ts.
Proof.
  intro H. unfold set_thread. rewrite app_length, firstn_length. cbn [length]. rewrite skipn_length. lia.
Qed.

Definition sent (s : log_state) (x : nat * (level * string)) : list delivery := logEntry s (fst (snd x)) (snd (snd x)).

Definition cinv (s : log_state) (queues : list (list (level * string))) (c : conc) (order : list (nat * (level * string))) : Prop :=
  length (threads c) = length queues /\
  (forall t q, nth_error queues t = Some q -> of_thread t order ++ pending c t = q) /\
  match lock c with
  | None => idle c /\ out c = flat_map (sent s) order
  | Some t => exists l m i done todo_t, order = done ++ [(t, (l, m))] /\ (i <= 8)%nat /\
      nth_error (threads c) t = Some (mkThread todo_t (InLoop l m i)) /\
      (forall t' th, t' <> t -> nth_error (threads c) t' = Some th -> at_pc th = Idle) /\
      out c = flat_map (sent s) done ++ flat_map (slot_deliver s l m) (firstn i (tbl s))
  end.

Lemma of_thread_snoc t order u x : of_thread t (order ++ [(u, x)]) = if Nat.eqb u t then of_thread t order ++ [x] else of_thread t order.
Proof.
  unfold of_thread. rewrite filter_app. simpl. destruct (Nat.eqb u t); [rewrite map_app; reflexivity|rewrite app_nil_r; reflexivity].
Qed.

Lemma cstep_inv s queues c order t : length (tbl s) = 8 -> cinv s queues c order -> exists order', cinv s queues (cstep s c t) order'.
Proof.
  intros H8 (L & Q & I). unfold cstep. destruct (nth_error (threads c) t) as [th|] eqn:Et; [|exists order; exact (conj L (conj Q I))].
  pose proof (nth_error_len _ _ _ Et) as Ht.
  destruct (at_pc th) as [|l m i] eqn:Epc.
  - destruct (todo th) as [|[l m] rest] eqn:Etd; [exists order; exact (conj L (conj Q I))|].
    destruct (lock c) as [u|] eqn:El; [exists order; split; [exact L|]; split; [exact Q|]; rewrite El; exact I|].
    destruct I as [Hidle Hout]. exists (order ++ [(t, (l, m))]). split; [cbn [threads]; rewrite set_length; auto|]. split.
    + intros t' q Hq. rewrite of_thread_snoc. unfold pending. cbn [threads]. destruct (Nat.eqb_spec t t') as [<-|E].
      * rewrite set_nth_same by exact Ht. cbn [todo]. rewrite <- (Q t q Hq). unfold pending. rewrite Et, Etd, <- app_assoc. reflexivity.
      * rewrite set_nth_other by auto. apply (Q t' q Hq).
    + cbn [lock threads out]. exists l, m, 0, order, rest. split; [reflexivity|]. split; [lia|]. split; [apply set_nth_same; exact Ht|]. split.
      * intros t' th' E. rewrite set_nth_other by auto. apply Hidle.
      * simpl. rewrite app_nil_r. exact Hout.
  - assert (Hl : lock c = Some t).
    { destruct (lock c) as [u|].
      - destruct I as (l' & m' & i' & dn & td & _ & _ & _ & Hoth & _). destruct (Nat.eq_dec t u) as [->|E]; [reflexivity|].
        specialize (Hoth t th E Et). congruence.
      - destruct I as [Hidle _]. specialize (Hidle t th Et). congruence. }
    rewrite Hl in I. destruct I as (l' & m' & i' & dn & td & Hord & Hi & Hth & Hoth & Hout).
    rewrite Et in Hth. injection Hth as ->. cbn [at_pc todo] in *. injection Epc as -> -> ->.
    destruct (Nat.ltb_spec i table_size) as [Hlt|Hge]; unfold table_size in *.
    + exists order. split; [cbn [threads]; rewrite set_length; auto|]. split.
      * intros t' q Hq. unfold pending. cbn [threads]. rewrite <- (Q t' q Hq). unfold pending. destruct (Nat.eq_dec t' t) as [->|E].
        -- rewrite set_nth_same by exact Ht. rewrite Et. reflexivity.
        -- rewrite set_nth_other by auto. reflexivity.
      * cbn [lock threads out]. rewrite Hl. exists l, m, (S i), dn, td. split; [exact Hord|]. split; [lia|].
        split; [apply set_nth_same; exact Ht|]. split.
        -- intros t' th' E. rewrite set_nth_other by auto. apply Hoth. exact E.
        -- rewrite Hout, <- app_assoc. f_equal.
           destruct (nth_error_lt (tbl s) i ltac:(lia)) as (o & Ho).
           assert (Hf : firstn (S i) (tbl s) = firstn i (tbl s) ++ [o]).
           { clear - Ho. revert i Ho. induction (tbl s) as [|x t IH]; intros i Ho; [destruct i; discriminate|].
             destruct i as [|i]; simpl in *; [congruence|]. f_equal. apply IH. exact Ho. }
           rewrite Hf, flat_map_app. simpl. rewrite app_nil_r. f_equal. f_equal. apply nth_error_nth. exact Ho.
    + exists order. split; [cbn [threads]; rewrite set_length; auto|]. split.
      * intros t' q Hq. unfold pending. cbn [threads]. rewrite <- (Q t' q Hq). unfold pending. destruct (Nat.eq_dec t' t) as [->|E].
        -- rewrite set_nth_same by exact Ht. rewrite Et. reflexivity.
        -- rewrite set_nth_other by auto. reflexivity.
      * cbn [lock threads out]. split.
        -- intros t' th' Hth'. cbn [threads] in Hth'. destruct (Nat.eq_dec t' t) as [->|E].
           ++ rewrite set_nth_same in Hth' by exact Ht. injection Hth' as <-. reflexivity.
           ++ rewrite set_nth_other in Hth' by auto. apply (Hoth t'); auto.
        -- rewrite Hout, Hord, flat_map_app. f_equal. simpl. rewrite app_nil_r. unfold sent, logEntry. cbn [fst snd].
           rewrite firstn_all2 by lia. reflexivity.
Qed.

Lemma crun_inv s queues sched : length (tbl s) = 8 -> exists order, cinv s queues (crun s queues sched) order.
Proof.
  intro H8. unfold crun. set (c0 := mkConc None (map (fun q => mkThread q Idle) queues) []).
  assert (H0 : exists order, cinv s queues c0 order).
  { exists []. split; [cbn; apply map_length|]. split.
    - intros t q Hq. unfold pending. cbn [threads c0]. rewrite nth_error_map, Hq. reflexivity.
    - cbn [lock c0]. split; [|reflexivity]. intros t th Hth. cbn [threads c0] in Hth. rewrite nth_error_map in Hth.
      destruct (nth_error queues t); [|discriminate]. cbn in Hth. injection Hth as <-. reflexivity. }
  revert H0. generalize c0. induction sched as [|t r IH]; intros c Hc; [exact Hc|].
  cbn [fold_left]. apply IH. destruct Hc as [o Ho]. apply (cstep_inv s queues c o t H8 Ho).
Qed.

Theorem no_interleaving s queues sched : length (tbl s) = 8 ->
  let c := crun s queues sched in
  exists order, (forall t q, nth_error queues t = Some q -> of_thread t order ++ pending c t = q) /\
    (lock c = None -> out c = flat_map (fun x => logEntry s (fst (snd x)) (snd (snd x))) order) /\
    (forall t, lock c = Some t -> exists done l m i, order = done ++ [(t, (l, m))] /\
       out c = flat_map (fun x => logEntry s (fst (snd x)) (snd (snd x))) done ++ flat_map (slot_deliver s l m) (firstn i (tbl s))).
Proof.
  intros H8 c. destruct (crun_inv s queues sched H8) as (order & L & Q & I). fold c in L, Q, I. exists order. split; [exact Q|]. split.
  - intro Hl. rewrite Hl in I. destruct I as [_ I]. exact I.
  - intros t Hl. rewrite Hl in I. destruct I as (l & m & i & dn & td & A & _ & _ & _ & B). exists dn, l, m, i. split; [exact A|exact B].
Qed.

(** no deadlock: while a message is pending, some thread can make progress *)
Theorem some_thread_progresses s queues sched : length (tbl s) = 8 ->
  let c := crun s queues sched in
  (exists t th, nth_error (threads c) t = Some th /\ (todo th <> [] \/ at_pc th <> Idle)) ->
  exists t, cstep s c t <> c.
Proof.
  intros H8 c (t & th & Ht & Hw). destruct (crun_inv s queues sched H8) as (order & L & Q & I). fold c in L, Q, I.
  destruct (lock c) as [u|] eqn:El.
  - destruct I as (l & m & i & dn & td & A & Hi & B & _ & _). exists u. intro E.
    pose proof (nth_error_len _ _ _ B) as Hu. apply (f_equal threads) in E. unfold cstep in E. rewrite B in E. cbn [at_pc todo] in E.
    destruct (Nat.ltb i table_size); cbn [threads] in E; apply (f_equal (fun x => nth_error x u)) in E;
      rewrite set_nth_same in E by exact Hu; rewrite B in E; injection E as E; try discriminate. lia.
  - destruct I as [Hidle _]. specialize (Hidle t th Ht). exists t. destruct Hw as [Hw|Hw]; [|contradiction]. intro E.
    apply (f_equal lock) in E. unfold cstep in E. rewrite Ht, Hidle, El in E. destruct (todo th) as [|[l m] r]; [contradiction|].
    cbn [lock] in E. discriminate.
Qed.
