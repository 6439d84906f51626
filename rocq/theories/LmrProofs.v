(** Proofs for C78: one store, one insertion. *)
From Verif Require Import Base RangeModel RangeSpec RangeProofs ZGridModel ZGridSpec ZGridProofs MeikModel LmrModel LmrSpec.
Open Scope Q_scope.


Lemma vset_eq {A} (l : list A) i x : (i < length l)%nat -> vset l i x = Ok (upd l i x).
Proof.
  unfold upd. revert i; induction l as [|h t IH]; intros i H; simpl in H; [lia|]. destruct i as [|i]; [reflexivity|].
  cbn [vset]. rewrite IH by lia. reflexivity.
Qed.
Lemma upd_length {A} (l : list A) i x : (i < length l)%nat -> length (upd l i x) = length l.
Proof. intro H. unfold upd. rewrite app_length, firstn_length. cbn [length]. rewrite skipn_length. lia. Qed.
Lemma upd_nth {A} (l : list A) i x k : (i < length l)%nat -> nth_error (upd l i x) k = if Nat.eqb k i then Some x else nth_error l k.
Proof.
  intro H. destruct (vset_ok l i x H) as (l' & E & _ & Hn & Ho). rewrite vset_eq in E by exact H. injection E as <-.
  destruct (Nat.eqb_spec k i) as [->|N]; [exact Hn|]. apply Ho; exact N.
Qed.
Lemma map_rep {A B} (f : A -> B) a n : map f (repeat a n) = repeat (f a) n.
Proof. induction n as [|n IH]; [reflexivity|]. cbn [repeat map]. rewrite IH. reflexivity. Qed.
Lemma nth_ext_error {A} (l m : list A) : (forall k, nth_error l k = nth_error m k) -> l = m.
Proof.
  revert m; induction l as [|a l IH]; intros [|b m] H; [reflexivity|specialize (H 0%nat); discriminate|specialize (H 0%nat); discriminate|].
  pose proof (H 0%nat) as H0. simpl in H0. injection H0 as ->. f_equal. apply IH. intro k. apply (H (S k)).
Qed.
Lemma map_upd {A B} (f : A -> B) l i x : map f (upd l i x) = upd (map f l) i (f x).
Proof. unfold upd. rewrite map_app, firstn_map. cbn [map]. rewrite skipn_map. reflexivity. Qed.
Lemma map_spl {A B} (f : A -> B) l idx ndup count d : map f (spl l idx ndup count d) = spl (map f l) idx ndup count (f d).
Proof. unfold spl. rewrite !map_app, firstn_map, skipn_map, map_rep. reflexivity. Qed.
Lemma spl_length {A} (l : list A) idx ndup count d : (ndup <= count)%nat -> (idx + ndup <= length l)%nat ->
  length (spl l idx ndup count d) = (length l + count - ndup)%nat.
Proof. intros. unfold spl. rewrite !app_length, firstn_length, repeat_length, skipn_length. lia. Qed.

(** *** columns *)
Lemma matrix_len {A} (cols : list (list A)) n f rows c : matrix cols n f rows -> In c cols -> length c = length rows.
Proof.
  intros (_ & _ & H) Hc. apply In_nth_error in Hc. destruct Hc as [j Hj]. specialize (H j c Hj).
  apply (f_equal (@length _)) in H. rewrite !map_length in H. exact H.
Qed.
Lemma ins_first_eq {A} (cols : list (list A)) idx count d ndup N :
  (forall c, In c cols -> length c = N) -> (ndup <= count)%nat -> (idx + ndup <= N)%nat ->
  ins_first (length cols) cols idx count d ndup = Ok (map (fun c => spl c idx ndup count d) cols).
Proof.
  intros H H1 H2. induction cols as [|c t IH]; [reflexivity|]. cbn [length ins_first].
  rewrite insertWithDuplicates_value_eq; [|exact H1|rewrite (H c (or_introl eq_refl)); exact H2]. cbn [rbind].
  rewrite IH by (intros c' Hc'; apply H; right; exact Hc'). reflexivity.
Qed.
Lemma matrix_insert {A} (cols : list (list A)) n f rows idx ndup count d d0 :
  matrix cols n f rows -> (ndup <= count)%nat -> (idx + ndup <= length rows)%nat -> f d0 = repeat d n ->
  ins_first n cols idx count d ndup = Ok (map (fun c => spl c idx ndup count d) cols) /\
  matrix (map (fun c => spl c idx ndup count d) cols) n f (spl rows idx ndup count d0).
Proof.
  intros M H1 H2 Hd. pose proof M as (L & LR & HC). split.
  - rewrite <- L. apply ins_first_eq with (N := length rows); auto. intros c Hc. eapply matrix_len; eauto.
  - split; [rewrite map_length; exact L|]. split.
    + intros w Hw. unfold spl in Hw. rewrite !in_app_iff in Hw. destruct Hw as [Hw|[Hw|Hw]].
      * apply LR. eapply (proj1 (Forall_forall (fun w => In w rows) (firstn idx rows))); [|exact Hw].
        apply Forall_forall. intros a Ha. rewrite <- (firstn_skipn idx rows). apply in_or_app. left; exact Ha.
      * apply repeat_spec in Hw. subst w. rewrite Hd. apply repeat_length.
      * apply LR. rewrite <- (firstn_skipn (idx + ndup) rows). apply in_or_app. right; exact Hw.
    + intros j col Hj. rewrite nth_error_map in Hj. destruct (nth_error cols j) as [c|] eqn:E; [|discriminate].
      injection Hj as <-. rewrite !map_spl. rewrite (HC j c E). f_equal. rewrite Hd.
      assert (Lj : (j < n)%nat) by (rewrite <- L; eapply nth_error_len; eauto).
      symmetry. destruct (nth_error_lt (repeat d n) j) as [x Hx]; [rewrite repeat_length; exact Lj|]. rewrite Hx. f_equal.
      eapply repeat_spec. eapply nth_error_In; eauto.
Qed.
Lemma set_cells_eq {A} i N : forall (vals : list A) (cols : list (list A)), length vals = length cols ->
  (forall c, In c cols -> length c = N) -> (i < N)%nat ->
  exists cols', set_cells cols vals i = Ok cols' /\ length cols' = length cols /\
    forall j c' , nth_error cols' j = Some c' -> exists c v, nth_error cols j = Some c /\ nth_error vals j = Some v /\ c' = upd c i v.
Proof.
  induction vals as [|v vt IH]; intros cols L H Hi.
  - destruct cols; [|discriminate]. exists []. split; [reflexivity|]. split; [reflexivity|]. intros [|j] c' K; discriminate.
  - destruct cols as [|c ct]; [discriminate|]. cbn [set_cells].
    rewrite vset_eq by (rewrite (H c (or_introl eq_refl)); exact Hi). cbn [rbind].
    destruct (IH ct) as (ct' & E & L' & Hk); [simpl in L; lia|intros c' Hc'; apply H; right; exact Hc'|exact Hi|].
    rewrite E. cbn [rbind]. eexists. split; [reflexivity|]. split; [simpl; lia|]. intros [|j] c' K.
    + simpl in K. injection K as <-. exists c, v. auto.
    + exact (Hk j c' K).
Qed.
Lemma matrix_set {A} (cols : list (list A)) n f rows i w vals :
  matrix cols n f rows -> (i < length rows)%nat -> length vals = n -> f w = vals ->
  exists cols', set_cells cols vals i = Ok cols' /\ matrix cols' n f (upd rows i w).
Proof.
  intros M Hi Hv Hw. pose proof M as (L & LR & HC).
  destruct (set_cells_eq i (length rows) vals cols) as (cols' & E & L' & Hk); [lia| |exact Hi|].
  { intros c Hc. eapply matrix_len; eauto. }
  exists cols'. split; [exact E|]. split; [lia|]. split.
  - intros w' Hw'. apply In_nth_error in Hw'. destruct Hw' as [k Hk']. rewrite upd_nth in Hk' by exact Hi.
    destruct (Nat.eqb k i); [injection Hk' as <-; rewrite Hw; exact Hv|]. apply LR. eapply nth_error_In; eauto.
  - intros j c' Hj. destruct (Hk j c' Hj) as (c & v & Hc & Hvj & ->). rewrite !map_upd, (HC j c Hc). f_equal. rewrite Hw. symmetry; exact Hvj.
Qed.
(** a row whose list is not changed *)
Lemma matrix_same {A} (cols : list (list A)) n f rows i w w0 :
  matrix cols n f rows -> nth_error rows i = Some w0 -> f w = f w0 -> matrix cols n f (upd rows i w).
Proof.
  intros (L & LR & HC) H0 Hw. assert (Hi : (i < length rows)%nat) by (eapply nth_error_len; eauto).
  split; [exact L|]. split.
  - intros w' Hw'. apply In_nth_error in Hw'. destruct Hw' as [k Hk']. rewrite upd_nth in Hk' by exact Hi.
    destruct (Nat.eqb k i); [injection Hk' as <-; rewrite Hw; apply LR; eapply nth_error_In; eauto|]. apply LR. eapply nth_error_In; eauto.
  - intros j c Hj. rewrite (HC j c Hj). clear - H0 Hw Hi. apply (nth_ext_error).
    intro k. rewrite !nth_error_map, upd_nth by exact Hi. destruct (Nat.eqb_spec k i) as [->|N]; [|reflexivity].
    rewrite H0. cbn. rewrite Hw. reflexivity.
Qed.
