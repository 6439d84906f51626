(** Proofs for C25. *)
From Verif Require Import Base RangeModel RangeSpec RangeProofs ExtremumModel ExtremumSpec.
Open Scope Q_scope.

Lemma first_valid_spec y : forall fuel i, (i + fuel < length y)%nat ->
  exists r, first_valid y fuel i = Ok r /\ (i <= r <= i + fuel)%nat /\
    (forall j v, (i <= j < r)%nat -> nth_error y j = Some v -> v = None) /\
    ((r < i + fuel)%nat -> exists q, nth_error y r = Some (Some q)).
Proof.
  induction fuel as [|f IH]; intros i Hi; simpl.
  - exists i. split; [reflexivity|]. split; [lia|]. split; intros; lia.
  - destruct (nth_error_lt y i ltac:(lia)) as (v & Hv). unfold vget. rewrite Hv. simpl.
    destruct v as [q|]; simpl.
    + exists i. split; [reflexivity|]. split; [lia|]. split; [intros; lia|]. intros _. eauto.
    + destruct (IH (S i) ltac:(lia)) as (r & Hr & Hb & Hn & Hq). exists r. split; [exact Hr|]. split; [lia|]. split.
      * intros j v Hj Hjv. destruct (Nat.eq_dec j i) as [->|]; [congruence|]. apply (Hn j v); auto; lia.
      * intro. apply Hq. lia.
Qed.

Lemma last_valid_spec y : forall fuel i, (fuel <= i)%nat -> (i < length y)%nat ->
  exists r, last_valid y fuel i = Ok r /\ (i - fuel <= r <= i)%nat /\
    (forall j v, (r < j <= i)%nat -> nth_error y j = Some v -> v = None) /\
    ((i - fuel < r)%nat -> exists q, nth_error y r = Some (Some q)).
Proof.
  induction fuel as [|f IH]; intros i Hf Hi; simpl.
  - exists i. split; [reflexivity|]. split; [lia|]. split; intros; lia.
  - destruct (nth_error_lt y i ltac:(lia)) as (v & Hv). unfold vget. rewrite Hv. simpl.
    destruct v as [q|]; simpl.
    + exists i. split; [reflexivity|]. split; [lia|]. split; [intros; lia|]. intros _. eauto.
    + destruct i as [|p]; [lia|].
      destruct (IH p ltac:(lia) ltac:(lia)) as (r & Hr & Hb & Hn & Hq). exists r. split; [exact Hr|]. split; [lia|]. split.
      * intros j v Hj Hjv. destruct (Nat.eq_dec j (S p)) as [->|]; [congruence|]. apply (Hn j v); auto; lia.
      * intro. apply Hq. lia.
Qed.

(** the trimmed window: first and last non-NaN values, or an error when fewer than three samples remain *)
Lemma trim_spec y b e : (b <= e)%nat -> (e < length y)%nat ->
  match getFirstandLastnonNANElementIndices y b e with
  | Ok (b', e') => (b <= b')%nat /\ (b' + 2 <= e')%nat /\ (e' <= e)%nat /\
      (exists q, nth_error y b' = Some (Some q)) /\ (exists q, nth_error y e' = Some (Some q)) /\
      (forall j v, (b <= j < b' \/ e' < j <= e)%nat -> nth_error y j = Some v -> v = None)
  | Throw er => er = INTERNAL_ERROR /\
      forall i j qi qj, (b <= i)%nat -> (j <= e)%nat -> (i + 2 <= j)%nat ->
        nth_error y i = Some (Some qi) -> nth_error y j = Some (Some qj) -> False
  | UB => False
  end.
Proof.
  intros Hbe He. unfold getFirstandLastnonNANElementIndices.
  destruct (first_valid_spec y (e - b) b ltac:(lia)) as (b' & Hb' & B1 & B2 & B3). rewrite Hb'. cbn [rbind].
  destruct (last_valid_spec y (e - b') e ltac:(lia) He) as (e' & He' & E1 & E2 & E3). rewrite He'. cbn [rbind].
  destruct (Nat.ltb_spec (e' - b') 2) as [H|H].
  - split; [reflexivity|]. intros i j qi qj Hi Hj Hij Hyi Hyj.
    assert (b' <= i)%nat.
    { destruct (Nat.le_gt_cases b' i); auto. specialize (B2 i (Some qi) ltac:(lia) Hyi). discriminate. }
    assert (j <= e')%nat.
    { destruct (Nat.le_gt_cases j e'); auto. specialize (E2 j (Some qj) ltac:(lia) Hyj). discriminate. }
    lia.
  - split; [lia|]. split; [lia|]. split; [lia|]. split; [apply B3; lia|]. split; [apply E3; lia|].
    intros j v [Hj|Hj] Hv; [apply (B2 j v)|apply (E2 j v)]; auto.
Qed.

Lemma trim_id y b e Y : values_on y b e Y -> (b + 2 <= e)%nat ->
  getFirstandLastnonNANElementIndices y b e = Ok (b, e).
Proof.
  intros HY Hbe. unfold getFirstandLastnonNANElementIndices.
  replace (e - b)%nat with (S (e - b - 1)) by lia. cbn [first_valid].
  unfold vget. rewrite (HY b) by lia. cbn [rbind isnan].
  replace (e - b)%nat with (S (e - b - 1)) by lia. cbn [last_valid].
  unfold vget. rewrite (HY e) by lia. cbn [rbind isnan].
  destruct (Nat.ltb_spec (e - b) 2); [lia|]. reflexivity.
Qed.

(** ** Exactness of the loop on NaN-free windows without stair *)
Section Exact.
Variables (tmpY : list (option Q)) (b e : nat) (Y : nat -> Q) (border : bool).
Hypothesis HY : values_on tmpY b e Y.
Hypothesis Hbe : (b + 2 <= e)%nat.
Hypothesis Hns : ~ stair Y b e border.

Definition run_start (s i : nat) : Prop :=
  (b <= s)%nat /\ (s <= i)%nat /\ plateau Y s i /\ (s = b \/ ((b < s)%nat /\ ~ Y (s - 1)%nat == Y s)).

(** maxima whose last sample is at most m and strictly before the end of the window *)
Definition found (m x : nat) : Prop :=
  exists s t, (b <= s)%nat /\ (s <= t)%nat /\ (t <= m)%nat /\ (t < e)%nat /\ plateau Y s t /\
    rises_into Y b border s /\ Y (t + 1)%nat < Y t /\ x = (t - (t - s + 1) / 2)%nat.

Definition inv (i : nat) (st : pstate) : Prop :=
  (exists s, run_start s (i - 1) /\
    (Y (i - 1)%nat == Y i ->
       (rises_into Y b border s -> plank st = true /\ cnt_plk st = (i - s)%nat) /\
       (~ rises_into Y b border s -> plank st = false)) /\
    (~ Y (i - 1)%nat == Y i -> plank st = false /\ cnt_plk st = 0%nat)) /\
  increasing_idx (outs st) /\ (forall x, In x (outs st) <-> found (i - 1) x).

Lemma run_start_unique s s' i : run_start s i -> (b <= s')%nat -> (s' <= i)%nat -> plateau Y s' i ->
  rises_into Y b border s' -> s' = s.
Proof.
  intros (H1 & H2 & H3 & H4) H5 H6 H7 H8.
  destruct (Nat.lt_trichotomy s' s) as [C|[C|C]]; auto; exfalso.
  - destruct H4 as [->|[H4 H9]]; [lia|]. apply H9.
    rewrite (H7 (s - 1)%nat) by lia. rewrite (H7 s) by lia. reflexivity.
  - destruct H8 as [[-> _]|[H8 H9]]; [lia|].
    pose proof (H3 (s' - 1)%nat ltac:(lia)). pose proof (H3 s' ltac:(lia)). lra.
Qed.

Lemma plateau_single s : plateau Y s s.
Proof. intros j Hj. replace j with s by lia. reflexivity. Qed.

Lemma plateau_snoc s i : (s <= i)%nat -> plateau Y s i -> Y (S i) == Y i -> plateau Y s (S i).
Proof.
  intros Hsi H E j Hj. destruct (Nat.eq_dec j (S i)) as [->|].
  - rewrite E. apply H. lia.
  - apply H. lia.
Qed.

(** new maximum at index i of the list of found ones *)
Lemma found_step i x : (b < i < e)%nat ->
  (found i x <-> found (i - 1) x \/
     (Y (i + 1)%nat < Y i /\ exists s, (b <= s)%nat /\ (s <= i)%nat /\ plateau Y s i /\ rises_into Y b border s /\
        x = (i - (i - s + 1) / 2)%nat)).
Proof.
  intro Hi. split.
  - intros (s & t & H1 & H2 & H3 & H4 & H5 & H6 & H7 & H8).
    destruct (Nat.eq_dec t i) as [->|].
    + right. split; auto. exists s. auto.
    + left. exists s, t. repeat (split; [assumption || lia|]). auto.
  - intros [(s & t & H1 & H2 & H3 & H4 & H5 & H6 & H7 & H8)|(H7 & s & H1 & H2 & H5 & H6 & H8)].
    + exists s, t. repeat (split; [assumption || lia|]). auto.
    + exists s, i. repeat (split; [assumption || lia|]). auto.
Qed.

Lemma found_lt i s x : run_start s i -> found (i - 1) x -> (b < i)%nat -> (x < s)%nat \/ (s = i /\ x < i)%nat.
Proof.
  intros (H1 & H2 & H3 & H4) (s' & t & G1 & G2 & G3 & G4 & G5 & G6 & G7 & G8) Hbi.
  assert (x <= t)%nat by (subst x; lia).
  destruct (Nat.lt_ge_cases t s) as [C|C].
  - left. lia.
  - exfalso. pose proof (H3 t ltac:(lia)). pose proof (H3 (t + 1)%nat ltac:(lia)). lra.
Qed.

Lemma sorted_snoc l x : increasing_idx l -> (forall y, In y l -> (y < x)%nat) -> increasing_idx (l ++ [x]).
Proof.
  unfold increasing_idx. induction l as [|a l IH]; intros Hs Hx; simpl.
  - constructor; constructor.
  - inversion Hs; subst. constructor.
    + apply IH; auto. intros y Hy. apply Hx. right; auto.
    + apply Forall_app. split; auto. constructor; [apply Hx; left; auto|constructor].
Qed.

Lemma in_snoc {A} (l : list A) x y : In y (l ++ [x]) <-> In y l \/ y = x.
Proof. rewrite in_app_iff. simpl. intuition. Qed.

Lemma half_le i s : (s <= i)%nat -> (s <= i - (i - s + 1) / 2)%nat.
Proof.
  intro H. remember (i - s)%nat as d. assert (Hd : ((d + 1) / 2 <= d)%nat).
  { destruct d as [|d]; [simpl; lia|]. apply Nat.div_le_upper_bound; lia. }
  lia.
Qed.

Lemma step_exact i st : (b < i < e)%nat -> inv i st ->
  exists st', peak_step (Some (Y (i - 1)%nat)) (Some (Y i)) (Some (Y (i + 1)%nat)) i st = Ok st' /\ inv (S i) st'.
Proof.
  intros Hi ((s & Hs & Hflat & Hnflat) & Hsort & Hfound).
  assert (Efound : forall x, found (S i - 1) x <-> found i x) by (intro; replace (S i - 1)%nat with i by lia; reflexivity).
  pose proof Hs as (Hs1 & Hs2 & Hs3 & Hs4).
  unfold peak_step, olt, oeq.
  destruct (Qlt_le_dec (Y (i - 1)%nat) (Y i)) as [U|U].
  - (* rising into i *)
    destruct (Qltb_spec (Y (i - 1)%nat) (Y i)) as [_|]; [|contradiction].
    destruct Hnflat as [Hp Hc]; [lra|].
    assert (Hri : rises_into Y b border i) by (right; split; [lia|exact U]).
    assert (Hrun : run_start i i).
    { split; [lia|]. split; [lia|]. split; [apply plateau_single|]. right. split; [lia|]. lra. }
    assert (Hlt : forall x, In x (outs st) -> (x < i)%nat).
    { intros x Hx. apply Hfound in Hx. destruct (found_lt i i x Hrun Hx ltac:(lia)); lia. }
    destruct (Qltb_spec (Y (i + 1)%nat) (Y i)) as [D|D]; cbn [andb].
    + eexists. split; [reflexivity|]. unfold inv; cbn [plank cnt_plk outs]. split; [|split].
      * exists i. replace (S i - 1)%nat with i by lia. split; [exact Hrun|].
        replace (S i) with (i + 1)%nat by lia. split; intro E; [lra|]. split; assumption.
      * apply sorted_snoc; auto.
      * intro x. rewrite in_snoc, Hfound, Efound, (found_step i x Hi).
        assert (Hone : forall s', (b <= s')%nat -> (s' <= i)%nat -> plateau Y s' i -> rises_into Y b border s' -> s' = i)
          by (intros; eapply run_start_unique; eauto).
        split.
        -- intros [H|H]; [left; exact H|]. right. split; [exact D|]. exists i. repeat (split; [assumption || lia || apply plateau_single|]).
           rewrite Nat.sub_diag. simpl. lia.
        -- intros [H|[_ (s' & A1 & A2 & A3 & A4 & A5)]]; [left; exact H|]. right.
           rewrite (Hone s' A1 A2 A3 A4) in A5. rewrite Nat.sub_diag in A5. simpl in A5. lia.
    + (* not a peak *)
      assert (Hno : forall x, found i x <-> found (i - 1) x).
      { intro x. rewrite (found_step i x Hi). split; [|auto]. intros [H|[H _]]; auto. contradiction. }
      destruct (Qeq_bool_spec (Y i) (Y (i + 1)%nat)) as [F|F].
      * eexists. split; [reflexivity|]. unfold inv; cbn [plank cnt_plk outs]. split; [|split; auto].
        -- exists i. replace (S i - 1)%nat with i by lia. split; [exact Hrun|].
           replace (S i) with (i + 1)%nat by lia. split; intro E; [|contradiction]. split; [|contradiction].
           intros _. split; [reflexivity|]. rewrite Hc. lia.
        -- intro x. rewrite Hfound, Efound, Hno. reflexivity.
      * destruct (Qeq_bool_spec (Y (i - 1)%nat) (Y i)) as [G|G]; [lra|]. cbn [negb].
        eexists. split; [reflexivity|]. split; [|split; auto].
        -- exists i. replace (S i - 1)%nat with i by lia. split; [exact Hrun|].
           replace (S i) with (i + 1)%nat by lia. split; intro E; [contradiction|]. auto.
        -- intro x. rewrite Hfound, Efound, Hno. reflexivity.
  - destruct (Qltb_spec (Y (i - 1)%nat) (Y i)) as [K|_]; [lra|]. cbn [andb].
    destruct (Qeq_bool_spec (Y (i - 1)%nat) (Y i)) as [G|G]; cbn [negb].
    + (* flat before i *)
      specialize (Hflat G). destruct Hflat as [Hf1 Hf2].
      assert (Hrun : run_start s i).
      { split; [lia|]. split; [lia|]. split; [|exact Hs4]. replace i with (S (i - 1)) by lia. apply plateau_snoc; auto.
        replace (S (i - 1)) with i by lia. lra. }
      assert (Hdec : rises_into Y b border s \/ ~ rises_into Y b border s).
      { destruct Hs4 as [->|[Hb Hne]].
        - destruct border eqn:Eb; [left; left; auto|]. right. intros [[_ H]|[H _]]; [discriminate|lia].
        - destruct (Qlt_le_dec (Y (s - 1)%nat) (Y s)) as [C|C]; [left; right; auto|].
          right. intros [[H _]|[_ H]]; [lia|lra]. }
      destruct (Qltb_spec (Y (i + 1)%nat) (Y i)) as [D|D].
      * destruct Hdec as [R|R].
        -- destruct (Hf1 R) as [Hp Hc]. rewrite Hp. cbn [andb].
           unfold back_off. rewrite Hc.
           assert (Hh : (S (i - s) / 2 <= i)%nat) by (apply Nat.div_le_upper_bound; lia).
           destruct (Nat.leb_spec (S (i - s) / 2) i); [|lia]. cbn [rbind].
           replace (S (i - s)) with (i - s + 1)%nat by lia.
           eexists. split; [reflexivity|]. unfold inv; cbn [plank cnt_plk outs]. split; [|split].
           ++ exists s. replace (S i - 1)%nat with i by lia. split; [exact Hrun|].
              replace (S i) with (i + 1)%nat by lia. split; intro E; [lra|]. split; reflexivity.
           ++ apply sorted_snoc; auto. intros x Hx. apply Hfound in Hx.
              pose proof (half_le i s ltac:(lia)).
              destruct (found_lt i s x Hrun Hx ltac:(lia)); lia.
           ++ intro x. rewrite in_snoc, Hfound, Efound, (found_step i x Hi). split.
              ** intros [H'|H']; [left; exact H'|]. right. split; [exact D|]. exists s.
                 destruct Hrun as (R1 & R2 & R3 & R4). auto.
              ** intros [H'|[_ (s' & A1 & A2 & A3 & A4 & A5)]]; [left; exact H'|]. right.
                 rewrite (run_start_unique s s' i Hrun A1 A2 A3 A4) in A5. exact A5.
        -- exfalso. apply Hns. exists s, i. destruct Hrun as (R1 & R2 & R3 & R4).
           split; [lia|]. split; [lia|]. split; [lia|]. split; [exact R3|]. split.
           ++ destruct Hs4 as [->|[Hb Hne]].
              ** left. split; auto. destruct border; auto. exfalso. apply R. left; auto.
              ** right. split; auto. destruct (Qlt_le_dec (Y s) (Y (s - 1)%nat)) as [C|C]; auto.
                 exfalso. apply R. right. split; auto. apply Qle_lteq in C. destruct C as [C|C]; [exact C|]. exfalso. apply Hne. exact C.
           ++ right. split; [lia|exact D].
      * rewrite andb_false_r. cbn [andb].
        assert (Hno : forall x, found i x <-> found (i - 1) x).
        { intro x. rewrite (found_step i x Hi). split; [|auto]. intros [H|[H _]]; auto. contradiction. }
        destruct (Qltb_spec (Y i) (Y (i + 1)%nat)) as [P|P].
        -- eexists. split; [reflexivity|]. unfold inv; cbn [plank cnt_plk outs]. split; [|split; auto].
           ++ exists s. replace (S i - 1)%nat with i by lia. split; [exact Hrun|].
              replace (S i) with (i + 1)%nat by lia. split; intro E; [lra|]. split; reflexivity.
           ++ intro x. rewrite Hfound, Efound, Hno. reflexivity.
        -- assert (Eq : Y i == Y (i + 1)%nat) by lra.
           eexists. split; [reflexivity|]. unfold inv; cbn [plank cnt_plk outs]. split; [|split; auto].
           ++ exists s. replace (S i - 1)%nat with i by lia. split; [exact Hrun|].
              replace (S i) with (i + 1)%nat by lia. split; intro E; [|contradiction]. split.
              ** intro R. destruct (Hf1 R) as [Hp Hc]. split; [exact Hp|]. lia.
              ** intro R. apply Hf2. exact R.
           ++ intro x. rewrite Hfound, Efound, Hno. reflexivity.
    + (* falling into i *)
      assert (U' : Y i < Y (i - 1)%nat) by (apply Qle_lteq in U; destruct U as [U|U]; [exact U|exfalso; apply G; symmetry; exact U]).
      destruct (Hnflat G) as [Hp Hc].
      assert (Hrun : run_start i i).
      { split; [lia|]. split; [lia|]. split; [apply plateau_single|]. right. split; [lia|]. exact G. }
      assert (Hnr : ~ rises_into Y b border i) by (intros [[H _]|[_ H]]; [lia|lra]).
      eexists. split; [reflexivity|]. split; [|split; auto].
      * exists i. replace (S i - 1)%nat with i by lia. split; [exact Hrun|].
        replace (S i) with (i + 1)%nat by lia. split; intro E; [|split; assumption].
        split; [intro; contradiction|]. auto.
      * intro x. rewrite Hfound, Efound, (found_step i x Hi). split; [auto|].
        intros [H|[D (s' & A1 & A2 & A3 & A4 & A5)]]; auto. exfalso. apply Hnr.
        rewrite <- (run_start_unique i s' i Hrun A1 A2 A3 A4). exact A4.
Qed.

Lemma loop_exact : forall m i st, (b < i)%nat -> (i + m = e)%nat -> inv i st ->
  exists st', peak_loop tmpY m i st = Ok st' /\ inv e st'.
Proof.
  induction m as [|m IH]; intros i st Hi Hm Hinv; cbn [peak_loop].
  - exists st. split; [reflexivity|]. replace e with i by lia. exact Hinv.
  - unfold vget. rewrite (HY (i - 1)%nat) by lia. rewrite (HY i) by lia. rewrite (HY (i + 1)%nat) by lia. cbn [rbind].
    destruct (step_exact i st ltac:(lia) Hinv) as (st' & Hst & Hinv'). rewrite Hst. cbn [rbind].
    apply IH; auto; lia.
Qed.

Lemma init_inv :
  inv (b + 1) (if border && olt (Some (Y (b + 1)%nat)) (Some (Y b)) then mkPs false 0 [b]
             else if border && oeq (Some (Y b)) (Some (Y (b + 1)%nat)) then mkPs true 1 []
             else mkPs false 0 []).
Proof.
  assert (Hrun : run_start b b).
  { split; [lia|]. split; [lia|]. split; [apply plateau_single|]. left; reflexivity. }
  assert (Hf : forall x, found b x <-> border = true /\ Y (b + 1)%nat < Y b /\ x = b).
  { intro x. split.
    - intros (s & t & H1 & H2 & H3 & H4 & H5 & H6 & H7 & H8).
      assert (t = b) by lia. assert (s = b) by lia. subst t s. rewrite Nat.sub_diag in H8. simpl in H8.
      destruct H6 as [[_ H6]|[H6 _]]; [|lia]. split; auto. split; auto. lia.
    - intros (H1 & H2 & ->). exists b, b. repeat (split; [lia || apply plateau_single|]). split; [left; auto|].
      split; auto. rewrite Nat.sub_diag. simpl. lia. }
  unfold olt, oeq. unfold inv. replace (b + 1 - 1)%nat with b by lia.
  destruct border eqn:Eb; cbn [andb].
  - destruct (Qltb_spec (Y (b + 1)%nat) (Y b)) as [D|D].
    + unfold inv; cbn [plank cnt_plk outs]. split; [|split].
      * exists b. split; [exact Hrun|]. split; intro E; [lra|]. auto.
      * constructor; constructor.
      * intro x. rewrite Hf. simpl. intuition.
    + destruct (Qeq_bool_spec (Y b) (Y (b + 1)%nat)) as [F|F]; cbn [plank cnt_plk outs].
      * split; [|split].
        -- exists b. split; [exact Hrun|]. split; intro E; [|contradiction]. split.
           ++ intros _. split; [reflexivity|lia].
           ++ intro R. exfalso. apply R. left; auto.
        -- constructor.
        -- intro x. rewrite Hf. simpl. intuition.
      * split; [|split].
        -- exists b. split; [exact Hrun|]. split; intro E; [contradiction|]. auto.
        -- constructor.
        -- intro x. rewrite Hf. simpl. intuition.
  - unfold inv; cbn [plank cnt_plk outs]. split; [|split].
    + exists b. split; [exact Hrun|]. split; intro E; [|auto]. split.
      * intros [[_ H]|[H _]]; [congruence|lia].
      * reflexivity.
    + constructor.
    + intro x. rewrite Hf. simpl. intuition congruence.
Qed.

Lemma maximum_found x : is_maximum Y b e border x <->
  found (e - 1) x \/ (border = true /\ exists s, (b <= s)%nat /\ (s <= e)%nat /\ plateau Y s e /\ rises_into Y b border s /\
    x = (e - (e - s + 1) / 2)%nat).
Proof.
  split.
  - intros (s & t & H1 & H2 & H3 & H4 & H5 & [[-> Hb]|[Ht Hlt]] & H8).
    + right. split; auto. exists s. auto.
    + left. exists s, t. repeat (split; [assumption || lia|]). auto.
  - intros [(s & t & H1 & H2 & H3 & H4 & H5 & H6 & H7 & H8)|(Hb & s & H1 & H2 & H5 & H6 & H8)].
    + exists s, t. repeat (split; [assumption || lia|]). split; [right; auto|]. exact H8.
    + exists s, e. repeat (split; [assumption || lia|]). split; [left; auto|]. exact H8.
Qed.

Theorem peak_indexes_exact yAxis : getFirstandLastnonNANElementIndices yAxis b e = Ok (b, e) ->
  exists idx, peak_indexes border yAxis tmpY b e = Ok idx /\ increasing_idx idx /\
    forall x, In x idx <-> is_maximum Y b e border x.
Proof.
  intro Htrim. unfold peak_indexes. rewrite Htrim. cbn [rbind].
  unfold vget. rewrite (HY b) by lia. rewrite (HY (b + 1)%nat) by lia. cbn [rbind].
  destruct (loop_exact (e - (b + 1)) (b + 1) _ ltac:(lia) ltac:(lia) init_inv) as (st & Hst & Hinv).
  cbv zeta. rewrite Hst. cbn [rbind].
  destruct Hinv as ((s & Hs & Hflat & Hnflat) & Hsort & Hfound).
  pose proof maximum_found as MF.
  destruct border eqn:Eb; cbn [negb]; rewrite ?Eb in MF.
  - rewrite (HY (e - 1)%nat) by lia. rewrite (HY e) by lia. cbn [rbind olt].
    destruct (Qltb_spec (Y e) (Y (e - 1)%nat)) as [D|D].
    + exists (outs st). split; [reflexivity|]. split; [exact Hsort|]. intro x. rewrite Hfound, MF.
      split; [auto|]. intros [H|(_ & s' & A1 & A2 & A3 & A4 & A5)]; auto. exfalso.
      destruct (Nat.eq_dec s' e) as [->|Hne].
      * destruct A4 as [[A4 _]|[_ A4]]; [lia|lra].
      * pose proof (A3 (e - 1)%nat ltac:(lia)). pose proof (A3 e ltac:(lia)). lra.
    + assert (Hge : Y (e - 1)%nat <= Y e) by lra.
      destruct (Qlt_le_dec (Y (e - 1)%nat) (Y e)) as [U|U].
      * destruct Hnflat as [Hp Hc]; [lra|]. rewrite Hp, Hc. unfold back_off. simpl (Nat.leb _ _). cbn [rbind].
        exists (outs st ++ [e]). split; [f_equal; f_equal; f_equal; simpl; lia|].
        assert (Hrun : run_start e e).
        { split; [lia|]. split; [lia|]. split; [apply plateau_single|]. right. split; [lia|]. lra. }
        split.
        -- apply sorted_snoc; auto. intros x Hx. apply Hfound in Hx. destruct (found_lt e e x Hrun Hx ltac:(lia)); lia.
        -- intro x. rewrite in_snoc, Hfound, MF. split.
           ++ intros [H| ->]; auto. right. split; auto. exists e. repeat (split; [lia || apply plateau_single|]).
              split; [right; split; [lia|exact U]|]. rewrite Nat.sub_diag. simpl. lia.
           ++ intros [H|(_ & s' & A1 & A2 & A3 & A4 & A5)]; auto. right.
              assert (s' = e) by (apply (run_start_unique e s' e Hrun A1 A2 A3); rewrite Eb; exact A4). subst s'.
              rewrite Nat.sub_diag in A5. simpl in A5. lia.
      * assert (Eq : Y (e - 1)%nat == Y e) by lra.
        assert (Hrun : run_start s e).
        { destruct Hs as (R1 & R2 & R3 & R4). split; [lia|]. split; [lia|]. split; [|exact R4].
          replace e with (S (e - 1)) by lia. apply plateau_snoc; auto. replace (S (e - 1)) with e by lia. lra. }
        pose proof Hs as (S1 & S2 & S3 & S4).
        assert (R : rises_into Y b true s).
        { destruct S4 as [->|[Hb Hne]]; [left; auto|].
          destruct (Qlt_le_dec (Y (s - 1)%nat) (Y s)) as [C|C]; [right; auto|].
          exfalso. apply Hns. exists s, e. destruct Hrun as (R1 & R2 & R3 & R4).
          split; [lia|]. split; [lia|]. split; [lia|]. split; [exact R3|]. split; [|left; auto].
          right. split; auto. apply Qle_lteq in C. destruct C as [C|C]; [exact C|]. exfalso. apply Hne. symmetry. exact C. }
        destruct (Hflat Eq) as [Hf _]. destruct (Hf R) as [Hp Hc]. rewrite Hp, Hc.
        replace (e - s + 1)%nat with (e - s + 1)%nat by lia.
        assert (Hh : ((e - s + 1) / 2 <= e)%nat) by (apply Nat.div_le_upper_bound; lia).
        unfold back_off. destruct (Nat.leb_spec ((e - s + 1) / 2) e); [|lia]. cbn [rbind].
        eexists. split; [reflexivity|]. split.
        -- apply sorted_snoc; auto. intros x Hx. apply Hfound in Hx.
           pose proof (half_le e s ltac:(lia)).
           destruct (found_lt e s x Hrun Hx ltac:(lia)); lia.
        -- intro x. rewrite in_snoc, Hfound, MF. split.
           ++ intros [H'| ->]; auto. right. split; auto. exists s. destruct Hrun as (R1 & R2 & R3 & R4). auto.
           ++ intros [H'|(_ & s' & A1 & A2 & A3 & A4 & A5)]; auto. right.
              assert (s' = s) by (apply (run_start_unique s s' e Hrun A1 A2 A3); rewrite Eb; exact A4). subst s'. exact A5.
  - exists (outs st). split; [reflexivity|]. split; [exact Hsort|]. intro x. rewrite Hfound, MF.
    split; [auto|]. intros [H|[H _]]; [auto|discriminate].
Qed.
End Exact.
