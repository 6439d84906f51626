(** C92: the supports of the lines and the signal to noise ratio. *)
From Verif Require Import Base RangeModel AxisModel EfitModel F64 RatProofs2 StatModel StatSpec StatProofs.
Open Scope Q_scope.

Lemma overlaps_true a b : overlaps a b = true <-> (Nat.max (p_beg a) (p_beg b) < Nat.min (p_end a) (p_end b))%nat.
Proof. unfold overlaps. apply Nat.ltb_lt. Qed.
Lemma join_under a b i : overlaps a b = true -> (under (join a b) i <-> under a i \/ under b i).
Proof. rewrite overlaps_true. unfold under, join. cbn [p_beg p_end]. lia. Qed.
Lemma join_wf a b : sup_wf a -> sup_wf b -> sup_wf (join a b).
Proof. unfold sup_wf, join. cbn [p_beg p_end]. lia. Qed.

Lemma absorb_spec l : forall cur, sup_wf cur -> (forall p, In p l -> sup_wf p) ->
  exists took, let r := absorb cur l in
    Permutation l (took ++ snd r) /\ (length (snd r) <= length l)%nat /\
    sup_wf (fst r) /\ within cur (fst r) /\ (forall p, In p took -> within p (fst r)) /\
    (forall i, under (fst r) i <-> under cur i \/ exists p, In p took /\ under p i) /\
    (p_strong (fst r) = true <-> p_strong cur = true \/ exists p, In p took /\ p_strong p = true).
Proof.
  induction l as [|b t IH]; intros cur Wc W; cbn [absorb].
  - exists []. cbn [fst snd app length]. split; [constructor|]. split; [lia|]. split; [auto|]. split; [unfold within; lia|].
    split; [intros p []|]. split; [intro i|]; (split; [auto|intros [H|(p & [] & _)]; auto]).
  - destruct (overlaps cur b) eqn:E.
    + destruct (IH (join cur b)) as (took & P & L & W1 & W2 & W3 & C & S1).
      { apply join_wf; auto. apply W. left; auto. } { intros; apply W; right; auto. }
      exists (b :: took). cbn [fst snd] in *. split; [cbn; constructor; auto|]. split; [cbn [length]; lia|]. split; auto.
      assert (Wj : within cur (join cur b) /\ within b (join cur b)) by (unfold within, join; cbn [p_beg p_end]; lia).
      assert (Tr : forall p q r, within p q -> within q r -> within p r) by (unfold within; intros; lia).
      split; [apply (Tr _ (join cur b)); tauto|]. split; [intros p [Hp|Hp]; [subst p; apply (Tr _ (join cur b)); tauto|auto]|].
      split.
      * intro i. rewrite C, join_under by auto. cbn. split.
        -- intros [[H|H]|(p & H & H2)]; eauto 6.
        -- intros [H|(p & [H|H] & H2)]; subst; eauto 6.
      * rewrite S1. unfold join at 1. cbn [p_strong]. rewrite orb_true_iff. cbn. split.
        -- intros [[H|H]|(p & H & H2)]; eauto 6.
        -- intros [H|(p & [H|H] & H2)]; subst; eauto 6.
    + destruct (IH cur) as (took & P & L & R); auto. { intros; apply W; right; auto. }
      exists took. cbn [fst snd] in *. split; [|split; [cbn [length]; lia|exact R]].
      apply (Permutation_trans (perm_skip b P)). apply Permutation_middle.
Qed.

(** the merged supports cover exactly the samples under the lines; each line is inside one of them, strong when one of its lines is *)
Lemma merge_spec n : forall l, (length l <= n)%nat -> (forall p, In p l -> sup_wf p) ->
  (forall q, In q (merge n l) -> sup_wf q) /\
  (forall i, (exists q, In q (merge n l) /\ under q i) <-> (exists p, In p l /\ under p i)) /\
  (forall p, In p l -> exists q, In q (merge n l) /\ within p q /\ (p_strong p = true -> p_strong q = true)) /\
  (forall q, In q (merge n l) -> p_strong q = true -> exists p, In p l /\ within p q /\ p_strong p = true).
Proof.
  induction n as [|n IH]; intros l L W.
  - destruct l; [|cbn in L; lia]. cbn. repeat split; try tauto; try (intros (? & [] & _)); intros ? [].
  - destruct l as [|a t]. { cbn. repeat split; try tauto; try (intros (? & [] & _)); intros ? []. }
    cbn [merge]. destruct (absorb_spec t a) as (took & P & La & W1 & W2 & W3 & C & S1). { apply W; left; auto. } { intros; apply W; right; auto. }
    cbn [fst snd] in *. set (c := fst (absorb a t)) in *. set (rest := snd (absorb a t)) in *.
    assert (InP : forall p, In p t <-> In p took \/ In p rest).
    { intro p. rewrite <- in_app_iff. split; intro H; [apply (Permutation_in _ P)|apply (Permutation_in _ (Permutation_sym P))]; auto. }
    destruct (IH rest) as (I1 & I2 & I3 & I4). { cbn [length] in L. lia. } { intros p Hp. apply W. right. apply InP; auto. }
    split; [intros q [E|Hq]; [subst; auto|auto]|]. split; [|split].
    + intro i. split.
      * intros (q & [E|Hq] & U).
        -- subst q. apply C in U. destruct U as [U|(p & Hp & U)]; [exists a; cbn; auto|exists p; split; auto; right; apply InP; auto].
        -- destruct (proj1 (I2 i)) as (p & Hp & U'); [eauto|]. exists p. split; auto. right. apply InP; auto.
      * intros (p & [E|Hp] & U).
        -- subst p. exists c. split; [left; auto|]. apply C. auto.
        -- apply InP in Hp. destruct Hp as [Hp|Hp]; [exists c; split; [left; auto|]; apply C; eauto|].
           destruct (proj2 (I2 i)) as (q & Hq & U'); [eauto|]. exists q. split; auto. right; auto.
    + intros p [E|Hp].
      * subst p. exists c. split; [left; auto|]. split; auto. intro S0. apply S1; auto.
      * apply InP in Hp. destruct Hp as [Hp|Hp]; [exists c; split; [left; auto|]; split; auto; intro S0; apply S1; eauto|].
        destruct (I3 p Hp) as (q & Hq & Hw). exists q. split; auto. right; auto.
    + intros q [E|Hq] S0.
      * subst q. apply S1 in S0. destruct S0 as [S0|(p & Hp & S0)]; [exists a; cbn; auto|]. exists p. split; [right; apply InP; auto|auto].
      * destruct (I4 q Hq S0) as (p & Hp & Hw). exists p. split; auto. right. apply InP; auto.
Qed.

(** supports listed in increasing order: the merged supports have at most a bound in common *)
Lemma pairwise_tail {A} (R : A -> A -> Prop) a l : pairwise R (a :: l) -> pairwise R l.
Proof. intros H i j p q L A1 B. apply (H (S i) (S j) p q); auto; lia. Qed.
Lemma pairwise_head {A} (R : A -> A -> Prop) a l : pairwise R (a :: l) -> forall p, In p l -> R a p.
Proof. intros H p Hp. apply In_nth_error in Hp. destruct Hp as (j & Hj). apply (H 0%nat (S j) a p); auto. lia. Qed.
Lemma pairwise_cons {A} (R : A -> A -> Prop) a l : (forall p, In p l -> R a p) -> pairwise R l -> pairwise R (a :: l).
Proof.
  intros H P i j p q L A1 B. destruct j as [|j]; [lia|]. cbn in B. destruct i as [|i]; cbn in A1.
  - inversion A1; subst. apply H. eapply nth_error_In; eauto.
  - apply (P i j); auto. lia.
Qed.

Lemma absorb_sorted l : forall cur, (forall p, In p l -> (p_beg cur <= p_beg p)%nat) -> by_start l ->
  p_beg (fst (absorb cur l)) = p_beg cur /\
  (forall q, In q (snd (absorb cur l)) -> (p_end (fst (absorb cur l)) <= p_beg q)%nat \/ (p_end q <= p_beg q)%nat \/ (p_end (fst (absorb cur l)) <= p_beg cur)%nat) /\
  by_start (snd (absorb cur l)) /\ (forall q, In q (snd (absorb cur l)) -> In q l).
Proof.
  unfold by_start. induction l as [|b t IH]; intros cur H P; cbn [absorb].
  - repeat split; auto; intros ? [].
  - pose proof (pairwise_tail _ _ _ P) as Pt. pose proof (pairwise_head _ _ _ P) as Ph. cbn beta in Ph.
    assert (Hb : (p_beg cur <= p_beg b)%nat) by (apply H; left; auto).
    destruct (overlaps cur b) eqn:E.
    + destruct (IH (join cur b)) as (I1 & I2 & I3 & I4); auto.
      { intros p Hp. unfold join. cbn [p_beg]. specialize (Ph p Hp). lia. }
      apply overlaps_true in E. unfold join at 2 in I1. cbn [p_beg] in I1.
      split; [rewrite I1; lia|]. split; [|split; auto; intros q Hq; right; auto].
      intros q Hq. destruct (I2 q Hq) as [K|[K|K]]; auto. right; right. unfold join in K at 2. cbn [p_beg] in K. lia.
    + assert (D : (p_end cur <= p_beg b \/ p_end b <= p_beg b \/ p_end cur <= p_beg cur)%nat).
      { assert (~ overlaps cur b = true) as N by congruence. rewrite overlaps_true in N. lia. }
      destruct (IH cur) as (I1 & I2 & I3 & I4); auto. { intros; apply H; right; auto. }
      cbn [fst snd]. split; auto. split; [|split].
      * intros q [Eq|Hq]; [subst q|apply I2; auto].
        destruct D as [D|[D|D]]; [|right; left; exact D|].
        -- (* nothing after b can overlap cur *)
           left. assert (fst (absorb cur t) = cur) as ->; auto.
           clear -Ph D. revert cur D Ph. induction t as [|c t IH]; intros cur D Ph; cbn [absorb]; auto.
           assert (overlaps cur c = false) as ->.
           { apply not_true_is_false. rewrite overlaps_true. specialize (Ph c (or_introl eq_refl)). lia. }
           cbn [fst]. apply IH; auto. intros; apply Ph; right; auto.
        -- right; right. assert (fst (absorb cur t) = cur) as ->; auto.
           clear -D. revert cur D. induction t as [|c t IH]; intros cur D; cbn [absorb]; auto.
           assert (overlaps cur c = false) as ->. { apply not_true_is_false. rewrite overlaps_true. lia. }
           cbn [fst]. apply IH; auto.
      * apply pairwise_cons; [|exact I3]. intros q Hq. apply Ph. auto.
      * intros q [Eq|Hq]; [left; auto|right; auto].
Qed.

Lemma merge_sorted n : forall l, (length l <= n)%nat -> (forall p, In p l -> (p_beg p < p_end p)%nat) -> by_start l ->
  pairwise (fun p q => (p_end p <= p_beg q)%nat) (merge n l) /\ (forall q, In q (merge n l) -> exists p, In p l /\ p_beg p = p_beg q).
Proof.
  induction n as [|n IH]; intros l L W P; cbn [merge].
  - split; [intros [|i] j p q _ A; discriminate|intros ? []].
  - destruct l as [|a t]; [split; [intros [|i] j p q _ A; discriminate|intros ? []]|].
    destruct (absorb_sorted t a) as (I1 & I2 & I3 & I4). { apply (pairwise_head _ _ _ P). } { apply (pairwise_tail _ _ _ P). }
    assert (Wl : (length (snd (absorb a t)) <= length t)%nat).
    { clear. revert a; induction t as [|b t IH]; intro a; cbn [absorb]; auto. destruct (overlaps a b); cbn [snd length]; [specialize (IH (join a b))|specialize (IH a)]; lia. }
    destruct (IH (snd (absorb a t))) as (J1 & J2); auto. { cbn [length] in L. lia. } { intros p Hp. apply W. right. auto. }
    split.
    + apply pairwise_cons; auto. intros q Hq. destruct (J2 q Hq) as (p & Hp & Ep). rewrite <- Ep.
      destruct (I2 p Hp) as [K|[K|K]]; auto.
      * pose proof (W p (or_intror (I4 p Hp))). lia.
      * exfalso. assert (p_end a <= p_end (fst (absorb a t)))%nat.
        { clear. revert a; induction t as [|b t IH]; intro a; cbn [absorb]; auto. destruct (overlaps a b); cbn [fst]; auto.
          specialize (IH (join a b)). unfold join at 1 in IH. cbn [p_end] in IH. lia. }
        pose proof (W a (or_introl eq_refl)). lia.
    + intros q [E|Hq]; [subst q; exists a; split; [left; auto|congruence]|]. destruct (J2 q Hq) as (p & Hp & Ep). exists p. split; auto. right; auto.
Qed.

Lemma merge_nearly l : (forall p, In p l -> (p_beg p < p_end p)%nat) -> by_start l -> pairwise nearly_apart (merge (length l) l).
Proof.
  intros W P. destruct (merge_sorted (length l) l (Nat.le_refl _) W P) as (H & _).
  intros i j p q L A B k U1 U2. specialize (H i j p q L A B). unfold under in *. left. lia.
Qed.

(** supports without a common index are kept as they are *)
Lemma absorb_apart l : forall cur, (forall p, In p l -> apart cur p) -> absorb cur l = (cur, l).
Proof.
  induction l as [|b t IH]; intros cur H; cbn [absorb]; auto.
  assert (overlaps cur b = false) as ->.
  { apply not_true_is_false. rewrite overlaps_true. intro K. apply (H b (or_introl eq_refl) (Nat.max (p_beg cur) (p_beg b))). unfold under. lia. }
  rewrite IH; auto. intros; apply H; right; auto.
Qed.
Lemma merge_apart n : forall l, (length l <= n)%nat -> pairwise apart l -> merge n l = l.
Proof.
  induction n as [|n IH]; intros l L P; cbn [merge].
  - destruct l; [reflexivity|cbn in L; lia].
  - destruct l as [|a t]; auto. rewrite absorb_apart by (apply (pairwise_head _ _ _ P)). cbn [fst snd].
    rewrite IH; auto; [cbn in L; lia|apply (pairwise_tail _ _ _ P)].
Qed.

Lemma line_supports_in el p : In p (line_supports el) <-> emission_support el p.
Proof.
  unfold line_supports, emission_support. rewrite in_flat_map. split.
  - intros (e & He & H). destruct (e_emission e) eqn:Ee; [|destruct H]. rewrite in_flat_map in H. destruct H as (l & Hl & H).
    destruct (l_out l) eqn:El; [destruct H|]. destruct H as [H|[]]. exists e, l. auto.
  - intros (e & l & He & Ee & Hl & El & Ep). exists e. split; auto. rewrite Ee. apply in_flat_map. exists l. rewrite El. cbn. auto.
Qed.

(** ** signal to noise *)
Lemma range_snr o p : usable o -> (p_end p < length (s_axis o))%nat ->
  exists f v, getSNROnRange o (p_beg p, p_end p) = Ok (f, v) /\
    ((p_end p <= p_beg p)%nat -> f = 0 /\ v = 0) /\
    ((p_beg p < p_end p)%nat -> f == flux_under o p /\ v == var_under o p).
Proof.
  intros U L. unfold getSNROnRange. cbn [fst snd].
  destruct (Z.ltb_spec (Z.of_nat (p_end p) - Z.of_nat (p_beg p)) 1) as [Z0|Z0].
  - exists 0, 0. split; [reflexivity|]. split; auto. intro. lia.
  - assert (G : forall l a b, (forall i, In i l -> (i < length (s_axis o))%nat) ->
      exists f v, rfold (snr_step o) l (a, b) = Ok (f, v) /\ f == a + total (fun i => at_ (s_model o) i - at_ (s_cont o) i) l /\
        v == b + total (fun i => sq (at_ (s_err o) i)) l).
    { clear -U. induction l as [|i l IH]; intros a b H.
      - exists a, b. cbn. split; [reflexivity|]. split; lra.
      - cbn [rfold]. pose proof (H i (or_introl eq_refl)) as Hi. lens U. unfold snr_step at 1. rewrite !vget_at by lia. cbn [rbind fst snd].
        destruct (IH (a + (at_ (s_model o) i - at_ (s_cont o) i)) (b + at_ (s_err o) i * at_ (s_err o) i)) as (f & v & E & F & V); [intros; apply H; right; auto|].
        exists f, v. split; auto. cbn [total]. rewrite F, V. unfold sq. split; lra. }
    destruct (G (seq (p_beg p) (S (p_end p) - p_beg p)) 0 0) as (f & v & E & F & V). { intros i Hi. apply in_seq in Hi. lia. }
    rewrite E. cbn [rbind fst snd]. exists (Qabs f), v. split; [reflexivity|]. split; [intro; lia|]. intros _.
    unfold flux_under, var_under, indexes. rewrite F, V, !Qplus_0_l. split; reflexivity.
Qed.


Lemma cumul o l : usable o -> (forall p, In p l -> wide p /\ (p_end p < length (s_axis o))%nat) ->
  forall f v sf sv, exists f' v' sf' sv', rfold (cumul_step o) l ((f, v), (sf, sv)) = Ok ((f', v'), (sf', sv')) /\
    f' == f + total (flux_under o) l /\ v' == v + total (var_under o) l /\
    sf' == sf + total (flux_under o) (filter p_strong l) /\ sv' == sv + total (var_under o) (filter p_strong l).
Proof.
  intros U. induction l as [|p t IH]; intros H f v sf sv.
  - exists f, v, sf, sv. cbn. split; [reflexivity|]. repeat apply conj; lra.
  - cbn [rfold]. destruct (H p (or_introl eq_refl)) as (W & L). destruct (range_snr o p U L) as (a & b & E & _ & K). destruct (K W) as (Ka & Kb).
    unfold cumul_step at 1. rewrite E. cbn [rbind fst snd].
    destruct (p_strong p) eqn:Es.
    + destruct (IH ltac:(intros; apply H; right; auto) (f + a) (v + b) (sf + a) (sv + b)) as (f' & v' & sf' & sv' & E' & A & B & C & D).
      exists f', v', sf', sv'. split; auto. cbn [filter]. rewrite Es. cbn [total]. rewrite A, B, C, D, Ka, Kb. repeat apply conj; lra.
    + destruct (IH ltac:(intros; apply H; right; auto) (f + a) (v + b) sf sv) as (f' & v' & sf' & sv' & E' & A & B & C & D).
      exists f', v', sf', sv'. split; auto. cbn [filter]. rewrite Es. cbn [total]. rewrite A, B, C, D, Ka, Kb. repeat apply conj; lra.
Qed.

(** lines which do not touch each other *)
Lemma snr_apart sqrtf o t el :
  usable o -> pairwise apart (line_supports el) ->
  (forall p, emission_support el p -> wide p /\ (p_end p < length (s_axis o))%nat) ->
  exists f v sf sv, getCumulSNRStrongEL sqrtf (o :: t) el = Ok (snr sqrtf f v, snr sqrtf sf sv) /\
    f == total (flux_under o) (line_supports el) /\ v == total (var_under o) (line_supports el) /\
    sf == total (flux_under o) (filter p_strong (line_supports el)) /\ sv == total (var_under o) (filter p_strong (line_supports el)).
Proof.
  intros U P W. unfold getCumulSNRStrongEL. rewrite merge_apart; auto.
  destruct (cumul o (line_supports el) U) with (f := 0) (v := 0) (sf := 0) (sv := 0) as (f & v & sf & sv & E & A & B & C & D).
  { intros p Hp. apply W. apply line_supports_in. auto. }
  rewrite E. cbn [rbind]. exists f, v, sf, sv. split; [reflexivity|]. rewrite A, B, C, D, !Qplus_0_l. repeat apply conj; reflexivity.
Qed.

Lemma filter_pairwise_none {A} (f : A -> bool) l : (forall a, In a l -> f a = false) -> filter f l = [].
Proof. induction l as [|a t IH]; intro H; cbn; auto. rewrite (H a (or_introl eq_refl)). apply IH. intros; apply H; right; auto. Qed.

(** no emission line, or no strong one: NaN *)
Lemma snr_none sqrtf o t el : sqrtf 0 == 0 -> line_supports el = [] -> getCumulSNRStrongEL sqrtf (o :: t) el = Ok (NaN, NaN).
Proof.
  intros S0 E. unfold getCumulSNRStrongEL. rewrite E. cbn. unfold snr.
  destruct (Qeq_bool_spec (sqrtf 0) 0) as [|N]; [|contradiction]. reflexivity.
Qed.
Lemma snr_no_strong sqrtf o t el r : sqrtf 0 == 0 -> (forall p, emission_support el p -> sup_wf p /\ p_strong p = false) ->
  getCumulSNRStrongEL sqrtf (o :: t) el = Ok r -> snd r = NaN.
Proof.
  intros S0 H. unfold getCumulSNRStrongEL.
  assert (K : forall q, In q (merge (length (line_supports el)) (line_supports el)) -> p_strong q = false).
  { intros q Hq. apply not_true_is_false. intro T.
    destruct (merge_spec _ (line_supports el) (Nat.le_refl _)) as (_ & _ & _ & M4). { intros p Hp. apply H, line_supports_in; auto. }
    destruct (M4 q Hq T) as (p & Hp & _ & Sp). apply line_supports_in in Hp. apply H in Hp. destruct Hp. congruence. }
  assert (G : forall l acc z, (forall q, In q l -> p_strong q = false) -> rfold (cumul_step o) l acc = Ok z -> snd z = snd acc).
  { clear. induction l as [|q l IH]; intros acc z H E; cbn [rfold] in E; [inversion E; auto|].
    unfold cumul_step at 1 in E. destruct (getSNROnRange o _) as [w|e|]; cbn [rbind] in E; try discriminate.
    destruct acc as ((f, v), (sf, sv)). rewrite (H q (or_introl eq_refl)) in E. apply IH in E; [exact E|]. intros; apply H; right; auto. }
  destruct (rfold _ _ _) as [z|e|] eqn:E; cbn [rbind]; try discriminate.
  apply G in E; auto. destruct z as ((f, v), (sf, sv)). cbn in E. inversion E; subst. intro R. inversion R. cbn. unfold snr.
  destruct (Qeq_bool_spec (sqrtf 0) 0) as [|N]; [|contradiction]. reflexivity.
Qed.

Lemma ratio_spec sqrtf s v :
  (~ sqrtf v == 0 -> snr sqrtf s v = Fin (s / sqrtf v)) /\ (sqrtf v == 0 -> 0 < s -> snr sqrtf s v = PInf) /\
  (sqrtf v == 0 -> s < 0 -> snr sqrtf s v = NInf) /\ (sqrtf v == 0 -> s == 0 -> snr sqrtf s v = NaN).
Proof.
  unfold snr. repeat apply conj.
  - intro N. destruct (Qeq_bool_spec (sqrtf v) 0) as [E|E]; [contradiction|]. reflexivity.
  - intros Z0 P. rewrite (proj2 (Qeq_bool_iff _ 0) Z0). destruct (Qeq_bool_spec s 0) as [E|E]; [lra|]. rewrite (proj2 (Qltb_true _ _) P). reflexivity.
  - intros Z0 P. rewrite (proj2 (Qeq_bool_iff _ 0) Z0). destruct (Qeq_bool_spec s 0) as [E|E]; [lra|]. destruct (Qltb_spec 0 s) as [L|L]; [lra|]. reflexivity.
  - intros Z0 P. rewrite (proj2 (Qeq_bool_iff _ 0) Z0), (proj2 (Qeq_bool_iff s 0) P). reflexivity.
Qed.
