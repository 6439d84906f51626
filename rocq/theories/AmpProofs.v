From Verif Require Import Base RangeModel AxisModel AxisProofs ElemModel ElemSpec ElemProofs EfitModel EfitSpec EfitProofs EfitProofs2 EfitProofs3 AmpModel AmpSpec.
Open Scope Q_scope.

(** * accumulators *)
Definition stepped (a b : Z * Q * Q) (d m : Q) : Prop :=
  exists n, (0 <= n)%Z /\ fst (fst b) = (fst (fst a) + n)%Z /\ (n = 0%Z -> m == 0) /\ snd (fst b) == snd (fst a) + d /\ snd b == snd a + m.
Lemma stepped_refl a d m : d == 0 -> m == 0 -> stepped a a d m.
Proof. intros D M. exists 0%Z. split; [lia|]. split; [lia|]. split; [auto|]. split; [rewrite D|rewrite M]; lra. Qed.
Lemma stepped_trans a b c d m d' m' : stepped a b d m -> stepped b c d' m' -> stepped a c (d + d') (m + m').
Proof.
  intros (n & A & B & C & D & E) (n' & A' & B' & C' & D' & E'). exists (n + n')%Z. split; [lia|]. split; [lia|]. split.
  - intros Z0. rewrite C, C' by lia. lra. - split; [rewrite D', D|rewrite E', E]; lra.
Qed.
Lemma stepped_ext a b d m d' m' : stepped a b d m -> d == d' -> m == m' -> stepped a b d' m'.
Proof. intros (n & A & B & C & D & E) X Y. exists n. split; [exact A|]. split; [exact B|]. split; [intros Z0; rewrite <- Y; auto|]. split; [rewrite <- X; exact D|rewrite <- Y; exact E]. Qed.
Lemma rfold_stepped {A} (f : Z * Q * Q -> A -> res (Z * Q * Q)) (D M : A -> Q) l : forall acc,
  (forall x a, In x l -> exists b, f a x = Ok b /\ stepped a b (D x) (M x)) ->
  exists b, rfold f l acc = Ok b /\ stepped acc b (lsum D l) (lsum M l).
Proof.
  induction l as [|x t IH]; intros acc H; cbn [rfold lsum].
  - exists acc. split; [reflexivity|]. apply stepped_refl; reflexivity.
  - destruct (H x acc (or_introl eq_refl)) as (b1 & -> & S1). cbn [rbind]. destruct (IH b1) as (b & E & S2); [intros; apply H; right; auto|].
    exists b. split; [exact E|]. eapply stepped_trans; eauto.
Qed.

Lemma zrange_sum (a b : Z) (n : nat) (F : Z -> Q) : (forall i, (a <= i <= b)%Z -> (0 <= i < Z.of_nat n)%Z) ->
  lsum F (zrange a b) == sumn (fun t => if ((a <=? Z.of_nat t) && (Z.of_nat t <=? b))%Z%bool then F (Z.of_nat t) else 0) n.
Proof.
  intros H. rewrite (sumn_ext _ (fun t => lsum (fun i => if Z.eqb i (Z.of_nat t) then F i else 0) (zrange a b))).
  - assert (G : forall l, (forall i, In i l -> (0 <= i < Z.of_nat n)%Z) -> lsum F l == sumn (fun t => lsum (fun i => if Z.eqb i (Z.of_nat t) then F i else 0) l) n).
    { induction l as [|x l IH]; intros B; cbn [lsum].
      - symmetry. apply sumn_zero.
      - rewrite sumn_plus, <- IH by (intros; apply B; right; auto). assert (X : (0 <= x < Z.of_nat n)%Z) by (apply B; left; reflexivity).
        rewrite (sumn_one _ n (Z.to_nat x)).
        + replace (Z.of_nat (Z.to_nat x)) with x by lia. rewrite Z.eqb_refl. reflexivity.
        + lia. + intros k K N. destruct (Z.eqb_spec x (Z.of_nat k)); [lia|reflexivity]. }
    apply G. intros i I. apply H. apply zrange_in. exact I.
  - intros t T. symmetry. apply (zrange_pick a b (Z.of_nat t) F).
Qed.

Section Obs.
Variables (prof : nat -> Q -> Q -> Q -> Q) (ls : list eline) (z : Q) (o : aobs) (li : option nat).
Variables (zs mo : Q) (r : range) (ls0 : list eline).
Notation s := (a_s o).
Notation axis := (a_axis o).
Hypothesis Inc : strictly_increasing axis.
Hypothesis Len : (0 < length axis)%nat.
Hypothesis LY : length (a_y o) = length axis.
Hypothesis LE : length (a_e o) = length axis.
Hypothesis LC : length (a_c o) = length axis.
Hypothesis NE : forall t e, nth_error (a_e o) t = Some e -> ~ e == 0.
Hypothesis L0 : length ls0 = length ls.
Hypothesis Prep : prepared_for (a_avail o) (a_width o) axis zs r mo ls0 s.
Hypothesis Known : lsf_known_all (a_avail o) s ls z.

Definition nom_val (x c : Q) (k : nat) : Q := match nth_error ls k with Some l => line_value (a_width o) prof k l z x c (el_nom l) | None => 0 end.
Lemma used_iff0 k : used s k <-> (k < length ls)%nat /\ s_out s k = false.
Proof. rewrite <- L0. exact (EfitProofs2.used_iff _ _ _ _ _ _ _ _ Prep k). Qed.
Definition yg (h t : nat) : Q := sumn (fun k => if (s_out s k || inactive s (Some h) k)%bool then 0 else nom_val (at0 axis t) (at0 (a_c o) t) k) (length ls).
Lemma nominal_sum x c h : exists v, sum_lines (fun k => s_out s k || inactive s (Some h) k)%bool (nominal_flux prof o z x c) 0 ls 0 = Ok v /\
  v == sumn (fun k => if (s_out s k || inactive s (Some h) k)%bool then 0 else nom_val x c k) (length ls).
Proof.
  apply sum_lines_sum. intros i l N T. unfold nominal_flux, GetLineProfileAtRedshift. change (GetObservedPosition (el_s l) z false) with (line_center l z).
  assert (U : used s i). { apply used_iff0. split; [exact (nth_error_len _ _ _ N)|]. apply orb_false_iff in T. tauto. }
  rewrite (Known i l N U). cbn [negb rbind]. eexists. split; [reflexivity|]. unfold nom_val. rewrite N. unfold line_value, profile_at, sign. destruct (el_neg l); ring.
Qed.
Definition term_d (h t : nat) : Q := yg h t * at0 (a_y o) t / (at0 (a_e o) t * at0 (a_e o) t).
Definition term_m (h t : nat) : Q := yg h t * yg h t / (at0 (a_e o) t * at0 (a_e o) t).
Lemma cross_sample_ok h t acc : (t < length axis)%nat -> exists b, cross_sample prof o ls z h acc (Z.of_nat t) = Ok b /\ stepped acc b (term_d h t) (term_m h t).
Proof.
  intros T. destruct acc as [[num dtm] mtm]. unfold cross_sample.
  assert (EX : exists x, nth_error axis t = Some x) by (destruct (nth_error axis t) eqn:E; [eauto|apply nth_error_None in E; lia]).
  assert (EC : exists x, nth_error (a_c o) t = Some x) by (destruct (nth_error (a_c o) t) eqn:E; [eauto|apply nth_error_None in E; lia]).
  assert (EY : exists x, nth_error (a_y o) t = Some x) by (destruct (nth_error (a_y o) t) eqn:E; [eauto|apply nth_error_None in E; lia]).
  assert (EE : exists x, nth_error (a_e o) t = Some x) by (destruct (nth_error (a_e o) t) eqn:E; [eauto|apply nth_error_None in E; lia]).
  destruct EX as (x & EX), EC as (c & EC), EY as (y & EY), EE as (e & EE). pose proof (NE t e EE) as NZ.
  rewrite (zget_nat _ _ _ EC), (zget_nat _ _ _ EY), (zget_nat _ _ _ EX). cbn [rbind]. destruct (nominal_sum x c h) as (v & -> & V). cbn [rbind].
  rewrite (zget_nat _ _ _ EE). cbn [rbind]. destruct (Qeq_bool e 0) eqn:Z0; [exfalso; apply NZ, Qeq_bool_eq, Z0|]. eexists. split; [reflexivity|].
  assert (YG : yg h t == v). { unfold yg, at0. rewrite (nth_error_nth _ _ 0 EX), (nth_error_nth _ _ 0 EC). symmetry. exact V. }
  exists 1%Z. cbn [fst snd]. split; [lia|]. split; [reflexivity|]. split; [lia|]. unfold term_d, term_m. rewrite YG. unfold at0. rewrite (nth_error_nth _ _ 0 EY), (nth_error_nth _ _ 0 EE).
  split; field; exact NZ.
Qed.
Definition selh (h : nat) : bool := negb (s_out s h || inactive s li h).
Lemma Cross_products acc : exists b, computeCrossProducts prof o ls z li acc = Ok b /\
  stepped acc b (sumn (fun h => sumn (fun t => if (selh h && in_sub s h t)%bool then term_d h t else 0) (length axis)) (length ls))
                (sumn (fun h => sumn (fun t => if (selh h && in_sub s h t)%bool then term_m h t else 0) (length axis)) (length ls)).
Proof.
  unfold computeCrossProducts. rewrite (Size _ _ _ _ _ _ _ _ Prep), L0.
  destruct (rfold_stepped (fun acc h => if s_out s h then Ok acc else if inactive s li h then Ok acc
      else rfold (cross_sample prof o ls z h) (zrange (sn (s_state s) h) (en (s_state s) h)) acc)
    (fun h => sumn (fun t => if (selh h && in_sub s h t)%bool then term_d h t else 0) (length axis))
    (fun h => sumn (fun t => if (selh h && in_sub s h t)%bool then term_m h t else 0) (length axis)) (seq 0 (length ls)) acc) as (b & E & ST).
  - intros h a H. apply in_seq in H. unfold selh. destruct (s_out s h) eqn:O.
    { exists a. split; [reflexivity|]. cbn [orb negb andb]. apply stepped_refl; apply sumn_zero. }
    destruct (inactive s li h) eqn:I. { exists a. split; [reflexivity|]. cbn [orb negb andb]. apply stepped_refl; apply sumn_zero. }
    assert (U : used s h) by (apply used_iff0; split; [lia|exact O]).
    destruct (rfold_stepped (cross_sample prof o ls z h) (fun i => term_d h (Z.to_nat i)) (fun i => term_m h (Z.to_nat i)) (zrange (sn (s_state s) h) (en (s_state s) h)) a) as (b & E & ST).
    + intros i a' Hi. apply zrange_in in Hi. pose proof (sub_in_axis _ _ _ _ _ _ _ _ Inc Len Prep h i U Hi) as B.
      destruct (cross_sample_ok h (Z.to_nat i) a') as (b & E & ST); [lia|]. exists b. split; [rewrite <- E; f_equal; lia|exact ST].
    + exists b. split; [exact E|]. cbn [orb negb andb]. eapply stepped_ext; [exact ST| |].
      * rewrite (zrange_sum _ _ (length axis)); [|intros i Hi; exact (sub_in_axis _ _ _ _ _ _ _ _ Inc Len Prep h i U Hi)]. apply sumn_ext. intros t T. rewrite Nat2Z.id. reflexivity.
      * rewrite (zrange_sum _ _ (length axis)); [|intros i Hi; exact (sub_in_axis _ _ _ _ _ _ _ _ Inc Len Prep h i U Hi)]. apply sumn_ext. intros t T. rewrite Nat2Z.id. reflexivity.
  - exists b. split; [exact E|]. eapply stepped_ext; [exact ST|apply lsum_seq|apply lsum_seq].
Qed.

(** * samples which are in one group only *)
Hypothesis Un : unshared s.
Lemma head_self h t : used s h -> in_sub s h t = true -> head s h h.
Proof.
  intros U T. apply in_sub_spec in T. split; [exact U|]. split; [destruct T; unfold nonempty; lia|]. constructor. exact U.
Qed.
Lemma head_shared h h' t : used s h -> used s h' -> in_sub s h t = true -> in_sub s h' t = true -> h = h'.
Proof.
  intros U U' T T'. pose proof (head_self h t U T) as H. pose proof (head_self h' t U' T') as H'.
  assert (R : reach s h t) by (apply (head_reach _ _ _ _ _ _ _ _ Inc Len Prep h h t H), in_sub_spec; exact T).
  assert (R' : reach s h' t) by (apply (head_reach _ _ _ _ _ _ _ _ Inc Len Prep h' h' t H'), in_sub_spec; exact T').
  pose proof (Un h h' t U U' R R') as L. apply (head_unique _ _ _ _ _ _ _ _ Inc Len Prep h h' h').
  - destruct H as (A & B & C). split; [exact A|]. split; [exact B|exact L]. - exact H'.
Qed.
Lemma covered_iff t : covb ls0 s li t = true <-> covered s li t.
Proof. apply (covb_spec _ _ _ _ _ _ _ _ Inc Len Prep). Qed.
Lemma one_group (F : nat -> nat -> Q) t : sumn (fun h => if (selh h && in_sub s h t)%bool then F h t else 0) (length ls) == 0 /\ ~ covered s li t \/
  exists h, selh h = true /\ in_sub s h t = true /\ used s h /\ covered s li t /\ sumn (fun h => if (selh h && in_sub s h t)%bool then F h t else 0) (length ls) == F h t.
Proof.
  destruct (covb ls0 s li t) eqn:C.
  - right. pose proof (proj1 (covered_iff t) C) as CV. unfold covb in C. rewrite existsb_exists in C. destruct C as (h & I & E). apply in_seq in I. rewrite L0 in I. apply andb_true_iff in E. destruct E as (E1 & E2).
    assert (U : used s h). { apply used_iff0. split; [lia|]. apply negb_true_iff in E1. apply orb_false_iff in E1. tauto. }
    exists h. split; [exact E1|]. split; [exact E2|]. split; [exact U|]. split; [exact CV|]. rewrite (sumn_one _ _ h).
    + unfold selh. rewrite E1, E2. reflexivity. + lia.
    + intros k K N. destruct (selh k && in_sub s k t)%bool eqn:Ek; [|reflexivity]. exfalso. apply N. apply andb_true_iff in Ek. destruct Ek as (K1 & K2).
      apply (head_shared k h t); auto. apply used_iff0. split; [exact K|]. unfold selh in K1. apply negb_true_iff in K1. apply orb_false_iff in K1. tauto.
  - left. split; [|intros CV; apply covered_iff in CV; congruence]. rewrite (sumn_ext _ (fun _ => 0)); [apply sumn_zero|]. intros h H.
    destruct (selh h && in_sub s h t)%bool eqn:E; [|reflexivity]. exfalso. unfold covb in C. assert (X : existsb (fun h => negb (s_out s h || inactive s li h) && in_sub s h t)%bool (seq 0 (length ls0)) = true).
    { apply existsb_exists. exists h. split; [apply in_seq; lia|exact E]. } congruence.
Qed.
Lemma yg_model h t x c g : selh h = true -> in_sub s h t = true -> used s h -> nth_error axis t = Some x -> nth_error (a_c o) t = Some c ->
  nominal_at prof o ls li z x c t g -> sumn g (length ls) == yg h t.
Proof.
  intros S T U X C G. unfold yg, at0. rewrite (nth_error_nth _ _ 0 X), (nth_error_nth _ _ 0 C). apply sumn_ext. intros k K.
  destruct (nth_error ls k) as [l|] eqn:N; [|apply nth_error_None in N; lia]. destruct (G k l N) as (G1 & G2).
  assert (NEh : nonempty (getSupportSubElt s h)) by (apply in_sub_spec in T; destruct T; unfold nonempty; lia).
  pose proof (head_active _ _ _ _ _ _ _ _ Inc Len Prep h k U NEh) as HA.
  destruct (s_out s k || inactive s (Some h) k)%bool eqn:E.
  - apply G2. intros (Uk & Ik & Rk). apply used_iff0 in Uk. destruct Uk as (_ & Ok'). rewrite Ok' in E. cbn [orb inactive] in E. apply negb_true_iff in E.
    assert (Uk : used s k) by (apply used_iff0; auto). assert (Rh : reach s h t) by (apply (head_reach _ _ _ _ _ _ _ _ Inc Len Prep h h t (head_self h t U T)), in_sub_spec; exact T).
    pose proof (Un h k t U Uk Rh Rk) as L. apply HA in L. congruence.
  - apply orb_false_iff in E. destruct E as (Ok' & Ia). cbn [inactive] in Ia. apply negb_false_iff in Ia. apply HA in Ia. assert (H : head s h k) by (split; [exact U|split; [exact NEh|exact Ia]]).
    rewrite G1; [unfold nom_val; rewrite N; reflexivity|]. split; [exact (linked_inr2 _ _ _ _ Ia)|]. split.
    + apply (head_interest _ _ _ _ _ _ _ _ Inc Len Prep li h k H). unfold selh in S. apply negb_true_iff in S. apply orb_false_iff in S. tauto.
    + apply (head_reach _ _ _ _ _ _ _ _ Inc Len Prep h k t H), in_sub_spec. exact T.
Qed.
Lemma Sum_view v (F : Q -> nat -> Q) : is_view prof ls li z o v -> (forall a b e, a == b -> F a e == F b e) ->
  sumn (fun h => sumn (fun t => if (selh h && in_sub s h t)%bool then F (yg h t) t else 0) (length axis)) (length ls) ==
  sumn (fun t => if v_cov v t then F (v_model v t) t else 0) (length axis).
Proof.
  intros (VO & V) FE. rewrite sumn_swap. apply sumn_ext. intros t T.
  destruct (nth_error axis t) as [x|] eqn:X; [|apply nth_error_None in X; lia]. destruct (nth_error (a_c o) t) as [c|] eqn:C; [|apply nth_error_None in C; lia].
  destruct (V t x c X C) as (CV & g & G & M). destruct (one_group (fun h t => F (yg h t) t) t) as [(S0 & NC)|(h & S & I & U & CC & E)].
  - rewrite S0. destruct (v_cov v t); [exfalso; apply NC, CV; reflexivity|reflexivity].
  - rewrite E. destruct (v_cov v t); [|exfalso; apply CV in CC; discriminate]. apply FE. rewrite M. symmetry. exact (yg_model h t x c g S I U X C G).
Qed.
End Obs.
