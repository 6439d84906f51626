(** C93: the sampling rules, the null model, the second first pass. *)
From Coq Require Import String.
From Verif Require Import Base RBase RangeModel MeikModel MeikProofs FpcModel FpcSpec FpcProofs FpcProofs2 SgridModel SgridSpec SgridProofs.
Open Scope Q_scope.

Lemma sampling_rebinned s prange pstep zr st : GetRedshiftSampling (Some (zr, st)) s prange pstep = match s with Log => Ok (zr, st) | Lin => Throw BAD_PARAMETER_VALUE end.
Proof. destruct s; reflexivity. Qed.
Lemma sampling_plain s prange pstep : GetRedshiftSampling None s prange pstep = Ok (prange, pstep).
Proof. reflexivity. Qed.

Lemma fft_active first second p n : isfftprocessingActive first second p n = true <->
  (100 <= n)%nat /\ ((p = None \/ p = Some 1%Z) /\ first = true \/ (exists q, p = Some q /\ q <> 1%Z) /\ second = true).
Proof.
  unfold isfftprocessingActive. destruct p as [p|].
  - destruct (Z.eqb_spec p 1) as [E|E]; destruct (Nat.ltb_spec n 100) as [L|L].
    + destruct first; cbn [andb]; split; try discriminate; intros (A & _); lia.
    + rewrite andb_false_l. subst p. split; [intro H; split; [lia|left; auto]|]. intros (_ & [(_ & H)|((q & Eq & Nq) & _)]); auto. congruence.
    + destruct second; cbn [andb]; split; try discriminate; intros (A & _); lia.
    + rewrite andb_false_l. split; [intro H; split; [lia|right; split; [exists p; auto|auto]]|].
      intros (_ & [([K|K] & _)|(_ & H)]); auto; congruence.
  - destruct (Nat.ltb_spec n 100) as [L|L].
    + destruct first; cbn [andb]; split; try discriminate; intros (A & _); lia.
    + rewrite andb_false_l. split; [intro H; split; [lia|left; auto]|]. intros (_ & [(_ & H)|((q & Eq & Nq) & _)]); auto. congruence.
Qed.

Lemma null_spec f : lines_zero f && cont_zero f = true <-> null_fit f.
Proof.
  unfold lines_zero, cont_zero, null_fit. rewrite andb_true_iff, negb_true_iff. split.
  - intros (A & B). split.
    + intros x Hx. apply Qnot_lt_le. intro L. assert (K : existsb (fun a => match a with Some y => Qltb 0 y | None => false end) (f_amps f) = true).
      { apply existsb_exists. exists (Some x). split; auto. destruct (Qltb_spec 0 x); auto. }
      congruence.
    + destruct (f_cont f) as [a|]; [|discriminate]. exists a. split; auto. apply Qle_bool_true in B. exact B.
  - intros (A & a & Ea & La). rewrite Ea. split; [|apply Qle_bool_true; exact La].
    apply not_true_is_false. intro K. apply existsb_exists in K. destruct K as ([x|] & Hx & Lx); [|discriminate].
    pose proof (A x Hx). destruct (Qltb_spec 0 x); [lra|discriminate].
Qed.

Lemma first_pass_null {Z0} (fit : Z0 -> fitted) zs :
  first_pass_check fit zs = Throw NULL_MODEL <-> (forall z, In z zs -> null_fit (fit z)).
Proof.
  unfold first_pass_check, AllAmplitudesAreZero. rewrite map_map.
  destruct (existsb negb (map (fun x => lines_zero (fit x) && cont_zero (fit x)) zs)) eqn:E; cbn [negb]; split; intro H; try discriminate; auto.
  - apply existsb_exists in E. destruct E as (b & Hb & Nb). apply in_map_iff in Hb. destruct Hb as (z & Ez & Hz). apply negb_true_iff in Nb.
    pose proof (proj2 (null_spec _) (H z Hz)). congruence.
  - intros z Hz. apply null_spec. destruct (lines_zero (fit z) && cont_zero (fit z)) eqn:N; auto. exfalso.
    assert (K : existsb negb (map (fun x => lines_zero (fit x) && cont_zero (fit x)) zs) = true).
    { apply existsb_exists. exists false. split; auto. apply in_map_iff. exists z. auto. }
    congruence.
Qed.
Lemma first_pass_ok {Z0} (fit : Z0 -> fitted) zs : (exists z, In z zs /\ ~ null_fit (fit z)) -> first_pass_check fit zs = Ok (map fit zs).
Proof.
  intros (z & Hz & N). pose proof (first_pass_null fit zs) as K. unfold first_pass_check in *.
  destruct (AllAmplitudesAreZero _); auto. exfalso. apply N. apply K; auto.
Qed.
(** nothing at all was fitted, and the check passes *)
Lemma nan_continuum : exists fit : Q -> fitted, (forall z x, In (Some x) (f_amps (fit z)) -> x <= 0) /\ (forall z, f_cont (fit z) = None) /\
  forall zs, (0 < List.length zs)%nat -> first_pass_check fit zs = Ok (map fit zs).
Proof.
  exists (fun _ => mkF [Some 0; None] None). split; [intros _ x [K|[K|[]]]; inversion K; lra|]. split; [reflexivity|].
  intros [|z zs] H; [cbn in H; lia|]. apply first_pass_ok. exists z. split; [left; auto|]. intros (_ & a & K & _). discriminate.
Qed.

(** ** the second first pass *)
Lemma enabled_spec countB c : enableFirstpass_B countB c = true <-> (2 <= countB)%Z /\ (c = TplFit \/ c = TplFitAuto).
Proof.
  unfold enableFirstpass_B. rewrite !andb_true_iff. destruct (Z.ltb_spec 0 countB) as [L|L], (Z.ltb_spec 1 countB) as [L'|L']; destruct c; cbn [with_template]; split; intros H; try (destruct H as ((? & ?) & ?)); try discriminate; try (destruct H as (? & [K|K])); try discriminate; try lia; auto.
  all: split; [lia|auto].
Qed.
Lemma passes_disabled pass_of cands countB c : enableFirstpass_B countB c = false ->
  first_passes pass_of cands countB c = (do r <- pass_of c; do zs <- cands r "FPE"%string; SetFirstPassCandidates r no_pass zs).
Proof.
  intro H. unfold first_passes. rewrite H. destruct (pass_of c) as [r| |]; cbn [rbind]; auto. destruct (cands r "FPE"%string) as [zs| |]; cbn [rbind]; auto.
  destruct (SetFirstPassCandidates r no_pass zs); reflexivity.
Qed.

Lemma joined_nil p : joined p [] = p.
Proof. unfold joined. cbn [map List.length repeat]. rewrite !app_nil_r. destruct p. reflexivity. Qed.
Lemma combine_same r p b : whole p -> whole b -> same_redshifts (p_cands p) (p_cands b) -> Combine_firstpass_candidates r p b = Ok p.
Proof.
  intros Hp Hb H. destruct (combine_eq r p b Hp Hb) as (us & (Hu & _) & E). destruct us as [|j t].
  - rewrite E. cbn [mapr rbind]. rewrite joined_nil. reflexivity.
  - exfalso. destruct (proj1 (Hu j) (or_introl eq_refl)) as (c & Hc & Hn). apply nth_error_In in Hc.
    destruct (proj1 Hb c Hc) as (z & Hz). destruct (proj2 (H z)) as (c' & Hc' & Hz'); [exists c; auto|].
    exact (Hn c' z z Hc' Hz' Hz (near_refl z)).
Qed.
(** as both first passes use the same continuum component, the second one is without effect *)
Lemma pass_b_useless pass_of cands countB c r zs zb : pass_of c = Ok r -> complete r -> cands r "FPE"%string = Ok zs -> cands r "FPB"%string = Ok zb ->
  real zs -> real zb -> same_redshifts zs zb -> (forall k z, In k zs -> at_z k z -> on_grid r z) ->
  exists p, first_passes pass_of cands countB c = Ok p /\ first_passes pass_of cands 0 c = Ok p /\ p_cands p = zs.
Proof.
  intros Er Cr Ez Eb Rz Rb H G. destruct (set_ok r no_pass zs Cr Rz G) as (p & Ep & Cp & Wp & _).
  assert (G' : forall k z, In k zb -> at_z k z -> on_grid r z).
  { intros k z Hk Hz. destruct (proj2 (H z)) as (k' & Hk' & Hz'); [exists k; auto|]. exact (G k' z Hk' Hz'). }
  destruct (set_ok r no_pass zb Cr Rb G') as (b & Eb' & Cb & Wb & _).
  exists p. assert (E0 : enableFirstpass_B 0 c = false) by reflexivity.
  unfold first_passes. rewrite E0, Er. cbn [rbind]. rewrite Ez. cbn [rbind]. rewrite Ep. cbn [rbind].
  split; [|auto]. destruct (enableFirstpass_B countB c); auto. rewrite Eb. cbn [rbind]. rewrite Eb'. cbn [rbind].
  apply combine_same; auto. rewrite Cp, Cb. exact H.
Qed.
Lemma one_candidate_b : exists countB, (0 < countB)%Z /\ forall c, enableFirstpass_B countB c = false.
Proof. exists 1%Z. split; [lia|]. intros []; reflexivity. Qed.
