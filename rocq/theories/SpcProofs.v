(** Proofs about the spectrum (C56). *)
From Coq Require Import String List ZArith QArith Lia Lqa Bool.
From Verif Require Import Base FluxModel SpcModel SpcSpec.
Import ListNotations.
Open Scope Q_scope.

(** ** lists *)
Lemma veq_refl l : veq l l.
Proof. induction l; constructor; auto. reflexivity. Qed.
Lemma veq_length a b : veq a b -> length a = length b.
Proof. induction 1; simpl; auto. Qed.
Lemma veq_nth a b i x y : veq a b -> nth_error a i = Some x -> nth_error b i = Some y -> x == y.
Proof. intro H. revert i. induction H; intros [|i] Ha Hb; simpl in *; try discriminate; [inversion Ha; inversion Hb; subst; auto | eauto]. Qed.
Lemma veq_map (f g : Q -> Q) a b : (forall x y, x == y -> f x == g y) -> veq a b -> veq (map f a) (map g b).
Proof. intros K H. induction H; simpl; constructor; auto. Qed.
Lemma veq_trans a b c : veq a b -> veq b c -> veq a c.
Proof. intro H. revert c. induction H; intros c K; inversion K; subst; constructor; [etransitivity; eauto | apply IHForall2; auto]. Qed.
Lemma veq_sym a b : veq a b -> veq b a.
Proof. induction 1; constructor; auto. symmetry; auto. Qed.
Lemma Subtract_ok a b d : Subtract a b = Ok d -> length b = length a /\ d = map (fun p => fst p - snd p) (combine a b) /\ length d = length a.
Proof.
  unfold Subtract. destruct (Nat.eqb_spec (length b) (length a)) as [E|E]; [|discriminate]. intro H. injection H as <-.
  repeat split; auto. rewrite map_length, combine_length. lia.
Qed.
Lemma sub_nth a b i x y d : Subtract a b = Ok d -> nth_error a i = Some x -> nth_error b i = Some y -> nth_error d i = Some (x - y).
Proof.
  intros H Ha Hb. apply Subtract_ok in H. destruct H as (_ & -> & _). revert b i Ha Hb.
  induction a as [|u a IH]; intros [|v b] [|i] Ha Hb; simpl in *; try discriminate; [inversion Ha; inversion Hb; subst; reflexivity | eauto].
Qed.
Lemma Subtract_no a b e : Subtract a b = Throw e -> e = INTERNAL_ERROR /\ length b <> length a.
Proof. unfold Subtract. destruct (Nat.eqb_spec (length b) (length a)) as [E|E]; [discriminate|]. intro H. inversion H. auto. Qed.
Lemma Subtract_noUB a b : Subtract a b <> UB.
Proof. unfold Subtract. destruct (Nat.eqb _ _); discriminate. Qed.
Lemma flux_sub_ok a b d : flux_sub a b = Ok d -> Subtract (f_s a) (f_s b) = Ok (f_s d) /\ f_e d = f_e a.
Proof. unfold flux_sub. destruct (Subtract _ _) eqn:E; cbn [rbind]; try discriminate. intro H. inversion H; subst; auto. Qed.

Lemma etype_eqb_spec a b : reflect (a = b) (etype_eqb a b).
Proof. destruct a, b; simpl; constructor; congruence. Qed.

Section P.
Context (remover : list Q -> flux -> Z -> bool -> removal)
        (corrector : list Q -> flux -> Q -> Q -> Q -> res (bool * flux)) (smoother : Z -> list Q -> list Q).
Notation estimate_noc := (estimate_noc remover).
Notation EstimateContinuum := (EstimateContinuum remover).
Notation ensure_removed := (ensure_removed remover).
Notation GetFluxAxis := (GetFluxAxis remover).
Notation IsValid := (IsValid remover).
Notation require_valid := (require_valid remover).
Notation step := (step remover corrector smoother).
Notation run := (run remover corrector smoother).
Notation Rebin := (Rebin remover).
Notation GetContinuumFluxAxis := (GetContinuumFluxAxis remover).
Notation GetWithoutContinuumFluxAxis := (GetWithoutContinuumFluxAxis remover).
Notation Copy := (Copy remover).

Lemma same_data_refl s : same_data s s.
Proof. repeat split. Qed.
Lemma same_data_trans a b c : same_data a b -> same_data b c -> same_data a c.
Proof. unfold same_data. intuition congruence. Qed.

Lemma estimate_noc_same s s' r : estimate_noc s = (s', r) -> same_data s s' /\ (r <> UB -> s_removed s = false -> s_removed s' = false) /\
  (s_method s = "manual"%string -> s_cont s' = s_cont s).
Proof.
  unfold SpcModel.estimate_noc.
  destruct (String.eqb_spec (s_method s) "irregularSamplingMedian") as [E|E].
  { unfold RemoveContinuum. cbn.
    destruct (remover _ _ _ _) as [|b l]; [|destruct (_ && _)%bool]; intro H; inversion H; subst; (split; [repeat split| split; [reflexivity | congruence]]). }
  destruct (String.eqb_spec (s_method s) "raw"); [intro H; inversion H; subst; split; [repeat split|auto]|].
  destruct (String.eqb_spec (s_method s) "zero"); [intro H; inversion H; subst; split; [repeat split|auto]|].
  destruct (String.eqb_spec (s_method s) "manual").
  { destruct (flux_sub _ _) as [d|e'|]; intro H; inversion H; subst; (split; [repeat split|auto]). }
  intro H; inversion H; subst; split; [repeat split|auto].
Qed.

(** what a successful estimation leaves *)
Definition good_parts (s : spc) : Prop :=
  decomposed (s_raw s) (s_cont s) (s_noc s) /\
  (s_method s <> "manual"%string -> estimate remover (s_method s) (s_axis s) (s_raw s) (s_win s) (s_even s) (f_s (s_noc s))).

Lemma decomposed_sub raw cont noc : Subtract (f_s raw) (f_s noc) = Ok (f_s cont) -> decomposed raw cont noc.
Proof.
  intro H. destruct (Subtract_ok _ _ _ H) as (L1 & _ & L2). split; [lia|split; [lia|]].
  intros i x y z Hx Hy Hz. pose proof (sub_nth _ _ _ _ _ _ H Hx Hz) as K. rewrite Hy in K. inversion K; subst. ring.
Qed.
Lemma decomposed_sub' raw cont noc : Subtract (f_s raw) (f_s cont) = Ok (f_s noc) -> decomposed raw cont noc.
Proof.
  intro H. destruct (Subtract_ok _ _ _ H) as (L1 & _ & L2). split; [lia|split; [lia|]].
  intros i x y z Hx Hy Hz. pose proof (sub_nth _ _ _ _ _ _ H Hx Hy) as K. rewrite Hz in K. inversion K; subst. ring.
Qed.
Lemma repeat_map {A B} (x : B) (l : list A) : repeat x (length l) = map (fun _ => x) l.
Proof. induction l; simpl; f_equal; auto. Qed.

Lemma Estimate_spec s s' r : EstimateContinuum s = (s', r) -> s_removed s = false ->
  same_data s s' /\ (r = Ok tt -> s_removed s' = true /\ good_parts s' /\ (s_method s = "manual"%string -> s_cont s' = s_cont s)) /\
  (r <> UB -> r <> Ok tt -> s_removed s' = false).
Proof.
  unfold SpcModel.EstimateContinuum. intros H F.
  destruct (estimate_noc s) as [s1 r1] eqn:E1. pose proof (estimate_noc_same _ _ _ E1) as (D1 & F1 & C1).
  destruct r1 as [u|e|]; cbn [sbind] in H.
  2:{ inversion H; subst. repeat split; try apply D1; try discriminate. intros _ _. apply F1; [discriminate|auto]. }
  2:{ inversion H; subst. repeat split; try apply D1; try discriminate. intros X; congruence. }
  assert (F1' : s_removed s1 = false) by (apply F1; [discriminate|auto]). clear F1.
  assert (M : s_method s1 = s_method s) by apply D1.
  rewrite M in H. destruct (String.eqb_spec (s_method s) "manual") as [Em|Em].
  - inversion H; subst. split; [|split; [|congruence]].
    { destruct D1 as (?&?&?&?&?&?&?). repeat split; auto. }
    intros _. split; [reflexivity|]. split; [|intros _; cbn; auto].
    split; [|cbn; rewrite M; congruence].
    unfold SpcModel.estimate_noc in E1. rewrite Em in E1. cbn in E1.
    destruct (flux_sub (s_raw s) (s_cont s)) as [d|x|] eqn:Ed; inversion E1; subst. cbn.
    apply decomposed_sub'. apply flux_sub_ok in Ed. tauto.
  - destruct (flux_sub (s_raw s1) (s_noc s1)) as [d|x|] eqn:Ed; inversion H; subst; (split; [destruct D1 as (?&?&?&?&?&?&?); repeat split; auto |]).
    2:{ split; [discriminate|]. intros _ _. cbn. auto. }
    2:{ split; [discriminate|]. intros X; congruence. }
    split; [|congruence]. intros _. split; [reflexivity|]. split; [|congruence].
    pose proof (flux_sub_ok _ _ _ Ed) as (Es & _). split; cbn.
    + apply decomposed_sub. exact Es.
    + intros _. rewrite M.
      pose proof (Subtract_ok _ _ _ Es) as (Ln & _ & _).
      unfold SpcModel.estimate_noc in E1.
      destruct (String.eqb_spec (s_method s) "irregularSamplingMedian") as [E|E].
      { left. split; [exact E|]. unfold RemoveContinuum in E1. cbn in E1.
        destruct (remover (s_axis s) (s_raw s) (s_win s) (s_even s)) as [|b l] eqn:Er.
        - right. inversion E1; subst. cbn in *. destruct (f_s (s_raw s)) eqn:Z; [|discriminate]. auto.
        - left. destruct (_ && _)%bool; [discriminate|]. inversion E1; subst. cbn. eauto. }
      destruct (String.eqb_spec (s_method s) "raw") as [Er|Er].
      { inversion E1; subst. cbn in *. rewrite repeat_length in Ln. right; left. split; [auto|]. rewrite Ln. apply repeat_map. }
      destruct (String.eqb_spec (s_method s) "zero") as [Ez|Ez].
      { inversion E1; subst. right; right. split; auto. }
      destruct (String.eqb_spec (s_method s) "manual"); [congruence|]. discriminate.
Qed.

Lemma ensure_spec s s' r : ensure_removed s = (s', r) ->
  same_data s s' /\ (s_removed s = true -> s' = s /\ r = Ok tt) /\
  (s_removed s = false -> r = Ok tt -> s_removed s' = true /\ good_parts s' /\ (s_method s = "manual"%string -> s_cont s' = s_cont s)) /\
  (r <> UB -> r <> Ok tt -> s_removed s' = false) /\ (r = Ok tt -> s_removed s' = true).
Proof.
  unfold SpcModel.ensure_removed. destruct (s_removed s) eqn:F.
  - intro H. inversion H; subst. split; [apply same_data_refl|]. split; [auto|]. split; [discriminate|]. split; [congruence|auto].
  - intro H. destruct (Estimate_spec _ _ _ H F) as (D & G & N). split; [exact D|]. split; [discriminate|]. split; [auto|]. split; [auto|].
    intro X. apply G; auto.
Qed.
(** the axis shown by the type *)
Definition current (s : spc) : flux := match s_type s with Raw => s_raw s | ContinuumOnly => s_cont s | NoContinuum => s_noc s end.
Definition ready (s : spc) : Prop := s_type s = Raw \/ s_removed s = true.
Lemma GetFlux_ready s : ready s -> GetFluxAxis s = (s, Ok (current s)).
Proof.
  unfold ready, SpcModel.GetFluxAxis, current, SpcModel.GetContinuumFluxAxis, SpcModel.GetWithoutContinuumFluxAxis, SpcModel.ensure_removed.
  intros [E|E]; rewrite E; [reflexivity|]. destruct (s_type s); reflexivity.
Qed.
Lemma GetFlux_ensure s s' r : GetFluxAxis s = (s', r) ->
  (s_type s = Raw /\ s' = s /\ r = Ok (s_raw s)) \/
  (s_type s <> Raw /\ exists q, ensure_removed s = (s', q) /\ match q with Ok _ => r = Ok (current s') | Throw e => r = Throw e | UB => r = UB end).
Proof.
  unfold SpcModel.GetFluxAxis. destruct (s_type s) eqn:T.
  - intro H. inversion H; subst. left. auto.
  - unfold SpcModel.GetContinuumFluxAxis. destruct (ensure_removed s) as [s1 q] eqn:E. pose proof (ensure_spec _ _ _ E) as (D & _).
    intro H. right. split; [discriminate|]. exists q.
    assert (T1 : s_type s1 = ContinuumOnly) by (rewrite <- T; apply D).
    destruct q; cbn [sbind] in H; inversion H; subst; split; auto. unfold current. rewrite T1. reflexivity.
  - unfold SpcModel.GetWithoutContinuumFluxAxis. destruct (ensure_removed s) as [s1 q] eqn:E. pose proof (ensure_spec _ _ _ E) as (D & _).
    intro H. right. split; [discriminate|]. exists q.
    assert (T1 : s_type s1 = NoContinuum) by (rewrite <- T; apply D).
    destruct q; cbn [sbind] in H; inversion H; subst; split; auto. unfold current. rewrite T1. reflexivity.
Qed.
Lemma GetFlux_spec s s' r : GetFluxAxis s = (s', r) -> same_data s s' /\ (ready s -> s' = s) /\ (forall f, r = Ok f -> ready s' /\ f = current s') /\
  (s' = s \/ exists q, ensure_removed s = (s', q)).
Proof.
  intro H. destruct (GetFlux_ensure _ _ _ H) as [(T & -> & ->)|(T & q & E & Hq)].
  - split; [apply same_data_refl|]. split; [auto|]. split; [|auto]. intros f X. inversion X; subst. split; [left; auto|].
    unfold current. rewrite T. reflexivity.
  - pose proof (ensure_spec _ _ _ E) as (D & Y & _ & _ & Z). split; [exact D|]. split.
    { intros [R|R]; [congruence|]. apply Y; auto. }
    split; [|right; eauto]. intros f X. destruct q as [[]|e|]; try congruence. rewrite X in Hq. inversion Hq; subst. split; [right; apply Z; auto | reflexivity].
Qed.
Lemma IsValid_spec s s' r : IsValid s = (s', r) -> same_data s s' /\ (ready s -> s' = s) /\ (forall b, r = Ok b -> ready s') /\
  (s' = s \/ exists q, ensure_removed s = (s', q)).
Proof.
  unfold SpcModel.IsValid. destruct (GetFluxAxis s) as [s1 q] eqn:E. pose proof (GetFlux_spec _ _ _ E) as (D & R & Y & Z).
  destruct q as [f|e|]; cbn [sbind].
  - destruct (Y f eq_refl) as (Y1 & _). destruct (negb _); intro H; inversion H; subst; auto.
  - intro H; inversion H; subst. split; auto. split; auto. split; [discriminate|auto].
  - intro H; inversion H; subst. split; auto. split; auto. split; [discriminate|auto].
Qed.
Lemma require_spec s s' r : require_valid s = (s', r) -> same_data s s' /\ (ready s -> s' = s) /\ (r = Ok tt -> ready s') /\
  (s' = s \/ exists q, ensure_removed s = (s', q)).
Proof.
  unfold SpcModel.require_valid. destruct (IsValid s) as [s1 q] eqn:E. pose proof (IsValid_spec _ _ _ E) as (D & R & Y & Z).
  destruct q as [f|e|]; cbn [sbind].
  - specialize (Y f eq_refl). destruct f; intro H; inversion H; subst; auto.
  - intro H; inversion H; subst. split; auto. split; auto. split; [discriminate|auto].
  - intro H; inversion H; subst. split; auto. split; auto. split; [discriminate|auto].
Qed.

(** ** invariants of the form: when the components are estimated, they are good *)
Section Inv.
Context (good : spc -> Prop) (allowed : op -> bool).
Hypothesis corr_id : forall a f l1 l2 c f', corrector a f l1 l2 c = Ok (false, f') -> f' = f.
Hypothesis g_parts : forall s, s_removed s = true -> good_parts s -> good s.
Hypothesis g_type : forall s t, good s -> good (with_type s t).
Hypothesis g_rebin : forall s t, good s -> good (with_rebin s t).
Hypothesis g_win : forall s w, good s -> s_method s <> "irregularSamplingMedian"%string -> good (with_win s w).
Hypothesis g_even : forall s w, good s -> s_method s <> "irregularSamplingMedian"%string -> good (with_even s w).
Hypothesis g_scale : forall s c, good s -> good (with_noc (with_cont (with_raw s (flux_scale c (s_raw s))) (flux_scale c (s_cont s))) (flux_scale c (s_noc s))).
Hypothesis g_invert : forall s, good s -> good (with_noc (with_cont (with_raw s (flux_invert (s_raw s))) (flux_invert (s_cont s))) (flux_invert (s_noc s))).
Hypothesis g_axis : forall s a, allowed (CSetSpectralAxis a) = true -> good s -> good (with_axis s a).
Hypothesis g_error : forall s e, allowed (CSetErrorAxis e) = true -> good s -> good (set_current s (mkFlux (f_s (current s)) e)).

Definition Inv (s : spc) : Prop := s_removed s = true -> good s.
Lemma ensure_Inv s s' q : ensure_removed s = (s', q) -> q <> UB -> Inv s -> Inv s'.
Proof.
  intros E Q I R. pose proof (ensure_spec _ _ _ E) as (D & Y & G & N & _).
  destruct (s_removed s) eqn:F.
  - destruct (Y eq_refl) as (-> & _). apply I. auto.
  - destruct q as [[]|e|]; [|rewrite (N Q) in R by discriminate; discriminate | congruence].
    destruct (G eq_refl eq_refl) as (_ & G' & _). apply g_parts; auto.
Qed.
Lemma GetFlux_Inv s s' r : GetFluxAxis s = (s', r) -> r <> UB -> Inv s -> Inv s'.
Proof.
  intros H U I. destruct (GetFlux_ensure _ _ _ H) as [(T & -> & ->)|(T & q & E & Hq)]; [exact I|].
  apply (ensure_Inv _ _ _ E); [|exact I]. destruct q; congruence.
Qed.
Lemma IsValid_Inv s s' r : IsValid s = (s', r) -> r <> UB -> Inv s -> Inv s'.
Proof.
  unfold SpcModel.IsValid. destruct (GetFluxAxis s) as [s1 q] eqn:E. intros H U I.
  assert (I1 : q <> UB -> Inv s1) by (intro; apply (GetFlux_Inv _ _ _ E); auto).
  destruct q as [f|e|]; cbn [sbind] in H.
  - destruct (negb _); inversion H; subst; apply I1; discriminate.
  - inversion H; subst; apply I1; discriminate.
  - inversion H; subst; congruence.
Qed.
Lemma require_Inv s s' r : require_valid s = (s', r) -> r <> UB -> Inv s -> Inv s'.
Proof.
  unfold SpcModel.require_valid. destruct (IsValid s) as [s1 q] eqn:E. intros H U I.
  assert (I1 : q <> UB -> Inv s1) by (intro; apply (IsValid_Inv _ _ _ E); auto).
  destruct q as [[]|e|]; cbn [sbind] in H; inversion H; subst; try (apply I1; discriminate). congruence.
Qed.
Lemma Reset_Inv s : Inv (ResetContinuum s).
Proof. intro R. discriminate R. Qed.
Lemma forget_Inv s : Inv (forget s).
Proof. unfold forget, SetType. cbn. destruct (etype_eqb _ _); intro R; discriminate R. Qed.
Lemma SetType_Inv s t : Inv s -> Inv (SetType s t).
Proof. unfold SetType. intros I. destruct (etype_eqb _ _); auto. intro R. apply g_type, g_rebin, I. exact R. Qed.
Lemma Win_Inv s w : Inv s -> Inv (SetMedianWinsize s w).
Proof.
  unfold SetMedianWinsize. intros I. destruct (Z.eqb_spec (s_win s) w) as [E|E]; cbn [negb andb].
  - destruct s; cbn in *. subst. exact I.
  - destruct (String.eqb_spec (s_method s) "irregularSamplingMedian"); intro R; [discriminate R|]. apply g_win; auto.
Qed.
Lemma Even_Inv s w : Inv s -> Inv (SetMedianEvenReflection s w).
Proof.
  unfold SetMedianEvenReflection. intros I. destruct (Bool.eqb_spec (s_even s) w) as [E|E]; cbn [negb andb].
  - destruct s; cbn in *. subst. exact I.
  - destruct (String.eqb_spec (s_method s) "irregularSamplingMedian"); intro R; [discriminate R|]. apply g_even; auto.
Qed.
Lemma Method_Inv s m : Inv s -> Inv (SetMethod s m).
Proof. unfold SetMethod. intros I. destruct (String.eqb _ _); auto. apply Reset_Inv. Qed.
Lemma Move_Inv s f s' r : SetFluxAxis_move s f = (s', r) -> Inv s -> Inv s'.
Proof.
  unfold SetFluxAxis_move. intros H I. destruct (_ || _)%bool; inversion H; subst; auto.
  intro R. exfalso. revert R. unfold forget, SetType. cbn. destruct (etype_eqb _ _); discriminate.
Qed.

Lemma step_Inv s o s' r : allowed o = true -> step s o = (s', r) -> r <> UB -> Inv s -> Inv s'.
Proof.
  intros A H U I. destruct o; cbn [SpcModel.step] in H.
  - (* SetFluxAxis *) unfold SetFluxAxis_ref in H. destruct (negb _); inversion H; subst; auto.
    intro R. exfalso. revert R. unfold forget, SetType. cbn. destruct (etype_eqb _ _); discriminate.
  - destruct (SetFluxAxis_move s f) as [s1 q] eqn:E. apply (Move_Inv _ _ _ _ E) in I. destruct q; inversion H; subst; auto.
  - unfold SetSpectralAxis in H. destruct (GetFluxAxis s) as [s1 q] eqn:E.
    assert (I1 : q <> UB -> Inv s1) by (intro; apply (GetFlux_Inv _ _ _ E); auto).
    destruct q as [f|e|]; cbn [sbind unit_obs] in H; [|inversion H; subst; apply I1; discriminate | inversion H; congruence].
    destruct (negb _); inversion H; subst; [apply I1; discriminate|]. intro R. apply g_axis; auto. apply I1; [discriminate|auto].
  - unfold SetSpectralAndFluxAxes in H. destruct (_ || _)%bool; [inversion H; subst; auto|].
    destruct (SetFluxAxis_move _ f) as [s1 q] eqn:E.
    assert (I1 : Inv s1).
    { apply (Move_Inv _ _ _ _ E). intro R. exfalso. revert R. unfold forget, SetType. cbn. destruct (etype_eqb _ _); discriminate. }
    destruct q; inversion H; subst; auto.
  - unfold SetErrorAxis in H. destruct (GetFluxAxis s) as [s1 q] eqn:E.
    assert (I1 : q <> UB -> Inv s1) by (intro; apply (GetFlux_Inv _ _ _ E); auto).
    destruct q as [f|x|]; cbn [sbind unit_obs] in H; [|inversion H; subst; apply I1; discriminate | inversion H; congruence].
    destruct (GetFlux_spec _ _ _ E) as (_ & _ & Y & _). destruct (Y f eq_refl) as (_ & ->).
    unfold setError in H. destruct (Nat.eqb _ _); inversion H; subst; [|apply I1; discriminate].
    intro R. apply g_error; auto. apply I1; [discriminate|]. revert R. unfold set_current. destruct (s_type s1); auto.
  - inversion H; subst. apply SetType_Inv; auto.
  - inversion H; subst. apply Method_Inv; auto.
  - unfold SetManual in H. cbv zeta in H. destruct (negb _); inversion H; subst; intro R; discriminate R.
  - inversion H; subst. apply Win_Inv; auto.
  - inversion H; subst. apply Even_Inv; auto.
  - unfold InitSpectrumContinuum in H. destruct (require_valid s) as [s1 q] eqn:E.
    assert (I1 : q <> UB -> Inv s1) by (intro; apply (require_Inv _ _ _ E); auto).
    destruct q as [f|x|]; cbn [sbind unit_obs] in H; [|inversion H; subst; apply I1; discriminate | inversion H; congruence].
    inversion H; subst. apply Even_Inv, Win_Inv, Method_Inv, Reset_Inv.
  - inversion H; subst. unfold InvertFlux. intro R. cbn in *. destruct (s_removed s) eqn:F; cbn in R; [|rewrite F in R; discriminate]. apply g_invert, I; auto.
  - inversion H; subst. unfold ApplyAmplitude. intro R. cbn in *. destruct (s_removed s) eqn:F; cbn in R; [|rewrite F in R; discriminate]. apply g_rebin, g_scale, I; auto.
  - unfold correctSpectrum in H. destruct (require_valid s) as [s1 q] eqn:E.
    assert (I1 : q <> UB -> Inv s1) by (intro; apply (require_Inv _ _ _ E); auto).
    destruct q as [f|x|]; cbn [sbind bool_obs] in H; [|inversion H; subst; apply I1; discriminate | inversion H; congruence].
    assert (I2 : Inv s1) by (apply I1; discriminate).
    destruct (GetFluxAxis s1) as [s2 q] eqn:E2.
    assert (I3 : q <> UB -> Inv s2) by (intro; apply (GetFlux_Inv _ _ _ E2); auto).
    destruct q as [g|x|]; cbn [sbind bool_obs] in H; [|inversion H; subst; apply I3; discriminate | inversion H; congruence].
    destruct (GetFlux_spec _ _ _ E2) as (_ & _ & Y & _). destruct (Y g eq_refl) as (_ & ->).
    destruct (corrector _ _ _ _ _) as [[c f']|x|] eqn:Ec; [|inversion H; subst; apply I3; discriminate | inversion H; congruence].
    destruct c; inversion H; subst; [apply Reset_Inv|].
    apply corr_id in Ec. subst f'.
    assert (X : set_current s2 (current s2) = s2) by (unfold set_current, current; destruct s2 as [a b c d []]; reflexivity).
    rewrite X. apply I3. discriminate.
  - unfold setRebinInterpMethod in H. destruct (rkind_of m); inversion H; subst; auto. intro R. apply g_rebin, I. exact R.
  - unfold SpcModel.Rebin in H. destruct (require_valid s) as [s1 q] eqn:E.
    assert (I1 : q <> UB -> Inv s1) by (intro; apply (require_Inv _ _ _ E); auto).
    destruct q as [f|x|]; cbn [sbind] in H; [|inversion H; subst; apply I1; discriminate | inversion H; congruence].
    assert (I2 : Inv s1) by (apply I1; discriminate). clear I1.
    destruct (s_axis s1) as [|a0 t]; [inversion H; congruence|].
    destruct (_ || _)%bool; [inversion H; subst; auto|].
    destruct (GetFluxAxis s1) as [s2 q] eqn:E2.
    assert (I3 : q <> UB -> Inv s2) by (intro; apply (GetFlux_Inv _ _ _ E2); auto).
    destruct (r_kind (s_rebin s1)); [| destruct (r_grid (s_rebin s1)) as [[? ?]|]; [inversion H; subst; auto|] | |];
    (destruct q as [g|x|]; cbn [sbind] in H; inversion H; subst; [ | apply I3; discriminate | congruence]);
    try (apply I3; discriminate); intro R; apply g_rebin, I3; [discriminate|exact R].
  - destruct (GetFluxAxis s) as [s1 q] eqn:E.
    assert (I1 : q <> UB -> Inv s1) by (intro; apply (GetFlux_Inv _ _ _ E); auto).
    destruct q; inversion H; subst; try (apply I1; discriminate). congruence.
  - inversion H; subst; auto.
  - unfold SpcModel.GetContinuumFluxAxis in H. destruct (ensure_removed s) as [s1 q] eqn:E.
    assert (I1 : q <> UB -> Inv s1) by (intro; apply (ensure_Inv _ _ _ E); auto).
    destruct q; inversion H; subst; try (apply I1; discriminate). congruence.
  - unfold SpcModel.GetWithoutContinuumFluxAxis in H. destruct (ensure_removed s) as [s1 q] eqn:E.
    assert (I1 : q <> UB -> Inv s1) by (intro; apply (ensure_Inv _ _ _ E); auto).
    destruct q; inversion H; subst; try (apply I1; discriminate). congruence.
  - destruct (IsValid s) as [s1 q] eqn:E.
    assert (I1 : q <> UB -> Inv s1) by (intro; apply (IsValid_Inv _ _ _ E); auto).
    destruct q; inversion H; subst; try (apply I1; discriminate). congruence.
Qed.
Lemma run_Inv h : forall s s', forallb allowed h = true -> run s h = Some s' -> Inv s -> Inv s'.
Proof.
  induction h as [|o t IH]; intros s s' A H I; cbn [SpcModel.run forallb] in *; [inversion H; subst; auto|].
  apply andb_true_iff in A. destruct A as (A1 & A2).
  destruct (step s o) as [s1 q] eqn:E.
  assert (I1 : q <> UB -> Inv s1) by (intro; apply (step_Inv _ _ _ _ A1 E); auto).
  destruct q; [eapply IH; eauto; apply I1; discriminate | eapply IH; eauto; apply I1; discriminate | discriminate].
Qed.
End Inv.

Lemma scale_nth c l i y : nth_error (map (fun x => c * x) l) i = Some y -> exists x, nth_error l i = Some x /\ y = c * x.
Proof. rewrite nth_error_map. destruct (nth_error l i); simpl; intro H; inversion H; eauto. Qed.
Lemma decomposed_scale c raw cont noc : decomposed raw cont noc -> decomposed (flux_scale c raw) (flux_scale c cont) (flux_scale c noc).
Proof.
  unfold decomposed, flux_scale; cbn. rewrite !map_length. intros (A & B & C). repeat split; auto. intros i x y z Hx Hy Hz.
  apply scale_nth in Hx, Hy, Hz. destruct Hx as (x' & Hx & ->), Hy as (y' & Hy & ->), Hz as (z' & Hz & ->). rewrite (C i x' y' z' Hx Hy Hz). ring.
Qed.
Lemma opp_nth l i y : nth_error (map Qopp l) i = Some y -> exists x, nth_error l i = Some x /\ y = - x.
Proof. rewrite nth_error_map. destruct (nth_error l i); simpl; intro H; inversion H; eauto. Qed.
Lemma decomposed_invert raw cont noc : decomposed raw cont noc -> decomposed (flux_invert raw) (flux_invert cont) (flux_invert noc).
Proof.
  unfold decomposed, flux_invert, FluxInvert; cbn. rewrite !map_length. intros (A & B & C). repeat split; auto. intros i x y z Hx Hy Hz.
  apply opp_nth in Hx, Hy, Hz. destruct Hx as (x' & Hx & ->), Hy as (y' & Hy & ->), Hz as (z' & Hz & ->). rewrite (C i x' y' z' Hx Hy Hz). ring.
Qed.

Section Histories.
Hypothesis corr_id : forall a f l1 l2 c f', corrector a f l1 l2 c = Ok (false, f') -> f' = f.

Definition goodA (s : spc) : Prop := decomposed (s_raw s) (s_cont s) (s_noc s).
Lemma run_goodA h s s' : run s h = Some s' -> Inv goodA s -> Inv goodA s'.
Proof.
  apply (run_Inv goodA (fun _ => true)); auto.
  - intros s0 _ G. apply G.
  - intros s0 c G. unfold goodA in *; cbn. apply decomposed_scale. exact G.
  - intros s0 G. unfold goodA in *; cbn. apply decomposed_invert. exact G.
  - intros s0 e _ G. unfold goodA, set_current, current in *. destruct (s_type s0); cbn; exact G.
  - apply forallb_forall. auto.
Qed.
Definition goodF (s : spc) : Prop := goodA s /\ up_to_date remover s.
Lemma veq_id l : veq l (map (fun x => 1 * x) l).
Proof. induction l; simpl; constructor; auto. ring. Qed.
Lemma veq_comp (g : Q -> Q) c l l' k : (forall x y, x == y -> g x == c * y) -> veq l (map (fun x => k * x) l') -> veq (map g l) (map (fun x => (c * k) * x) l').
Proof.
  intros E. revert l. induction l' as [|x t IH]; intros l H; inversion H as [|? ? ? ? Hh Ht]; subst; simpl; constructor; [|apply IH; exact Ht].
  rewrite (E _ _ Hh). ring.
Qed.
Lemma run_goodF h s s' : forallb keeps_setup h = true -> run s h = Some s' -> Inv goodF s -> Inv goodF s'.
Proof.
  apply (run_Inv goodF keeps_setup); auto.
  - intros s0 _ (G1 & G2). split; [exact G1|]. intro M. exists 1, (s_raw s0), (f_s (s_noc s0)).
    repeat split; auto using veq_id.
  - intros s0 w (G1 & G2) M. split; [exact G1|]. intro M'. destruct (G2 M') as (k & r0 & n0 & A & B & C & D). exists k, r0, n0.
    repeat split; auto. cbn. destruct C as [(C & _)|C]; [cbn in *; congruence|]. right. exact C.
  - intros s0 w (G1 & G2) M. split; [exact G1|]. intro M'. destruct (G2 M') as (k & r0 & n0 & A & B & C & D). exists k, r0, n0.
    repeat split; auto. cbn. destruct C as [(C & _)|C]; [cbn in *; congruence|]. right. exact C.
  - intros s0 c (G1 & G2). split; [unfold goodA; cbn; apply decomposed_scale; exact G1|].
    intro M'. destruct (G2 M') as (k & r0 & n0 & A & B & C & D). exists (c * k), r0, n0. cbn.
    repeat split; auto; apply veq_comp; auto; intros x y ->; reflexivity.
  - intros s0 (G1 & G2). split; [unfold goodA; cbn; apply decomposed_invert; exact G1|].
    intro M'. destruct (G2 M') as (k & r0 & n0 & A & B & C & D). exists (-(1) * k), r0, n0. cbn.
    repeat split; auto; apply veq_comp; auto; intros x y ->; ring.
  - intros s0 a Y. discriminate Y.
  - intros s0 e Y. discriminate Y.
Qed.

Lemma New_spec a f s : NewSpectrum remover a f = Ok s -> s = fresh_spc a f /\ length (f_s f) = length a /\ a <> [] /\ sorted_axis a = true.
Proof.
  unfold NewSpectrum, SpcModel.require_valid, SpcModel.IsValid. cbn.
  destruct (Nat.eqb_spec (length a) (length (f_s f))) as [E|E]; cbn [negb]; [|discriminate]. rewrite <- E.
  destruct (Nat.eqb_spec (length a) 0) as [Z|Z]; cbn [negb andb]; [discriminate|].
  destruct (sorted_axis a) eqn:So; [|discriminate]. intro H. inversion H; subst. repeat split; auto. destruct a; [cbn in Z; lia|discriminate].
Qed.

Lemma decomposition a f s h s' s1 c s2 n : NewSpectrum remover a f = Ok s -> run s h = Some s' ->
  GetContinuumFluxAxis s' = (s1, Ok c) -> GetWithoutContinuumFluxAxis s1 = (s2, Ok n) ->
  s2 = s1 /\ s_raw s1 = s_raw s' /\ decomposed (s_raw s') c n.
Proof.
  intros N R H1 H2. apply New_spec in N. destruct N as (-> & _).
  assert (I : Inv goodA s') by (eapply run_goodA; eauto; intro X; discriminate X).
  unfold SpcModel.GetContinuumFluxAxis in H1. destruct (ensure_removed s') as [s1' q] eqn:E.
  pose proof (ensure_spec _ _ _ E) as (D & _ & _ & _ & T).
  destruct q as [[]|e|]; cbn [sbind] in H1; inversion H1; subst. clear H1. specialize (T eq_refl).
  assert (I1 : Inv goodA s1).
  { eapply (ensure_Inv goodA); eauto; [intros s0 _ G; apply G | discriminate]. }
  unfold SpcModel.GetWithoutContinuumFluxAxis, SpcModel.ensure_removed in H2. rewrite T in H2. cbn [sbind] in H2. inversion H2; subst.
  split; [auto|]. assert (Rw : s_raw s2 = s_raw s') by apply D. split; [exact Rw|]. rewrite <- Rw. exact (I1 T).
Qed.

Lemma up_to_date_history a f s h s' s1 n : NewSpectrum remover a f = Ok s -> run s h = Some s' -> forallb keeps_setup h = true ->
  GetWithoutContinuumFluxAxis s' = (s1, Ok n) -> s_noc s1 = n /\ same_data s' s1 /\ up_to_date remover s1.
Proof.
  intros N R K H1. apply New_spec in N. destruct N as (-> & _).
  assert (I : Inv goodF s') by (eapply run_goodF; eauto; intro X; discriminate X).
  unfold SpcModel.GetWithoutContinuumFluxAxis in H1. destruct (ensure_removed s') as [s1' q] eqn:E.
  pose proof (ensure_spec _ _ _ E) as (D & Y & G & _ & T).
  destruct q as [[]|e|]; cbn [sbind] in H1; inversion H1; subst. clear H1. specialize (T eq_refl).
  split; [auto|]. split; [exact D|].
  destruct (s_removed s') eqn:F.
  - destruct (Y eq_refl) as (-> & _). apply (I F).
  - destruct (G eq_refl eq_refl) as (_ & (G1 & G2) & _). intro M. exists 1, (s_raw s1), (f_s (s_noc s1)).
    repeat split; auto using veq_id.
Qed.

(** ** sizes *)
Section Sizes.
Hypothesis corr_len : forall a f l1 l2 c b f', corrector a f l1 l2 c = Ok (b, f') -> length (f_s f') = length (f_s f).
Hypothesis smooth_len : forall k l, length (smoother k l) = length l.
Definition LEN (s : spc) : Prop := length (f_s (s_raw s)) = length (s_axis s).
Lemma LEN_same s s' : same_data s s' -> LEN s -> LEN s'.
Proof. unfold LEN. intros (-> & -> & _). auto. Qed.
Lemma forget_data s : s_axis (forget s) = s_axis s /\ s_raw (forget s) = s_raw s /\ s_type (forget s) = Raw /\ s_method (forget s) = s_method s /\
  s_removed (forget s) = false /\ s_cont (forget s) = empty_flux /\ s_noc (forget s) = empty_flux /\ s_rebin (forget s) = rebin_reset (s_rebin s) /\
  s_win (forget s) = s_win s /\ s_even (forget s) = s_even s.
Proof.
  unfold forget, SetType. cbn. destruct (etype_eqb_spec (s_type s) Raw) as [E|E]; cbn; repeat split; auto.
  unfold rebin_reset. destruct (s_rebin s) as [[] ?]; reflexivity.
Qed.
Lemma current_len s : Inv goodA s -> ready s -> length (f_s (current s)) = length (f_s (s_raw s)).
Proof.
  intros I R. unfold current. destruct (s_type s) eqn:T; auto; (destruct R as [R|R]; [congruence|]);
  destruct (I R) as (A & B & _); auto.
Qed.
Lemma step_LEN s o s' r : no_alias o = true -> step s o = (s', r) -> r <> UB -> Inv goodA s -> LEN s -> LEN s'.
Proof.
  intros A H U I L.
  assert (GF : forall s1 q, GetFluxAxis s = (s1, q) -> q <> UB -> LEN s1 /\ Inv goodA s1).
  { intros s1 q E Q. split; [apply (LEN_same s); auto; apply (GetFlux_spec _ _ _ E) | apply (GetFlux_Inv goodA) with (1 := fun _ _ G => proj1 G) (2 := E); auto]. }
  assert (RV : forall s1 q, require_valid s = (s1, q) -> q <> UB -> LEN s1 /\ Inv goodA s1).
  { intros s1 q E Q. split; [apply (LEN_same s); auto; apply (require_spec _ _ _ E) | apply (require_Inv goodA) with (1 := fun _ _ G => proj1 G) (2 := E); auto]. }
  destruct o; cbn [SpcModel.step] in H.
  - destruct a; try discriminate. unfold SetFluxAxis_ref in H. cbn [farg_get] in H.
    destruct (Nat.eqb_spec (length (f_s f)) (length (s_axis s))) as [E|E]; cbn [negb] in H; inversion H; subst; auto.
    unfold LEN. cbn [s_raw s_axis with_raw]. destruct (forget_data s) as (-> & _). exact E.
  - unfold SetFluxAxis_move in H.
    destruct (Nat.eqb_spec (length (f_s f)) (length (s_axis s))) as [E|E]; cbn [negb orb] in H; [|inversion H; subst; auto].
    destruct (Nat.eqb _ _); inversion H; subst; auto. unfold LEN. cbn [s_raw s_axis with_raw]. destruct (forget_data s) as (-> & _). exact E.
  - unfold SetSpectralAxis in H. destruct (GetFluxAxis s) as [s1 q] eqn:E.
    destruct q as [f|e|]; cbn [sbind unit_obs] in H; [|inversion H; subst; apply (GF _ _ eq_refl); discriminate | inversion H; congruence].
    destruct (GF _ _ eq_refl) as (L1 & I1); [discriminate|].
    destruct (GetFlux_spec _ _ _ E) as (_ & _ & Y & _). destruct (Y f eq_refl) as (R1 & ->).
    destruct (Nat.eqb_spec (length a) (length (f_s (current s1)))) as [El|El]; cbn [negb] in H; inversion H; subst; auto.
    unfold LEN. cbn. rewrite El, current_len; auto.
  - unfold SetSpectralAndFluxAxes in H.
    destruct (Nat.eqb_spec (length (f_s f)) (length a)) as [E|E]; cbn [negb orb] in H; [|inversion H; subst; auto].
    destruct (Nat.eqb_spec (length a) 0) as [Z|Z]; [inversion H; subst; auto|].
    pose (s0 := with_axis (forget s) a). assert (A0 : s_axis s0 = a) by reflexivity.
    change (unit_obs (SetFluxAxis_move s0 f) = (s', r)) in H. clearbody s0.
    unfold SetFluxAxis_move in H. rewrite A0, E, Nat.eqb_refl in H. cbn [negb orb] in H.
    destruct (Nat.eqb_spec (length a) 0) as [Z'|Z']; [lia|]. inversion H; subst. unfold LEN. cbn [s_raw s_axis with_raw].
    destruct (forget_data s0) as (-> & _). congruence.
  - unfold SetErrorAxis in H. destruct (GetFluxAxis s) as [s1 q] eqn:E.
    destruct q as [f|x|]; cbn [sbind unit_obs] in H; [|inversion H; subst; apply (GF _ _ eq_refl); discriminate | inversion H; congruence].
    destruct (GF _ _ eq_refl) as (L1 & I1); [discriminate|].
    destruct (GetFlux_spec _ _ _ E) as (_ & _ & Y & _). destruct (Y f eq_refl) as (R1 & ->).
    unfold setError in H. destruct (Nat.eqb _ _); inversion H; subst; auto.
    unfold LEN, set_current, current in *. destruct (s_type s1); cbn; auto.
  - inversion H; subst. unfold SetType. destruct (etype_eqb _ _); exact L.
  - inversion H; subst. unfold SetMethod. destruct (String.eqb _ _); exact L.
  - unfold SetManual in H. cbv zeta in H. destruct (negb _); inversion H; subst; exact L.
  - inversion H; subst. unfold SetMedianWinsize. destruct (_ && _)%bool; exact L.
  - inversion H; subst. unfold SetMedianEvenReflection. destruct (_ && _)%bool; exact L.
  - unfold InitSpectrumContinuum in H. destruct (require_valid s) as [s1 q] eqn:E.
    destruct q as [f|x|]; cbn [sbind unit_obs] in H; [|inversion H; subst; apply (RV _ _ eq_refl); discriminate | inversion H; congruence].
    destruct (RV _ _ eq_refl) as (L1 & I1); [discriminate|]. inversion H; subst.
    assert (X1 : LEN (SetType s1 Raw)) by (unfold SetType; destruct (etype_eqb _ _); exact L1).
    set (s2 := if (0 <? smooth)%Z then _ else _).
    assert (X2 : LEN s2).
    { unfold s2. destruct (0 <? smooth)%Z; [|exact X1]. unfold LEN in *. cbn. rewrite smooth_len. exact X1. }
    clearbody s2. unfold SetMedianEvenReflection, SetMedianWinsize, SetMethod.
    destruct (String.eqb _ m); cbn; repeat match goal with |- context[if ?b then _ else _] => destruct b end; exact X2.
  - inversion H; subst. unfold InvertFlux, LEN in *. cbn. destruct (s_removed s); cbn; unfold FluxInvert; rewrite map_length; exact L.
  - inversion H; subst. unfold ApplyAmplitude, LEN in *. cbn. destruct (s_removed s); cbn; rewrite map_length; exact L.
  - unfold correctSpectrum in H. destruct (require_valid s) as [s1 q] eqn:E.
    destruct q as [f|x|]; cbn [sbind bool_obs] in H; [|inversion H; subst; apply (RV _ _ eq_refl); discriminate | inversion H; congruence].
    destruct (RV _ _ eq_refl) as (L1 & I1); [discriminate|].
    destruct (require_spec _ _ _ E) as (_ & _ & Y & _). destruct f. specialize (Y eq_refl). rewrite (GetFlux_ready _ Y) in H. cbn [sbind bool_obs] in H.
    destruct (corrector _ _ _ _ _) as [[c f']|x|] eqn:Ec; cbn [sbind bool_obs] in H; [|inversion H; subst; auto | inversion H; congruence].
    apply corr_len in Ec. assert (X : LEN (set_current s1 f')).
    { unfold LEN, set_current, current in *. destruct (s_type s1); cbn; auto. congruence. }
    destruct c; inversion H; subst; exact X.
  - unfold setRebinInterpMethod in H. destruct (rkind_of m); inversion H; subst; auto.
  - unfold SpcModel.Rebin in H. destruct (require_valid s) as [s1 q] eqn:E.
    destruct q as [f|x|]; cbn [sbind] in H; [|inversion H; subst; apply (RV _ _ eq_refl); discriminate | inversion H; congruence].
    destruct (RV _ _ eq_refl) as (L1 & I1); [discriminate|].
    destruct (require_spec _ _ _ E) as (_ & _ & Y & _). destruct f. specialize (Y eq_refl). rewrite (GetFlux_ready _ Y) in H. cbn [sbind] in H.
    destruct (s_axis s1) as [|a0 t] eqn:Ax; [inversion H; congruence|].
    destruct (_ || _)%bool; [inversion H; subst; auto|].
    destruct (r_kind (s_rebin s1)); [| destruct (r_grid (s_rebin s1)) as [[? ?]|] | |]; inversion H; subst; auto.
  - destruct (GetFluxAxis s) as [s1 q] eqn:E. destruct q; inversion H; subst; try (apply (GF _ _ eq_refl); discriminate). congruence.
  - inversion H; subst; auto.
  - unfold SpcModel.GetContinuumFluxAxis in H. destruct (ensure_removed s) as [s1 q] eqn:E.
    assert (L1 : LEN s1) by (apply (LEN_same s); auto; apply (ensure_spec _ _ _ E)). destruct q; inversion H; subst; auto.
  - unfold SpcModel.GetWithoutContinuumFluxAxis in H. destruct (ensure_removed s) as [s1 q] eqn:E.
    assert (L1 : LEN s1) by (apply (LEN_same s); auto; apply (ensure_spec _ _ _ E)). destruct q; inversion H; subst; auto.
  - destruct (IsValid s) as [s1 q] eqn:E.
    assert (L1 : LEN s1) by (apply (LEN_same s); auto; apply (IsValid_spec _ _ _ E)). destruct q; inversion H; subst; auto.
Qed.
Lemma step_goodA s o s' r : step s o = (s', r) -> r <> UB -> Inv goodA s -> Inv goodA s'.
Proof.
  intros E U I. apply (run_goodA [o] s); auto. cbn [SpcModel.run]. rewrite E. destruct r; congruence.
Qed.
Lemma run_LEN h : forall s s', forallb no_alias h = true -> run s h = Some s' -> Inv goodA s -> LEN s -> LEN s'.
Proof.
  induction h as [|o t IH]; intros s s' A H I L; cbn [SpcModel.run forallb] in *; [inversion H; subst; auto|].
  apply andb_true_iff in A. destruct A as (A1 & A2). destruct (step s o) as [s1 q] eqn:E.
  assert (X : q <> UB -> LEN s1 /\ Inv goodA s1) by (intro; split; [eapply step_LEN | eapply step_goodA]; eauto).
  destruct q; [ | | discriminate]; destruct X; try discriminate; eapply IH; eauto.
Qed.
Lemma sizes a f s h s' : NewSpectrum remover a f = Ok s -> run s h = Some s' -> forallb no_alias h = true ->
  length (f_s (s_raw s')) = length (s_axis s') /\
  (forall s1 c, GetContinuumFluxAxis s' = (s1, Ok c) -> length (f_s c) = length (s_axis s')) /\
  (forall s1 c, GetWithoutContinuumFluxAxis s' = (s1, Ok c) -> length (f_s c) = length (s_axis s')).
Proof.
  intros N R A. apply New_spec in N. destruct N as (-> & Lf & _).
  assert (I0 : Inv goodA (fresh_spc a f)) by (intro X; discriminate X).
  assert (I : Inv goodA s') by (eapply run_goodA; eauto).
  assert (L : LEN s') by (eapply run_LEN; eauto). split; [exact L|].
  assert (K : forall s1, ensure_removed s' = (s1, Ok tt) -> decomposed (s_raw s') (s_cont s1) (s_noc s1)).
  { intros s1 E. pose proof (ensure_spec _ _ _ E) as ((_ & Rw & _) & _ & _ & _ & T). rewrite <- Rw.
    apply (ensure_Inv goodA (fun _ _ G => proj1 G) _ _ _ E); auto. discriminate. }
  unfold SpcModel.GetContinuumFluxAxis, SpcModel.GetWithoutContinuumFluxAxis. unfold LEN in L.
  split; intros s1 c H; destruct (ensure_removed s') as [s2 [[]|e|]]; cbn [sbind] in H; inversion H; subst; destruct (K _ eq_refl) as (A1 & A2 & _); congruence.
Qed.
End Sizes.

(** ** the fine grid *)
Definition Grid (s : spc) : Prop :=
  r_kind (s_rebin s) = FineGrid /\
  forall a g, r_grid (s_rebin s) = Some (a, g) -> a = s_axis s /\ ready s /\ g = f_s (current s).
Lemma Grid_none s : r_kind (s_rebin s) = FineGrid -> r_grid (s_rebin s) = None -> Grid s.
Proof. intros A B. split; auto. rewrite B. discriminate. Qed.
Lemma Grid_estimated s s' q : ensure_removed s = (s', q) -> Grid s -> Grid s'.
Proof.
  intros E (K & G). pose proof (ensure_spec _ _ _ E) as ((D1 & D2 & D3 & D4 & D5 & D6 & D7) & Y & _).
  split; [congruence|]. intros a g X. rewrite D7 in X. destruct (G _ _ X) as (-> & R & ->). split; [congruence|].
  destruct R as [R|R].
  - split; [left; congruence|]. unfold current. rewrite D3, R, D2. reflexivity.
  - destruct (Y R) as (-> & _). split; [right; auto|reflexivity].
Qed.
Lemma Grid_flux s s' q : GetFluxAxis s = (s', q) -> Grid s -> Grid s'.
Proof. intros E G. destruct (GetFlux_spec _ _ _ E) as (_ & _ & _ & [->|(q' & E')]); auto. eapply Grid_estimated; eauto. Qed.
Lemma Grid_valid s s' q : IsValid s = (s', q) -> Grid s -> Grid s'.
Proof. intros E G. destruct (IsValid_spec _ _ _ E) as (_ & _ & _ & [->|(q' & E')]); auto. eapply Grid_estimated; eauto. Qed.
Lemma Grid_require s s' q : require_valid s = (s', q) -> Grid s -> Grid s'.
Proof. intros E G. destruct (require_spec _ _ _ E) as (_ & _ & _ & [->|(q' & E')]); auto. eapply Grid_estimated; eauto. Qed.
Lemma reset_none r : r_kind r = FineGrid -> rebin_reset r = mkRebin FineGrid None.
Proof. unfold rebin_reset. intros ->. reflexivity. Qed.
Lemma step_Grid s o s' r : grid_safe s o -> step s o = (s', r) -> Grid s -> Grid s'.
Proof.
  intros S H G. pose proof G as (K & G').
  destruct o; cbn [SpcModel.step grid_safe] in *; try contradiction.
  - unfold SetFluxAxis_ref in H. cbv zeta in H. destruct (negb _); inversion H; subst; auto.
    apply Grid_none; cbn [s_rebin with_raw]; destruct (forget_data s) as (_ & _ & _ & _ & _ & _ & _ & -> & _); rewrite (reset_none _ K); reflexivity.
  - unfold SetFluxAxis_move in H. destruct (_ || _)%bool; inversion H; subst; auto.
    apply Grid_none; cbn [s_rebin with_raw]; destruct (forget_data s) as (_ & _ & _ & _ & _ & _ & _ & -> & _); rewrite (reset_none _ K); reflexivity.
  - unfold SetSpectralAndFluxAxes in H. destruct (_ || _)%bool; [inversion H; subst; auto|].
    destruct (forget_data s) as (_ & _ & _ & _ & _ & _ & _ & Fr & _).
    pose (s0 := with_axis (forget s) a). assert (Fr' : s_rebin s0 = mkRebin FineGrid None) by (unfold s0; cbn [s_rebin with_axis]; rewrite Fr; apply reset_none; auto).
    change (unit_obs (SetFluxAxis_move s0 f) = (s', r)) in H. clearbody s0.
    unfold SetFluxAxis_move in H. destruct (_ || _)%bool; inversion H; subst; apply Grid_none; try (rewrite Fr'; reflexivity);
    cbn [s_rebin with_raw]; destruct (forget_data s0) as (_ & _ & _ & _ & _ & _ & _ & -> & _); rewrite Fr'; reflexivity.
  - unfold SetErrorAxis in H. destruct (GetFluxAxis s) as [s1 q] eqn:E. pose proof (Grid_flux _ _ _ E G) as (K1 & G1).
    destruct q as [f|x|]; cbn [sbind unit_obs] in H; inversion H; subst; try (split; auto; fail).
    destruct (GetFlux_spec _ _ _ E) as (_ & _ & Y & _). destruct (Y f eq_refl) as (R1 & ->).
    unfold setError in H. destruct (Nat.eqb _ _); inversion H; subst; [|split; auto].
    split; [unfold set_current; destruct (s_type s1); exact K1|]. intros a g X.
    assert (X' : r_grid (s_rebin s1) = Some (a, g)) by (revert X; unfold set_current; destruct (s_type s1); auto).
    destruct (G1 _ _ X') as (-> & _ & ->). unfold ready, set_current, current in *. destruct (s_type s1) eqn:T; cbn; rewrite T; repeat split; auto.
  - inversion H; subst. unfold SetType. destruct (etype_eqb_spec (s_type s) t); auto. apply Grid_none; cbn; rewrite (reset_none _ K); reflexivity.
  - inversion H; subst. unfold SetMethod. destruct (String.eqb _ _); auto. split; [exact K|]. intros a g X. destruct (G' _ _ X) as (-> & _ & ->).
    split; [reflexivity|]. split; [left; exact S|]. unfold current. cbn. rewrite S. reflexivity.
  - unfold SetManual in H. cbv zeta in H.
    assert (Z : forall f, Grid (ResetContinuum (with_method s "manual")) /\ Grid (with_cont (ResetContinuum (with_method s "manual")) f)).
    { intro f. split; (split; [exact K|]; intros a' g X; destruct (G' _ _ X) as (-> & _ & ->); split; [reflexivity|]; split; [left; exact S|]; unfold current; cbn; rewrite S; reflexivity). }
    destruct (negb _); inversion H; subst; apply (Z empty_flux) || apply Z.
  - inversion H; subst. unfold SetMedianWinsize. destruct (_ && _)%bool; (split; [exact K|]; intros a' g X; destruct (G' _ _ X) as (-> & _ & ->); split; [reflexivity|]; split; [left; exact S|]; unfold current; cbn; rewrite S; reflexivity).
  - inversion H; subst. unfold SetMedianEvenReflection. destruct (_ && _)%bool; (split; [exact K|]; intros a' g X; destruct (G' _ _ X) as (-> & _ & ->); split; [reflexivity|]; split; [left; exact S|]; unfold current; cbn; rewrite S; reflexivity).
  - inversion H; subst. apply Grid_none; unfold ApplyAmplitude; cbn; destruct (s_removed s); cbn; rewrite (reset_none _ K); reflexivity.
  - subst m. unfold setRebinInterpMethod in H. cbn in H. inversion H; subst. split; [reflexivity|]. exact G'.
  - unfold SpcModel.Rebin in H. destruct (require_valid s) as [s1 q] eqn:E. pose proof (Grid_require _ _ _ E G) as (K1 & G1).
    destruct q as [f|x|]; cbn [sbind] in H; [|inversion H; subst; split; auto|inversion H; subst; split; auto].
    destruct (s_axis s1) as [|a0 t] eqn:Ax; [inversion H; subst; split; [auto|rewrite Ax; auto]|].
    destruct (_ || _)%bool; [inversion H; subst; split; [auto|rewrite Ax; auto]|]. rewrite K1 in H.
    destruct (r_grid (s_rebin s1)) as [[? ?]|] eqn:Rg; [inversion H; subst; split; [auto|rewrite Ax, Rg; auto]|].
    destruct (require_spec _ _ _ E) as (_ & _ & Y & _). destruct f. specialize (Y eq_refl). rewrite (GetFlux_ready _ Y) in H. cbn [sbind] in H.
    inversion H; subst. split; [reflexivity|]. cbn. intros a g X. inversion X; subst. split; [reflexivity|]. split; [exact Y|reflexivity].
  - destruct (GetFluxAxis s) as [s1 q] eqn:E. pose proof (Grid_flux _ _ _ E G). destruct q; inversion H; subst; auto.
  - inversion H; subst; auto.
  - unfold SpcModel.GetContinuumFluxAxis in H. destruct (ensure_removed s) as [s1 q] eqn:E. pose proof (Grid_estimated _ _ _ E G). destruct q; inversion H; subst; auto.
  - unfold SpcModel.GetWithoutContinuumFluxAxis in H. destruct (ensure_removed s) as [s1 q] eqn:E. pose proof (Grid_estimated _ _ _ E G). destruct q; inversion H; subst; auto.
  - destruct (IsValid s) as [s1 q] eqn:E. pose proof (Grid_valid _ _ _ E G). destruct q; inversion H; subst; auto.
Qed.
Lemma run_Grid h : forall s s', safe_run step s h -> run s h = Some s' -> Grid s -> Grid s'.
Proof.
  induction h as [|o t IH]; intros s s' S H G; cbn [SpcModel.run safe_run] in *; [inversion H; subst; auto|].
  destruct S as (S1 & S2). destruct (step s o) as [s1 q] eqn:E. pose proof (step_Grid _ _ _ _ S1 E G) as G1.
  destruct q; [eapply IH; eauto | eapply IH; eauto | discriminate].
Qed.
(** what Rebin uses *)
Lemma Rebin_uses s lo hi s1 a g : Grid s \/ r_kind (s_rebin s) <> FineGrid -> Rebin s lo hi = (s1, Ok (ORebin a g)) ->
  a = s_axis s /\ s_axis s1 = s_axis s /\ s_raw s1 = s_raw s /\ s_type s1 = s_type s /\ exists f, GetFluxAxis s1 = (s1, Ok f) /\ g = f_s f.
Proof.
  intros C H. unfold SpcModel.Rebin in H. destruct (require_valid s) as [s' q] eqn:E.
  destruct (require_spec _ _ _ E) as ((D1 & D2 & D3 & D4 & D5 & D6 & D7) & _ & Y & _).
  destruct q as [[]|x|]; cbn [sbind] in H; try discriminate. specialize (Y eq_refl).
  destruct (s_axis s') as [|a0 t] eqn:Ax; [discriminate|]. destruct (_ || _)%bool; [discriminate|].
  rewrite (GetFlux_ready _ Y) in H. cbn [sbind] in H.
  assert (Z : forall r, exists f, GetFluxAxis (with_rebin s' r) = (with_rebin s' r, Ok f) /\ f_s (current s') = f_s f).
  { intro r. exists (current s'). split; [|reflexivity]. apply (GetFlux_ready (with_rebin s' r)). exact Y. }
  assert (Z0 : exists f, GetFluxAxis s' = (s', Ok f) /\ f_s (current s') = f_s f) by (exists (current s'); split; [apply GetFlux_ready; auto | reflexivity]).
  destruct C as [G|C].
  - pose proof (Grid_require _ _ _ E G) as (K1 & G1). rewrite K1 in H.
    destruct (r_grid (s_rebin s')) as [[u v]|] eqn:Rg.
    + inversion H; subst. destruct (G1 _ _ eq_refl) as (U & _ & ->). repeat split; auto; congruence.
    + inversion H; subst. cbn. repeat split; auto; congruence.
  - rewrite D7 in H. destruct (r_kind (s_rebin s)); try congruence; inversion H; subst; repeat split; auto; congruence.
Qed.
Lemma fine_grid a f s s0 h s' lo hi s1 b g : NewSpectrum remover a f = Ok s -> setRebinInterpMethod s "preComputedFineGrid" = (s0, Ok tt) ->
  safe_run step s0 h -> run s0 h = Some s' -> Rebin s' lo hi = (s1, Ok (ORebin b g)) ->
  b = s_axis s' /\ s_axis s1 = s_axis s' /\ s_raw s1 = s_raw s' /\ s_type s1 = s_type s' /\ exists f, GetFluxAxis s1 = (s1, Ok f) /\ g = f_s f.
Proof.
  intros N I S R H. apply New_spec in N. destruct N as (-> & _). cbn in I. inversion I; subst.
  eapply Rebin_uses; eauto. left. eapply run_Grid; eauto. apply Grid_none; reflexivity.
Qed.
End Histories.
End P.
