(** Single calls on a spectrum, and what goes wrong (C56). *)
From Coq Require Import String List ZArith QArith Lia Lqa Bool.
From Verif Require Import Base FluxModel SpcModel SpcSpec SpcProofs.
Import ListNotations.
Open Scope Q_scope.

Section F.
Context (remover : list Q -> flux -> Z -> bool -> removal)
        (corrector : list Q -> flux -> Q -> Q -> Q -> res (bool * flux)) (smoother : Z -> list Q -> list Q).

(** ** estimation *)
Lemma unknown_method s : s_removed s = false -> ~ In (s_method s) ["irregularSamplingMedian"; "raw"; "zero"; "manual"]%string ->
  GetContinuumFluxAxis remover s = (s, Throw INTERNAL_ERROR) /\ GetWithoutContinuumFluxAxis remover s = (s, Throw INTERNAL_ERROR).
Proof.
  intros F N. unfold GetContinuumFluxAxis, GetWithoutContinuumFluxAxis, ensure_removed. rewrite F. unfold EstimateContinuum, estimate_noc. simpl In in N.
  destruct (String.eqb_spec (s_method s) "irregularSamplingMedian"); [exfalso; apply N; auto|].
  destruct (String.eqb_spec (s_method s) "raw"); [exfalso; apply N; auto|].
  destruct (String.eqb_spec (s_method s) "zero"); [exfalso; apply N; auto|].
  destruct (String.eqb_spec (s_method s) "manual"); [exfalso; apply N; auto|]. auto.
Qed.
Lemma refused_remover s : s_removed s = false -> s_method s = "irregularSamplingMedian"%string -> f_s (s_raw s) <> [] ->
  remover (s_axis s) (s_raw s) (s_win s) (s_even s) = Refused ->
  snd (GetContinuumFluxAxis remover s) = Throw INTERNAL_ERROR /\ snd (GetWithoutContinuumFluxAxis remover s) = Throw INTERNAL_ERROR.
Proof.
  intros F M N R. unfold GetContinuumFluxAxis, GetWithoutContinuumFluxAxis, ensure_removed. rewrite F. unfold EstimateContinuum, estimate_noc. rewrite M.
  cbn [String.eqb Ascii.eqb Bool.eqb]. unfold RemoveContinuum. cbn. rewrite R. cbn. rewrite M. cbn.
  unfold flux_sub, Subtract. cbn. destruct (f_s (s_raw s)) as [|x t]; [congruence|]. cbn. auto.
Qed.
Lemma endless s : s_removed s = false -> s_method s = "irregularSamplingMedian"%string -> s_even s = false -> s_type s <> Raw ->
  (exists l, remover (s_axis s) (s_raw s) (s_win s) false = Wrote true l) -> snd (GetFluxAxis remover s) = UB.
Proof.
  intros F M Ev T (l & R). unfold GetFluxAxis, GetContinuumFluxAxis, GetWithoutContinuumFluxAxis, ensure_removed. rewrite F.
  unfold EstimateContinuum, estimate_noc. rewrite M. cbn [String.eqb Ascii.eqb Bool.eqb]. unfold RemoveContinuum. cbn. rewrite Ev, R. cbn [negb andb].
  destruct (s_type s); [congruence| |]; reflexivity.
Qed.
Lemma manual_used s c s' : SetManual s (Val c) = (s', Ok tt) -> length (f_s (s_raw s)) = length (s_axis s) ->
  exists s1, GetContinuumFluxAxis remover s' = (s1, Ok c) /\ s_raw s1 = s_raw s.
Proof.
  unfold SetManual. cbn. destruct (Nat.eqb_spec (length (f_s c)) (length (s_axis s))) as [E|E]; cbn [negb]; [|discriminate].
  intros H L. inversion H; subst. unfold GetContinuumFluxAxis, ensure_removed. cbn. unfold EstimateContinuum, estimate_noc. cbn.
  unfold flux_sub, Subtract. rewrite E, <- L, Nat.eqb_refl. cbn. eauto.
Qed.
Lemma SetManual_wrong s c : length (f_s c) <> length (s_axis s) -> f_s (s_raw s) <> [] ->
  exists s', SetManual s (Val c) = (s', Throw INTERNAL_ERROR) /\ s_method s' = "manual"%string /\
    snd (GetContinuumFluxAxis remover s') = Throw INTERNAL_ERROR /\ snd (GetWithoutContinuumFluxAxis remover s') = Throw INTERNAL_ERROR.
Proof.
  intros E N. unfold SetManual. cbn. destruct (Nat.eqb_spec (length (f_s c)) (length (s_axis s))); [congruence|]. cbn [negb].
  eexists. split; [reflexivity|]. split; [reflexivity|].
  unfold GetContinuumFluxAxis, GetWithoutContinuumFluxAxis, ensure_removed. cbn. unfold EstimateContinuum, estimate_noc. cbn.
  unfold flux_sub, Subtract. cbn. destruct (f_s (s_raw s)); [congruence|]. cbn. auto.
Qed.
Lemma manual_lost s f s' : s_method s = "manual"%string -> f_s f <> [] -> SetFluxAxis_ref s (Val f) = (s', Ok tt) ->
  snd (GetContinuumFluxAxis remover s') = Throw INTERNAL_ERROR.
Proof.
  intros M N. unfold SetFluxAxis_ref. cbn [farg_get]. destruct (negb _); [discriminate|]. cbv zeta.
  destruct (forget_data s) as (_ & _ & _ & M' & F' & C' & _). rewrite M in M'. revert M' F' C'. generalize (forget s). intros s0 M' F' C' H. inversion H; subst. clear H.
  unfold GetContinuumFluxAxis, ensure_removed. cbn. rewrite F'. unfold EstimateContinuum, estimate_noc. cbn. rewrite M'. cbn. rewrite C'.
  unfold flux_sub, Subtract. cbn. destruct (f_s f); [congruence|]. reflexivity.
Qed.

(** ** stale components *)
Lemma stale_wavelengths s a : s_removed s = true -> length a = length (f_s (current s)) ->
  exists s', SetSpectralAxis remover s a = (s', Ok tt) /\ s_axis s' = a /\ GetContinuumFluxAxis remover s' = (s', Ok (s_cont s)) /\
    GetWithoutContinuumFluxAxis remover s' = (s', Ok (s_noc s)).
Proof.
  intros R L. unfold SetSpectralAxis. rewrite (GetFlux_ready remover s) by (right; auto). cbn [sbind].
  destruct (Nat.eqb_spec (length a) (length (f_s (current s)))); [|congruence]. cbn [negb]. eexists. split; [reflexivity|]. split; [reflexivity|].
  unfold GetContinuumFluxAxis, GetWithoutContinuumFluxAxis, ensure_removed. cbn. rewrite R. auto.
Qed.
Lemma stale_errors s e : s_removed s = true -> s_type s = Raw -> length e = length (f_e (s_raw s)) ->
  exists s', SetErrorAxis remover s e = (s', Ok tt) /\ f_e (s_raw s') = e /\ GetContinuumFluxAxis remover s' = (s', Ok (s_cont s)) /\
    GetWithoutContinuumFluxAxis remover s' = (s', Ok (s_noc s)).
Proof.
  intros R T L. unfold SetErrorAxis. rewrite (GetFlux_ready remover s) by (right; auto). unfold current. rewrite T. cbn [sbind].
  unfold setError. rewrite L, Nat.eqb_refl. unfold set_current. rewrite T. eexists. split; [reflexivity|]. split; [reflexivity|].
  unfold GetContinuumFluxAxis, GetWithoutContinuumFluxAxis, ensure_removed. cbn. rewrite R. auto.
Qed.
(** ** aliasing *)
Lemma alias_flux s : s_removed s = true -> decomposed (s_raw s) (s_cont s) (s_noc s) -> length (f_s (s_raw s)) = length (s_axis s) ->
  forall a, a = OwnContinuum \/ a = OwnNoContinuum -> exists s', SetFluxAxis_ref s a = (s', Ok tt) /\ f_s (s_raw s') = [] /\ s_axis s' = s_axis s.
Proof.
  intros R (L1 & L2 & _) L a A. unfold SetFluxAxis_ref. destruct (forget_data s) as (Ax & _ & _ & _ & _ & C & N & _).
  assert (E : length (f_s (farg_get s a)) = length (s_axis s)) by (destruct A; subst a; cbn [farg_get]; congruence).
  rewrite E, Nat.eqb_refl. cbn [negb]. cbv zeta. revert Ax C N. generalize (forget s). intros s0 Ax C N. eexists. split; [reflexivity|].
  split; [|exact Ax]. destruct A; subst a; cbn; [rewrite C | rewrite N]; reflexivity.
Qed.
Lemma alias_manual s a : s_axis s <> [] -> a = OwnContinuum \/ a = OwnNoContinuum -> snd (SetManual s a) = Throw INTERNAL_ERROR.
Proof.
  intros N [-> | ->]; unfold SetManual; cbn; destruct (s_axis s); [congruence| reflexivity |congruence|reflexivity].
Qed.
(** ** scaling *)
Lemma amplitude_estimated s k s1 n : s_removed s = true -> GetWithoutContinuumFluxAxis remover (ApplyAmplitude s k) = (s1, Ok n) ->
  n = flux_scale k (s_noc s) /\ s_cont s1 = flux_scale k (s_cont s) /\ s_raw s1 = flux_scale k (s_raw s).
Proof.
  intros R. unfold GetWithoutContinuumFluxAxis, ensure_removed, ApplyAmplitude. cbn. rewrite R. cbn. rewrite R. cbn. intro H. inversion H; subst. auto.
Qed.
Lemma manual_get s : s_removed s = false -> s_method s = "manual"%string -> length (f_s (s_cont s)) = length (f_s (s_raw s)) ->
  exists s1, GetContinuumFluxAxis remover s = (s1, Ok (s_cont s)).
Proof.
  intros F M L. unfold GetContinuumFluxAxis, ensure_removed. rewrite F. unfold EstimateContinuum, estimate_noc. rewrite M.
  cbn [String.eqb Ascii.eqb Bool.eqb]. unfold flux_sub, Subtract. rewrite L, Nat.eqb_refl. cbn. rewrite M. cbn. eauto.
Qed.
Lemma amplitude_pending s k : s_removed s = false -> s_removed (ApplyAmplitude s k) = false /\ s_method (ApplyAmplitude s k) = s_method s /\
  s_cont (ApplyAmplitude s k) = s_cont s /\ s_raw (ApplyAmplitude s k) = flux_scale k (s_raw s).
Proof. intros F. unfold ApplyAmplitude. cbn. rewrite F. cbn. auto. Qed.
Lemma amplitude_pending_manual s c k s0 : SetManual s (Val c) = (s0, Ok tt) -> length (f_s (s_raw s)) = length (s_axis s) ->
  exists s1, GetContinuumFluxAxis remover (ApplyAmplitude s0 k) = (s1, Ok c).
Proof.
  intros H L. assert (X : s_removed s0 = false /\ s_method s0 = "manual"%string /\ s_cont s0 = c /\ s_raw s0 = s_raw s /\ length (f_s c) = length (s_axis s)).
  { revert H. unfold SetManual. cbn. destruct (Nat.eqb_spec (length (f_s c)) (length (s_axis s))) as [E|E]; cbn [negb]; [|discriminate].
    intro H. inversion H; subst. repeat split; auto. }
  clear H. destruct X as (F & M & C & R & E). destruct (amplitude_pending s0 k F) as (F1 & M1 & C1 & R1). rewrite <- C, <- C1. apply manual_get; auto.
  - congruence.
  - rewrite C1, R1, C, R. cbn. rewrite map_length. congruence.
Qed.
(** ** correctSpectrum on a component *)
Lemma correction_dropped s lo hi k s' : s_type s <> Raw -> correctSpectrum remover corrector s lo hi k = (s', Ok true) ->
  s_raw s' = s_raw s /\ s_removed s' = false /\ f_s (s_cont s') = [] /\ f_s (s_noc s') = [].
Proof.
  intros T. unfold correctSpectrum. destruct (require_valid remover s) as [s1 q] eqn:E.
  destruct (require_spec _ _ _ _ E) as ((_ & D2 & D3 & _) & _ & Y & _).
  destruct q as [[]|x|]; cbn [sbind]; try discriminate. specialize (Y eq_refl). rewrite (GetFlux_ready remover _ Y). cbn [sbind].
  destruct (corrector _ _ _ _ _) as [[c f']|x|]; try discriminate. destruct c; [|discriminate]. intro H. inversion H; subst. cbn.
  repeat split; auto. unfold set_current. destruct (s_type s1); [congruence| |]; cbn; auto.
Qed.
Lemma correction_kept s lo hi k s' : s_type s = Raw -> correctSpectrum remover corrector s lo hi k = (s', Ok true) ->
  exists f, corrector (s_axis s) (s_raw s) lo hi k = Ok (true, f) /\ s_raw s' = f /\ s_removed s' = false.
Proof.
  intros T. unfold correctSpectrum. destruct (require_valid remover s) as [s1 q] eqn:E.
  destruct (require_spec _ _ _ _ E) as (_ & D & Y & _). rewrite D in * by (left; auto).
  destruct q as [[]|x|]; cbn [sbind]; try discriminate. specialize (Y eq_refl). rewrite (GetFlux_ready remover _ Y). cbn [sbind].
  unfold current, set_current. rewrite T.
  destruct (corrector _ _ _ _ _) as [[c f']|x|]; try discriminate. destruct c; [|discriminate]. intro H. inversion H; subst. cbn. eauto.
Qed.
(** ** the fine grid *)
Lemma Rebin_grid s lo hi s1 a g : r_kind (s_rebin s) = FineGrid -> Rebin remover s lo hi = (s1, Ok (ORebin a g)) -> grid_of s1 g.
Proof.
  unfold Rebin. intros K. destruct (require_valid remover s) as [s' q] eqn:E.
  destruct (require_spec _ _ _ _ E) as ((_ & _ & _ & _ & _ & _ & D7) & _ & Y & _).
  destruct q as [[]|x|]; cbn [sbind]; try discriminate. specialize (Y eq_refl). rewrite (GetFlux_ready remover _ Y). cbn [sbind].
  destruct (s_axis s') as [|a0 t]; [discriminate|]. destruct (_ || _)%bool; [discriminate|].
  rewrite D7, K. destruct (r_grid (s_rebin s)) as [[u v]|] eqn:R; intro H; inversion H; subst.
  - split; [congruence|]. exists u. congruence.
  - split; [reflexivity|]. eexists. reflexivity.
Qed.
Lemma grid_reused s g lo hi a0 t : grid_of s g -> s_type s = Raw -> length (f_s (s_raw s)) = length (s_axis s) -> s_axis s = a0 :: t -> sorted_axis (s_axis s) = true ->
  a0 <= lo -> hi <= last (s_axis s) a0 -> Rebin remover s lo hi = (s, Ok (ORebin (s_axis s) g)).
Proof.
  intros (K & (u & G)) T L A So B1 B2. unfold Rebin, require_valid, IsValid. rewrite (GetFlux_ready remover s) by (left; auto). cbn [sbind].
  unfold current. rewrite T, L, Nat.eqb_refl, So. cbn [negb]. rewrite A in *. cbn [length Nat.eqb negb andb sbind].
  rewrite A. cbv iota beta.
  assert (C1 : Qltb lo a0 = false) by (apply Qltb_false; auto). assert (C2 : Qltb (last (a0 :: t) a0) hi = false) by (apply Qltb_false; auto).
  rewrite C1, C2. cbn [orb]. rewrite K, G. reflexivity.
Qed.
Lemma invert_grid s g : grid_of s g -> grid_of (InvertFlux s) g.
Proof. unfold grid_of, InvertFlux. cbn. destruct (s_removed s); cbn; auto. Qed.
Lemma axis_grid s g a s' : grid_of s g -> s_type s = Raw -> SetSpectralAxis remover s a = (s', Ok tt) -> grid_of s' g.
Proof.
  unfold grid_of, SetSpectralAxis. intros G T. rewrite (GetFlux_ready remover s) by (left; auto). cbn [sbind].
  destruct (negb _); [discriminate|]. intro H. inversion H; subst. exact G.
Qed.
Lemma convert_grid s g s1 s2 s3 f : grid_of s g -> setRebinInterpMethod s "lin" = (s1, Ok tt) -> SetFluxAxis_move s1 f = (s2, Ok tt) ->
  setRebinInterpMethod s2 "preComputedFineGrid" = (s3, Ok tt) -> grid_of s3 g /\ s_raw s3 = f /\ s_type s3 = Raw /\ s_axis s3 = s_axis s.
Proof.
  intros (K & u & G) H1 H2 H3. cbn in H1. inversion H1; subst. clear H1. pose (s1 := with_rebin s (mkRebin Lin (r_grid (s_rebin s)))).
  change (SetFluxAxis_move s1 f = (s2, Ok tt)) in H2. assert (R1 : s_rebin s1 = mkRebin Lin (Some (u, g))) by (cbn; rewrite G; reflexivity).
  assert (A1 : s_axis s1 = s_axis s) by reflexivity. clearbody s1. unfold SetFluxAxis_move in H2. destruct (_ || _)%bool; [discriminate|].
  destruct (forget_data s1) as (Ax & _ & Ty & _ & _ & _ & _ & Rb & _). revert Ax Ty Rb H2. generalize (forget s1). intros s0 Ax Ty Rb H2. inversion H2; subst. clear H2.
  cbn in H3. inversion H3; subst. clear H3. unfold grid_of. cbn. rewrite Rb, R1. cbn. repeat split; auto; [exists u; reflexivity | congruence].
Qed.

(** ** copies *)
Lemma GetCont_rebin s r : GetContinuumFluxAxis remover (with_rebin s r) =
  (let '(s', q) := GetContinuumFluxAxis remover s in (with_rebin s' r, q)).
Proof.
  unfold GetContinuumFluxAxis, ensure_removed. cbn. destruct (s_removed s); [reflexivity|]. unfold EstimateContinuum, estimate_noc. cbn.
  destruct (String.eqb _ "irregularSamplingMedian").
  { unfold RemoveContinuum. cbn. destruct (remover _ _ _ _); [|destruct (_ && _)%bool]; cbn; try reflexivity;
    (destruct (String.eqb _ "manual"); [reflexivity|]; destruct (flux_sub _ _); reflexivity). }
  destruct (String.eqb _ "raw"); [cbn; (destruct (String.eqb _ "manual"); [reflexivity|]; destruct (flux_sub _ _); reflexivity)|].
  destruct (String.eqb _ "zero"); [cbn; (destruct (String.eqb _ "manual"); [reflexivity|]; destruct (flux_sub _ _); reflexivity)|].
  destruct (String.eqb (s_method s) "manual") eqn:M; [|reflexivity]. destruct (flux_sub _ _); cbn; try rewrite M; reflexivity.
Qed.
Lemma GetNoc_rebin s r : GetWithoutContinuumFluxAxis remover (with_rebin s r) =
  (let '(s', q) := GetWithoutContinuumFluxAxis remover s in (with_rebin s' r, q)).
Proof.
  unfold GetWithoutContinuumFluxAxis, ensure_removed. cbn. destruct (s_removed s); [reflexivity|]. unfold EstimateContinuum, estimate_noc. cbn.
  destruct (String.eqb _ "irregularSamplingMedian").
  { unfold RemoveContinuum. cbn. destruct (remover _ _ _ _); [|destruct (_ && _)%bool]; cbn; try reflexivity;
    (destruct (String.eqb _ "manual"); [reflexivity|]; destruct (flux_sub _ _); reflexivity). }
  destruct (String.eqb _ "raw"); [cbn; (destruct (String.eqb _ "manual"); [reflexivity|]; destruct (flux_sub _ _); reflexivity)|].
  destruct (String.eqb _ "zero"); [cbn; (destruct (String.eqb _ "manual"); [reflexivity|]; destruct (flux_sub _ _); reflexivity)|].
  destruct (String.eqb (s_method s) "manual") eqn:M; [|reflexivity]. destruct (flux_sub _ _); cbn; try rewrite M; reflexivity.
Qed.
Lemma GetFlux_rebin s r : GetFluxAxis remover (with_rebin s r) = (let '(s', q) := GetFluxAxis remover s in (with_rebin s' r, q)).
Proof. unfold GetFluxAxis. cbn [s_type with_rebin]. destruct (s_type s); [reflexivity | apply GetCont_rebin | apply GetNoc_rebin]. Qed.
Lemma IsValid_rebin s r : IsValid remover (with_rebin s r) = (let '(s', q) := IsValid remover s in (with_rebin s' r, q)).
Proof.
  unfold IsValid. rewrite GetFlux_rebin. destruct (GetFluxAxis remover s) as [s' [f|e|]]; cbn; [|reflexivity|reflexivity]. destruct (negb _); reflexivity.
Qed.
(** the getters of a spectrum whose components have just been estimated give them again *)
Lemma get_after_ensure s s' q : ensure_removed remover s = (s', q) -> q = Ok tt ->
  GetContinuumFluxAxis remover s = (s', Ok (s_cont s')) /\ GetWithoutContinuumFluxAxis remover s = (s', Ok (s_noc s')) /\
  GetContinuumFluxAxis remover s' = (s', Ok (s_cont s')) /\ GetWithoutContinuumFluxAxis remover s' = (s', Ok (s_noc s')).
Proof.
  intros E ->. pose proof (ensure_spec _ _ _ _ E) as (_ & _ & _ & _ & T). specialize (T eq_refl).
  assert (E' : ensure_removed remover s' = (s', Ok tt)) by (unfold ensure_removed; rewrite T; reflexivity).
  unfold GetContinuumFluxAxis, GetWithoutContinuumFluxAxis. rewrite E, E'. auto.
Qed.
Lemma copy_spec o : match IsValid remover o with
  | (o', Ok true) => exists c, Copy remover o = Ok c /\ c = with_rebin o' (mkRebin (r_kind (s_rebin o)) None) /\ same_data o o'
  | (_, Ok false) => Copy remover o = Throw INVALID_SPECTRUM
  | (_, Throw e) => Copy remover o = Throw e
  | (_, UB) => Copy remover o = UB end.
Proof.
  unfold Copy, require_valid. rewrite IsValid_rebin. destruct (IsValid remover o) as [o' [[]|e|]] eqn:E; cbn [sbind]; try reflexivity.
  eexists. split; [reflexivity|]. split; [reflexivity|]. apply (IsValid_spec _ _ _ _ E).
Qed.
(** the copy gives the components that the original gives *)
Lemma copy_getters o c : Copy remover o = Ok c ->
  snd (GetFluxAxis remover c) = snd (GetFluxAxis remover o) /\ snd (GetContinuumFluxAxis remover c) = snd (GetContinuumFluxAxis remover o) /\
  snd (GetWithoutContinuumFluxAxis remover c) = snd (GetWithoutContinuumFluxAxis remover o) /\
  s_axis c = s_axis o /\ s_raw c = s_raw o /\ s_type c = s_type o /\ s_method c = s_method o /\ s_win c = s_win o /\ s_even c = s_even o /\
  r_kind (s_rebin c) = r_kind (s_rebin o) /\ r_grid (s_rebin c) = None.
Proof.
  intro H. pose proof (copy_spec o) as K. destruct (IsValid remover o) as [o' [[]|e|]] eqn:E; try congruence.
  destruct K as (c' & K & -> & (D1 & D2 & D3 & D4 & D5 & D6 & D7)). rewrite K in H. inversion H; subst c. clear H K. cbn [s_axis s_raw s_type s_method s_win s_even s_rebin with_rebin r_kind r_grid].
  rewrite GetFlux_rebin, GetCont_rebin, GetNoc_rebin.
  assert (X : snd (GetFluxAxis remover o') = snd (GetFluxAxis remover o) /\ snd (GetContinuumFluxAxis remover o') = snd (GetContinuumFluxAxis remover o) /\
              snd (GetWithoutContinuumFluxAxis remover o') = snd (GetWithoutContinuumFluxAxis remover o)).
  { unfold IsValid in E. destruct (GetFluxAxis remover o) as [o1 q] eqn:G.
    destruct q as [f|e|]; cbn [sbind] in E; try discriminate.
    assert (o' = o1) by (destruct (negb _) in E; inversion E; auto). subst o1. clear E.
    destruct (GetFlux_spec _ _ _ _ G) as (_ & _ & Y & [->|(q & En)]).
    - rewrite G. auto.
    - destruct (Y f eq_refl) as (R & ->). rewrite (GetFlux_ready remover o' R).
      destruct (GetFlux_ensure _ _ _ _ G) as [(T & -> & _)|(T & q' & En' & Hq)]; [auto|].
      destruct q' as [[]|e|]; try discriminate. destruct (get_after_ensure _ _ _ En' eq_refl) as (A & B & C & D). rewrite A, B, C, D. auto. }
  destruct X as (X1 & X2 & X3).
  destruct (GetFluxAxis remover o'), (GetContinuumFluxAxis remover o'), (GetWithoutContinuumFluxAxis remover o'). cbn in *.
  repeat split; auto.
Qed.
(** ** masked copies *)
Lemma keep_nth {A B C} (mask : list bool) (u : list A) (v : list B) (w : list C) (P : A -> B -> C -> Prop) :
  length v = length u -> length w = length u ->
  (forall i x y z, nth_error u i = Some x -> nth_error v i = Some y -> nth_error w i = Some z -> P x y z) ->
  length (keep mask v) = length (keep mask u) /\ length (keep mask w) = length (keep mask u) /\
  (forall i x y z, nth_error (keep mask u) i = Some x -> nth_error (keep mask v) i = Some y -> nth_error (keep mask w) i = Some z -> P x y z).
Proof.
  revert u v w. induction mask as [|b m IH]; intros [|x u] [|y v] [|z w] L1 L2 H; cbn in L1, L2; try discriminate;
    try (unfold keep; cbn; repeat split; auto; intros [|?] ? ? ? K; discriminate K).
  destruct (IH u v w) as (A1 & A2 & A3); try lia. { intros i. apply (H (Datatypes.S i)). }
  unfold keep in *. destruct b; cbn.
  - repeat split; try lia. intros [|i] x' y' z' Hx Hy Hz; cbn in *; [inversion Hx; inversion Hy; inversion Hz; subst; apply (H O); reflexivity | eapply A3; eauto].
  - auto.
Qed.
Lemma mask_flux_ok mask f g : mask_flux mask f = Ok g -> f_s g = keep mask (f_s f) /\ length mask = length (f_s f).
Proof.
  unfold mask_flux. destruct (Nat.eqb_spec (length mask) (length (f_s f))) as [E|E]; cbn [negb]; [|discriminate].
  destruct (f_e f); [|destruct (negb _)]; intro H; inversion H; subst; auto.
Qed.
Lemma masked_parts o mask c : MaskedCopy o mask = Ok c -> (s_removed o = true -> decomposed (s_raw o) (s_cont o) (s_noc o)) ->
  f_s (s_raw c) = keep mask (f_s (s_raw o)) /\ s_axis c = keep mask (s_axis o) /\ s_removed c = s_removed o /\ s_method c = s_method o /\ s_type c = s_type o /\
  (s_removed o = true -> f_s (s_cont c) = keep mask (f_s (s_cont o)) /\ f_s (s_noc c) = keep mask (f_s (s_noc o)) /\ decomposed (s_raw c) (s_cont c) (s_noc c)).
Proof.
  unfold MaskedCopy. destruct (negb _); [discriminate|]. destruct (mask_flux mask (s_raw o)) as [raw| |] eqn:Er; cbn [rbind]; try discriminate.
  intros H D. destruct (mask_flux_ok _ _ _ Er) as (Er' & _).
  destruct (s_removed o) eqn:R.
  - destruct (mask_flux mask (s_cont o)) as [c1| |] eqn:E1; cbn [rbind] in H; try discriminate.
    destruct (mask_flux mask (s_noc o)) as [n1| |] eqn:E2; cbn [rbind] in H; try discriminate.
    destruct (mask_flux_ok _ _ _ E1) as (E1' & _), (mask_flux_ok _ _ _ E2) as (E2' & _).
    inversion H; subst. cbn. repeat split; auto.
    all: destruct (D eq_refl) as (L1 & L2 & V); destruct (keep_nth mask (f_s (s_raw o)) (f_s (s_cont o)) (f_s (s_noc o)) (fun x y z => x == y + z) L1 L2 V) as (K1 & K2 & K3);
      rewrite Er', ?E1', ?E2'; auto.
  - inversion H; subst. cbn. repeat split; auto; discriminate.
Qed.
Lemma masked_manual_lost s f s0 mask c : SetManual s (Val f) = (s0, Ok tt) -> MaskedCopy s0 mask = Ok c -> s_axis c <> [] ->
  length (f_s (s_raw c)) = length (s_axis c) -> snd (GetContinuumFluxAxis remover c) = Throw INTERNAL_ERROR.
Proof.
  unfold SetManual. cbn. destruct (negb _); [discriminate|]. intro H. inversion H; subst. clear H.
  unfold MaskedCopy. cbn [s_axis s_raw s_removed s_cont s_noc with_cont ResetContinuum with_method with_removed with_noc]. destruct (negb _); [discriminate|].
  destruct (mask_flux mask (s_raw s)) as [raw| |]; cbn [rbind]; try discriminate. intro H. inversion H; subst. clear H. cbn.
  intros N L. unfold GetContinuumFluxAxis, ensure_removed, EstimateContinuum, estimate_noc. cbn. unfold flux_sub, Subtract. cbn.
  destruct (f_s raw); [cbn in L; destruct (keep mask (s_axis s)); [congruence|discriminate]|]. reflexivity.
Qed.
(** the errors of the components are those of the raw flux *)
Lemma component_errors s s1 c s2 n : s_removed s = false -> s_method s = "irregularSamplingMedian"%string -> f_s (s_raw s) <> [] -> f_s (s_noc s) = [] ->
  GetContinuumFluxAxis remover s = (s1, Ok c) -> GetWithoutContinuumFluxAxis remover s1 = (s2, Ok n) -> f_e c = f_e (s_raw s) /\ f_e n = f_e (s_raw s).
Proof.
  intros R M Nr Nn. unfold GetContinuumFluxAxis, GetWithoutContinuumFluxAxis, ensure_removed. rewrite R. unfold EstimateContinuum, estimate_noc. rewrite M. cbn [String.eqb Ascii.eqb Bool.eqb].
  unfold RemoveContinuum. cbn. destruct (remover _ _ _ _) as [|b l]; [|destruct (_ && _)%bool]; cbn; try discriminate; rewrite ?M; cbn [String.eqb Ascii.eqb Bool.eqb].
  - unfold flux_sub, Subtract. cbn. destruct (f_s (s_raw s)); [congruence|discriminate].
  - unfold flux_sub. cbn. destruct (Subtract _ _) as [d| |]; cbn; try discriminate. intro H. inversion H; subst. cbn. intro H2. inversion H2; subst. cbn. auto.
Qed.
(** the samples from i to j *)
Lemma extracted o i j c : Extract remover o i j = Ok c -> (i <= j)%nat -> (j < length (s_axis o))%nat -> length (f_s (s_raw o)) = length (s_axis o) -> length (f_e (s_raw o)) = length (s_axis o) ->
  length (s_axis c) = (j - i + 1)%nat /\ length (f_s (s_raw c)) = (j - i + 1)%nat /\ length (f_e (s_raw c)) = (j - i + 1)%nat /\
  (forall k, (k <= j - i)%nat -> nth_error (s_axis c) k = nth_error (s_axis o) (i + k) /\ nth_error (f_s (s_raw c)) k = nth_error (f_s (s_raw o)) (i + k) /\ nth_error (f_e (s_raw c)) k = nth_error (f_e (s_raw o)) (i + k)) /\
  s_type c = Raw /\ s_removed c = false /\ s_method c = s_method o /\ s_win c = s_win o /\ s_even c = s_even o.
Proof.
  unfold Extract. cbv zeta. destruct (NewSpectrum _ _ _) as [s| |] eqn:N; try discriminate. cbn [rbind]. intros H Lij Lj L1 L2. inversion H; subst c. apply New_spec in N. destruct N as (-> & _). cbn.
  assert (Lc : forall (l : list Q), length l = length (s_axis o) -> length (firstn (S j - i) (skipn i l)) = (j - i + 1)%nat) by (intros l Hl; rewrite firstn_length, skipn_length; lia).
  assert (Nc : forall (l : list Q) k, (k <= j - i)%nat -> nth_error (firstn (S j - i) (skipn i l)) k = nth_error l (i + k)).
  { intros l k Hk. assert (X : forall n (l : list Q) k, (k < n)%nat -> nth_error (firstn n l) k = nth_error l k). { induction n as [|n IH]; intros [|a t] [|q] Hq; cbn; try lia; auto. apply IH. lia. }
    rewrite X by lia. clear. revert l. induction i as [|i IH]; intros [|a t]; cbn; auto. destruct k; reflexivity. }
  repeat split; auto.
Qed.
End F.
