From Verif Require Import Base F64 RangeModel RangeSpec AxisModel AxisSpec AxisProofs FluxModel FluxSpec FluxProofs SpcModel ValModel ValSpec.
Open Scope Q_scope.

Lemma sorted_axis_spec l : sorted_axis l = true <-> strictly_increasing l.
Proof.
  split.
  - induction l as [|x [|y t] IH]; intro H; intros i j a b Hij Ha Hb.
    + destruct i; discriminate. + destruct j as [|j]; [lia|destruct j; discriminate].
    + cbn [sorted_axis] in H. apply andb_true_iff in H. destruct H as [H1 H2]. specialize (IH H2). destruct (Qltb_spec x y) as [L|]; [|discriminate].
      destruct j as [|j]; [lia|]. cbn in Hb. destruct i as [|i].
      * cbn in Ha. injection Ha as <-. destruct j as [|j]; [cbn in Hb; injection Hb as <-; auto|]. assert (y < b) by (apply (IH 0%nat (S j)); auto; lia). lra.
      * apply (IH i j); auto; lia.
  - induction l as [|x [|y t] IH]; intro H; auto. cbn [sorted_axis]. apply andb_true_iff. split.
    + destruct (Qltb_spec x y); [reflexivity|]. exfalso. apply n. apply (H 0%nat 1%nat); auto.
    + apply IH. intros i j a b Hij Ha Hb. apply (H (S i) (S j)); auto; lia.
Qed.
Lemma ValidAxes_spec s : ValidAxes s = true <-> length (v_flux s) = length (v_axis s) /\ v_axis s <> [] /\ strictly_increasing (v_axis s).
Proof.
  unfold ValidAxes. rewrite !andb_true_iff, negb_true_iff, orb_false_iff, Nat.eqb_eq, !Nat.eqb_neq, sorted_axis_spec. split.
  - intros [[A [B C]] D]. split; [auto|]. split; [|auto]. intro X. rewrite X in B. apply B. reflexivity.
  - intros (A & B & C). repeat split; auto; try rewrite A; intro X; apply B; destruct (v_axis s); auto; discriminate.
Qed.
Lemma well_valid s : well_formed s -> ValidAxes s = true.
Proof. intros (A & B & C & D). apply ValidAxes_spec. repeat split; auto. intro X. rewrite X in A. cbn in A. lia. Qed.
Lemma Clamp_common s r lo hi : well_formed s -> common s r lo hi -> rbeg r < rend r -> lo < hi -> ClampLambdaRange (v_axis s) r = Ok (mkRange lo hi).
Proof.
  intros (A & B & C & D) (f & b & Hf & Hb & -> & ->) R L. unfold ClampLambdaRange, GetLambdaRange. destruct (Nat.ltb_spec (length (v_axis s)) 2); [lia|].
  unfold front, vget. rewrite Hf. cbn [rbind]. destruct (back_last (v_axis s)) as (b' & Eb & Hb'); [lia|]. rewrite Hb in Hb'. injection Hb' as <-. rewrite Eb. cbn [rbind].
  assert (f < b) by (apply (B 0%nat (length (v_axis s) - 1)%nat); auto; lia). unfold GetIsEmpty. cbn [rbeg rend]. destruct (Qeq_bool_spec (rbeg r) (rend r)); [lra|]. destruct (Qeq_bool_spec f b); [lra|].
  unfold Qmaxb, Qminb in L |- *. destruct (Qle_bool_spec ((if Qltb b (rend r) then b else rend r) - (if Qltb (rbeg r) f then f else rbeg r)) 0); [lra|reflexivity].
Qed.
Lemma zone_of s r lo hi : well_formed s -> common s r lo hi -> lo < hi -> exists i j, GetIndexAtWaveLength (v_axis s) lo = Ok i /\ GetIndexAtWaveLength (v_axis s) hi = Ok j /\ (i <= j < length (v_axis s))%nat /\
  forall k, (i <= k < j)%nat <-> sample_in s lo hi k.
Proof.
  intros (A & B & C & D) (f & b & Hf & Hb & El & Eh) L.
  destruct (GetIndexAtWaveLength_ok (v_axis s) lo B ltac:(lia)) as (i & Ei & Li & I1 & I2 & I3).
  destruct (GetIndexAtWaveLength_ok (v_axis s) hi B ltac:(lia)) as (j & Ej & Lj & J1 & J2 & J3).
  assert (hi <= b) as Hhb by (rewrite Eh; unfold Qminb; destruct (Qltb_spec b (rend r)); lra).
  assert (forall k x, (i <= k)%nat -> nth_error (v_axis s) k = Some x -> lo <= x) as I4.
  { intros k x Hk Hx. destruct (Nat.eq_dec i (length (v_axis s) - 1)) as [E|E].
    - assert (k < length (v_axis s))%nat by (apply nth_error_Some; congruence). assert (k = length (v_axis s) - 1)%nat as -> by lia. rewrite Hb in Hx. injection Hx as <-. lra.
    - apply (I2 k x); auto. lia. }
  assert (forall k x, (j <= k)%nat -> nth_error (v_axis s) k = Some x -> hi <= x) as J4.
  { intros k x Hk Hx. destruct (Nat.eq_dec j (length (v_axis s) - 1)) as [E|E].
    - assert (k < length (v_axis s))%nat by (apply nth_error_Some; congruence). assert (k = length (v_axis s) - 1)%nat as -> by lia. rewrite Hb in Hx. injection Hx as <-. lra.
    - apply (J2 k x); auto. lia. }
  exists i, j. split; [auto|]. split; [auto|].
  assert (i <= j)%nat as IJ. { destruct (le_lt_dec i j); [auto|]. destruct (nth_error_lt (v_axis s) j Lj) as [x Hx]. pose proof (I1 j x ltac:(lia) Hx). pose proof (J4 j x ltac:(lia) Hx). lra. }
  split; [lia|]. intro k. split.
  - intro H. destruct (nth_error_lt (v_axis s) k ltac:(lia)) as [x Hx]. exists x. split; [auto|]. split; [apply (I4 k x); auto; lia|apply (J1 k x); auto; lia].
  - intros (x & Hx & Hlo & Hhi). split.
    + destruct (le_lt_dec i k); [auto|]. pose proof (I1 k x ltac:(lia) Hx). lra.
    + destruct (le_lt_dec j k); [|auto]. pose proof (J4 k x ltac:(lia) Hx). lra.
Qed.
Lemma flux_loop_ok fl n : forall i st, (i + n <= length fl)%nat -> exists c z, flux_loop fl i n st = Ok (c, z) /\
  (c = O <-> fst st = O /\ forall k x, (i <= k < i + n)%nat -> nth_error fl k = Some x -> valid_flux x) /\
  (z = true <-> snd st = true /\ forall k x, (i <= k < i + n)%nat -> nth_error fl k = Some x -> nonzero x = false).
Proof.
  induction n as [|n IH]; intros i st H.
  - exists (fst st), (snd st). split; [destruct st; reflexivity|]. split; (split; [intro X; split; [auto|intros; lia]|intros [X _]; auto]).
  - cbn [flux_loop]. destruct (nth_error_lt fl i ltac:(lia)) as [x Hx]. unfold vget, checkFlux. rewrite nth_error_map, Hx. cbn [option_map rbind].
    match goal with |- context [flux_loop _ _ _ ?st] => destruct (IH (S i) st ltac:(lia)) as (c & z & E & Hc & Hz) end. unfold vget, checkFlux in E. rewrite E. exists c, z. split; [reflexivity|]. cbn [fst snd] in *. split.
    + rewrite Hc. pose proof (flux_valid_iff x) as V. destruct (flux_valid x) eqn:F.
      * split; intros [P Q]; (split; [auto|]); intros k y Hk Hy.
        -- destruct (Nat.eq_dec k i) as [->|]; [rewrite Hx in Hy; injection Hy as <-; apply V; auto|apply (Q k); auto; lia].
        -- apply (Q k); auto; lia.
      * split; [intros [P _]; discriminate|]. intros [P Q]. exfalso. assert (false = true) by (apply V; apply (Q i); auto; lia). discriminate.
    + rewrite Hz. destruct (nonzero x) eqn:F.
      * split; [intros [P _]; discriminate|]. intros [P Q]. exfalso. rewrite (Q i x) in F; [discriminate|lia|auto].
      * split; intros [P Q]; (split; [auto|]); intros k y Hk Hy.
        -- destruct (Nat.eq_dec k i) as [->|]; [rewrite Hx in Hy; injection Hy as <-; auto|apply (Q k); auto; lia].
        -- apply (Q k); auto; lia.
Qed.
Lemma noise_loop_ok no n : forall i c0, (i + n <= length no)%nat -> exists c, noise_loop no i n c0 = Ok c /\ (c = O <-> c0 = O /\ forall k x, (i <= k < i + n)%nat -> nth_error no k = Some x -> valid_noise x).
Proof.
  induction n as [|n IH]; intros i c0 H.
  - exists c0. split; [reflexivity|]. split; [intro X; split; [auto|intros; lia]|intros [X _]; auto].
  - cbn [noise_loop]. destruct (nth_error_lt no i ltac:(lia)) as [x Hx]. unfold vget, checkNoise. rewrite nth_error_map, Hx. cbn [option_map rbind].
    match goal with |- context [noise_loop _ _ _ ?c0] => destruct (IH (S i) c0 ltac:(lia)) as (c & E & Hc) end. unfold vget, checkNoise in E. rewrite E. exists c. split; [reflexivity|].
    rewrite Hc. pose proof (noise_valid_iff x) as V. destruct (noise_valid x) eqn:F.
    + split; intros [P Q]; (split; [auto|]); intros k y Hk Hy.
      * destruct (Nat.eq_dec k i) as [->|]; [rewrite Hx in Hy; injection Hy as <-; apply V; auto|apply (Q k); auto; lia].
      * apply (Q k); auto; lia.
    + split; [intros [P _]; discriminate|]. intros [P Q]. exfalso. assert (false = true) by (apply V; apply (Q i); auto; lia). discriminate.
Qed.
Definition finite_between (s : vspc) (lo hi : Q) : Prop := forall i x, sample_in s lo hi i -> nth_error (v_flux s) i = Some x -> valid_flux x.
Definition noise_between (s : vspc) (lo hi : Q) : Prop := forall i x, sample_in s lo hi i -> nth_error (v_noise s) i = Some x -> valid_noise x.
Definition not_null_between (s : vspc) (lo hi : Q) : Prop := exists i q, sample_in s lo hi i /\ nth_error (v_flux s) i = Some (Fin q) /\ ~ q == 0.
Lemma nonzero_fin x : valid_flux x -> (nonzero x = true <-> exists q, x = Fin q /\ ~ q == 0).
Proof. intros [q ->]. cbn. destruct (Qeq_bool_spec q 0) as [E|E]; cbn; split; try discriminate; eauto. intros (q' & X & N). injection X as <-. contradiction. Qed.
Lemma ValidateFlux_ok s r lo hi : well_formed s -> common s r lo hi -> lo < hi ->
  (ValidateFlux s lo hi = Ok tt /\ finite_between s lo hi /\ not_null_between s lo hi) \/ (ValidateFlux s lo hi = Throw INVALID_SPECTRUM_FLUX /\ ~ (finite_between s lo hi /\ not_null_between s lo hi)).
Proof.
  intros W Cm L. destruct (zone_of s r lo hi W Cm L) as (i & j & Ei & Ej & IJ & Z). destruct W as (A & B & C & D).
  unfold ValidateFlux. destruct (Nat.eqb_spec (length (v_flux s)) 0); [lia|]. rewrite Ei, Ej. cbn [rbind].
  destruct (flux_loop_ok (v_flux s) (j - i) i (O, true) ltac:(lia)) as (c & z & E & Hc & Hz). rewrite E. cbn [rbind fst snd] in *.
  assert (c = O <-> finite_between s lo hi) as Hc'.
  { rewrite Hc. split; [intros [_ Q] k x Hk Hx; apply (Q k x); auto; apply Z in Hk; lia|]. intro Q. split; [auto|]. intros k x Hk Hx. apply (Q k x); auto. apply Z. lia. }
  destruct (Nat.ltb_spec 0 c) as [Hpos|H0].
  { right. split; [reflexivity|]. intros [X _]. apply Hc' in X. lia. }
  assert (c = O) as C0 by lia. pose proof (proj1 Hc' C0) as F.
  assert (z = false <-> not_null_between s lo hi) as Hz'.
  { split.
    - intro Zf. assert (~ forall k, (k < j - i)%nat -> forall x, nth_error (v_flux s) (i + k)%nat = Some x -> nonzero x = false) as NA.
      { intro Q. assert (z = true); [|congruence]. apply Hz. split; [auto|]. intros k x Hk Hx. apply (Q (k - i)%nat); [lia|]. replace (i + (k - i))%nat with k by lia. auto. }
      assert (forall m, (~ forall k, (k < m)%nat -> forall x, nth_error (v_flux s) (i + k)%nat = Some x -> nonzero x = false) -> exists k x, (k < m)%nat /\ nth_error (v_flux s) (i + k)%nat = Some x /\ nonzero x = true) as Dec.
      { induction m as [|m IHm]; intro Nm; [exfalso; apply Nm; intros; lia|].
        destruct (nth_error (v_flux s) (i + m)%nat) as [x|] eqn:Ex.
        - destruct (nonzero x) eqn:Nx; [exists m, x; auto|]. destruct IHm as (k & y & P & Q & R); [|exists k, y; split; [lia|auto]].
          intro Q. apply Nm. intros k Hk y Hy. destruct (Nat.eq_dec k m) as [->|]; [congruence|apply (Q k); auto; lia].
        - destruct IHm as (k & y & P & Q & R); [|exists k, y; split; [lia|auto]]. intro Q. apply Nm. intros k Hk y Hy. destruct (Nat.eq_dec k m) as [->|]; [congruence|apply (Q k); auto; lia]. }
      destruct (Dec _ NA) as (k & x & Hk & Hx & Nx). assert (sample_in s lo hi (i + k)) as Sk by (apply Z; lia). pose proof (F _ _ Sk Hx) as V. apply (nonzero_fin x V) in Nx. destruct Nx as (q & -> & Nq). exists (i + k)%nat, q. auto.
    - intros (k & q & Hk & Hq & Nq). destruct z; [|reflexivity]. exfalso. destruct (proj1 Hz eq_refl) as [_ Q]. assert (nonzero (Fin q) = false) as X by (apply (Q k); auto; apply Z in Hk; lia). cbn in X. destruct (Qeq_bool_spec q 0); [contradiction|discriminate]. }
  destruct z.
  - right. split; [reflexivity|]. intros [_ X]. apply Hz' in X. discriminate.
  - left. split; [reflexivity|]. split; [exact F|apply Hz'; reflexivity].
Qed.
Lemma ValidateNoise_ok s r lo hi : well_formed s -> common s r lo hi -> lo < hi ->
  (ValidateNoise s lo hi = Ok tt /\ noise_between s lo hi) \/ (ValidateNoise s lo hi = Throw INVALID_NOISE /\ ~ noise_between s lo hi).
Proof.
  intros W Cm L. destruct (zone_of s r lo hi W Cm L) as (i & j & Ei & Ej & IJ & Z). destruct W as (A & B & C & D).
  unfold ValidateNoise. destruct (Nat.eqb_spec (length (v_noise s)) 0); [lia|]. rewrite Ei, Ej. cbn [rbind].
  destruct (noise_loop_ok (v_noise s) (j - i) i O ltac:(lia)) as (c & E & Hc). rewrite E. cbn [rbind].
  assert (c = O <-> noise_between s lo hi) as Hc'.
  { rewrite Hc. split; [intros [_ Q] k x Hk Hx; apply (Q k x); auto; apply Z in Hk; lia|]. intro Q. split; [auto|]. intros k x Hk Hx. apply (Q k x); auto. apply Z. lia. }
  destruct (Nat.ltb_spec 0 c); [right|left]; (split; [reflexivity|]); rewrite <- Hc'; lia.
Qed.
Lemma sane_split s lo hi : well_formed s -> (sane_between s lo hi <-> finite_between s lo hi /\ noise_between s lo hi /\ not_null_between s lo hi).
Proof.
  intros (A & B & C & D). unfold sane_between. split.
  - intros [V N]. split; [|split; [|exact N]].
    + intros i x Hi Hx. destruct (V i Hi) as (f & e & Ef & Ee & Vf & Ve). congruence.
    + intros i x Hi Hx. destruct (V i Hi) as (f & e & Ef & Ee & Vf & Ve). congruence.
  - intros (F & No & N). split; [|exact N]. intros i Hi. destruct Hi as (x & Hx & Hr). assert (i < length (v_axis s))%nat as Li by (apply nth_error_Some; congruence).
    destruct (nth_error_lt (v_flux s) i ltac:(lia)) as [f Hf]. destruct (nth_error_lt (v_noise s) i ltac:(lia)) as [e He]. exists f, e. repeat split; auto.
    + apply (F i f); [exists x; auto|auto]. + apply (No i e); [exists x; auto|auto].
Qed.

(** ** without correction *)
Definition checks (s : vspc) (lo hi : Q) : res unit :=
  do _ <- ValidateFlux s lo hi; do _ <- ValidateNoise s lo hi;
  match v_lsf s with None => Ok tt | Some av => if (negb (av lo) || negb (av hi))%bool then Throw INVALID_LSF else Ok tt end.
Lemma checks_iff s r lo hi : well_formed s -> common s r lo hi -> lo < hi ->
  (checks s lo hi = Ok tt <-> sane_between s lo hi /\ lsf_covers s lo /\ lsf_covers s hi) /\
  (checks s lo hi = Throw INVALID_SPECTRUM_FLUX <-> ~ (finite_between s lo hi /\ not_null_between s lo hi)) /\
  (checks s lo hi = Throw INVALID_NOISE <-> finite_between s lo hi /\ not_null_between s lo hi /\ ~ noise_between s lo hi) /\
  (checks s lo hi = Throw INVALID_LSF <-> sane_between s lo hi /\ ~ (lsf_covers s lo /\ lsf_covers s hi)).
Proof.
  intros W Cm L. rewrite (sane_split s lo hi W). unfold checks, lsf_covers.
  destruct (ValidateFlux_ok s r lo hi W Cm L) as [(E & F & N)|(E & NF)]; rewrite E; cbn [rbind].
  2:{ repeat split; intros; try discriminate; try tauto. }
  destruct (ValidateNoise_ok s r lo hi W Cm L) as [(E2 & No)|(E2 & NN)]; rewrite E2; cbn [rbind].
  2:{ repeat split; intros; try discriminate; try tauto. }
  destruct (v_lsf s) as [av|].
  - destruct (av lo), (av hi); cbn; repeat split; intros; try discriminate; try tauto; try (destruct H as (_ & X); exfalso; apply X; split; reflexivity); try (intros [X Y]; discriminate); try (destruct H as (_ & X & Y); discriminate).
  - repeat split; intros; try discriminate; try tauto.
Qed.
Lemma Validate_plain s r lo hi : well_formed s -> common s r lo hi -> rbeg r < rend r -> lo < hi -> ValidateSpectrum s r false = (s, checks s lo hi).
Proof. intros W Cm R L. unfold ValidateSpectrum. rewrite (well_valid s W). cbn [negb]. rewrite (Clamp_common s r lo hi W Cm R L). cbn [rbeg rend]. reflexivity. Qed.

(** ** with correction *)
Lemma Corrected s r lo hi : well_formed s -> common s r lo hi -> rbeg r < rend r -> lo < hi -> representable (v_flux s) -> representable (v_noise s) ->
  ((forall i f, sample_in s lo hi i -> valid_at (v_flux s) (v_noise s) i -> nth_error (v_flux s) i = Some (Fin f) -> Qabs f == DBL_MAX) -> ValidateSpectrum s r true = (s, Throw SPECTRUM_CORRECTION_ERROR)) /\
  (forall i f, sample_in s lo hi i -> valid_at (v_flux s) (v_noise s) i -> nth_error (v_flux s) i = Some (Fin f) -> ~ Qabs f == DBL_MAX ->
     (forall k e, sample_in s lo hi k -> valid_at (v_flux s) (v_noise s) k -> nth_error (v_noise s) k = Some (Fin e) -> e * 10 <= DBL_MAX) ->
     exists s', ValidateSpectrum s r true = (s', checks s' lo hi) /\ well_formed s' /\ v_axis s' = v_axis s /\ v_lsf s' = v_lsf s /\
       (forall k, sample_in s lo hi k -> valid_at (v_flux s') (v_noise s') k) /\
       (forall k, ~ (sample_in s lo hi k /\ ~ valid_at (v_flux s) (v_noise s) k) -> nth_error (v_flux s') k = nth_error (v_flux s) k /\ nth_error (v_noise s') k = nth_error (v_noise s) k) /\
       (not_null_between s' lo hi <-> exists k q, sample_in s lo hi k /\ valid_at (v_flux s) (v_noise s) k /\ nth_error (v_flux s) k = Some (Fin q) /\ ~ q == 0)).
Proof.
  intros W Cm R L Rf Rn. destruct (zone_of s r lo hi W Cm L) as (a & b & Ea & Eb & AB & Z). pose proof W as W0. destruct W as (A & B & C & D).
  assert (forall k, in_zone (Z.of_nat a) (Z.of_nat b) k <-> sample_in s lo hi k) as Z' by (intro k; rewrite <- Z; unfold in_zone; lia).
  destruct (correct_spec (v_flux s) (v_noise s) (Z.of_nat a) (Z.of_nat b) 10 Rf Rn ltac:(lia) ltac:(lia) ltac:(lia) ltac:(lia)) as [K1 K2].
  assert (forall x, CorrectSpectrum s lo hi = x -> ValidateSpectrum s r true = match x with Throw e => (s, Throw e) | UB => (s, UB) | Ok (s1, _) => (s1, checks s1 lo hi) end) as V.
  { intros x Ex. unfold ValidateSpectrum. rewrite (well_valid s W0). cbn [negb]. rewrite (Clamp_common s r lo hi W0 Cm R L). cbn [rbeg rend]. cbv zeta. rewrite Ex. reflexivity. }
  split.
  - intro H. apply (V (Throw SPECTRUM_CORRECTION_ERROR)). unfold CorrectSpectrum. rewrite (well_valid s W0), Ea, Eb. cbn [rbind]. rewrite K1; [reflexivity|]. intros i f Hi. apply H. apply Z'. auto.
  - intros i f Hi Hv Hf Hm Hn. destruct (K2 i f (proj2 (Z' i) Hi) Hv Hf Hm) as (fl' & no' & n & mx & mn & E & Lf & Ln & Lm & Sm & Bad & Good & _).
    exists (mkV (v_axis s) fl' no' (v_lsf s)). split.
    { apply (V (Ok (mkV (v_axis s) fl' no' (v_lsf s), negb (Nat.eqb n 0)))). unfold CorrectSpectrum. rewrite (well_valid s W0), Ea, Eb. cbn [rbind]. rewrite E. reflexivity. }
    assert (mx * 10 <= DBL_MAX) as Mx. { destruct Lm as [(k & Zk & Vk & e & Ek & Em) _]. rewrite <- Em. apply (Hn k); auto. apply Z'. auto. }
    assert (forall k, sample_in s lo hi k -> valid_at fl' no' k) as Va.
    { intros k Hk. apply (correct_valid_after (v_flux s) (v_noise s) (Z.of_nat a) (Z.of_nat b) 10 _ fl' no' n mx Rf Rn ltac:(lia) ltac:(lia) ltac:(lia) ltac:(lia) E ltac:(lra) Lm Mx). apply Z'. auto. }
    assert (forall k, ~ (sample_in s lo hi k /\ ~ valid_at (v_flux s) (v_noise s) k) -> nth_error fl' k = nth_error (v_flux s) k /\ nth_error no' k = nth_error (v_noise s) k) as Gd.
    { intros k Hk. apply Good. rewrite Z'. exact Hk. }
    split; [split; [exact A|split; [exact B|split; cbn; congruence]]|]. split; [reflexivity|]. split; [reflexivity|]. split; [exact Va|]. split; [exact Gd|].
    cbn [v_axis v_flux]. split.
    + intros (k & q & Hk & Hq & Nq). cbn [v_flux] in Hq. change (sample_in s lo hi k) in Hk.
      assert (valid_at (v_flux s) (v_noise s) k \/ ~ valid_at (v_flux s) (v_noise s) k) as [Vk|Vk].
      { destruct (sample_valid_ok (v_flux s) (v_noise s) k) as (bb & _ & Hb).
        - destruct Hk as (x & Hx & _). assert (k < length (v_axis s))%nat by (apply nth_error_Some; congruence). lia.
        - destruct Hk as (x & Hx & _). assert (k < length (v_axis s))%nat by (apply nth_error_Some; congruence). lia.
        - destruct bb; [left; apply Hb; auto|right; intro X; apply Hb in X; discriminate]. }
      * exists k, q. repeat split; auto. destruct (Gd k) as [G _]; [tauto|]. congruence.
      * destruct (Bad k (proj2 (Z' k) Hk) Vk) as [_ Bf]. rewrite Hq in Bf. destruct Sm as [(k2 & Zk2 & Vk2 & g & Eg & Em) _]. exists k2, g. repeat split; auto; [apply Z'; auto|].
        intro X. assert (mn == 0) as M0 by (rewrite <- Em, X; reflexivity). unfold fdiv in Bf. change (Qeq_bool 10 0) with false in Bf. cbv iota in Bf. unfold of_Q in Bf.
        destruct (Qltb DBL_MAX (mn / 10)); [discriminate|]. destruct (Qltb (mn / 10) (- DBL_MAX)); [discriminate|]. injection Bf as Bf. apply Nq. rewrite Bf, M0. reflexivity.
    + intros (k & q & Hk & Vk & Hq & Nq). exists k, q. split; [exact Hk|]. split; [|exact Nq]. cbn [v_flux]. destruct (Gd k) as [G _]; [tauto|]. congruence.
Qed.
(** the last sample of the range is never looked at *)
Lemma Blind s s' r lo hi : well_formed s -> well_formed s' -> common s r lo hi -> rbeg r < rend r -> lo < hi -> v_axis s' = v_axis s -> v_lsf s' = v_lsf s ->
  (forall i, sample_in s lo hi i -> nth_error (v_flux s') i = nth_error (v_flux s) i /\ nth_error (v_noise s') i = nth_error (v_noise s) i) ->
  ValidateSpectrum s r false = (s, Ok tt) -> ValidateSpectrum s' r false = (s', Ok tt).
Proof.
  intros W W' Cm R L Ax Lf Same H. rewrite (Validate_plain s r lo hi W Cm R L) in H. assert (checks s lo hi = Ok tt) as H1 by (injection H; auto).
  assert (common s' r lo hi) as Cm' by (unfold common; rewrite Ax; exact Cm). rewrite (Validate_plain s' r lo hi W' Cm' R L). f_equal. apply (checks_iff s' r lo hi W' Cm' L). apply (checks_iff s r lo hi W Cm L) in H1.
  destruct H1 as ((V & i & q & Hi & Hq & Nq) & C1 & C2). unfold lsf_covers. rewrite Lf. split; [|split; [exact C1|exact C2]]. assert (forall k, sample_in s' lo hi k <-> sample_in s lo hi k) as Sk by (intro; unfold sample_in; rewrite Ax; tauto).
  split.
  - intros k Hk. apply Sk in Hk. destruct (Same k Hk) as [S1 S2]. unfold valid_at. rewrite S1, S2. apply V. auto.
  - exists i, q. split; [apply Sk; auto|]. destruct (Same i Hi) as [S1 _]. rewrite S1. auto.
Qed.
Lemma Validate_refuses s r c : (ValidAxes s = false -> ValidateSpectrum s r c = (s, Throw INVALID_SPECTRUM)) /\
  (ValidAxes s = true -> rbeg r == rend r -> ValidateSpectrum s r c = (s, Throw INVALID_WAVELENGTH_RANGE)) /\
  (ValidAxes s = true -> ~ rbeg r == rend r -> length (v_axis s) = 1%nat -> ValidateSpectrum s r c = (s, Throw INVALID_SPECTRUM_WAVELENGTH)) /\
  (forall lo hi, well_formed s -> common s r lo hi -> rbeg r < rend r -> hi <= lo -> ValidateSpectrum s r c = (s, Throw INVALID_WAVELENGTH_RANGE)).
Proof.
  split; [intro H; unfold ValidateSpectrum; rewrite H; reflexivity|]. split; [intros H E; unfold ValidateSpectrum; rewrite H; cbn [negb]; destruct (ClampLambdaRange_errors (v_axis s) r) as [X _]; rewrite (X E); reflexivity|].
  split; [intros H E N; unfold ValidateSpectrum; rewrite H; cbn [negb]; destruct (ClampLambdaRange_errors (v_axis s) r) as [_ X]; rewrite (X E) by lia; reflexivity|].
  intros lo hi W Cm R L. unfold ValidateSpectrum. rewrite (well_valid s W). cbn [negb]. destruct Cm as (f & b & Hf & Hb & -> & ->). destruct W as (A & B & C & D).
  assert (f < b) as FB by (apply (B 0%nat (length (v_axis s) - 1)%nat); auto; lia).
  destruct (ClampLambdaRange_ok (v_axis s) r f b A Hf Hb FB R) as [_ X]. rewrite X; [reflexivity|]. unfold Qmaxb, Qminb in L. destruct (Qltb_spec (rbeg r) f), (Qltb_spec b (rend r)); lra.
Qed.
Lemma Short_noise : exists s r, ValidAxes s = true /\ length (v_noise s) <> length (v_flux s) /\ snd (ValidateSpectrum s r false) = UB.
Proof. exists (mkV [1; 2; 3] [Fin 1; Fin 1; Fin 1] [Fin 1] None), (mkRange 1 3). split; [reflexivity|]. split; [discriminate|]. vm_compute. reflexivity. Qed.
