(** Proofs for C79: the array. *)
From Coq Require Import String.
From Verif Require Import Base RBase RangeModel RangeSpec RangeProofs ZGridModel ZGridSpec ZGridProofs MeikModel MeikProofs PdfModel LmrModel LmrSpec LmrProofs LmrProofs3 LmrProofs4 ChiArrModel ChiArrSpec ChiArrProofs ChiArrProofs2.
Open Scope Q_scope.

Lemma tplratio_row_spec r nT nR rows k : table r nT nR rows -> length (r_z r) = length rows -> (k < nR)%nat ->
  exists row, tplratio_row r k = Ok row /\ length row = length rows /\
    forall iz w, nth_error rows iz = Some w -> exists v, nth_error row iz = Some v /\ base_merit (Some k) w v.
Proof.
  intros (_ & _ & _ & _ & _ & _ & _ & T8 & _ & _ & _ & _ & T13) L Hk. unfold tplratio_row.
  destruct (column _ _ _ _ k T8 Hk) as (c & Hc & Lc & Cc). destruct (column _ _ _ _ k T13 Hk) as (p & Hp & Lp & Cp).
  rewrite (proj2 (vget_Ok _ _ _) Hc). cbn [rbind]. rewrite (proj1 T8), (proj1 T13), Nat.eqb_refl. cbn [negb].
  rewrite (proj2 (vget_Ok _ _ _) Hp). cbn [rbind]. rewrite L, Lp, Nat.eqb_refl. cbn [negb]. rewrite Lc, Nat.ltb_irrefl.
  eexists; split; [reflexivity|]. rewrite <- Lc, skipn_all, app_nil_r. split; [rewrite map_length, combine_length; lia|].
  intros iz w Hw. pose proof (nth_error_len _ _ _ Hw) as Li.
  destruct (nth_error_lt c iz ltac:(lia)) as [x Hx]. destruct (nth_error_lt p iz ltac:(lia)) as [y Hy].
  exists (fadd x y). split.
  - rewrite nth_error_map. assert (E : nth_error (combine c p) iz = Some (x, y)).
    { clear - Hx Hy. revert p iz Hx Hy. induction c as [|a c IH]; intros [|b p] [|i] Hx Hy; try discriminate; simpl in *; [congruence|apply IH; assumption]. }
    rewrite E. reflexivity.
  - cbn [base_merit]. exists x, y. split; [apply (Cc iz w x Hw Hx)|]. split; [apply (Cp iz w y Hw Hy)|]. destruct x, y; reflexivity.
Qed.

Lemma with_continuum_full b x y : with_continuum b x y (fadd b (Some (max0 x y))).
Proof.
  unfold with_continuum. destruct b as [u|]; [|reflexivity]. cbn [fadd]. eexists; split; [reflexivity|].
  destruct x as [p|], y as [q|]; cbn [max0]; try ring. destruct (Qltb_spec 0 (p - q)) as [L|L]; split; intro K; try ring; lra.
Qed.
Lemma with_continuum_same b x : with_continuum b x x b.
Proof.
  unfold with_continuum. destruct b as [u|]; [|reflexivity]. eexists; split; [reflexivity|]. destruct x as [p|]; [|reflexivity]. split; intro; ring.
Qed.

Section Rest.
Variable rest : nat -> option rline.
Variables (lowest dblmin : R).

(** the models before the continua *)
Lemma base_rows r nT nR rows o es (tplRatio : bool) : table r nT nR rows -> length (r_z r) = length rows ->
  (tplRatio = false -> forall s, In s (r_sol r) -> known rest s) ->
  ((0 < zo_nha o)%R -> GetEuclidNhaLogZPrior false lowest dblmin [] (map Q2R (r_z r)) (zo_nha o) = Ok es) ->
  exists bs zps, (if tplRatio then fillChisquareArrayForTplRatio rest lowest dblmin r o
                  else do z <- BuildZpriors rest lowest dblmin r o None; Ok ([r_chi2 r], [z], [])) = Ok (bs, zps, if tplRatio then r_prior r else []) /\
    length bs = length (models tplRatio nR) /\ length zps = length (models tplRatio nR) /\
    forall k kr, nth_error (models tplRatio nR) k = Some kr ->
      exists row zp, nth_error bs k = Some row /\ nth_error zps k = Some zp /\ length row = length rows /\ length zp = length rows /\
        forall iz w, nth_error rows iz = Some w -> exists v p, nth_error row iz = Some v /\ nth_error zp iz = Some p /\
          base_merit kr w v /\ prior_value rest o kr w (nth iz es 0%R) p.
Proof.
  intros T L Kn HE. destruct tplRatio.
  - unfold fillChisquareArrayForTplRatio. assert (L8 : length (r_rchi2 r) = nR) by (destruct T as (_ & _ & _ & _ & _ & _ & _ & T8 & _); apply T8).
    rewrite L8. set (P := fun k zp => length zp = length rows /\ forall iz w, nth_error rows iz = Some w -> exists p : R, nth_error zp iz = Some p /\ prior_value rest o (Some k) w (nth iz es 0%R) p).
    destruct (mapr_total' (fun k => BuildZpriors rest lowest dblmin r o (Some k)) (seq 0 nR) P) as (zps & Ez & Lz & Hz).
    { intros k Hk. apply in_seq in Hk. destruct (zpriors_spec rest lowest dblmin r nT nR rows o (Some k) es T L ltac:(cbn; lia) HE) as (out & E & Lo & H).
      exists out. split; [exact E|]. split; [exact Lo|]. intros iz w Hw. destruct (nth_error_lt out iz) as [p Hp]; [rewrite Lo; eapply nth_error_len; exact Hw|].
      exists p. split; [exact Hp|]. eapply H; eauto. }
    rewrite Ez. cbn [rbind].
    set (P2 := fun k row => length row = length rows /\ forall iz w, nth_error rows iz = Some w -> exists v, nth_error row iz = Some v /\ base_merit (Some k) w v).
    destruct (mapr_total' (tplratio_row r) (seq 0 nR) P2) as (bs & Eb & Lb & Hb).
    { intros k Hk. apply in_seq in Hk. destruct (tplratio_row_spec r nT nR rows k T L ltac:(lia)) as (row & E & Lr & H). exists row. split; [exact E|]. split; assumption. }
    rewrite Eb. cbn [rbind]. exists bs, zps. split; [reflexivity|]. unfold models. rewrite map_length. split; [exact Lb|]. split; [exact Lz|].
    intros k kr Hk. rewrite nth_error_map in Hk. destruct (nth_error (seq 0 nR) k) as [k'|] eqn:Ek; [|discriminate]. cbn in Hk. injection Hk as <-.
    pose proof (nth_error_len _ _ _ Ek) as Lk. destruct (nth_error_lt bs k ltac:(lia)) as [row Hr]. destruct (nth_error_lt zps k ltac:(lia)) as [zp Hzp].
    destruct (Hz k k' zp Ek Hzp) as (A1 & A2). destruct (Hb k k' row Ek Hr) as (B1 & B2).
    exists row, zp. repeat (split; [assumption|]). intros iz w Hw. destruct (A2 iz w Hw) as (p & Hp & Pp). destruct (B2 iz w Hw) as (v & Hv & Pv). exists v, p. auto.
  - destruct (zpriors_spec rest lowest dblmin r nT nR rows o None es T L (Kn eq_refl) HE) as (out & E & Lo & H). rewrite E. cbn [rbind].
    exists [r_chi2 r], [out]. repeat (split; [reflexivity|]). intros [|[|k]] kr Hk; try discriminate. simpl in Hk. injection Hk as <-.
    destruct T as (T1 & _). exists (r_chi2 r), out. repeat (split; [reflexivity|]). split; [rewrite T1, map_length; reflexivity|]. split; [exact Lo|].
    intros iz w Hw. destruct (nth_error_lt out iz) as [p Hp]; [rewrite Lo; eapply nth_error_len; exact Hw|].
    exists (w_chi2 w), p. split; [rewrite T1; apply map_nth_error; exact Hw|]. split; [exact Hp|]. split; [reflexivity|]. eapply H; eauto.
Qed.


Lemma array_spec pc (tplRatio : bool) r nT nR rows o cst es : pc = Cbestproba \/ pc = Cmarg ->
  table r nT nR rows -> length (r_z r) = length rows -> (tplRatio = true -> length (r_prior r) = nR) ->
  (tplRatio = false -> forall s, In s (r_sol r) -> known rest s) ->
  ((0 < zo_nha o)%R -> GetEuclidNhaLogZPrior false lowest dblmin [] (map Q2R (r_z r)) (zo_nha o) = Ok es) ->
  let K := length (models tplRatio nR) in let n := ncont nT in
  exists arr, BuildChisquareArray rest lowest dblmin pc tplRatio r o cst = Ok arr /\ a_z arr = r_z r /\ a_cst arr = cst /\
    length (a_chi2 arr) = (K * n)%nat /\ length (a_zp arr) = (K * n)%nat /\ length (a_prior arr) = (if tplRatio then K * n else 0)%nat /\
    forall k kr c, nth_error (models tplRatio nR) k = Some kr -> (c < n)%nat ->
      (exists row zp, nth_error (a_chi2 arr) (position K n k c) = Some row /\ nth_error (a_zp arr) (position K n k c) = Some zp /\
         length row = length rows /\ length zp = length rows /\
         forall iz w, nth_error rows iz = Some w -> exists b v p, base_merit kr w b /\ nth_error row iz = Some v /\ nth_error zp iz = Some p /\
           prior_value rest o kr w (nth iz es 0%R) p /\ (nT = 0%nat -> v = b) /\
           forall x x0, nth_error (w_cont w) c = Some x -> nth_error (w_cont w) 0 = Some x0 -> with_continuum b x x0 v) /\
      (tplRatio = true -> exists pk q, nth_error (r_prior r) k = Some pk /\ nth_error (a_prior arr) (position K n k c) = Some q /\ q == pk / inject_Z (Z.of_nat n)).
Proof.
  intros Hpc T L Lp Kn HE K n.
  destruct (base_rows r nT nR rows o es tplRatio T L Kn HE) as (bs & zps & E & Lb & Lz & H).
  assert (B : BuildChisquareArray rest lowest dblmin pc tplRatio r o cst =
    (do (rows, zps, mp) <- (if tplRatio then fillChisquareArrayForTplRatio rest lowest dblmin r o
                             else do z <- BuildZpriors rest lowest dblmin r o None; Ok ([r_chi2 r], [z], []));
      match r_cont r with
      | [] => Ok (mkCharr (r_z r) rows zps mp cst)
      | c0 :: cs =>
          let mp := map (fun p => p / inject_Z (Z.of_nat (length (r_cont r)))) mp in
          do (rows, zps, mp) <- rloop (fun k => rloop (push_model (length (r_z r)) c0 k) cs) (seq 0 (length rows)) (rows, zps, mp);
          Ok (mkCharr (r_z r) rows zps mp cst)
      end)) by (destruct Hpc; subst pc; reflexivity).
  rewrite B, E. clear B E. cbn [rbind]. fold K in Lb, Lz.
  set (mp0 := if tplRatio then r_prior r else []).
  assert (Lmp : length mp0 = if tplRatio then K else 0%nat).
  { unfold mp0, K, models. destruct tplRatio; [rewrite map_length, seq_length; apply Lp; reflexivity|reflexivity]. }
  assert (T7 : matrix (r_cont r) nT w_cont rows) by (destruct T as (_ & _ & _ & _ & _ & _ & T7 & _); exact T7).
  destruct (r_cont r) as [|c0 cs] eqn:Ec.
  - assert (Hn : nT = 0%nat) by (symmetry; apply (proj1 T7)). subst nT. cbn in n. subst n.
    eexists; split; [reflexivity|]. cbn [a_z a_cst a_chi2 a_zp a_prior]. repeat (split; [solve [reflexivity|lia]|]).
    split; [rewrite Lmp; destruct tplRatio; lia|].
    intros k kr c Hk Hc. assert (c = 0%nat) by lia. subst c. cbn [position]. destruct (H k kr Hk) as (row & zp & H1 & H2 & H3 & H4 & H5). split.
    + exists row, zp. repeat (split; [assumption|]). intros iz w Hw. destruct (H5 iz w Hw) as (v & p & A1 & A2 & A3 & A4).
      exists v, v, p. repeat (split; [assumption|]). split; [reflexivity|]. intros x x0 _ Hx0.
      destruct T7 as (_ & T7 & _). specialize (T7 w (nth_error_In _ _ Hw)). destruct (w_cont w); [discriminate|discriminate].
    + intro Ht. destruct (nth_error_lt (r_prior r) k) as [pk Hpk].
      { rewrite (Lp Ht). apply nth_error_len in Hk. unfold models in Hk. rewrite Ht, map_length, seq_length in Hk. exact Hk. }
      exists pk, pk. unfold mp0. rewrite Ht. split; [exact Hpk|]. split; [exact Hpk|]. cbn. field.
  - assert (Hn : nT = S (length cs)) by (symmetry; apply (proj1 T7)).
    assert (Hn2 : ncont nT = S (length cs)) by (unfold ncont; lia). subst n. rewrite Hn2.
    assert (Lc : forall c, In c (c0 :: cs) -> length c = length rows) by (intros c Hc; eapply matrix_len; [exact T7|exact Hc]).
    cbv zeta. set (mp := map (fun p => p / inject_Z (Z.of_nat (length (c0 :: cs)))) mp0).
    assert (Lm : length mp = if tplRatio then K else 0%nat) by (unfold mp; rewrite map_length; exact Lmp).
    assert (Lbase : forall b, In b bs -> length b = length rows).
    { intros b Hb. destruct (In_nth_error _ _ Hb) as [k Hk]. destruct (nth_error_lt (models tplRatio nR) k) as [kr Hkr]; [fold K; rewrite <- Lb; eapply nth_error_len; exact Hk|].
      destruct (H k kr Hkr) as (row & zp & H1 & _ & H3 & _). congruence. }
    destruct (outer_loop (length (r_z r)) c0 cs bs zps mp) with (m := length bs) (k0 := 0%nat) (X := @nil (list flt)) (Y := @nil (list R)) (W := @nil Q) as (X' & Y' & W' & E & LX & LY & LW & D).
    { rewrite L. apply Lc. left. reflexivity. } { intros c Hc. rewrite L. apply Lc. right. exact Hc. } { intros b Hb. rewrite L. apply Lbase, Hb. }
    { lia. } { destruct tplRatio; [right; lia|left; destruct mp; [reflexivity|discriminate]]. } { lia. } { reflexivity. }
    rewrite !app_nil_r in E. rewrite E. clear E. cbn [rbind app]. eexists; split; [reflexivity|]. cbn [a_z a_cst a_chi2 a_zp a_prior].
    repeat (split; [reflexivity|]). rewrite !app_length, LX, LY, LW, Lb, Lz, Lm.
    split; [lia|]. split; [lia|]. split; [destruct tplRatio, mp; simpl in Lm; lia|].
    assert (En : ~ inject_Z (Z.of_nat (S (length cs))) == 0) by (unfold Qeq, inject_Z; cbn [Qnum Qden]; lia).
    intros k kr c Hk Hc. destruct (H k kr Hk) as (base & zp & H1 & H2 & H3 & H4 & H5). pose proof (nth_error_len _ _ _ Hk) as Lk. fold K in Lk.
    destruct c as [|c']; cbn [position].
    + split.
      * exists base, zp. rewrite !nth_error_app1 by lia. repeat (split; [assumption|]). intros iz w Hw. destruct (H5 iz w Hw) as (v & p & A1 & A2 & A3 & A4).
        exists v, v, p. repeat (split; [assumption|]). split; [reflexivity|]. intros x x0 Hx Hx0. rewrite Hx in Hx0. injection Hx0 as <-. apply with_continuum_same.
      * intro Ht. subst tplRatio. destruct (nth_error_lt (r_prior r) k) as [pk Hpk]; [unfold mp0 in Lmp; lia|].
        exists pk, (pk / inject_Z (Z.of_nat (S (length cs)))). split; [exact Hpk|]. rewrite nth_error_app1 by lia. unfold mp, mp0. rewrite nth_error_map, Hpk. split; [reflexivity|apply Qeq_refl].
    + destruct (nth_error_lt cs c' ltac:(lia)) as [cc Hcc]. destruct (D k c' cc ltac:(lia) Hcc) as ((b' & row & D1 & D2 & D3) & D4 & D5).
      rewrite Nat.add_0_l in *. assert (b' = base) by congruence. subst b'.
      replace (S (length cs) - 1)%nat with (length cs) by lia.
      assert (P1 : forall (A : Type) (l m : list A), length l = K -> nth_error (l ++ m) (K + k * length cs + c') = nth_error m (k * length cs + c')).
      { intros A l m Hl. rewrite nth_error_app2 by lia. f_equal. lia. }
      split.
      * exists row, zp. rewrite (P1 _ bs X' Lb), (P1 _ zps Y' Lz). split; [exact D3|]. split; [rewrite D4; exact H2|].
        destruct (full_row_ok (length (r_z r)) c0 cc base) as (row' & Er & Lr & Hr).
        { rewrite L. apply Lc. left. reflexivity. } { rewrite L. apply Lc. right. eapply nth_error_In; exact Hcc. } { lia. }
        assert (row' = row) by congruence. subst row'. split; [lia|]. split; [exact H4|].
        intros iz w Hw. destruct (H5 iz w Hw) as (v & p & A1 & A2 & A3 & A4).
        destruct (matrix_cell _ _ _ _ _ _ T7 Hw 0%nat c0 eq_refl) as (y & Hy & Hy'). destruct (matrix_cell _ _ _ _ _ _ T7 Hw (S c') cc Hcc) as (x & Hx & Hx').
        exists v, (fadd v (Some (max0 x y))), p. split; [exact A3|]. split; [apply Hr; assumption|]. split; [exact A2|]. split; [exact A4|].
        split; [intro Z0; lia|]. intros x' x0 E1 E2. assert (x' = x) by congruence. assert (x0 = y) by congruence. subst x' x0. apply with_continuum_full.
      * intro Ht. subst tplRatio. destruct (nth_error_lt (r_prior r) k) as [pk Hpk]; [unfold mp0 in Lmp; lia|].
        exists pk, (pk / inject_Z (Z.of_nat (S (length cs)))). split; [exact Hpk|]. rewrite (P1 _ mp W' Lm). rewrite D5 by (intro Z0; rewrite Z0 in Lm; simpl in Lm; lia).
        unfold mp, mp0. rewrite nth_error_map, Hpk. split; [reflexivity|apply Qeq_refl].
Qed.

Lemma best_array r nT nR rows o cst es (tplRatio : bool) : table r nT nR rows -> length (r_z r) = length rows ->
  (forall s, In s (r_sol r) -> known rest s) ->
  ((0 < zo_nha o)%R -> GetEuclidNhaLogZPrior false lowest dblmin [] (map Q2R (r_z r)) (zo_nha o) = Ok es) ->
  exists zp, BuildChisquareArray rest lowest dblmin CbestChi2 tplRatio r o cst = Ok (mkCharr (r_z r) [r_chi2 r] [zp] [] cst) /\ length zp = length rows /\
    forall iz w p, nth_error rows iz = Some w -> nth_error zp iz = Some p -> prior_value rest o None w (nth iz es 0%R) p.
Proof.
  intros T L Kn HE. destruct (zpriors_spec rest lowest dblmin r nT nR rows o None es T L Kn HE) as (out & E & Lo & H).
  exists out. cbn [BuildChisquareArray]. rewrite E. auto.
Qed.
End Rest.

Lemma position_onto K n p : (1 <= n)%nat -> (p < K * n)%nat -> exists k c, (k < K)%nat /\ (c < n)%nat /\ p = position K n k c.
Proof.
  intros Hn Hp. destruct (Nat.lt_ge_cases p K) as [C|C]; [exists p, 0%nat; cbn [position]; lia|].
  destruct n as [|n]; [lia|]. rewrite Nat.mul_succ_r in Hp.
  assert (N2 : n <> 0%nat) by (intro Z0; subst n; lia).
  exists ((p - K) / n)%nat, (S ((p - K) mod n))%nat. pose proof (Nat.mod_upper_bound (p - K) n N2) as M.
  pose proof (Nat.div_mod (p - K) n N2) as DM. split; [|split; [lia|]].
  - apply Nat.div_lt_upper_bound; [exact N2|]. rewrite (Nat.mul_comm n K). lia.
  - cbn [position]. replace (S n - 1)%nat with n by lia. rewrite (Nat.mul_comm ((p - K) / n) n). lia.
Qed.
Lemma position_inj K n k c k' c' : (k < K)%nat -> (k' < K)%nat -> (c < n)%nat -> (c' < n)%nat -> position K n k c = position K n k' c' -> k = k' /\ c = c'.
Proof.
  intros H1 H2 H3 H4 E. destruct c as [|c], c' as [|c']; cbn [position] in E; [auto|exfalso; revert E; generalize (k' * (n - 1))%nat; lia|exfalso; revert E; generalize (k * (n - 1))%nat; lia|].
  destruct n as [|n]; [lia|]. replace (S n - 1)%nat with n in * by lia.
  assert (k = k').
  { destruct (Nat.lt_trichotomy k k') as [C|[C|C]]; [|exact C|].
    - pose proof (Nat.mul_le_mono_r (S k) k' n C). lia.
    - pose proof (Nat.mul_le_mono_r (S k') k n C). lia. }
  subst k'. split; [reflexivity|]. lia.
Qed.
