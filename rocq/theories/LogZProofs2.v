(** Proofs for C77: the constructor, the conversion to a regular grid and the extension to the right. *)
From Verif Require Import Base RangeModel RangeSpec RangeProofs RangeGridProofs ZGridModel LogZModel LogZSpec LogZProofs.
Open Scope Q_scope.

Lemma params_roundtrip p ps : described p ps -> getZGridParams p = Ok ps.
Proof.
  intros (A & B & C & D). unfold getZGridParams. rewrite A, B, C, D. clear.
  induction ps as [|[[a b] s c] r IH]; [reflexivity|]. cbn [map params_from zp_center zp_range rbeg rend zp_step].
  rewrite IH. reflexivity.
Qed.

Section Grid.
Variable grid1 : zparam -> res (list Q).

Lemma construct_spec ps vals z : list_grid grid1 ps = Ok z ->
  (vals = [] -> exists p, construct grid1 ps vals = Ok p /\ p_z p = z /\ length (p_val p) = length z /\
     (forall v, In v (p_val p) -> v = Some minus_dbl_max) /\ described p ps) /\
  (vals <> [] -> length vals = length z -> exists p, construct grid1 ps vals = Ok p /\ p_z p = z /\ p_val p = vals /\ described p ps) /\
  (vals <> [] -> length vals <> length z -> construct grid1 ps vals = Throw INTERNAL_ERROR).
Proof.
  intro G. unfold construct, setZGrid. rewrite (params_roundtrip _ ps) by (repeat split; reflexivity). cbn [rbind].
  rewrite G. cbn [rbind p_val p_z p_center p_min p_max p_step]. unfold check_sizes. split; [|split].
  - intros ->. cbn [p_val p_z]. rewrite repeat_length, Nat.eqb_refl. eexists. split; [reflexivity|]. cbn.
    split; [reflexivity|]. split; [apply repeat_length|]. split; [intros v H; apply repeat_spec in H; exact H|].
    repeat split; reflexivity.
  - intros Hv Hl. destruct vals as [|v0 vr]; [contradiction|]. cbn [p_val p_z]. rewrite Hl, Nat.eqb_refl.
    eexists. split; [reflexivity|]. repeat split; reflexivity.
  - intros Hv Hl. destruct vals as [|v0 vr]; [contradiction|]. cbn [p_val p_z].
    destruct (Nat.eqb_spec (length (v0 :: vr)) (length z)) as [K|_]; [contradiction|reflexivity].
Qed.

Lemma construct_inv ps vals p : construct grid1 ps vals = Ok p ->
  described p ps /\ list_grid grid1 ps = Ok (p_z p) /\ length (p_val p) = length (p_z p).
Proof.
  unfold construct, setZGrid. rewrite (params_roundtrip _ ps) by (repeat split; reflexivity). cbn [rbind].
  destruct (list_grid grid1 ps) as [z| |]; cbn [rbind]; try discriminate.
  cbn [p_val p_z p_center p_min p_max p_step]. unfold check_sizes. cbn [p_val p_z].
  match goal with |- context [Nat.eqb ?m ?n] => destruct (Nat.eqb_spec m n) as [K|K] end; [|discriminate].
  intro E. injection E as <-. split; [repeat split; reflexivity|]. split; [reflexivity|exact K].
Qed.

Lemma regular_unchanged oob fine p : length (p_center p) = 1%nat -> convertToRegular grid1 oob fine p = Ok p.
Proof. intro H. unfold convertToRegular, isRegular. rewrite H. reflexivity. Qed.

Definition with_step (q : zparam) (s : Q) : zparam := mkZParam (zp_range q) s (zp_center q).

Lemma not_regular p q q1 r : described p (q :: q1 :: r) -> isRegular p = false.
Proof. intros (A & _). unfold isRegular. rewrite A. reflexivity. Qed.

Lemma resampled_keep p p1 p' t : p_z p1 = p_z p -> p_val p1 = p_val p -> resampled p1 p' t -> resampled p p' t.
Proof. intros A B H. unfold resampled in *. rewrite A, B in H. exact H. Qed.
Lemma curve_keep p p1 : p_z p1 = p_z p -> p_val p1 = p_val p -> curve p -> curve p1.
Proof. intros A B H. unfold curve in *. rewrite A, B. exact H. Qed.

Lemma convert_coarse oob p q q1 r target : described p (q :: q1 :: r) -> curve p ->
  grid1 q = Ok target -> target <> [] ->
  exists p', convertToRegular grid1 oob false p = Ok p' /\ resampled p p' target /\ described p' [q].
Proof.
  intros D C G Ht. unfold convertToRegular. rewrite (not_regular _ _ _ _ D). destruct D as (D1 & D2 & D3 & D4).
  cbn [rbind]. rewrite D1, D2, D3, D4. cbn [map resize1].
  set (p1 := mkZpdf (p_z p) (p_val p) _ _ _ _).
  rewrite (params_roundtrip p1 [q]) by (repeat split; reflexivity). cbn [rbind vget nth_error].
  rewrite G. cbn [rbind].
  destruct (interpolateOnGrid_spec p1 target) as (p' & E & R & P1 & P2 & P3 & P4); [|exact Ht|].
  - exact C.
  - exists p'. split; [exact E|]. split; [exact R|]. unfold described. rewrite P1, P2, P3, P4. repeat split; reflexivity.
Qed.

Lemma convert_fine p q q1 r target : described p (q :: q1 :: r) -> curve p ->
  (forall q', In q' r -> zp_step q' == zp_step q1) ->
  grid1 (with_step q (zp_step q1)) = Ok target -> target <> [] ->
  exists p', convertToRegular grid1 (Some (zp_step q1)) true p = Ok p' /\ resampled p p' target /\
    described p' [with_step q (zp_step q1)].
Proof.
  intros D C Hst G Ht. unfold convertToRegular. rewrite (not_regular _ _ _ _ D). destruct D as (D1 & D2 & D3 & D4).
  rewrite D1, D2, D3, D4. cbn [map length Nat.leb vget nth_error rbind skipn].
  assert (F : forallb (fun s => Qeq_bool (zp_step q1) s) (map zp_step r) = true).
  { apply forallb_forall. intros s Hs. apply in_map_iff in Hs. destruct Hs as (q' & <- & Hq).
    apply Qeq_bool_iff. rewrite (Hst q' Hq). reflexivity. }
  rewrite F. cbn [vset rbind resize1].
  set (p1 := mkZpdf (p_z p) (p_val p) _ _ _ _).
  rewrite (params_roundtrip p1 [with_step q (zp_step q1)]) by (repeat split; reflexivity). cbn [rbind vget nth_error].
  cbn [with_step zp_range zp_center]. unfold with_step in G. rewrite G. cbn [rbind].
  destruct (interpolateOnGrid_spec p1 target) as (p' & E & R & P1 & P2 & P3 & P4); [|exact Ht|].
  - exact C.
  - exists p'. split; [exact E|]. split; [exact R|]. unfold described. rewrite P1, P2, P3, P4. repeat split; reflexivity.
Qed.

Lemma convert_fine_UB p q q1 r : described p (q :: q1 :: r) ->
  (forall q', In q' r -> zp_step q' == zp_step q1) -> convertToRegular grid1 None true p = UB.
Proof.
  intros D Hst. unfold convertToRegular. rewrite (not_regular _ _ _ _ D). destruct D as (D1 & D2 & D3 & D4).
  rewrite D1, D2, D3, D4. cbn [map length Nat.leb vget nth_error rbind skipn].
  assert (F : forallb (fun s => Qeq_bool (zp_step q1) s) (map zp_step r) = true).
  { apply forallb_forall. intros s Hs. apply in_map_iff in Hs. destruct Hs as (q' & <- & Hq).
    apply Qeq_bool_iff. rewrite (Hst q' Hq). reflexivity. }
  rewrite F. cbn [vset rbind resize1].
  rewrite (params_roundtrip _ [with_step q (zp_step q1)]) by (repeat split; reflexivity). reflexivity.
Qed.

Lemma convert_fine_throw oob p q q1 r q' : described p (q :: q1 :: r) -> In q' r -> ~ zp_step q' == zp_step q1 ->
  convertToRegular grid1 oob true p = Throw INTERNAL_ERROR.
Proof.
  intros D Hin Hst. unfold convertToRegular. rewrite (not_regular _ _ _ _ D). destruct D as (D1 & D2 & D3 & D4).
  rewrite D1, D2, D3, D4. cbn [map length Nat.leb vget nth_error rbind skipn].
  destruct (forallb (fun s => Qeq_bool (zp_step q1) s) (map zp_step r)) eqn:F; [|reflexivity].
  exfalso. rewrite forallb_forall in F. specialize (F (zp_step q') (in_map _ _ _ Hin)). apply Qeq_bool_iff in F.
  apply Hst. rewrite F. reflexivity.
Qed.
End Grid.

Lemma grids_lin ps : grids getZGrid1 ps = getZGrids ps.
Proof. induction ps as [|q r IH]; [reflexivity|]. cbn [grids getZGrids]. rewrite IH. reflexivity. Qed.
Lemma list_grid_lin ps : list_grid getZGrid1 ps = getZGrid ps.
Proof. destruct ps as [|q r]; [reflexivity|]. cbn [list_grid getZGrid]. rewrite grids_lin. reflexivity. Qed.

(** no NaN when the tabulated curve covers the target *)
Lemma resampled_no_nan p p' t : resampled p p' t -> (forall x, In x t -> covered_by (p_z p) x) ->
  forall v, In v (p_val p') -> v <> None.
Proof.
  intros (_ & Ln & H) Hc v Hv K. subst v. apply In_nth_error in Hv. destruct Hv as [k Hk].
  destruct (nth_error_lt t k) as [x Hx]; [rewrite <- Ln; eapply nth_error_len; eauto|].
  destruct (H k x Hx) as [H1 _]. destruct H1 as (y & Hy & _); [apply Hc; eapply nth_error_In; eauto|]. congruence.
Qed.

Lemma SOE_values r delta eps :
  well_formed r -> 0 <= eps -> eps < delta -> (GetLength r + eps) / delta < int32_max ->
  exists v, SpreadOverEpsilon r delta false eps = Ok v /\
    length v = S (Z.to_nat (Qfloor ((rend r + eps - rbeg r) / delta))) /\
    forall i x, nth_error v i = Some x ->
      ((S i < length v)%nat -> x == rbeg r + delta * inject_Z (Z.of_nat i)) /\
      (S i = length v -> x == Qminb (rbeg r + delta * inject_Z (Z.of_nat i)) (rend r)).
Proof.
  intros Hwf He Hed Hc. unfold well_formed in Hwf. unfold SpreadOverEpsilon.
  set (r' := range_add r (mkRange 0 eps)).
  assert (W : well_formed r') by (unfold well_formed, r', range_add; simpl; lra).
  assert (B : rbeg r' == rbeg r) by (unfold r', range_add; simpl; lra).
  assert (Ee : rend r' == rend r + eps) by (unfold r', range_add; simpl; lra).
  assert (C : GetLength r' / delta < int32_max).
  { unfold GetLength in *. rewrite B, Ee. setoid_replace (rend r + eps - rbeg r) with (rend r - rbeg r + eps) by lra. exact Hc. }
  assert (Hd : 0 < delta) by lra.
  destruct (SpreadOver_ok r' delta W Hd C) as (w & Ew & Hl & Ha). rewrite Ew. cbn [rbind].
  assert (Hn : nsteps r' delta = Qfloor ((rend r + eps - rbeg r) / delta)).
  { unfold nsteps, GetLength. apply Qfloor_comp. rewrite B, Ee. reflexivity. }
  rewrite Hn in Hl. set (N := Z.to_nat (Qfloor ((rend r + eps - rbeg r) / delta))) in *.
  assert (Hne : w <> []) by (intro K; rewrite K in Hl; discriminate).
  destruct (clamp_ends_spec r w Hne) as (v & Ev & Hlv & _).
  destruct (clamp_ends_nth r w v Ev Hne) as [_ Hv].
  exists v. split; [exact Ev|]. split; [rewrite Hlv; exact Hl|].
  intros i x Hx. pose proof (nth_error_len _ _ _ Hx) as Hi. rewrite Hlv in Hi.
  destruct (nth_error_lt w i Hi) as [z Hz]. pose proof (Hv i z Hz) as Hx2. rewrite Hx in Hx2. injection Hx2 as ->.
  pose proof (Ha i z Hz) as Hza. rewrite B in Hza. rewrite Hlv, Hl.
  unfold clamp_at. replace (S N - 1)%nat with N by lia.
  assert (Hy : (if Nat.eqb i 0 then Qmaxb z (rbeg r) else z) == rbeg r + delta * inject_Z (Z.of_nat i)).
  { destruct (Nat.eqb_spec i 0) as [->|]; [|exact Hza]. change (inject_Z (Z.of_nat 0)) with 0 in *.
    unfold Qmaxb. qcase; lra. }
  rewrite Hl in Hi. replace (length w - 1)%nat with N by lia.
  split; intro K.
  - destruct (Nat.eqb_spec i N) as [|_]; [lia|]. exact Hy.
  - assert (i = N) by lia. subst i. rewrite Nat.eqb_refl. unfold Qminb. repeat qcase; lra.
Qed.

Definition with_end (q : zparam) (e : Q) : zparam := mkZParam (mkRange (rbeg (zp_range q)) e) (zp_step q) (zp_center q).

Lemma extrapolate_noop grid1 p zmax0 zend : nth_error (p_max p) 0 = Some zmax0 -> zend <= zmax0 ->
  extrapolate_on_right_border grid1 p zend = Ok p.
Proof.
  intros H L. unfold extrapolate_on_right_border. rewrite (proj2 (vget_Ok _ _ _) H). cbn [rbind].
  destruct (Qle_bool zend zmax0) eqn:E; [reflexivity|]. exfalso. apply Qle_bool_iff in L. congruence.
Qed.

Lemma nth_repeat_in {A} (a : A) n i : (i < n)%nat -> nth_error (repeat a n) i = Some a.
Proof. intro L. destruct (nth_error_lt (repeat a n) i) as [x Hx]; [rewrite repeat_length; exact L|].
  rewrite Hx. f_equal. eapply repeat_spec. eapply nth_error_In; eauto. Qed.

Lemma extrapolate_lin p q zend :
  described p [q] -> zp_center q = None -> getZGrid1 q = Ok (p_z p) -> length (p_val p) = length (p_z p) ->
  well_formed (zp_range q) -> default_epsilon < zp_step q -> rend (zp_range q) < zend ->
  (zend - rbeg (zp_range q) + default_epsilon) / zp_step q < int32_max ->
  exists p' lastv, extrapolate_on_right_border getZGrid1 p zend = Ok p' /\ described p' [with_end q zend] /\
    getZGrid1 (with_end q zend) = Ok (p_z p') /\ length (p_val p') = length (p_z p') /\
    (length (p_z p) <= length (p_z p'))%nat /\
    (forall i v, nth_error (p_val p) i = Some v -> nth_error (p_val p') i = Some v) /\
    nth_error (p_val p) (length (p_val p) - 1) = Some lastv /\
    (forall i v, (length (p_val p) <= i)%nat -> nth_error (p_val p') i = Some v -> v = lastv) /\
    (forall i x, nth_error (p_z p) i = Some x -> exists x', nth_error (p_z p') i = Some x' /\
       x <= x' /\ x' <= x + default_epsilon /\ ((S i < length (p_z p))%nat -> x' == x)).
Proof.
  intros (D1 & D2 & D3 & D4) Hc G Hl Hwf Hst Hz Hbig. destruct q as [[a b] d c]. cbn [zp_center zp_range zp_step rbeg rend] in *.
  subst c. unfold getZGrid1 in G. cbn [zp_center zp_range zp_step] in G. unfold well_formed in Hwf. cbn [rbeg rend] in Hwf.
  assert (He : 0 <= default_epsilon) by (unfold default_epsilon; lra).
  assert (Hd : 0 < d) by lra.
  assert (Hsmall : (GetLength (mkRange a b) + default_epsilon) / d < int32_max).
  { unfold GetLength. cbn [rbeg rend]. eapply Qle_lt_trans; [|exact Hbig].
    unfold Qdiv. apply Qmult_le_compat_r; [lra|]. apply Qlt_le_weak, Qinv_lt_0_compat; exact Hd. }
  destruct (SOE_values (mkRange a b) d default_epsilon Hwf He Hst Hsmall) as (z & Ez & Lz & Vz).
  rewrite Ez in G. injection G as G'. rewrite <- G' in *. clear G'.
  destruct (SOE_values (mkRange a zend) d default_epsilon) as (w & Ew & Lw & Vw); auto.
  { unfold well_formed. cbn. lra. }
  cbn [rbeg rend] in *.
  set (N := Qfloor ((b + default_epsilon - a) / d)) in *. set (M := Qfloor ((zend + default_epsilon - a) / d)) in *.
  assert (NM : (0 <= N <= M)%Z).
  { split.
    - change 0%Z with (Qfloor 0). unfold N. apply Qfloor_resp_le. apply Qle_shift_div_l; lra.
    - unfold N, M. apply Qfloor_resp_le. unfold Qdiv. apply Qmult_le_compat_r; [lra|]. apply Qlt_le_weak, Qinv_lt_0_compat; exact Hd. }
  assert (Len : (length z <= length w)%nat) by (rewrite Lz, Lw; lia).
  assert (Hvne : p_val p <> []) by (intro K; rewrite K in Hl; simpl in Hl; lia).
  destruct (back_ok (p_val p) Hvne) as (lastv & Eb & Hb).
  unfold extrapolate_on_right_border. rewrite D3. cbn [map zp_range rend vget nth_error rbind].
  destruct (Qle_bool zend b) eqn:K; [apply Qle_bool_iff in K; lra|]. clear K.
  cbn [vset rbind]. unfold setZGrid.
  set (p1 := mkZpdf (p_z p) (p_val p) _ _ _ _).
  rewrite (params_roundtrip p1 [mkZParam (mkRange a zend) d None])
    by (unfold p1, described; cbn [p_center p_min p_max p_step]; rewrite D1, D2, D4; repeat split; reflexivity).
  cbn [rbind list_grid grids]. unfold getZGrid1. cbn [zp_center zp_range zp_step]. rewrite Ew. cbn [rbind insert_all].
  cbn [p_val p1]. rewrite Eb. cbn [rbind p_z].
  assert (Lnew : length (firstn (length w) (p_val p) ++ repeat lastv (length w - length (p_val p))) = length w).
  { rewrite app_length, firstn_length, repeat_length. lia. }
  assert (Fall : firstn (length w) (p_val p) = p_val p) by (apply firstn_all2; lia).
  unfold check_sizes. cbn [p_val p_z]. rewrite Lnew, Nat.eqb_refl.
  eexists. exists lastv. split; [reflexivity|]. cbn [p_val p_z p_center p_min p_max p_step].
  split. { unfold p1, described, with_end. cbn [p_center p_min p_max p_step map zp_center zp_range zp_step rbeg rend].
    rewrite D1, D2, D4. repeat split; reflexivity. }
  split. { unfold with_end. cbn [zp_center zp_range zp_step rbeg rend]. exact Ew. }
  split; [exact Lnew|]. split; [exact Len|]. rewrite Fall. split; [|split; [exact Hb|split]].
  - intros i v Hv. rewrite nth_error_app1; [exact Hv|]. eapply nth_error_len; eauto.
  - intros i v Li Hv. rewrite nth_error_app2 in Hv by exact Li. eapply repeat_spec. eapply nth_error_In; eauto.
  - intros i x Hx. pose proof (nth_error_len _ _ _ Hx) as Hi.
    destruct (nth_error_lt w i ltac:(lia)) as [x' Hx']. exists x'. split; [exact Hx'|].
    destruct (Vz i x Hx) as [Z1 Z2]. destruct (Vw i x' Hx') as [W1 W2].
    assert (Fit : a + d * inject_Z (Z.of_nat i) <= b + default_epsilon).
    { assert (L1 : inject_Z (Z.of_nat i) <= inject_Z N) by (rewrite <- Zle_Qle; lia).
      pose proof (Qfloor_le ((b + default_epsilon - a) / d)) as L2. fold N in L2.
      assert (L3 : inject_Z (Z.of_nat i) <= (b + default_epsilon - a) / d) by lra.
      assert (L4 : inject_Z (Z.of_nat i) * d <= (b + default_epsilon - a) / d * d) by (apply Qmult_le_compat_r; lra).
      setoid_replace ((b + default_epsilon - a) / d * d) with (b + default_epsilon - a) in L4 by (field; lra). lra. }
    set (g := a + d * inject_Z (Z.of_nat i)) in *.
    assert (Hw : x' == g \/ x' == Qminb g zend).
    { destruct (Nat.eq_dec (S i) (length w)) as [E|E]; [right; apply W2; exact E|left; apply W1; lia]. }
    destruct (Nat.eq_dec (S i) (length z)) as [E|E].
    + specialize (Z2 E). unfold Qminb in *. destruct Hw as [Hw|Hw]; rewrite Hw, Z2; clear Hw Z2 Z1 W1 W2;
        split; [|split; [|lia]| |split; [|lia]]; repeat qcase; lra.
    + assert (Z3 : x == g) by (apply Z1; lia).
      assert (Prev : g + d <= b + default_epsilon).
      { destruct (nth_error_lt z (S i) ltac:(lia)) as [x2 Hx2].
        assert (L1 : inject_Z (Z.of_nat i) + 1 <= inject_Z N) by (change 1 with (inject_Z 1); rewrite <- inject_Z_plus, <- Zle_Qle; lia).
        pose proof (Qfloor_le ((b + default_epsilon - a) / d)) as L2. fold N in L2.
        assert (L4 : (inject_Z (Z.of_nat i) + 1) * d <= (b + default_epsilon - a) / d * d) by (apply Qmult_le_compat_r; lra).
        setoid_replace ((b + default_epsilon - a) / d * d) with (b + default_epsilon - a) in L4 by (field; lra).
        unfold g. lra. }
      assert (x' == g) by (destruct Hw as [Hw|Hw]; rewrite Hw; [reflexivity|unfold Qminb; qcase; lra]).
      split; [lra|]. split; [lra|]. intros _. lra.
Qed.
