From Verif Require Import Base RBase DeltazModel DeltazSpec.
Open Scope R_scope.

Lemma lb_at z : Rstrictly_increasing z -> forall iz x, nth_error z iz = Some x -> Rlower_bound z x = iz.
Proof.
  induction z as [|a z IH]; intros H iz x Hx; [destruct iz; discriminate|].
  destruct iz as [|iz]; simpl in *.
  - injection Hx as ->. destruct (Rltb_spec x x); [lra|reflexivity].
  - assert (a < x) by (apply (H 0%nat (S iz)); simpl; auto; lia).
    destruct (Rltb_spec a x); [|contradiction]. f_equal. apply IH; auto.
    intros i j u v Hij Hu Hv. apply (H (S i) (S j)); simpl; auto; lia.
Qed.
Lemma GetIndices_at z iz x h : Rstrictly_increasing z -> nth_error z iz = Some x -> (0 <= h)%Z ->
  GetIndices z x h = Ok (Z.of_nat iz, Z.max (Z.of_nat iz - h) 0, Z.min (Z.of_nat iz + h) (Z.of_nat (length z) - 1))%Z.
Proof.
  intros H Hx Hh. unfold GetIndices. rewrite (lb_at z H iz x Hx), Hx. destruct (Reqb_spec x x); [reflexivity|contradiction].
Qed.
Lemma GetIndices_missing z x h : ~ In x z -> GetIndices z x h = Throw INTERNAL_ERROR.
Proof.
  intro H. unfold GetIndices. destruct (nth_error z (Rlower_bound z x)) as [y|] eqn:E; [|reflexivity].
  destruct (Reqb_spec y x) as [->|]; [|reflexivity]. exfalso. apply H. eapply nth_error_In; eauto.
Qed.

Fixpoint sxy (l : list (R * R)) : R := match l with [] => 0 | (x, y) :: t => x * y + sxy t end.
Fixpoint sxx (l : list (R * R)) : R := match l with [] => 0 | (x, y) :: t => x * x + sxx t end.
Fixpoint syy (l : list (R * R)) : R := match l with [] => 0 | (x, y) :: t => y * y + syy t end.
Lemma residual_eq l c : residual l c = syy l - 2 * c * sxy l + c * c * sxx l.
Proof. induction l as [|[x y] l IH]; simpl; [lra|]. rewrite IH. lra. Qed.
Lemma sxx_nonneg l : 0 <= sxx l.
Proof. induction l as [|[x y] l IH]; simpl; [lra|]. pose proof (Rle_0_sqr x). unfold Rsqr in *. lra. Qed.
Lemma sxx_pos l x y : In (x, y) l -> x <> 0 -> 0 < sxx l.
Proof.
  induction l as [|[a b] l IH]; intros H N; [destruct H|]. simpl. pose proof (sxx_nonneg l). pose proof (Rle_0_sqr a). unfold Rsqr in *.
  destruct H as [H|H]; [injection H as -> ->|specialize (IH H N); lra].
  pose proof (Rsqr_pos_lt x N). unfold Rsqr in *. lra.
Qed.
Lemma least_squares l : 0 < sxx l -> forall c', c' <> sxy l / sxx l -> residual l (sxy l / sxx l) < residual l c'.
Proof.
  intros P c' N. rewrite !residual_eq. set (c := sxy l / sxx l) in *.
  assert (E : sxy l = c * sxx l) by (unfold c; field; lra). rewrite E.
  assert (0 < (c' - c) ^ 2) by (assert (D : c' - c <> 0) by lra; pose proof (Rsqr_pos_lt _ D); unfold Rsqr in *; lra). nra.
Qed.
Lemma least_squares_unique l c : 0 < sxx l -> (forall c', c' <> c -> residual l c < residual l c') -> c = sxy l / sxx l.
Proof.
  intros P H. destruct (Req_dec (sxy l / sxx l) c) as [E|N]; [auto|].
  pose proof (H _ N). pose proof (least_squares l P c). assert (c <> sxy l / sxx l) by congruence. specialize (H1 H2). lra.
Qed.

Lemma skipn_S {A} (l : list A) k x : nth_error l k = Some x -> skipn k l = x :: skipn (S k) l.
Proof.
  revert k; induction l as [|a l IH]; intros k H; [destruct k; discriminate|].
  destruct k as [|k]; simpl in *; [injection H as ->; reflexivity|]. apply IH, H.
Qed.
Lemma curv_loop_spec merits z x0 y0 : length merits = length z -> forall n i s s2, (i + n <= length z)%nat ->
  curv_loop merits z x0 y0 i n s s2 =
  Ok (s + sxy (centred (firstn n (skipn i z)) (firstn n (skipn i merits)) x0 y0),
      s2 + sxx (centred (firstn n (skipn i z)) (firstn n (skipn i merits)) x0 y0)).
Proof.
  intro Hl. induction n as [|n IH]; intros i s s2 H; [simpl; f_equal; f_equal; lra|].
  cbn [curv_loop]. destruct (vget_in z i) as [x Ex]; [lia|]. destruct (vget_in merits i) as [y Ey]; [lia|].
  rewrite Ex, Ey. cbn [rbind]. apply vget_Ok in Ex, Ey. rewrite (skipn_S _ _ _ Ex), (skipn_S _ _ _ Ey).
  cbn [firstn]. rewrite IH by lia. unfold centred. cbn [combine map fst snd sxy sxx]. f_equal. f_equal; lra.
Qed.
Lemma skipn_firstn_swap {A} (l : list A) : forall a b, skipn a (firstn (a + b) l) = firstn b (skipn a l).
Proof.
  induction l as [|x l IH]; intros a b.
  - rewrite skipn_nil, !firstn_nil. apply skipn_nil.
  - destruct a as [|a]; [reflexivity|]. simpl. apply IH.
Qed.
Lemma window_eq {A} (l : list A) h iz : (iz < length l)%nat ->
  window h iz l = firstn (Nat.min (iz + h) (length l - 1) + 1 - (iz - h)) (skipn (iz - h) l).
Proof.
  intro H. unfold window. rewrite <- skipn_firstn_swap. replace (iz - h + (Nat.min (iz + h) (length l - 1) + 1 - (iz - h)))%nat with (Nat.min (iz + h) (length l - 1) + 1)%nat by lia.
  destruct (Nat.le_gt_cases (iz + h) (length l - 1)) as [C|C].
  - rewrite Nat.min_l by exact C. reflexivity.
  - rewrite Nat.min_r by lia. rewrite !firstn_all2 by lia. reflexivity.
Qed.

(** the quotient computed around [iz] *)
Definition wsamples (z pdf : list R) (iz h : nat) (x0 y0 : R) := centred (window h iz z) (window h iz pdf) x0 y0.
Lemma Compute_spec merits z iz h x0 y0 : length merits = length z -> nth_error z iz = Some x0 -> nth_error merits iz = Some y0 ->
  Compute merits z (Z.of_nat iz) (Z.max (Z.of_nat iz - Z.of_nat h) 0) (Z.min (Z.of_nat iz + Z.of_nat h) (Z.of_nat (length z) - 1)) =
  if Reqb (sxx (wsamples z merits iz h x0 y0)) 0 then Ok None else
  let c0 := sxy (wsamples z merits iz h x0 y0) / sxx (wsamples z merits iz h x0 y0) in
  if Rleb c0 0 then Throw DZ_NOT_COMPUTABLE else Ok (Some (sqrt (1 / c0))).
Proof.
  intros Hl Hx Hy. assert (Li : (iz < length z)%nat) by (apply nth_error_Some; congruence).
  unfold Compute. rewrite Nat2Z.id. unfold vget. rewrite Hx, Hy. cbn [rbind].
  set (a := Z.to_nat (Z.max (Z.of_nat iz - Z.of_nat h) 0)).
  set (n := Z.to_nat (Z.min (Z.of_nat iz + Z.of_nat h) (Z.of_nat (length z) - 1) + 1 - Z.max (Z.of_nat iz - Z.of_nat h) 0)).
  assert (Ea : a = (iz - h)%nat) by (unfold a; lia).
  assert (En : n = (Nat.min (iz + h) (length z - 1) + 1 - (iz - h))%nat) by (unfold n; lia).
  rewrite curv_loop_spec by (auto; lia). cbn [rbind]. rewrite !Rplus_0_l, Ea, En.
  unfold wsamples. rewrite (window_eq z h iz Li), (window_eq merits h iz) by lia. rewrite Hl. reflexivity.
Qed.

Lemma in_window {A} (l : list A) h iz k x : nth_error l k = Some x -> (iz - h <= k <= iz + h)%nat -> In x (window h iz l).
Proof.
  intros Hx Hk. unfold window. apply nth_error_In with (n := (k - (iz - h))%nat).
  assert (S : forall (l : list A) n k, nth_error (skipn n l) k = nth_error l (n + k)).
  { clear. induction l as [|a l IH]; intros [|n] k; simpl; auto. destruct k; reflexivity. }
  assert (F : forall (l : list A) n k, (k < n)%nat -> nth_error (firstn n l) k = nth_error l k).
  { clear. induction l as [|a l IH]; intros [|n] k H; try lia; simpl; [destruct k; reflexivity|]. destruct k as [|k]; simpl; [reflexivity|]. apply IH. lia. }
  rewrite S, F by lia. replace (iz - h + (k - (iz - h)))%nat with k by lia. exact Hx.
Qed.
Lemma nth_window {A} (l : list A) h iz k x : nth_error l k = Some x -> (iz - h <= k <= iz + h)%nat -> nth_error (window h iz l) (k - (iz - h)) = Some x.
Proof.
  intros Hx Hk. unfold window.
  assert (S : forall (l : list A) n k, nth_error (skipn n l) k = nth_error l (n + k)).
  { clear. induction l as [|a l IH]; intros [|n] k; simpl; auto. destruct k; reflexivity. }
  assert (F : forall (l : list A) n k, (k < n)%nat -> nth_error (firstn n l) k = nth_error l k).
  { clear. induction l as [|a l IH]; intros [|n] k H; try lia; simpl; [destruct k; reflexivity|]. destruct k as [|k]; simpl; [reflexivity|]. apply IH. lia. }
  rewrite S, F by lia. replace (iz - h + (k - (iz - h)))%nat with k by lia. exact Hx.
Qed.
Lemma nth_combine {A B} : forall (a : list A) (b : list B) k x y, nth_error a k = Some x -> nth_error b k = Some y -> nth_error (combine a b) k = Some (x, y).
Proof.
  induction a as [|u a IH]; intros [|w b] k x y Hx Hy; try (destruct k; discriminate).
  destruct k as [|k]; simpl in *; [injection Hx as ->; injection Hy as ->; reflexivity|apply IH; auto].
Qed.
Lemma sxx_window z pdf iz h x0 y0 : Rstrictly_increasing z -> length pdf = length z -> (2 <= length z)%nat -> (1 <= h)%nat ->
  nth_error z iz = Some x0 -> 0 < sxx (wsamples z pdf iz h x0 y0).
Proof.
  intros Hz Hl H2 Hh Hx. assert (Li : (iz < length z)%nat) by (apply nth_error_Some; congruence).
  set (k := if Nat.eqb iz 0 then 1%nat else (iz - 1)%nat).
  assert (Hk : (k < length z)%nat /\ (iz - h <= k <= iz + h)%nat /\ k <> iz) by (unfold k; destruct (Nat.eqb_spec iz 0); lia).
  destruct Hk as [K1 [K2 K3]].
  destruct (nth_error z k) as [x|] eqn:Ex; [|apply nth_error_None in Ex; lia].
  destruct (nth_error pdf k) as [y|] eqn:Ey; [|apply nth_error_None in Ey; lia].
  assert (Nx : x - x0 <> 0).
  { destruct (Nat.lt_trichotomy k iz) as [C|[C|C]]; [pose proof (Hz k iz x x0 C Ex Hx); lra|contradiction|pose proof (Hz iz k x0 x C Hx Ex); lra]. }
  apply (sxx_pos _ ((x - x0) ^ 2) (y0 - y)).
  - unfold wsamples, centred. apply in_map_iff. exists (x, y). split; [reflexivity|].
    eapply nth_error_In. apply nth_combine; apply nth_window; eauto.
  - apply pow_nonzero. exact Nx.
Qed.

Lemma curvature_iff z pdf iz h x0 y0 c : Rstrictly_increasing z -> length pdf = length z -> (2 <= length z)%nat -> (1 <= h)%nat ->
  nth_error z iz = Some x0 -> nth_error pdf iz = Some y0 ->
  curvature z pdf iz h c <-> c = sxy (wsamples z pdf iz h x0 y0) / sxx (wsamples z pdf iz h x0 y0).
Proof.
  intros Hz Hl H2 Hh Hx Hy. pose proof (sxx_window z pdf iz h x0 y0 Hz Hl H2 Hh Hx) as P. unfold curvature. split.
  - intros [x [y [Ex [Ey M]]]]. rewrite Hx in Ex. rewrite Hy in Ey. injection Ex as <-. injection Ey as <-.
    apply least_squares_unique; auto.
  - intros ->. exists x0, y0. split; [exact Hx|]. split; [exact Hy|]. apply least_squares. exact P.
Qed.

Lemma attempt z pdf iz x0 y0 (h : nat) : Rstrictly_increasing z -> length pdf = length z -> (2 <= length z)%nat -> (1 <= h)%nat ->
  nth_error z iz = Some x0 -> nth_error pdf iz = Some y0 ->
  exists c, curvature z pdf iz h c /\
    (do (a, b, d) <- GetIndices z x0 (Z.of_nat h); Compute pdf z a b d) =
    if Rleb c 0 then Throw DZ_NOT_COMPUTABLE else Ok (Some (sqrt (1 / c))).
Proof.
  intros Hz Hl H2 Hh Hx Hy. pose proof (sxx_window z pdf iz h x0 y0 Hz Hl H2 Hh Hx) as P.
  eexists. split; [apply (curvature_iff z pdf iz h x0 y0); auto|].
  rewrite (GetIndices_at z iz x0 (Z.of_nat h) Hz Hx) by lia. cbn [rbind].
  rewrite (Compute_spec pdf z iz h x0 y0 Hl Hx Hy). destruct (Reqb_spec (sxx (wsamples z pdf iz h x0 y0)) 0); [lra|]. reflexivity.
Qed.

Theorem GetDeltaz_spec z pdf iz x0 : Rstrictly_increasing z -> length pdf = length z -> (2 <= length z)%nat -> nth_error z iz = Some x0 ->
  exists c5 c2, curvature z pdf iz 5 c5 /\ curvature z pdf iz 2 c2 /\
    GetDeltaz z pdf x0 = Ok (if Rlt_dec 0 c5 then sqrt (1 / c5) else if Rlt_dec 0 c2 then sqrt (1 / c2) else 1 / 1000).
Proof.
  intros Hz Hl H2 Hx. assert (Li : (iz < length z)%nat) by (apply nth_error_Some; congruence).
  destruct (nth_error pdf iz) as [y0|] eqn:Hy; [|apply nth_error_None in Hy; lia].
  destruct (attempt z pdf iz x0 y0 5 Hz Hl H2 ltac:(lia) Hx Hy) as [c5 [C5 E5]].
  destruct (attempt z pdf iz x0 y0 2 Hz Hl H2 ltac:(lia) Hx Hy) as [c2 [C2 E2]].
  exists c5, c2. split; [exact C5|]. split; [exact C2|].
  unfold GetDeltaz. destruct (Nat.eqb_spec (length z) 0); [lia|].
  change (attempts z pdf x0 2 0 None) with
    (do (iz, izmin, izmax) <- GetIndices z x0 5;
     match Compute pdf z iz izmin izmax with
     | Ok d => Ok d
     | Throw _ => do (iz, izmin, izmax) <- GetIndices z x0 2;
                  match Compute pdf z iz izmin izmax with Ok d => Ok d | Throw _ => Ok None | UB => UB end
     | UB => UB end).
  change (Z.of_nat 5) with 5%Z in E5. change (Z.of_nat 2) with 2%Z in E2.
  rewrite (GetIndices_at z iz x0 5 Hz Hx), (GetIndices_at z iz x0 2 Hz Hx) in * by lia. cbn [rbind] in *.
  rewrite E5, E2.
  destruct (Rleb_spec c5 0); destruct (Rlt_dec 0 c5); try lra; [|reflexivity].
  destruct (Rleb_spec c2 0); destruct (Rlt_dec 0 c2); try lra; reflexivity.
Qed.
Lemma GetDeltaz_single x pdf y : GetDeltaz [x] (y :: pdf) x = Ok (1 / 1000).
Proof.
  unfold GetDeltaz. simpl. unfold GetIndices, Compute. simpl. destruct (Rltb_spec x x); [lra|]. simpl.
  destruct (Reqb_spec x x); [|contradiction]. simpl. replace (x - x) with 0 by lra. rewrite !Rmult_0_l, !Rplus_0_l.
  destruct (Reqb_spec 0 0); [reflexivity|contradiction].
Qed.
Theorem GetDeltaz_positive z pdf x0 : Rstrictly_increasing z -> length pdf = length z -> In x0 z ->
  exists dz, GetDeltaz z pdf x0 = Ok dz /\ 0 < dz.
Proof.
  intros Hz Hl Hin. apply In_nth_error in Hin. destruct Hin as [iz Hx].
  assert (Li : (iz < length z)%nat) by (apply nth_error_Some; congruence).
  destruct (Nat.le_gt_cases 2 (length z)) as [H2|H2].
  - destruct (GetDeltaz_spec z pdf iz x0 Hz Hl H2 Hx) as [c5 [c2 [_ [_ E]]]]. eexists; split; [exact E|].
    destruct (Rlt_dec 0 c5); [apply sqrt_lt_R0, Rdiv_lt_0_compat; lra|].
    destruct (Rlt_dec 0 c2); [apply sqrt_lt_R0, Rdiv_lt_0_compat; lra|lra].
  - destruct z as [|x [|x' z]]; simpl in *; try lia. destruct pdf as [|y pdf]; [discriminate|].
    destruct iz as [|iz]; [|destruct iz; discriminate]. injection Hx as ->. eexists; split; [apply GetDeltaz_single|lra].
Qed.
Lemma GetDeltaz_missing z pdf x : z <> [] -> ~ In x z -> GetDeltaz z pdf x = Throw INTERNAL_ERROR.
Proof.
  intros Hz H. unfold GetDeltaz. destruct (Nat.eqb_spec (length z) 0) as [E|_]; [destruct z; [congruence|discriminate]|].
  cbn [attempts]. rewrite GetIndices_missing by exact H. reflexivity.
Qed.
Lemma GetDeltaz_empty pdf x : GetDeltaz [] pdf x = Throw INTERNAL_ERROR.
Proof. reflexivity. Qed.

(** Gaussian density of standard deviation [s] centred on a sample *)
Lemma sxy_prop l c : Forall (fun q => snd q = c * fst q) l -> sxy l = c * sxx l.
Proof. induction l as [|[x y] l IH]; intro H; simpl; [lra|]. inversion H as [|? ? E H']; subst. simpl in E. subst y. rewrite IH by exact H'. lra. Qed.
Theorem GetDeltaz_gaussian z pdf iz x0 A s : Rstrictly_increasing z -> length pdf = length z -> (2 <= length z)%nat ->
  nth_error z iz = Some x0 -> 0 < s ->
  (forall k x y, nth_error z k = Some x -> nth_error pdf k = Some y -> y = A - (x - x0) ^ 2 / (2 * s ^ 2)) ->
  GetDeltaz z pdf x0 = Ok (sqrt 2 * s).
Proof.
  intros Hz Hl H2 Hx Hs Hg. assert (Li : (iz < length z)%nat) by (apply nth_error_Some; congruence).
  destruct (nth_error pdf iz) as [y0|] eqn:Hy; [|apply nth_error_None in Hy; lia].
  pose proof (Hg iz x0 y0 Hx Hy) as E0. replace ((x0 - x0) ^ 2) with 0 in E0 by lra.
  assert (Ps : 0 < s ^ 2) by (apply pow_lt; exact Hs).
  assert (Y0 : y0 = A) by (rewrite E0; field; lra).
  destruct (GetDeltaz_spec z pdf iz x0 Hz Hl H2 Hx) as [c5 [c2 [C5 [_ E]]]]. rewrite E.
  apply (curvature_iff z pdf iz 5 x0 y0) in C5; auto; try lia.
  pose proof (sxx_window z pdf iz 5 x0 y0 Hz Hl H2 ltac:(lia) Hx) as P.
  assert (F : Forall (fun q => snd q = / (2 * s ^ 2) * fst q) (wsamples z pdf iz 5 x0 y0)).
  { apply Forall_forall. intros [u w] Hin. unfold wsamples, centred in Hin. apply in_map_iff in Hin.
    destruct Hin as [[x y] [Eq Hin]]. cbn [fst snd] in Eq. injection Eq as <- <-. cbn [fst snd].
    assert (In (x, y) (combine z pdf)) as Hc.
    { clear - Hin. unfold window in Hin. revert Hin. generalize (iz - 5)%nat as a. generalize (iz + 5 + 1)%nat as b. intros b a.
      assert (F : forall (l l' : list R) b, combine (firstn b l) (firstn b l') = firstn b (combine l l')) by (intros; symmetry; apply combine_firstn).
      assert (S : forall a (l l' : list R), combine (skipn a l) (skipn a l') = skipn a (combine l l')).
      { clear. induction a as [|a IH]; intros [|x l] [|y l']; simpl; auto; [destruct (skipn a l); reflexivity]. }
      rewrite S, F. intro H.
      assert (In (x, y) (firstn b (combine z pdf))) by (rewrite <- (firstn_skipn a (firstn b (combine z pdf))); apply in_or_app; right; exact H).
      rewrite <- (firstn_skipn b (combine z pdf)). apply in_or_app. left. exact H0. }
    apply In_nth_error in Hc. destruct Hc as [k Hk].
    assert (Kx : nth_error z k = Some x /\ nth_error pdf k = Some y).
    { clear - Hk. revert pdf k Hk. induction z as [|a z IH]; intros [|b pdf] [|k] Hk; simpl in *; try discriminate; [injection Hk as -> ->; auto|apply IH; exact Hk]. }
    destruct Kx as [K1 K2]. rewrite (Hg k x y K1 K2), Y0. field. lra. }
  rewrite (sxy_prop _ _ F) in C5.
  assert (C : c5 = / (2 * s ^ 2)) by (rewrite C5; field; lra).
  assert (Pc : 0 < c5) by (rewrite C; apply Rinv_0_lt_compat; lra).
  destruct (Rlt_dec 0 c5); [|contradiction]. f_equal. rewrite C.
  replace (1 / / (2 * s ^ 2)) with (2 * s ^ 2) by (field; lra).
  rewrite sqrt_mult by lra. rewrite sqrt_pow2 by lra. reflexivity.
Qed.
