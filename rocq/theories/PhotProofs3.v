From Coq Require Import String Reals Qreals Lra.
From Verif Require Import Base F64 SortLib RangeModel RangeSpec RangeProofs MeikModel TplModel TplSpec TplProofs TFitModel TFitSpec DetModel PhotModel PhotSpec PhotProofs.
Open Scope Q_scope.

(** * the samples of a range *)
Lemma filter_block {A} (P : A -> bool) : forall (l : list A) i j, (i <= j < List.length l)%nat -> (forall k x, nth_error l k = Some x -> (P x = true <-> (i <= k <= j)%nat)) -> filter P l = firstn (S j - i) (skipn i l).
Proof.
  induction l as [|h l IH]; intros i j L H; cbn [List.length] in L; [lia|]. cbn [filter].
  assert (N : forall i j, (forall k x, nth_error (h :: l) k = Some x -> (P x = true <-> (i <= k <= j)%nat)) -> forall k x, nth_error l k = Some x -> (P x = true <-> (i <= S k <= j)%nat)) by (intros a b G k x X; exact (G (S k) x X)).
  destruct i as [|i].
  - replace (P h) with true by (symmetry; apply (H 0%nat h eq_refl); lia). replace (S j - 0)%nat with (S j) by lia. cbn [skipn firstn]. f_equal. destruct j as [|j].
    + cbn [firstn]. clear IH L. assert (Z : forall x, In x l -> P x = false). { intros x X. destruct (In_nth_error _ _ X) as (k & K). pose proof (H (S k) x K) as G. destruct (P x); [|reflexivity]. destruct G as [G _]. specialize (G eq_refl). lia. }
      clear H N. induction l as [|x l IH]; [reflexivity|]. cbn [filter]. rewrite (Z x (or_introl eq_refl)). apply IH. intros y Y. apply Z. right. exact Y.
    + rewrite (IH 0%nat j) by (try lia; intros k x X; rewrite (N _ _ H k x X); lia). replace (S j - 0)%nat with (S j) by lia. reflexivity.
  - destruct (P h) eqn:E; [exfalso; pose proof (proj1 (H 0%nat h eq_refl) E); lia|]. cbn [skipn]. destruct j as [|j]; [lia|]. rewrite (IH i j); [f_equal; lia|lia|]. intros k x X. rewrite (N _ _ H k x X). lia.
Qed.
Lemma combine_skipn {A B} (a : list A) (b : list B) n : skipn n (combine a b) = combine (skipn n a) (skipn n b).
Proof. revert a b; induction n as [|n IH]; intros [|x a] [|y b]; cbn [skipn combine]; auto. destruct (skipn n a); reflexivity. Qed.
Lemma map_snd_combine {A B} (a : list A) (b : list B) : (List.length b <= List.length a)%nat -> map snd (combine a b) = b.
Proof. revert b; induction a as [|x a IH]; intros [|y b] L; cbn [List.length combine map snd] in *; try lia; auto. f_equal. apply IH. lia. Qed.
Lemma map_firstn {A B} (f : A -> B) l n : map f (firstn n l) = firstn n (map f l).
Proof. revert n; induction l as [|x l IH]; intros [|n]; cbn [firstn map]; auto. f_equal. apply IH. Qed.
Lemma errors_block axis err r i j : List.length axis = List.length err -> (i <= j < List.length axis)%nat -> (forall k x, nth_error axis k = Some x -> ((rbeg r <= x /\ x <= rend r) <-> (i <= k <= j)%nat)) ->
  errors_in axis err r = map Q2R (firstn (S j - i) (skipn i err)).
Proof.
  intros L J H. unfold errors_in. rewrite (filter_block _ (combine axis err) i j).
  - rewrite <- (map_map snd Q2R). rewrite map_firstn, combine_skipn, map_snd_combine by (rewrite !skipn_length; lia). reflexivity.
  - rewrite combine_length. lia.
  - intros k [x e] X. assert (Nx : nth_error axis k = Some x). { clear - X. revert k err X. induction axis as [|a l IH]; intros [|k] [|e' err] X; cbn [combine nth_error] in *; try discriminate; [inversion X; reflexivity|exact (IH _ _ X)]. }
    rewrite <- (H k x Nx). unfold inside. cbn [fst]. rewrite andb_true_iff, !Qle_bool_iff. reflexivity.
Qed.
Lemma gauss_norm_ln l : (forall e, In e l -> 0 < e) -> gauss_norm (map Q2R l) = (- INR (List.length l) * / 2 * ln (2 * PI) - sum_ln l)%R.
Proof.
  assert (P2 : (0 < 2 * PI)%R) by (pose proof PI_RGT_0; lra). assert (Sp : (0 < sqrt (2 * PI))%R) by (apply sqrt_lt_R0; exact P2).
  assert (Ls : ln (sqrt (2 * PI)) = (/ 2 * ln (2 * PI))%R). { rewrite <- (sqrt_sqrt (2 * PI)) at 2 by lra. rewrite ln_mult by assumption. lra. }
  induction l as [|e l IH]; intro H; [cbn; lra|]. change (map Q2R (e :: l)) with (Q2R e :: map Q2R l). cbn [gauss_norm sum_ln]. rewrite IH by (intros x X; apply H; right; exact X).
  assert (Pe : (0 < Q2R e)%R) by (rewrite <- RMicromega.Q2R_0; apply Qlt_Rlt, H; left; reflexivity). rewrite ln_Rinv by (apply Rmult_lt_0_compat; assumption). rewrite ln_mult by assumption. rewrite Ls. change (List.length (e :: l)) with (S (List.length l)). rewrite S_INR. lra.
Qed.
Lemma gauss_norm_app a b : gauss_norm (a ++ b) = (gauss_norm a + gauss_norm b)%R.
Proof. induction a as [|x a IH]; cbn [app gauss_norm]; [lra|]. rewrite IH. lra. Qed.
Lemma Base_cst : forall l x, (forall p, In p l -> good_spectrum p) -> BaseCstLog l = Ok x -> x = gauss_norm (flat_map (fun p => let '(axis, err, r) := p in errors_in axis err r) l).
Proof.
  induction l as [|[[axis err] r] l IH]; intros x G H; cbn [BaseCstLog] in H; [inversion H; reflexivity|].
  destruct (spectrum_cst axis err r) as [u| |] eqn:U; try discriminate. cbn [rbind] in H. destruct (BaseCstLog l) as [v| |] eqn:V; try discriminate. cbn [rbind] in H. inversion H; subst x. cbn [flat_map]. rewrite gauss_norm_app, <- (IH v); [|intros p P; apply G; right; exact P|reflexivity]. f_equal.
  destruct (G _ (or_introl eq_refl)) as (I0 & L & E). unfold spectrum_cst in U. pose proof (getClosed_spec r axis I0) as C. destruct (getClosedIntervalIndices r axis) as [[i j]| |]; try discriminate. destruct C as [C1 C2]. cbn [rbind fst snd] in U.
  destruct (Nat.ltb_spec (List.length err) (S j)) as [X|X]; [discriminate|]. inversion U. rewrite (errors_block axis err r i j L C1).
  - rewrite gauss_norm_ln; [|intros e X0; apply E; rewrite <- (firstn_skipn i err); apply in_or_app; right; rewrite <- (firstn_skipn (S j - i) (skipn i err)); apply in_or_app; left; exact X0].
    rewrite firstn_length, skipn_length. replace (Nat.min (S j - i) (List.length err - i)) with (S j - i)%nat by lia. reflexivity.
  - intros k y Y. rewrite <- (C2 k y Y). unfold RangeSpec.inside. reflexivity.
Qed.
Lemma Base_cst_total : forall l, (forall p, In p l -> good_spectrum p /\ let '(axis, err, r) := p in exists x, In x axis /\ rbeg r <= x <= rend r) -> exists x, BaseCstLog l = Ok x.
Proof.
  induction l as [|[[axis err] r] l IH]; intros G; cbn [BaseCstLog]; [eauto|]. destruct (G _ (or_introl eq_refl)) as ((I0 & L & E) & x & X & R0). destruct IH as (v & V); [intros p P; apply G; right; exact P|]. rewrite V.
  unfold spectrum_cst. pose proof (getClosed_spec r axis I0) as C. destruct (getClosedIntervalIndices r axis) as [[i j]|er|] eqn:Eg.
  - cbn [rbind fst snd]. destruct C as [C1 _]. destruct (Nat.ltb_spec (List.length err) (S j)); [lia|]. cbn [rbind]. eauto.
  - exfalso. destruct er; try contradiction; try (destruct C as [C0 C]; apply (C ltac:(unfold well_formed; lra) x X); unfold RangeSpec.inside; tauto). rewrite C in X. destruct X.
  - destruct C.
Qed.
(** the photometric part *)
Lemma sum_ln_spec data w : ordered data -> 0 < w -> (forall n d, bound data n d -> 0 < p_err d) -> forall names s, sum_ln_err data w names = Ok s ->
  exists ds, Forall2 (bound data) names ds /\ (gauss_norm (map (fun d => Q2R (p_err d / w)) ds) = - INR (List.length names) * / 2 * ln (2 * PI) + s - 2 * sum_ln (map p_err ds))%R.
Proof.
  intros Od W E. induction names as [|n names IH]; intros s H; cbn [sum_ln_err] in H; [inversion H; subst; exists []; split; [constructor|cbn; lra]|].
  destruct (mget data n) as [d| |] eqn:Ed; try discriminate. cbn [rbind] in H. destruct (sum_ln_err data w names) as [y| |] eqn:Ey; try discriminate. cbn [rbind] in H. inversion H; subst s. clear H.
  destruct (IH y eq_refl) as (ds & F & G). apply (mget_bound _ _ _ Od) in Ed. pose proof (E _ _ Ed) as Pe. exists (d :: ds). split; [constructor; assumption|]. cbn [map gauss_norm sum_ln]. rewrite G.
  assert (P2 : (0 < 2 * PI)%R) by (pose proof PI_RGT_0; lra). assert (Sp : (0 < sqrt (2 * PI))%R) by (apply sqrt_lt_R0; exact P2).
  assert (Ls : ln (sqrt (2 * PI)) = (/ 2 * ln (2 * PI))%R). { rewrite <- (sqrt_sqrt (2 * PI)) at 2 by lra. rewrite ln_mult by assumption. lra. }
  assert (Re : (0 < Q2R (p_err d))%R) by (rewrite <- RMicromega.Q2R_0; apply Qlt_Rlt; exact Pe). assert (Rw : (0 < Q2R w)%R) by (rewrite <- RMicromega.Q2R_0; apply Qlt_Rlt; exact W).
  assert (Wn : ~ w == 0) by lra. rewrite Q2R_mult. unfold Qdiv. rewrite Q2R_mult, Q2R_inv by exact Wn. generalize dependent (Q2R (p_err d)). generalize dependent (Q2R w). intros rw Rw re Re.
  assert (Ri : (0 < / rw)%R) by (apply Rinv_0_lt_compat; exact Rw). assert (Rp : (0 < re * / rw)%R) by (apply Rmult_lt_0_compat; assumption).
  rewrite ln_Rinv by (apply Rmult_lt_0_compat; assumption). rewrite (ln_mult (re * / rw)) by assumption. rewrite (ln_mult re (/ rw)) by assumption. rewrite (ln_mult re rw) by assumption. rewrite (ln_Rinv rw) by exact Rw. rewrite Ls. change (List.length (n :: names)) with (S (List.length names)). rewrite S_INR. lra.
Qed.
Lemma Phot_cst l cat data w x : (forall p, In p l -> good_spectrum p) -> ordered data -> 0 < w -> (forall n d, bound data n d -> 0 < p_err d) -> PhotCstLog l cat data w = Ok x ->
  exists ds, Forall2 (bound data) (keys cat) ds /\ x = (gauss_norm (flat_map (fun p => let '(axis, err, r) := p in errors_in axis err r) l) + gauss_norm (map (fun d => Q2R (p_err d / w)) ds) + 2 * sum_ln (map p_err ds))%R.
Proof.
  intros G Od W E H. unfold PhotCstLog in H. destruct (BaseCstLog l) as [b| |] eqn:B; try discriminate. cbn [rbind] in H. destruct (sum_ln_err data w (keys cat)) as [s| |] eqn:Es; try discriminate. cbn [rbind] in H. inversion H.
  destruct (sum_ln_spec data w Od W E _ _ Es) as (ds & F & Gn). exists ds. split; [exact F|]. rewrite <- (Base_cst l b G B), Gn. unfold keys. rewrite map_length. lra.
Qed.

(** * the photometry of the model *)
Lemma Integrated cat tpls amp : ordered cat -> ordered tpls -> forall names m0 m, ordered m0 -> getIntegratedFluxes cat tpls amp names m0 = Ok m -> ordered m /\
  forall n, (In n names -> exists b t v, bound cat n b /\ bound tpls n t /\ IntegrateFlux b (t_flux t) = Ok v /\ mget m n = Ok (match v with Fin x => Fin (x * amp) | _ => v end)) /\ (~ In n names -> mget m n = mget m0 n).
Proof.
  intros Oc Ot. induction names as [|k names IH]; intros m0 m O H; cbn [getIntegratedFluxes] in H; [inversion H; subst; split; [exact O|]; intro n; split; [intros []|reflexivity]|].
  destruct (mget cat k) as [b| |] eqn:Eb; try discriminate. cbn [rbind] in H. destruct (mget tpls k) as [t| |] eqn:Et; try discriminate. cbn [rbind] in H. destruct (IntegrateFlux b (t_flux t)) as [v| |] eqn:Ev; try discriminate. cbn [rbind] in H.
  set (x := match v with Fin x => Fin (x * amp) | _ => v end) in *. destruct (IH _ _ (mput_ordered true k x m0 O) H) as [Om G]. split; [exact Om|]. intro n. destruct (G n) as [G1 G2]. split.
  - intros Hn. destruct (in_dec string_dec n names) as [I0|I0]; [exact (G1 I0)|]. destruct Hn as [<-|Hn]; [|contradiction]. exists b, t, v. split; [apply mget_bound; auto|]. split; [apply mget_bound; auto|]. split; [exact Ev|]. rewrite (G2 I0), (mget_mput _ _ _ _ _ O), String.eqb_refl. reflexivity.
  - intro Hn. rewrite G2 by (intro X; apply Hn; right; exact X). rewrite (mget_mput _ _ _ _ _ O). destruct (String.eqb_spec n k) as [->|N]; [exfalso; apply Hn; left; reflexivity|reflexivity].
Qed.
