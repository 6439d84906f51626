From Coq Require Import String.
From Verif Require Import Base RulesModel RulesSpec.
Open Scope Q_scope.

(** ** lookups *)
Lemma ltype_eqb_spec a b : ltype_eqb a b = true <-> a = b.
Proof. destruct a, b; simpl; split; congruence. Qed.

Lemma find_index_some {A} (p : A -> bool) l i :
  find_index p l = Some i <->
  (exists x, nth_error l i = Some x /\ p x = true) /\
  (forall i' x', (i' < i)%nat -> nth_error l i' = Some x' -> p x' = false).
Proof.
  revert i; induction l as [|a l IH]; intro i; simpl.
  - split; [discriminate|]. intros [[x [H _]] _]. destruct i; discriminate.
  - destruct (p a) eqn:Ha.
    + split.
      * intro H; injection H as <-. split; [exists a; auto|]. intros i' x' Hi; inversion Hi.
      * intros [[x [Hx Hp]] Hm]. destruct i as [|i]; [reflexivity|].
        specialize (Hm O a (Nat.lt_0_succ _) eq_refl). congruence.
    + destruct i as [|i]; simpl.
      * split.
        -- destruct (find_index p l); discriminate.
        -- intros [[x [Hx Hp]] _]. injection Hx as ->. congruence.
      * split.
        -- intro H. destruct (find_index p l) as [k|] eqn:E; [|discriminate].
           simpl in H. apply (f_equal (fun o => match o with Some n => Nat.pred n | None => O end)) in H.
           simpl in H. subst k. destruct (proj1 (IH i) eq_refl) as [H1 H2]. split; [exact H1|].
           intros i' x' Hi Hx. destruct i' as [|i']; [injection Hx as <-; exact Ha|].
           apply (H2 i' x'); [lia|exact Hx].
        -- intros [H1 H2].
           assert (E : find_index p l = Some i).
           { apply IH. split; [exact H1|]. intros i' x' Hi Hx. apply (H2 (S i') x'); [lia|exact Hx]. }
           rewrite E; reflexivity.
Qed.
Lemma find_index_none {A} (p : A -> bool) l : find_index p l = None <-> forall x, In x l -> p x = false.
Proof.
  induction l as [|a l IH]; simpl.
  - split; [intros _ x []|reflexivity].
  - destruct (p a) eqn:Ha.
    + split; [discriminate|]. intro H. rewrite (H a (or_introl eq_refl)) in Ha; discriminate.
    + split.
      * intro H. destruct (find_index p l); [discriminate|]. intros x [<-|Hx]; [exact Ha|].
        now apply IH.
      * intro H. rewrite (proj2 IH); [reflexivity|]. intros x Hx; apply H; now right.
Qed.

Lemma findElementIndex_spec tag ty es i j : ty <> AllTypes ->
  findElementIndex tag ty es = Some (i, j) <-> designates es ty tag i j.
Proof.
  intro Hty. unfold findElementIndex, designates.
  set (p := fun e => _).
  assert (Hp : forall e, p e = true <-> etype e = ty /\ exists l, In l (elines e) /\ contains tag (lname l) = true).
  { intro e. unfold p, getLineIndex. destruct (find_index _ (elines e)) as [k|] eqn:E.
    - apply find_index_some in E. destruct E as [[l [Hl Hc]] _].
      assert (X : ltype_eqb ty AllTypes = false) by (destruct ty; simpl; congruence).
      rewrite X; simpl. rewrite ltype_eqb_spec. split; [|tauto]. intro H. split; [exact H|].
      exists l; split; [eapply nth_error_In; eauto|exact Hc].
    - split; [discriminate|]. intros [_ [l [Hl Hc]]]. rewrite find_index_none in E.
      rewrite (E l Hl) in Hc; discriminate. }
  split.
  - destruct (find_index p es) as [k|] eqn:E; [|discriminate].
    apply find_index_some in E. destruct E as [[e [He Hpe]] Hmin]. rewrite He.
    unfold getLineIndex at 1. destruct (find_index _ (elines e)) as [m|] eqn:F; [|discriminate].
    simpl. intro H. assert (k = i /\ m = j) as [-> ->].
    { inversion H; auto. }
    apply find_index_some in F. destruct F as [[l [Hl Hc]] Hm].
    exists e, l. repeat split; auto.
    + apply Hp in Hpe; tauto.
    + intros i' e' Hi He' Ht l' Hl'. specialize (Hmin i' e' Hi He').
      destruct (contains tag (lname l')) eqn:C; [|reflexivity].
      assert (p e' = true) by (apply Hp; split; [exact Ht|exists l'; auto]). congruence.
  - intros [e [l [He [Hl [Ht [Hc [Hm Hmin]]]]]]].
    assert (E : find_index p es = Some i).
    { apply find_index_some. split.
      - exists e; split; [exact He|]. apply Hp. split; [exact Ht|]. exists l; split; [eapply nth_error_In; eauto|exact Hc].
      - intros i' e' Hi He'. destruct (p e') eqn:P; [|reflexivity]. apply Hp in P. destruct P as [Ht' [l' [Hl' Hc']]].
        rewrite (Hmin i' e' Hi He' Ht' l' Hl') in Hc'; discriminate. }
    rewrite E, He.
    assert (F : getLineIndex tag e = Some j).
    { unfold getLineIndex. apply find_index_some. split; [exists l; auto|]. intros; eapply Hm; eauto. }
    rewrite F; reflexivity.
Qed.

(** ** list updates *)
Lemma vset_spec {A} (l : list A) i x : (i < length l)%nat ->
  exists l', vset l i x = Ok l' /\ length l' = length l /\ nth_error l' i = Some x /\
    forall k, k <> i -> nth_error l' k = nth_error l k.
Proof.
  revert i; induction l as [|a l IH]; intros [|i] H; simpl in *; try lia.
  - exists (x :: l). repeat split. intros [|k] Hk; [congruence|reflexivity].
  - destruct (IH i) as [l' [E [L [N O]]]]; [lia|]. rewrite E. exists (a :: l').
    split; [reflexivity|]. split; [simpl; congruence|]. split; [exact N|].
    intros [|k] Hk; [reflexivity|]. simpl. apply O. congruence.
Qed.
Lemma nth_error_lt {A} (l : list A) i x : nth_error l i = Some x -> (i < length l)%nat.
Proof. intro H. apply nth_error_Some. congruence. Qed.

Lemma upd_elt_spec es i f e : nth_error es i = Some e ->
  exists es', upd_elt es i f = Ok es' /\ nth_error es' i = Some (f e) /\ untouched_but [i] es es'.
Proof.
  intro H. unfold upd_elt, vget. rewrite H. simpl.
  destruct (vset_spec es i (f e) (nth_error_lt _ _ _ H)) as [l' [E [L [N O]]]].
  exists l'. split; [exact E|]. split; [exact N|]. split; [exact L|].
  intros k Hk. apply O. intro; apply Hk; left; auto.
Qed.

(** ** element amplitudes *)
Lemma nth_error_map_some {A B} (f : A -> B) l i x : nth_error l i = Some x -> nth_error (map f l) i = Some (f x).
Proof. intro H. rewrite nth_error_map, H. reflexivity. Qed.

Lemma setAmplitudes_line c s e j l : etype e = Emission -> egout e = false ->
  nth_error (elines e) j = Some l -> lgout l = false ->
  nth_error (elines (setAmplitudes (Some c) s e)) j =
    Some (set_fit_std l (Some (c * nom l)) (omul s (Some (nom l)))).
Proof.
  intros Ht Hg Hj Hl. unfold setAmplitudes. rewrite Hg. simpl.
  rewrite (nth_error_map_some _ _ _ _ Hj), Hl. unfold setFittedAmplitude. rewrite Ht. reflexivity.
Qed.

Lemma max0_spec x : max0 x == Qmax 0 x.
Proof.
  unfold max0. destruct (Qltb_spec 0 x) as [H|H].
  - rewrite Q.max_r; [reflexivity|]. apply Qlt_le_weak, H.
  - rewrite Q.max_l; [reflexivity|lra].
Qed.
Lemma max0_cases x : (0 < x /\ max0 x = x) \/ (x <= 0 /\ max0 x = 0).
Proof. unfold max0. destruct (Qltb_spec 0 x) as [H|H]; [auto|right; split; [lra|reflexivity]]. Qed.

(** ** LimitFittedAmplitude *)
Lemma limit_below i lim e l f : nth_error (elines e) i = Some l -> fit l = Some f -> f <= lim ->
  limitFittedAmplitude i (Some lim) e = Ok (false, e).
Proof.
  intros Hi Hf Hle. unfold limitFittedAmplitude, vget. rewrite Hi; simpl. rewrite Hf.
  destruct (Qltb_spec lim f) as [H|H]; [lra|reflexivity].
Qed.
Lemma limit_nan i lim e l : nth_error (elines e) i = Some l -> fit l = None ->
  limitFittedAmplitude i lim e = Ok (false, e).
Proof. intros Hi Hf. unfold limitFittedAmplitude, vget. rewrite Hi; simpl. rewrite Hf. reflexivity. Qed.
Lemma limit_above i lim e l f : nth_error (elines e) i = Some l -> fit l = Some f -> lim < f -> ~ nom l == 0 ->
  limitFittedAmplitude i (Some lim) e =
    Ok (true, set_lines e (map (fun k => set_fit k (Some (nom k * (max0 lim / nom l)))) (elines e))).
Proof.
  intros Hi Hf Hlt Hn. unfold limitFittedAmplitude, vget. rewrite Hi; simpl. rewrite Hf.
  destruct (Qltb_spec lim f) as [H|H]; [|lra].
  destruct (Qeq_bool (nom l) 0) eqn:E; [apply Qeq_bool_iff in E; contradiction|]. reflexivity.
Qed.

(** ** the ratio rule *)
Lemma weight_ivw e k : ~ k == 0 -> exists w, weight (Some e) k = Some w /\ w == ivw e k /\ 0 <= w.
Proof.
  intro Hk. unfold weight, ivw. destruct (Qeq_bool e 0) eqn:E.
  - exists 0. repeat split; lra.
  - assert (He : ~ e == 0) by (intro X; apply Qeq_bool_iff in X; congruence).
    eexists; split; [reflexivity|]. split; [field; split; auto|].
    assert (0 < e * e * k * k).
    { assert (0 < e * e) by (destruct (Qlt_le_dec 0 e); [nra|assert (e < 0) by lra; nra]).
      assert (0 < k * k) by (destruct (Qlt_le_dec 0 k); [nra|assert (k < 0) by lra; nra]). nra. }
    unfold Qdiv. rewrite Qmult_1_l. apply Qlt_le_weak, Qinv_lt_0_compat; assumption.
Qed.
Lemma weight_pos e k : ~ k == 0 -> ~ e == 0 -> exists w, weight (Some e) k = Some w /\ 0 < w.
Proof.
  intros Hk He. unfold weight. destruct (Qeq_bool e 0) eqn:E; [apply Qeq_bool_iff in E; contradiction|].
  eexists; split; [reflexivity|].
  assert (0 < e * e * k * k).
  { assert (0 < e * e) by (destruct (Qlt_le_dec 0 e); [nra|assert (e < 0) by lra; nra]).
    assert (0 < k * k) by (destruct (Qlt_le_dec 0 k); [nra|assert (k < 0) by lra; nra]). nra. }
  unfold Qdiv. rewrite Qmult_1_l. apply Qinv_lt_0_compat; assumption.
Qed.

Lemma corrected_spec R a1 e1 a2 e2 : 0 < R -> ~ (e1 == 0 /\ e2 == 0) ->
  exists c, corrected R a1 (Some e1) a2 (Some e2) = Some c /\
    c * (ivw e1 1 + ivw e2 R) == a1 * ivw e1 1 + (R * a2) * ivw e2 R /\ between c a1 (R * a2).
Proof.
  intros HR He.
  destruct (weight_ivw e1 1) as [w1 [W1 [V1 P1]]]; [lra|].
  destruct (weight_ivw e2 R) as [w2 [W2 [V2 P2]]]; [lra|].
  assert (Hs : 0 < w1 + w2).
  { destruct (Qeq_dec e1 0) as [E1|E1].
    - assert (~ e2 == 0) by tauto. destruct (weight_pos e2 R) as [w [W P]]; [lra|assumption|].
      rewrite W in W2. injection W2 as <-. lra.
    - destruct (weight_pos e1 1) as [w [W P]]; [lra|assumption|]. rewrite W in W1. injection W1 as <-. lra. }
  unfold corrected. rewrite W1, W2.
  destruct (Qeq_bool (w1 + w2) 0) eqn:E; [apply Qeq_bool_iff in E; lra|].
  eexists; split; [reflexivity|].
  set (c := (a1 * w1 + a2 * w2 * R) / (w1 + w2)).
  assert (Hc : c * (w1 + w2) == a1 * w1 + R * a2 * w2) by (unfold c; field; lra).
  split; [rewrite <- V1, <- V2; exact Hc|].
  unfold between. destruct (Qlt_le_dec a1 (R * a2)) as [D|D].
  - left. split.
    + apply Qnot_lt_le. intro X. assert (c * (w1 + w2) < a1 * (w1 + w2)) by nra. nra.
    + apply Qnot_lt_le. intro X. assert ((R*a2) * (w1 + w2) < c * (w1 + w2)) by nra. nra.
  - right. split.
    + apply Qnot_lt_le. intro X. assert (c * (w1 + w2) < (R*a2) * (w1 + w2)) by nra. nra.
    + apply Qnot_lt_le. intro X. assert (a1 * (w1 + w2) < c * (w1 + w2)) by nra. nra.
Qed.

Lemma vget_line_ok es i j e l : nth_error es i = Some e -> nth_error (elines e) j = Some l ->
  vget_line es i j = Ok l.
Proof. intros H1 H2. unfold vget_line, vget. rewrite H1; simpl. rewrite H2. reflexivity. Qed.

Lemma designates_etype es ty tag i j e : designates es ty tag i j -> nth_error es i = Some e -> etype e = ty.
Proof. intros [e' [l [H [_ [T _]]]]] He. congruence. Qed.

Lemma ratio_cases es tagA tagB iA iB eA eB jA jB lA lB a b ea eb R :
  doublet es tagA tagB iA iB eA eB jA jB lA lB a b ea eb -> 0 < R ->
  ruleRatioRange Emission tagA tagB R es =
    if Qltb (Qabs (b * R)) (Qabs a)
    then do es1 <- upd_elt es iA (setAmplitudes (corrected R a (Some ea) b (Some eb)) (Some ea));
         upd_elt es1 iB (setAmplitudes (odiv (corrected R a (Some ea) b (Some eb)) R) (Some eb))
    else if Qltb (Qabs (a * R)) (Qabs b)
    then do es1 <- upd_elt es iB (setAmplitudes (corrected R b (Some eb) a (Some ea)) (Some eb));
         upd_elt es1 iA (setAmplitudes (odiv (corrected R b (Some eb) a (Some ea)) R) (Some ea))
    else Ok es.
Proof.
  intros [dA0 dB0 dAB0 dEA0 dEB0 dLA0 dLB0 dinA0 dinB0 dnA0 dnB0 dfA0 dfB0 dsA0 dsB0] HR. unfold ruleRatioRange.
  rewrite (proj2 (findElementIndex_spec tagA Emission es iA jA ltac:(discriminate)) dA0).
  rewrite (proj2 (findElementIndex_spec tagB Emission es iB jB ltac:(discriminate)) dB0).
  destruct (Nat.eqb_spec iA iB) as [X|_]; [contradiction|].
  unfold vget at 1 2. rewrite dEA0, dEB0. simpl rbind.
  destruct dinA0 as [-> _]. destruct dinB0 as [-> _]. simpl orb. cbv iota.
  rewrite (vget_line_ok _ _ _ _ _ dEA0 dLA0), (vget_line_ok _ _ _ _ _ dEB0 dLB0). simpl rbind.
  rewrite dfA0, dfB0, dsA0, dsB0. reflexivity.
Qed.

(** two successive updates of distinct elements *)
Lemma two_updates es i1 i2 e1 e2 f1 f2 : i1 <> i2 -> nth_error es i1 = Some e1 -> nth_error es i2 = Some e2 ->
  exists es', (do es1 <- upd_elt es i1 f1; upd_elt es1 i2 f2) = Ok es' /\
    nth_error es' i1 = Some (f1 e1) /\ nth_error es' i2 = Some (f2 e2) /\ untouched_but [i1; i2] es es'.
Proof.
  intros Hne H1 H2.
  destruct (upd_elt_spec es i1 f1 e1 H1) as [es1 [E1 [N1 [L1 O1]]]]. rewrite E1. simpl.
  assert (H2' : nth_error es1 i2 = Some e2).
  { rewrite O1; [exact H2|]. simpl. intros [X|[]]; congruence. }
  destruct (upd_elt_spec es1 i2 f2 e2 H2') as [es2 [E2 [N2 [L2 O2]]]].
  exists es2. split; [exact E2|]. split.
  - rewrite O2; [exact N1|]. simpl. intros [X|[]]; congruence.
  - split; [exact N2|]. split; [congruence|]. intros k Hk. simpl in Hk.
    rewrite O2, O1; [reflexivity| |]; simpl; intros [X|[]]; apply Hk; auto.
Qed.

Lemma corrected_pair es i1 i2 e1 e2 j1 j2 l1 l2 a1 s1 a2 s2 R c :
  i1 <> i2 -> nth_error es i1 = Some e1 -> nth_error es i2 = Some e2 ->
  nth_error (elines e1) j1 = Some l1 -> nth_error (elines e2) j2 = Some l2 ->
  etype e1 = Emission -> etype e2 = Emission -> egout e1 = false -> egout e2 = false ->
  lgout l1 = false -> lgout l2 = false -> nom l1 == 1 -> nom l2 == 1 -> 0 < R ->
  corrected R a1 (Some s1) a2 (Some s2) = Some c ->
  exists es' l1' l2' v1 v2,
    (do es1 <- upd_elt es i1 (setAmplitudes (corrected R a1 (Some s1) a2 (Some s2)) (Some s1));
     upd_elt es1 i2 (setAmplitudes (odiv (corrected R a1 (Some s1) a2 (Some s2)) R) (Some s2))) = Ok es' /\
    line_at es' i1 j1 l1' /\ line_at es' i2 j2 l2' /\ fit l1' = Some v1 /\ fit l2' = Some v2 /\
    v1 == c /\ v1 == R * v2 /\ untouched_but [i1; i2] es es'.
Proof.
  intros Hne H1 H2 L1 L2 T1 T2 G1 G2 O1 O2 N1 N2 HR Hc. rewrite Hc. unfold odiv.
  destruct (Qeq_bool R 0) eqn:E; [apply Qeq_bool_iff in E; lra|].
  destruct (two_updates es i1 i2 e1 e2 (setAmplitudes (Some c) (Some s1)) (setAmplitudes (Some (c / R)) (Some s2))
              Hne H1 H2) as [es' [Eq [A1 [A2 U]]]].
  exists es'. do 2 eexists. exists (c * nom l1), (c / R * nom l2).
  split; [exact Eq|].
  split; [eexists; split; [exact A1|apply setAmplitudes_line; eauto]|].
  split; [eexists; split; [exact A2|apply setAmplitudes_line; eauto]|].
  simpl. repeat split; try reflexivity.
  - rewrite N1. ring.
  - rewrite N1, N2. field. lra.
  - destruct U as [U _]. exact U.
  - intros k Hk. destruct U as [_ U]. apply U. exact Hk.
Qed.

Theorem ratio_rule_within es tagA tagB iA iB eA eB jA jB lA lB a b ea eb R :
  doublet es tagA tagB iA iB eA eB jA jB lA lB a b ea eb -> 0 < R ->
  Qabs a <= R * Qabs b -> Qabs b <= R * Qabs a -> ruleRatioRange Emission tagA tagB R es = Ok es.
Proof.
  intros H HR H1 H2. rewrite (ratio_cases _ _ _ _ _ _ _ _ _ _ _ _ _ _ _ _ H HR).
  assert (E1 : Qabs (b * R) == R * Qabs b).
  { rewrite Qabs_Qmult, (Qabs_pos R); [ring|lra]. }
  assert (E2 : Qabs (a * R) == R * Qabs a).
  { rewrite Qabs_Qmult, (Qabs_pos R); [ring|lra]. }
  destruct (Qltb_spec (Qabs (b * R)) (Qabs a)) as [X|X]; [lra|].
  destruct (Qltb_spec (Qabs (a * R)) (Qabs b)) as [Y|Y]; [lra|]. reflexivity.
Qed.

Theorem ratio_rule_A_high es tagA tagB iA iB eA eB jA jB lA lB a b ea eb R :
  doublet es tagA tagB iA iB eA eB jA jB lA lB a b ea eb -> 1 <= R -> ~ (ea == 0 /\ eb == 0) ->
  R * Qabs b < Qabs a ->
  exists es' lA' lB' a' b', ruleRatioRange Emission tagA tagB R es = Ok es' /\
    line_at es' iA jA lA' /\ line_at es' iB jB lB' /\ fit lA' = Some a' /\ fit lB' = Some b' /\
    a' == R * b' /\
    a' * (ivw ea 1 + ivw eb R) == a * ivw ea 1 + (R * b) * ivw eb R /\ between a' a (R * b) /\
    untouched_but [iA; iB] es es'.
Proof.
  intros H HR He H1. assert (HR0 : 0 < R) by lra. rewrite (ratio_cases _ _ _ _ _ _ _ _ _ _ _ _ _ _ _ _ H HR0).
  assert (E1 : Qabs (b * R) == R * Qabs b) by (rewrite Qabs_Qmult, (Qabs_pos R); [ring|lra]).
  destruct (Qltb_spec (Qabs (b * R)) (Qabs a)) as [X|X]; [|lra].
  destruct (corrected_spec R a ea b eb) as [c [Hc [Hw Hb]]]; [lra|exact He|].
  pose proof (designates_etype _ _ _ _ _ _ (dA _ _ _ _ _ _ _ _ _ _ _ _ _ _ _ H) (dEA _ _ _ _ _ _ _ _ _ _ _ _ _ _ _ H)) as TA.
  pose proof (designates_etype _ _ _ _ _ _ (dB _ _ _ _ _ _ _ _ _ _ _ _ _ _ _ H) (dEB _ _ _ _ _ _ _ _ _ _ _ _ _ _ _ H)) as TB.
  destruct H as [dA0 dB0 dAB0 dEA0 dEB0 dLA0 dLB0 dinA0 dinB0 dnA0 dnB0 dfA0 dfB0 dsA0 dsB0]. destruct dinA0 as [_ [GA OA]]. destruct dinB0 as [_ [GB OB]].
  destruct (corrected_pair es iA iB eA eB jA jB lA lB a ea b eb R c) as [es' [l1 [l2 [v1 [v2 [Q1 [Q2 [Q3 [Q4 [Q5 [Q6 [Q7 Q8]]]]]]]]]]]];
    auto; try lra.
  exists es', l1, l2, v1, v2. do 5 (split; [assumption|]). split; [exact Q7|].
  split; [rewrite Q6; exact Hw|]. split; [|exact Q8].
  unfold between in *. rewrite Q6. exact Hb.
Qed.

Theorem ratio_rule_B_high es tagA tagB iA iB eA eB jA jB lA lB a b ea eb R :
  doublet es tagA tagB iA iB eA eB jA jB lA lB a b ea eb -> 1 <= R -> ~ (ea == 0 /\ eb == 0) ->
  R * Qabs a < Qabs b ->
  exists es' lA' lB' a' b', ruleRatioRange Emission tagA tagB R es = Ok es' /\
    line_at es' iA jA lA' /\ line_at es' iB jB lB' /\ fit lA' = Some a' /\ fit lB' = Some b' /\
    b' == R * a' /\
    b' * (ivw eb 1 + ivw ea R) == b * ivw eb 1 + (R * a) * ivw ea R /\ between b' b (R * a) /\
    untouched_but [iA; iB] es es'.
Proof.
  intros H HR He H1. assert (HR0 : 0 < R) by lra. rewrite (ratio_cases _ _ _ _ _ _ _ _ _ _ _ _ _ _ _ _ H HR0).
  assert (E1 : Qabs (b * R) == R * Qabs b) by (rewrite Qabs_Qmult, (Qabs_pos R); [ring|lra]).
  assert (E2 : Qabs (a * R) == R * Qabs a) by (rewrite Qabs_Qmult, (Qabs_pos R); [ring|lra]).
  pose proof (Qabs_nonneg a) as Pa. pose proof (Qabs_nonneg b) as Pb.
  destruct (Qltb_spec (Qabs (b * R)) (Qabs a)) as [X|_].
  { exfalso. assert (R * Qabs b < Qabs a) by lra. assert (Qabs b <= R * Qabs b) by nra.
    assert (Qabs a <= R * Qabs a) by nra. lra. }
  destruct (Qltb_spec (Qabs (a * R)) (Qabs b)) as [X|X]; [|lra].
  destruct (corrected_spec R b eb a ea) as [c [Hc [Hw Hb]]]; [lra|tauto|].
  pose proof (designates_etype _ _ _ _ _ _ (dA _ _ _ _ _ _ _ _ _ _ _ _ _ _ _ H) (dEA _ _ _ _ _ _ _ _ _ _ _ _ _ _ _ H)) as TA.
  pose proof (designates_etype _ _ _ _ _ _ (dB _ _ _ _ _ _ _ _ _ _ _ _ _ _ _ H) (dEB _ _ _ _ _ _ _ _ _ _ _ _ _ _ _ H)) as TB.
  destruct H as [dA0 dB0 dAB0 dEA0 dEB0 dLA0 dLB0 dinA0 dinB0 dnA0 dnB0 dfA0 dfB0 dsA0 dsB0]. destruct dinA0 as [_ [GA OA]]. destruct dinB0 as [_ [GB OB]].
  destruct (corrected_pair es iB iA eB eA jB jA lB lA b eb a ea R c) as [es' [l1 [l2 [v1 [v2 [Q1 [Q2 [Q3 [Q4 [Q5 [Q6 [Q7 Q8]]]]]]]]]]]];
    auto; try lra.
  exists es', l2, l1, v2, v1. do 5 (split; [assumption|]). split; [exact Q7|].
  split; [rewrite Q6; exact Hw|]. split.
  - unfold between in *. rewrite Q6. exact Hb.
  - destruct Q8 as [U1 U2]. split; [exact U1|]. intros k Hk. apply U2. simpl in *. tauto.
Qed.

(** ** the two-line rule *)
Theorem two_lines_rule es tagA tagB iA iB eA eB lA lB a b coef :
  designates es Emission tagA iA 0 -> designates es Emission tagB iB 0 -> iA <> iB ->
  nth_error es iA = Some eA -> nth_error es iB = Some eB ->
  elines eA = [lA] -> elines eB = [lB] -> eout eA = false ->
  fit lA = Some a -> fit lB = Some b -> 0 < coef -> ~ nom lB == 0 ->
  exists es' lB' b', rule2SingleLines Emission tagA tagB coef es = Ok es' /\
    line_at es' iB 0 lB' /\ same_line lB lB' /\ fstd lB' = fstd lB /\ fit lB' = Some b' /\
    (b <= coef * a \/ b <= 0 -> b' == b) /\
    (coef * a < b /\ 0 < b -> b' == Qmax 0 (coef * a)) /\
    untouched_but [iB] es es'.
Proof.
  intros DA DB Hne EA EB LA LB OA FA FB Hc Hn. unfold rule2SingleLines.
  rewrite (proj2 (findElementIndex_spec tagA Emission es iA 0 ltac:(discriminate)) DA).
  rewrite (proj2 (findElementIndex_spec tagB Emission es iB 0 ltac:(discriminate)) DB).
  unfold vget at 1 2. rewrite EA, EB. cbn [rbind].
  rewrite LA, LB. cbn [length Nat.ltb Nat.leb orb].
  destruct (Nat.eqb_spec iA iB) as [X|_]; [contradiction|]. rewrite OA.
  rewrite (vget_line_ok es iA 0 eA lA EA) by (rewrite LA; reflexivity).
  rewrite (vget_line_ok es iB 0 eB lB EB) by (rewrite LB; reflexivity). cbn [rbind]. rewrite FA, FB.
  assert (HL : nth_error (elines eB) 0 = Some lB) by (rewrite LB; reflexivity).
  assert (Same : forall b', b' == b -> b <= coef * a \/ b <= 0 ->
    exists es' lB' b', Ok es = Ok es' /\ line_at es' iB 0 lB' /\ same_line lB lB' /\ fstd lB' = fstd lB /\
    fit lB' = Some b' /\ (b <= coef * a \/ b <= 0 -> b' == b) /\ (coef * a < b /\ 0 < b -> b' == Qmax 0 (coef * a)) /\
    untouched_but [iB] es es').
  { intros _ _ Hle. exists es, lB, b. split; [reflexivity|]. split; [exists eB; auto|].
    split; [repeat split|]. split; [reflexivity|]. split; [exact FB|]. split; [intros; reflexivity|].
    split; [intros [U V]; exfalso; destruct Hle; lra|]. split; auto. }
  destruct (Qle_bool a 0 && Qle_bool b 0) eqn:B0.
  { apply andb_prop in B0. destruct B0 as [B1 B2]. apply Qle_bool_iff in B1, B2.
    apply (Same b); [reflexivity|]. right; exact B2. }
  destruct (Qltb_spec b (coef * a)) as [C|C].
  { apply (Same b); [reflexivity|]. left; lra. }
  destruct (Qlt_le_dec (coef * a) b) as [C1|C1].
  - rewrite (limit_above 0 (coef * a) eB lB b HL FB C1 Hn). cbn [rbind snd].
    destruct (vset_spec es iB (set_lines eB (map (fun k => set_fit k (Some (nom k * (max0 (coef * a) / nom lB)))) (elines eB)))
               (nth_error_lt _ _ _ EB)) as [es' [V1 [V2 [V3 V4]]]].
    assert (Bpos : 0 < b).
    { destruct (Qlt_le_dec 0 b) as [P|P]; [exact P|exfalso].
      assert (a < 0) by nra. assert (Z : Qle_bool a 0 && Qle_bool b 0 = true).
      { apply andb_true_intro; split; apply Qle_bool_iff; lra. }
      congruence. }
    rewrite V1. exists es', (set_fit lB (Some (nom lB * (max0 (coef * a) / nom lB)))), (nom lB * (max0 (coef * a) / nom lB)).
    split; [reflexivity|]. split; [eexists; split; [exact V3|]; rewrite LB; reflexivity|].
    split; [repeat split|]. split; [reflexivity|]. split; [reflexivity|].
    split; [intros [U|U]; exfalso; lra|].
    split; [intros _; rewrite <- max0_spec; field; exact Hn|].
    split; [exact V2|]. intros k Hk. apply V4. intro; apply Hk; left; auto.
  - assert (Hb : b <= coef * a) by exact C1.
    rewrite (limit_below 0 (coef * a) eB lB b HL FB Hb). cbn [rbind snd].
    destruct (vset_spec es iB eB (nth_error_lt _ _ _ EB)) as [es' [V1 [V2 [V3 V4]]]].
    assert (es' = es).
    { apply nth_ext with (d := eB) (d' := eB); [exact V2|]. intros n Hn'.
      destruct (Nat.eq_dec n iB) as [->|Hk].
      - rewrite (nth_error_nth _ _ eB V3), (nth_error_nth _ _ eB EB). reflexivity.
      - specialize (V4 n Hk). destruct (nth_error es n) as [x|] eqn:N.
        + rewrite (nth_error_nth _ _ eB V4), (nth_error_nth _ _ eB N). reflexivity.
        + apply nth_error_None in N. lia. }
    subst es'. rewrite V1. apply (Same b); [reflexivity|left; exact Hb].
Qed.

(** ** the strong/weak rule *)

Lemma lowestStrongLine_inv ls best b' :
  fold_left lowestStrongLine ls best = b' ->
  (forall m er, b' = Some (m, er) -> best = Some (m, er) \/
     exists l, In l ls /\ lout l = false /\ lforce l = Strong /\ fit l = Some m /\ fstd l = er) /\
  (forall m er, best = Some (m, er) -> exists m' er', b' = Some (m', er') /\ m' <= m) /\
  (forall l v, In l ls -> lout l = false -> lforce l = Strong -> fit l = Some v ->
     exists m er, b' = Some (m, er) /\ m <= v).
Proof.
  revert best b'; induction ls as [|l ls IH]; intros best b' H; simpl in H.
  - subst b'. split; [auto|]. split; [intros m er ->; exists m, er; split; [reflexivity|lra]|]. intros l v [].
  - destruct (IH _ _ H) as [I1 [I2 I3]].
    assert (Step : (forall m er, lowestStrongLine best l = Some (m, er) -> best = Some (m, er) \/
                     (lout l = false /\ lforce l = Strong /\ fit l = Some m /\ fstd l = er)) /\
                   (forall m er, best = Some (m, er) -> exists m' er', lowestStrongLine best l = Some (m', er') /\ m' <= m) /\
                   (forall v, lout l = false -> lforce l = Strong -> fit l = Some v ->
                      exists m er, lowestStrongLine best l = Some (m, er) /\ m <= v)).
    { unfold lowestStrongLine. destruct (lout l) eqn:O.
      { split; [auto|]. split; [intros m er ->; exists m, er; split; [reflexivity|lra]|discriminate]. }
      destruct (lforce l) eqn:F; simpl;
        try (split; [auto|]; split; [intros m er ->; exists m, er; split; [reflexivity|lra]|discriminate]).
      destruct (fit l) as [a|] eqn:Fi.
      - destruct best as [[m0 er0]|].
        + destruct (Qltb_spec a m0) as [C|C].
          * split; [intros m er E; injection E as <- <-; right; auto|].
            split; [intros m er E; injection E as <- <-; exists a, (fstd l); split; [reflexivity|lra]|].
            intros v _ _ E; injection E as <-. exists a, (fstd l); split; [reflexivity|lra].
          * split; [auto|]. split; [intros m er E; injection E as <- <-; exists m0, er0; split; [reflexivity|lra]|].
            intros v _ _ E; injection E as <-. exists m0, er0; split; [reflexivity|lra].
        + split; [intros m er E; injection E as <- <-; right; auto|].
          split; [discriminate|]. intros v _ _ E; injection E as <-. exists a, (fstd l); split; [reflexivity|lra].
      - split; [auto|]. split; [intros m er ->; exists m, er; split; [reflexivity|lra]|discriminate]. }
    destruct Step as [S1 [S2 S3]]. split; [|split].
    + intros m er Hb. destruct (I1 m er Hb) as [E|[l' [Hl' R]]].
      * destruct (S1 m er E) as [E'|R]; [left; exact E'|]. right. exists l. split; [left; reflexivity|exact R].
      * right. exists l'. split; [right; exact Hl'|exact R].
    + intros m er Hb. destruct (S2 m er Hb) as [m1 [er1 [E1 L1]]]. destruct (I2 m1 er1 E1) as [m2 [er2 [E2 L2]]].
      exists m2, er2. split; [exact E2|lra].
    + intros l' v [<-|Hl'] O F V.
      * destruct (S3 v O F V) as [m1 [er1 [E1 L1]]]. destruct (I2 m1 er1 E1) as [m2 [er2 [E2 L2]]].
        exists m2, er2. split; [exact E2|lra].
      * apply (I3 l' v); auto.
Qed.

Lemma lowestStrong_inv ty es best b' :
  fold_left (fun best e => if ltype_eqb (etype e) ty then fold_left lowestStrongLine (elines e) best else best) es best = b' ->
  (forall m er, b' = Some (m, er) -> best = Some (m, er) \/
     exists l, in_range_line es ty l /\ lforce l = Strong /\ fit l = Some m /\ fstd l = er) /\
  (forall m er, best = Some (m, er) -> exists m' er', b' = Some (m', er') /\ m' <= m) /\
  (forall l v, in_range_line es ty l -> lforce l = Strong -> fit l = Some v ->
     exists m er, b' = Some (m, er) /\ m <= v).
Proof.
  revert best b'; induction es as [|e es IH]; intros best b' H; cbn [fold_left] in H.
  - subst b'. split; [auto|]. split; [intros m er ->; exists m, er; split; [reflexivity|lra]|].
    intros l v [e [[] _]].
  - destruct (IH _ _ H) as [I1 [I2 I3]]. clear IH H.
    assert (Up : forall l, in_range_line es ty l -> in_range_line (e :: es) ty l).
    { intros l [e' [He' R]]. exists e'. split; [right; exact He'|exact R]. }
    destruct (ltype_eqb (etype e) ty) eqn:T.
    + apply ltype_eqb_spec in T.
      destruct (lowestStrongLine_inv (elines e) best _ eq_refl) as [J1 [J2 J3]]. split; [|split].
      * intros m er Hb. destruct (I1 m er Hb) as [E|[l [Hl R]]].
        -- destruct (J1 m er E) as [E'|[l [Hl [O R]]]]; [left; exact E'|]. right. exists l. split; [|exact R].
           exists e. split; [left; reflexivity|]. auto.
        -- right. exists l. split; [apply Up, Hl|exact R].
      * intros m er Hb. destruct (J2 m er Hb) as [m1 [er1 [E1 L1]]]. destruct (I2 m1 er1 E1) as [m2 [er2 [E2 L2]]].
        exists m2, er2. split; [exact E2|lra].
      * intros l v [e' [[<-|He'] [T' [Hl O]]]] F V.
        -- destruct (J3 l v Hl O F V) as [m1 [er1 [E1 L1]]]. destruct (I2 m1 er1 E1) as [m2 [er2 [E2 L2]]].
           exists m2, er2. split; [exact E2|lra].
        -- apply (I3 l v); auto. exists e'; auto.
    + split; [|split; [exact I2|]].
      * intros m er Hb. destruct (I1 m er Hb) as [E|[l [Hl R]]]; [left; exact E|]. right. exists l. split; [apply Up, Hl|exact R].
      * intros l v [e' [[<-|He'] [T' [Hl O]]]] F V.
        -- apply ltype_eqb_spec in T'. congruence.
        -- apply (I3 l v); auto. exists e'; auto.
Qed.

Lemma lowestStrong_some ty es m er : lowestStrong ty es = Some (m, er) -> lowest_strong es ty m er.
Proof.
  intro H. destruct (lowestStrong_inv ty es None _ H) as [I1 [_ I3]]. split.
  - destruct (I1 m er eq_refl) as [X|X]; [discriminate|exact X].
  - intros l v Hl F V. destruct (I3 l v Hl F V) as [m' [er' [E L]]]. injection E as <- <-. exact L.
Qed.
Lemma lowestStrong_none ty es : lowestStrong ty es = None <-> no_strong es ty.
Proof.
  split.
  - intro H. destruct (lowestStrong_inv ty es None _ H) as [_ [_ I3]]. intros l Hl F.
    destruct (fit l) as [v|] eqn:V; [|reflexivity]. destruct (I3 l v Hl F V) as [m [er [E _]]]. discriminate.
  - intro H. destruct (lowestStrong ty es) as [[m er]|] eqn:E; [exfalso|reflexivity].
    apply lowestStrong_some in E. destruct E as [[l [Hl [F [V _]]]] _]. rewrite (H l Hl F) in V. discriminate.
Qed.

Lemma same_elt_refl (P : line -> line -> Prop) e : (forall l, P l l) -> same_elt P e e.
Proof.
  intro HP. repeat split. induction (elines e) as [|l ls IH]; constructor; auto. split; [repeat split|apply HP].
Qed.
Lemma Forall2_map_r {A B} (P : A -> B -> Prop) (f : A -> B) l : (forall x, In x l -> P x (f x)) -> Forall2 P l (map f l).
Proof.
  induction l as [|x l IH]; intro H; simpl; constructor.
  - apply H; left; reflexivity.
  - apply IH. intros; apply H; right; assumption.
Qed.
Lemma Forall2_trans {A B C} (P : A -> B -> Prop) (Q : B -> C -> Prop) (R : A -> C -> Prop) l1 l2 l3 :
  (forall x y z, P x y -> Q y z -> R x z) -> Forall2 P l1 l2 -> Forall2 Q l2 l3 -> Forall2 R l1 l3.
Proof.
  intros HR H; revert l3; induction H as [|x y l1 l2 Hxy H IH]; intros l3 H'; inversion H'; subst; constructor; eauto.
Qed.
Lemma Forall2_nth {A B} (P : A -> B -> Prop) l l' i x : Forall2 P l l' -> nth_error l i = Some x ->
  exists y, nth_error l' i = Some y /\ P x y.
Proof.
  intro H; revert i; induction H as [|a b l l' Hab H IH]; intros [|i] E; simpl in *; try discriminate.
  - injection E as <-. exists b; auto.
  - apply IH, E.
Qed.
Lemma Forall2_nth_r {A B} (P : A -> B -> Prop) l l' i y : Forall2 P l l' -> nth_error l' i = Some y ->
  exists x, nth_error l i = Some x /\ P x y.
Proof.
  intro H; revert i; induction H as [|a b l l' Hab H IH]; intros [|i] E; simpl in *; try discriminate.
  - injection E as <-. exists a; auto.
  - apply IH, E.
Qed.
Lemma Forall2_In_r {A B} (P : A -> B -> Prop) l l' y : Forall2 P l l' -> In y l' -> exists x, In x l /\ P x y.
Proof.
  intros H Hy. apply In_nth_error in Hy. destruct Hy as [i Hi]. destruct (Forall2_nth_r P l l' i y H Hi) as [x [Hx Pxy]].
  exists x. split; [eapply nth_error_In; eauto|exact Pxy].
Qed.
Lemma Forall2_length' {A B} (P : A -> B -> Prop) l l' : Forall2 P l l' -> length l' = length l.
Proof. induction 1; simpl; congruence. Qed.

Lemma not_raised_refl l : not_raised l l.
Proof. intros v H. exists v. split; [exact H|lra]. Qed.
Lemma not_raised_trans a b c : not_raised a b -> not_raised b c -> not_raised a c.
Proof.
  intros H1 H2 v Hv. destruct (H1 v Hv) as [v1 [E1 L1]]. destruct (H2 v1 E1) as [v2 [E2 L2]]. exists v2. split; [exact E2|lra].
Qed.
Lemma same_elt_trans (P : line -> line -> Prop) e1 e2 e3 : (forall a b c, P a b -> P b c -> P a c) ->
  same_elt P e1 e2 -> same_elt P e2 e3 -> same_elt P e1 e3.
Proof.
  intros HP [A1 [A2 [A3 [A4 A5]]]] [B1 [B2 [B3 [B4 B5]]]].
  repeat split; try congruence.
  refine (Forall2_trans _ _ _ _ _ _ _ A5 B5). intros x y z [[C1 [C2 [C3 [C4 C5]]]] Px] [[D1 [D2 [D3 [D4 D5]]]] Py].
  split; [repeat split; congruence|]. eapply HP; eauto.
Qed.

(** one call of LimitFittedAmplitude on a proportional element *)
Lemma limit_step i cap e l A : nth_error (elines e) i = Some l -> positive_nominals e -> 0 <= A -> scaled A e ->
  exists b e' A', limitFittedAmplitude i (Some cap) e = Ok (b, e') /\ same_elt not_raised e e' /\
    0 <= A' /\ A' <= A /\ scaled A' e' /\
    (forall l', nth_error (elines e') i = Some l' -> forall v, fit l' = Some v -> v <= Qmax 0 cap).
Proof.
  intros Hi Hp HA HS.
  destruct (fit l) as [f|] eqn:F.
  - destruct (Qlt_le_dec cap f) as [C|C].
    + assert (Hn : 0 < nom l) by (apply Hp; eapply nth_error_In; eauto).
      assert (Hn0 : ~ nom l == 0) by (intro X; rewrite X in Hn; lra). rewrite (limit_above i cap e l f Hi F C Hn0).
      set (A' := max0 cap / nom l).
      assert (HA' : nom l * A' == max0 cap) by (unfold A'; field; lra).
      assert (Hf : f == nom l * A).
      { specialize (HS l (nth_error_In _ _ Hi)). rewrite F in HS. exact HS. }
      assert (Hm : 0 <= max0 cap) by (destruct (max0_cases cap) as [[? ->]|[? ->]]; lra).
      assert (P0 : 0 <= A') by nra.
      assert (P1 : A' <= A).
      { destruct (max0_cases cap) as [[M1 M2]|[M1 M2]].
        - rewrite M2 in HA'. apply Qnot_lt_le. intro X. assert (Y : nom l * A < nom l * A') by (apply Qmult_lt_l; assumption). lra.
        - assert (A' == 0) by (unfold A'; rewrite M2; field; lra). lra. }
      eexists true, _, A'. split; [reflexivity|].
      split.
      * repeat split. simpl. apply Forall2_map_r. intros k Hk. split; [repeat split|].
        intros v Hv. simpl. exists (nom k * A'). split; [reflexivity|].
        specialize (HS k Hk). rewrite Hv in HS. assert (0 < nom k) by (apply Hp; exact Hk). nra.
      * split; [exact P0|]. split; [exact P1|]. split.
        -- intros k Hk. simpl in Hk. apply in_map_iff in Hk. destruct Hk as [k0 [<- _]]. simpl. reflexivity.
        -- intros l' Hl' v Hv. simpl in Hl'. rewrite (nth_error_map_some _ _ _ _ Hi) in Hl'.
           injection Hl' as <-. simpl in Hv. injection Hv as <-. rewrite <- max0_spec, <- HA'. unfold A'. lra.
    + rewrite (limit_below i cap e l f Hi F C). eexists false, e, A.
      split; [reflexivity|]. split; [apply same_elt_refl, not_raised_refl|].
      split; [exact HA|]. split; [lra|]. split; [exact HS|].
      intros l' Hl' v Hv. rewrite Hi in Hl'. injection Hl' as <-. rewrite F in Hv. injection Hv as <-.
      pose proof (Q.le_max_r 0 cap). lra.
  - rewrite (limit_nan i (Some cap) e l Hi F). eexists false, e, A.
    split; [reflexivity|]. split; [apply same_elt_refl, not_raised_refl|].
    split; [exact HA|]. split; [lra|]. split; [exact HS|].
    intros l' Hl' v Hv. rewrite Hi in Hl'. injection Hl' as <-. congruence.
Qed.

(** the caps established so far *)
Definition capped (cap : Q) (upto : nat) (e : elt) : Prop :=
  forall k l v, (k < upto)%nat -> nth_error (elines e) k = Some l -> lout l = false -> lforce l = Weak ->
    fit l = Some v -> v <= Qmax 0 cap.

Lemma positive_same (P : line -> line -> Prop) e e' : same_elt P e e' -> positive_nominals e -> positive_nominals e'.
Proof.
  intros [_ [_ [_ [_ H]]]] Hp l' Hl'. destruct (Forall2_In_r _ _ _ _ H Hl') as [l [Hl [[_ [_ [N _]]] _]]].
  rewrite N. apply Hp, Hl.
Qed.

Lemma in_range_defined_same e e' : same_elt not_raised e e' -> in_range_defined e -> in_range_defined e'.
Proof.
  intros [_ [_ [_ [_ H]]]] Hd l' Hl' O. destruct (Forall2_In_r _ _ _ _ H Hl') as [l [Hl [[_ [_ [_ [O' _]]]] R]]].
  destruct (Hd l Hl) as [v Hv]; [congruence|]. destruct (R v Hv) as [v' [E _]]. exists v'. exact E.
Qed.

Lemma capped_same cap n e e' : same_elt not_raised e e' -> in_range_defined e -> capped cap n e -> capped cap n e'.
Proof.
  intros [_ [_ [_ [_ H]]]] Hd Hc k l' v' Hk Hl' O F V.
  destruct (Forall2_nth_r _ _ _ _ _ H Hl') as [l [Hl [[_ [F0 [_ [O0 _]]]] R]]].
  destruct (Hd l (nth_error_In _ _ Hl)) as [v Hv]; [congruence|].
  destruct (R v Hv) as [v2 [E2 L2]]. rewrite V in E2. injection E2 as <-.
  assert (v <= Qmax 0 cap) by (apply (Hc k l v Hk Hl); congruence). lra.
Qed.

Lemma correctElement_spec n i cap e A : (i + n = length (elines e))%nat -> positive_nominals e -> in_range_defined e ->
  0 <= A -> scaled A e -> capped cap i e ->
  exists e' A', correctElement n i cap e = Ok e' /\ same_elt not_raised e e' /\ 0 <= A' /\ A' <= A /\ scaled A' e' /\
    capped cap (length (elines e)) e'.
Proof.
  revert i e A; induction n as [|n IH]; intros i e A Hlen Hp Hd HA HS HC.
  - exists e, A. split; [reflexivity|]. split; [apply same_elt_refl, not_raised_refl|].
    split; [exact HA|]. split; [lra|]. split; [exact HS|]. replace (length (elines e)) with i by lia. exact HC.
  - cbn [correctElement].
    destruct (nth_error (elines e) i) as [l|] eqn:Hi; [|apply nth_error_None in Hi; lia].
    unfold vget. rewrite Hi. cbn [rbind].
    assert (Skip : (lout l = true \/ lforce l <> Weak) ->
      exists e' A', correctElement n (S i) cap e = Ok e' /\ same_elt not_raised e e' /\ 0 <= A' /\ A' <= A /\ scaled A' e' /\
      capped cap (length (elines e)) e').
    { intro Hs. apply IH; auto; [lia|]. intros k l0 v Hk Hl0 O F V.
      destruct (Nat.eq_dec k i) as [->|Hne]; [|apply (HC k l0 v); auto; lia].
      rewrite Hi in Hl0. injection Hl0 as <-. destruct Hs; congruence. }
    destruct (lout l) eqn:O; [apply Skip; auto|].
    destruct (lforce l) eqn:F; cbn [is_weak]; try (apply Skip; right; discriminate).
    destruct (limit_step i cap e l A Hi Hp HA HS) as [b [e1 [A1 [E1 [S1 [P1 [L1 [SC1 C1]]]]]]]].
    rewrite E1. cbn [rbind snd].
    assert (Len : length (elines e1) = length (elines e)) by (destruct S1 as [_ [_ [_ [_ H]]]]; eapply Forall2_length'; eauto).
    destruct (IH (S i) e1 A1) as [e2 [A2 [E2 [S2 [P2 [L2 [SC2 C2]]]]]]]; auto.
    + lia.
    + eapply positive_same; eauto.
    + eapply in_range_defined_same; eauto.
    + intros k l0 v Hk Hl0 O0 F0 V0. destruct (Nat.eq_dec k i) as [->|Hne].
      * apply (C1 l0 Hl0 v V0).
      * apply (capped_same cap i e e1 S1 Hd HC k l0 v); auto; lia.
    + exists e2, A2. split; [exact E2|]. split; [eapply same_elt_trans; [exact not_raised_trans|exact S1|exact S2]|].
      split; [exact P2|]. split; [lra|]. split; [exact SC2|]. rewrite <- Len. exact C2.
Qed.

Lemma rmap_Forall2 {A B} (f : A -> res B) (P : A -> B -> Prop) l :
  (forall x, In x l -> exists y, f x = Ok y /\ P x y) -> exists l', rmap f l = Ok l' /\ Forall2 P l l'.
Proof.
  induction l as [|x l IH]; intro H.
  - exists []. split; [reflexivity|constructor].
  - destruct (H x (or_introl eq_refl)) as [y [E P1]]. destruct IH as [l' [E' P2]]; [intros; apply H; right; assumption|].
    exists (y :: l'). simpl. rewrite E. simpl. rewrite E'. simpl. split; [reflexivity|constructor; assumption].
Qed.

Theorem strong_weak_rule ty es m er : (forall e, In e es -> fitted_elt e) ->
  lowestStrong ty es = Some (m, Some er) -> exists es', ruleStrongWeak ty es = Ok es' /\
    Forall2 (fun e e' => same_elt not_raised e e' /\ fitted_elt e' /\ (etype e <> ty -> e' = e)) es es' /\
    (forall l v, in_range_line es' ty l -> lforce l = Weak -> fit l = Some v -> v <= Qmax 0 (m + er)).
Proof.
  intros Hf Hl. unfold ruleStrongWeak. rewrite Hl.
  match goal with |- context [rmap ?f es] => set (g := f) end.
  destruct (rmap_Forall2 g (fun e e' => (same_elt not_raised e e' /\ fitted_elt e' /\ (etype e <> ty -> e' = e)) /\
     (etype e = ty -> capped (m + er) (length (elines e)) e')) es) as [es' [E F]].
  - intros e He. destruct (Hf e He) as [Hp [[A [HA HS]] Hd]]. unfold g.
    destruct (ltype_eqb (etype e) ty) eqn:T.
    + apply ltype_eqb_spec in T.
      destruct (correctElement_spec (length (elines e)) 0 (m + er) e A) as [e' [A' [E1 [S1 [P1 [L1 [SC C]]]]]]]; auto.
      { intros k l v Hk; lia. }
      exists e'. split; [exact E1|]. split; [split; [exact S1|split; [|congruence]]|intros _; exact C].
      split; [eapply positive_same; eauto|]. split; [exists A'; auto|eapply in_range_defined_same; eauto].
    + exists e. split; [reflexivity|]. split; [|intro X; apply ltype_eqb_spec in X; congruence].
      split; [apply same_elt_refl, not_raised_refl|]. split; [|reflexivity]. split; [exact Hp|]. split; [exists A; auto|exact Hd].
  - exists es'. split; [exact E|]. split.
    + clear - F. induction F as [|x y l l' [H _] F IH]; constructor; auto.
    + intros l v [e' [He' [T [Hl' O]]]] W V.
      destruct (Forall2_In_r _ _ _ _ F He') as [e [He [[S1 _] C]]].
      assert (T0 : etype e = ty) by (destruct S1 as [X _]; congruence).
      apply In_nth_error in Hl'. destruct Hl' as [k Hk].
      apply (C T0 k l v); auto.
      destruct S1 as [_ [_ [_ [_ X]]]]. rewrite <- (Forall2_length' _ _ _ X). eapply nth_error_lt; eauto.
Qed.

(** elements without in-range weak lines are left alone *)
Lemma correctElement_id n i cap e : (i + n = length (elines e))%nat ->
  (forall l, In l (elines e) -> lout l = false -> lforce l <> Weak) -> correctElement n i cap e = Ok e.
Proof.
  revert i; induction n as [|n IH]; intros i Hlen H; [reflexivity|]. cbn [correctElement].
  destruct (nth_error (elines e) i) as [l|] eqn:Hi; [|apply nth_error_None in Hi; lia].
  unfold vget. rewrite Hi. cbn [rbind]. pose proof (H l (nth_error_In _ _ Hi)) as Hl.
  destruct (lout l); [apply IH; auto; lia|]. specialize (Hl eq_refl).
  destruct (lforce l); cbn [is_weak]; try congruence; apply IH; auto; lia.
Qed.

Theorem strong_weak_after ty es m er : (forall e, In e es -> fitted_elt e) -> unmixed es ty ->
  lowestStrong ty es = Some (m, Some er) -> exists es', ruleStrongWeak ty es = Ok es' /\
    lowest_strong es' ty m (Some er) /\
    (forall l v, in_range_line es' ty l -> lforce l = Weak -> fit l = Some v -> v <= Qmax 0 (m + er)).
Proof.
  intros Hf Hu Hl. destruct (strong_weak_rule ty es m er Hf Hl) as [es' [E [F C]]].
  exists es'. split; [exact E|]. split; [|exact C].
  (* elements holding an in-range strong line are untouched *)
  assert (Keep : forall i e l, nth_error es i = Some e -> etype e = ty -> In l (elines e) -> lout l = false ->
                 lforce l = Strong -> nth_error es' i = Some e).
  { intros i e l Hi T Hin O S. unfold ruleStrongWeak in E. rewrite Hl in E.
    clear - Hi T Hin O S E Hu. revert es' i E Hi. induction es as [|e0 es IH]; intros es' i E Hi; [destruct i; discriminate|].
    cbn [rmap] in E.
    destruct (if ltype_eqb (etype e0) ty then correctElement (length (elines e0)) 0 (m + er) e0 else Ok e0) as [y| |] eqn:E0;
      cbn [rbind] in E; try discriminate.
    match type of E with context [rmap ?f es] => destruct (rmap f es) as [r| |] eqn:E1 end; cbn [rbind] in E; try discriminate.
    injection E as <-. destruct i as [|i]; simpl in *.
    - injection Hi as ->. rewrite (proj2 (ltype_eqb_spec _ _) T) in E0. rewrite correctElement_id in E0; [congruence|lia|].
      intros l' Hl' O' W. apply (Hu e (or_introl eq_refl) T l l'); auto.
    - apply IH; auto. intros e1 He1. apply Hu. now right. }
  destruct (lowestStrong_some _ _ _ _ Hl) as [[l [[e [He [T [Hin O]]]] [S [V W]]]] Hmin]. split.
  - exists l. split; [|auto]. apply In_nth_error in He. destruct He as [i Hi].
    exists e. split; [eapply nth_error_In; eapply Keep; eauto|]. auto.
  - intros l' v' [e' [He' [T' [Hin' O']]]] S' V'.
    apply In_nth_error in He'. destruct He' as [i Hi'].
    destruct (Forall2_nth_r _ _ _ _ _ F Hi') as [e0 [Hi [[T0 [_ [_ [_ FL]]]] _]]].
    destruct (Forall2_In_r _ _ _ _ FL Hin') as [l0 [Hl0 [[_ [F0 [_ [O0 _]]]] _]]].
    assert (X : nth_error es' i = Some e0) by (eapply (Keep i e0 l0); eauto; congruence).
    rewrite Hi' in X. injection X as ->. apply (Hmin l' v'); auto. exists e0. split; [eapply nth_error_In; eauto|auto].
Qed.

(** ** the whole regulament *)
Lemma untouched_refl t es : untouched_but t es es.
Proof. split; auto. Qed.

Lemma Forall2_vset {A} (P : A -> A -> Prop) l i x y l' : (forall a, P a a) -> nth_error l i = Some x -> P x y ->
  vset l i y = Ok l' -> Forall2 P l l'.
Proof.
  intro Hr. revert i l'; induction l as [|a l IH]; intros [|i] l' Hi HP H; simpl in *; try discriminate.
  - injection Hi as ->. injection H as <-. constructor; auto. clear - Hr. induction l; constructor; auto.
  - destruct (vset l i y) as [r| |] eqn:E; try discriminate. simpl in H. injection H as <-. constructor; auto. eapply IH; eauto.
Qed.
Lemma Forall2_refl {A} (P : A -> A -> Prop) l : (forall a, P a a) -> Forall2 P l l.
Proof. intro H; induction l; constructor; auto. Qed.

Lemma designates_findex es tag i j : findElementIndex tag Emission es = Some (i, j) -> designates es Emission tag i j.
Proof. intro H. apply findElementIndex_spec; [discriminate|exact H]. Qed.

Theorem two_single_frame tagA tagB coef es : 0 < coef -> (forall e, In e es -> positive_nominals e) ->
  exists es', rule2SingleLines Emission tagA tagB coef es = Ok es' /\ Forall2 (same_elt not_raised) es es' /\
    forall i, (forall j, ~ designates es Emission tagB i j) -> nth_error es' i = nth_error es i.
Proof.
  intros Hc Hp.
  assert (Id : exists es', Ok es = Ok es' /\ Forall2 (same_elt not_raised) es es' /\
    forall i, (forall j, ~ designates es Emission tagB i j) -> nth_error es' i = nth_error es i).
  { exists es. split; [reflexivity|]. split; [apply Forall2_refl; intro; apply same_elt_refl, not_raised_refl|auto]. }
  unfold rule2SingleLines.
  destruct (findElementIndex tagA Emission es) as [[iA jA]|] eqn:FA; [|exact Id].
  destruct (findElementIndex tagB Emission es) as [[iB jB]|] eqn:FB; [|exact Id].
  apply designates_findex in FA, FB.
  destruct FA as [eA [lA [EA [LA _]]]]. pose proof FB as DB. destruct FB as [eB [lB [EB [LB _]]]].
  unfold vget at 1 2. rewrite EA, EB. cbn [rbind].
  destruct (_ || _ || _) eqn:B1; [exact Id|].
  destruct (eout eA); [exact Id|].
  rewrite (vget_line_ok es iA jA eA lA EA LA), (vget_line_ok es iB jB eB lB EB LB). cbn [rbind].
  destruct (fit lA) as [a|] eqn:VA; [|exact Id]. destruct (fit lB) as [b|] eqn:VB; [|exact Id].
  destruct (Qle_bool a 0 && Qle_bool b 0) eqn:B0; [exact Id|].
  destruct (Qltb_spec b (coef * a)) as [C|C]; [exact Id|].
  assert (Nb : 0 < nom lB) by (apply (Hp eB); eapply nth_error_In; eauto).
  assert (One : elines eB = [lB] /\ jB = O).
  { apply orb_false_elim in B1. destruct B1 as [B1 _]. apply orb_false_elim in B1. destruct B1 as [_ B1].
    apply Nat.ltb_ge in B1. destruct (elines eB) as [|x [|y t]]; simpl in *; try lia.
    - destruct jB; discriminate.
    - destruct jB as [|[|jB]]; simpl in LB; try discriminate. injection LB as ->. auto. }
  destruct One as [One ->].
  assert (Step : exists r, limitFittedAmplitude 0 (Some (coef * a)) eB = Ok r /\ same_elt not_raised eB (snd r)).
  { destruct (Qlt_le_dec (coef * a) b) as [C1|C1].
    - assert (Nb0 : ~ nom lB == 0) by (intro X; rewrite X in Nb; lra).
      rewrite (limit_above 0 (coef * a) eB lB b LB VB C1 Nb0). eexists; split; [reflexivity|].
      cbn [snd]. repeat split. cbn [set_lines elines]. rewrite One. simpl. constructor; [|constructor].
      split; [repeat split|]. intros v Hv. rewrite VB in Hv. injection Hv as <-. simpl.
      eexists; split; [reflexivity|].
      assert (Bpos : 0 < b).
      { destruct (Qlt_le_dec 0 b) as [P|P]; [exact P|exfalso].
        assert (a < 0) by nra. assert (Z : Qle_bool a 0 && Qle_bool b 0 = true).
        { apply andb_true_intro; split; apply Qle_bool_iff; lra. }
        congruence. }
      assert (X : nom lB * (max0 (coef * a) / nom lB) == max0 (coef * a)) by (field; exact Nb0).
      rewrite X. destruct (max0_cases (coef * a)) as [[_ ->]|[_ ->]]; lra.
    - rewrite (limit_below 0 (coef * a) eB lB b LB VB C1). eexists; split; [reflexivity|].
      apply same_elt_refl, not_raised_refl. }
  destruct Step as [r [E S]]. rewrite E. cbn [rbind].
  destruct (vset_spec es iB (snd r) (nth_error_lt _ _ _ EB)) as [es' [V1 [V2 [V3 V4]]]].
  rewrite V1. exists es'. split; [reflexivity|]. split.
  - eapply Forall2_vset; eauto. intro; apply same_elt_refl, not_raised_refl.
  - intros i Hi. apply V4. intro X. subst i. apply (Hi O). exact DB.
Qed.

Lemma names_same es es' P ty tag i j : Forall2 (same_elt P) es es' ->
  designates es ty tag i j <-> designates es' ty tag i j.
Proof.
  intro F. unfold designates. split.
  - intros [e [l [He [Hl [T [C [M1 M2]]]]]]].
    destruct (Forall2_nth _ _ _ _ _ F He) as [e' [He' [T' [_ [_ [_ FL]]]]]].
    destruct (Forall2_nth _ _ _ _ _ FL Hl) as [l' [Hl' [[N _] _]]].
    exists e', l'. repeat split; auto; try congruence.
    + intros k l0 Hk H0. destruct (Forall2_nth_r _ _ _ _ _ FL H0) as [l1 [H1 [[N1 _] _]]]. rewrite N1. eapply M1; eauto.
    + intros k e0 Hk H0 T0 l0 Hl0. destruct (Forall2_nth_r _ _ _ _ _ F H0) as [e1 [H1 [T1 [_ [_ [_ FL1]]]]]].
      destruct (Forall2_In_r _ _ _ _ FL1 Hl0) as [l1 [H2 [[N1 _] _]]]. rewrite N1. eapply M2; eauto. congruence.
  - intros [e' [l' [He' [Hl' [T [C [M1 M2]]]]]]].
    destruct (Forall2_nth_r _ _ _ _ _ F He') as [e [He [T' [_ [_ [_ FL]]]]]].
    destruct (Forall2_nth_r _ _ _ _ _ FL Hl') as [l [Hl [[N _] _]]].
    exists e, l. repeat split; auto; try congruence.
    + intros k l0 Hk H0. destruct (Forall2_nth _ _ _ _ _ FL H0) as [l1 [H1 [[N1 _] _]]]. rewrite <- N1. eapply M1; eauto.
    + intros k e0 Hk H0 T0 l0 Hl0. destruct (Forall2_nth _ _ _ _ _ F H0) as [e1 [H1 [T1 [_ [_ [_ FL1]]]]]].
      apply In_nth_error in Hl0. destruct Hl0 as [q Hq].
      destruct (Forall2_nth _ _ _ _ _ FL1 Hq) as [l1 [H2 [[N1 _] _]]]. rewrite <- N1. eapply M2; eauto; [congruence|eapply nth_error_In; eauto].
Qed.

Lemma designates_fun es ty tag i j i' j' : designates es ty tag i j -> designates es ty tag i' j' -> ty <> AllTypes -> i = i' /\ j = j'.
Proof.
  intros H1 H2 Hty. apply findElementIndex_spec in H1, H2; auto. rewrite H1 in H2. inversion H2; auto.
Qed.


Lemma two_chain_frame opt rs es : Forall is_two rs -> (forall e, In e es -> positive_nominals e) ->
  exists es', applyAll opt rs es = Ok es' /\ Forall2 (same_elt not_raised) es es' /\
    forall i, (forall r j, In r rs -> ~ designates es Emission (target r) i j) -> nth_error es' i = nth_error es i.
Proof.
  revert es; induction rs as [|r rs IH]; intros es Hr Hp.
  - exists es. split; [reflexivity|]. split; [apply Forall2_refl; intro; apply same_elt_refl, not_raised_refl|auto].
  - inversion Hr as [|? ? H1 H2]; subst. cbn [applyAll].
    destruct (enabled opt r).
    + destruct r as [[| |] A B c| |]; simpl in H1; try contradiction. cbn [correct].
      destruct (two_single_frame A B c es H1 Hp) as [es1 [E1 [F1 U1]]]. rewrite E1. cbn [rbind].
      assert (Hp1 : forall e, In e es1 -> positive_nominals e).
      { intros e He. destruct (Forall2_In_r _ _ _ _ F1 He) as [e0 [He0 S0]]. eapply positive_same; [exact S0|apply Hp, He0]. }
      destruct (IH es1 H2 Hp1) as [es' [E [F U]]]. exists es'. split; [exact E|]. split.
      * refine (Forall2_trans _ _ _ _ _ _ _ F1 F). intros x y z Hx Hy. eapply same_elt_trans; eauto. exact not_raised_trans.
      * intros i Hi. rewrite U; [apply U1; intros j; apply (Hi (TwoSingle Emission A B c) j (or_introl eq_refl))|].
        intros r j Hr' D. apply (Hi r j (or_intror Hr')). eapply names_same; eauto.
    + destruct (IH es H2 Hp) as [es' [E [F U]]]. exists es'. split; [exact E|]. split; [exact F|].
      intros i Hi. apply U. intros r0 j Hr0. apply Hi. now right.
Qed.

Lemma applyAll_app opt r1 r2 es : applyAll opt (r1 ++ r2)%list es = do es1 <- applyAll opt r1 es; applyAll opt r2 es1.
Proof.
  revert es; induction r1 as [|r r1 IH]; intro es; simpl; [reflexivity|].
  destruct (enabled opt r); [|apply IH]. destruct (correct r es); simpl; auto.
Qed.

Theorem chain_constraint opt pre post tagA tagB coef es iA iB eA eB lA lB a b :
  Forall is_two (pre ++ TwoSingle Emission tagA tagB coef :: post)%list -> enabled opt (TwoSingle Emission tagA tagB coef) = true ->
  (forall e, In e es -> positive_nominals e) ->
  designates es Emission tagA iA 0 -> designates es Emission tagB iB 0 -> iA <> iB ->
  nth_error es iA = Some eA -> nth_error es iB = Some eB -> elines eA = [lA] -> elines eB = [lB] -> eout eA = false ->
  fit lA = Some a -> fit lB = Some b ->
  (forall r j, In r post -> ~ designates es Emission (target r) iA j /\ ~ designates es Emission (target r) iB j) ->
  exists es' lA' lB' a' b', applyAll opt (pre ++ TwoSingle Emission tagA tagB coef :: post)%list es = Ok es' /\
    line_at es' iA 0 lA' /\ line_at es' iB 0 lB' /\ fit lA' = Some a' /\ fit lB' = Some b' /\
    a' <= a /\ b' <= b /\ b' <= Qmax 0 (coef * a').
Proof.
  intros Hr En Hp DA DB Hne EA EB LA LB OA FA FB Hpost.
  apply Forall_app in Hr. destruct Hr as [Hr1 Hr2]. inversion Hr2 as [|? ? Hc Hr3]; subst. simpl in Hc.
  rewrite applyAll_app. destruct (two_chain_frame opt pre es Hr1 Hp) as [es1 [E1 [F1 _]]]. rewrite E1. cbn [rbind applyAll]. rewrite En.
  destruct (Forall2_nth _ _ _ _ _ F1 EA) as [eA1 [EA1 [TA1 [_ [OA1 [_ LA1]]]]]].
  destruct (Forall2_nth _ _ _ _ _ F1 EB) as [eB1 [EB1 [TB1 [_ [OB1 [_ LB1]]]]]].
  rewrite LA in LA1. rewrite LB in LB1.
  inversion LA1 as [|? lA1 ? ? [SA RA] XA HA1 YA]; subst. inversion XA; subst.
  inversion LB1 as [|? lB1 ? ? [SB RB] XB HB1 YB]; subst. inversion XB; subst.
  destruct (RA a FA) as [a1 [FA1 La1]]. destruct (RB b FB) as [b1 [FB1 Lb1]].
  assert (Hp1 : forall e, In e es1 -> positive_nominals e).
  { intros e He. destruct (Forall2_In_r _ _ _ _ F1 He) as [e0 [He0 S0]]. eapply positive_same; [exact S0|apply Hp, He0]. }
  assert (NB : ~ nom lB1 == 0).
  { intro X. assert (0 < nom lB1). { apply (Hp1 eB1); [eapply nth_error_In; eauto|]. rewrite <- YB. left; reflexivity. } lra. }
  cbn [correct].
  destruct (two_lines_rule es1 tagA tagB iA iB eA1 eB1 lA1 lB1 a1 b1 coef) as
    [es2 [lB2 [b2 [E2 [LT2 [SL2 [_ [FB2 [C1 [C2 U2]]]]]]]]]]; auto; try congruence.
  { eapply (names_same es es1); eauto. }
  { eapply (names_same es es1); eauto. }
  rewrite E2. cbn [rbind].
  destruct (two_single_frame tagA tagB coef es1 Hc Hp1) as [es2' [E2' [F2 _]]].
  rewrite E2 in E2'. injection E2' as <-.
  assert (Hp2 : forall e, In e es2 -> positive_nominals e).
  { intros e He. destruct (Forall2_In_r _ _ _ _ F2 He) as [e0 [He0 S0]]. eapply positive_same; [exact S0|apply Hp1, He0]. }
  destruct (two_chain_frame opt post es2 Hr3 Hp2) as [es3 [E3 [F3 U3]]]. rewrite E3.
  assert (F12 : Forall2 (same_elt not_raised) es es2).
  { refine (Forall2_trans _ _ _ _ _ _ _ F1 F2). intros x y z Hx Hy. eapply same_elt_trans; eauto. exact not_raised_trans. }
  assert (KA : nth_error es3 iA = nth_error es2 iA).
  { apply U3. intros r j Hin D. apply (proj1 (Hpost r j Hin)). eapply names_same; eauto. }
  assert (KB : nth_error es3 iB = nth_error es2 iB).
  { apply U3. intros r j Hin D. apply (proj2 (Hpost r j Hin)). eapply names_same; eauto. }
  destruct U2 as [_ U2].
  assert (KA2 : nth_error es2 iA = Some eA1). { rewrite U2; [exact EA1|]. simpl. intros [X|[]]; congruence. }
  destruct LT2 as [eB2 [EB2 LB2]].
  exists es3, lA1, lB2, a1, b2. split; [reflexivity|].
  split; [exists eA1; split; [congruence|rewrite <- YA; reflexivity]|].
  split; [exists eB2; split; [congruence|exact LB2]|].
  split; [exact FA1|]. split; [exact FB2|]. split; [exact La1|].
  assert (M0 : 0 <= Qmax 0 (coef * a1)) by apply Q.le_max_l.
  assert (M1 : coef * a1 <= Qmax 0 (coef * a1)) by apply Q.le_max_r.
  destruct (Qlt_le_dec (coef * a1) b1) as [D|D].
  - destruct (Qlt_le_dec 0 b1) as [D0|D0].
    + rewrite C2 by auto. split; [|lra]. assert (Qmax 0 (coef * a1) <= b1) by (apply Q.max_lub; lra). lra.
    + rewrite C1 by (right; exact D0). split; lra.
  - rewrite C1 by (left; exact D). split; lra.
Qed.


Lemma sound_vset es i e es' : sound es -> positive_nominals e /\ amplitudes_nonneg e -> vset es i e = Ok es' -> sound es'.
Proof.
  revert i es'; induction es as [|x es IH]; intros [|i] es' Hs He H; simpl in H; try discriminate.
  - injection H as <-. intros y [<-|Hy]; [exact He|apply Hs; now right].
  - destruct (vset es i e) as [r| |] eqn:E; try discriminate. simpl in H. injection H as <-.
    intros y [<-|Hy]; [apply Hs; left; reflexivity|]. eapply (IH i r); eauto. intros z Hz; apply Hs; now right.
Qed.
Lemma limit_sound i lim e r : positive_nominals e -> amplitudes_nonneg e -> limitFittedAmplitude i lim e = Ok r ->
  positive_nominals (snd r) /\ amplitudes_nonneg (snd r) /\ length (elines (snd r)) = length (elines e).
Proof.
  intros Hp Hn. unfold limitFittedAmplitude, vget. destruct (nth_error (elines e) i) as [l|] eqn:Hi; [|discriminate].
  cbn [rbind]. destruct (fit l) as [f|]; [|intro H; injection H as <-; auto].
  destruct lim as [lim|]; [|intro H; injection H as <-; auto].
  destruct (Qltb lim f); [|intro H; injection H as <-; auto].
  intro H. injection H as <-. cbn [snd set_lines elines]. split; [|split].
  - intros k Hk. simpl in Hk. apply in_map_iff in Hk. destruct Hk as [k0 [<- Hk0]]. simpl. apply Hp, Hk0.
  - intros k v Hk Hv. simpl in Hk. apply in_map_iff in Hk. destruct Hk as [k0 [<- Hk0]]. simpl in Hv.
    destruct (Qeq_bool (nom l) 0); [discriminate|]. simpl in Hv. injection Hv as <-.
    pose proof (Hp k0 Hk0). pose proof (Hp l (nth_error_In _ _ Hi)) as Hl.
    assert (0 <= max0 lim / nom l).
    { apply Qle_shift_div_l; [exact Hl|]. destruct (max0_cases lim) as [[? ->]|[? ->]]; lra. }
    nra.
  - rewrite map_length. reflexivity.
Qed.
Lemma set_sound a s e : positive_nominals e -> (forall v, a = Some v -> 0 <= v) ->
  positive_nominals (setAmplitudes a s e) /\ amplitudes_nonneg (setAmplitudes a s e).
Proof.
  intros Hp Ha. unfold setAmplitudes.
  assert (N : positive_nominals (set_lines e (map (fun l => set_fit_std l None None) (elines e))) /\
              amplitudes_nonneg (set_lines e (map (fun l => set_fit_std l None None) (elines e)))).
  { split.
    - intros k Hk. simpl in Hk. apply in_map_iff in Hk. destruct Hk as [k0 [<- Hk0]]. simpl. apply Hp, Hk0.
    - intros k v Hk Hv. simpl in Hk. apply in_map_iff in Hk. destruct Hk as [k0 [<- Hk0]]. discriminate. }
  destruct a as [v|]; [|exact N]. destruct (egout e); [exact N|]. specialize (Ha v eq_refl). split.
  - intros k Hk. simpl in Hk. apply in_map_iff in Hk. destruct Hk as [k0 [<- Hk0]]. destruct (lgout k0); apply (Hp k0 Hk0).
  - intros k w Hk Hw. simpl in Hk. apply in_map_iff in Hk. destruct Hk as [k0 [<- Hk0]].
    destruct (lgout k0); [discriminate|]. pose proof (Hp k0 Hk0). unfold setFittedAmplitude in Hw. simpl in Hw.
    destruct (negb (ltype_eqb (etype e) Emission)) eqn:T; cbn [andb] in Hw.
    + destruct (Qltb_spec 0 (eabs e)) as [P|P]; cbn [andb] in Hw.
      * destruct (Qltb (eabs e) (v * nom k0)); injection Hw as <-; [lra|nra].
      * injection Hw as <-. nra.
    + injection Hw as <-. nra.
Qed.

Lemma corrected_nonneg R a1 e1 a2 e2 c : 0 < R -> 0 <= a1 -> 0 <= a2 -> corrected R a1 e1 a2 e2 = Some c -> 0 <= c.
Proof.
  intros HR H1 H2 H. destruct e1 as [e1|]; [|discriminate].
  destruct e2 as [e2|]; [|unfold corrected in H; simpl in H; discriminate].
  destruct (Qeq_dec e1 0) as [Z1|Z1]; [destruct (Qeq_dec e2 0) as [Z2|Z2]|].
  - exfalso. unfold corrected, weight in H. apply Qeq_bool_iff in Z1, Z2. rewrite Z1, Z2 in H. discriminate.
  - destruct (corrected_spec R a1 e1 a2 e2 HR) as [c' [E [_ B]]]; [tauto|]. rewrite H in E. injection E as <-.
    unfold between in B. assert (0 <= R * a2) by nra. destruct B; lra.
  - destruct (corrected_spec R a1 e1 a2 e2 HR) as [c' [E [_ B]]]; [tauto|]. rewrite H in E. injection E as <-.
    unfold between in B. assert (0 <= R * a2) by nra. destruct B; lra.
Qed.
Lemma odiv_nonneg c R v : 0 < R -> (forall x, c = Some x -> 0 <= x) -> odiv c R = Some v -> 0 <= v.
Proof.
  intros HR Hc. unfold odiv. destruct c as [x|]; [|discriminate]. destruct (Qeq_bool R 0); [discriminate|].
  intro H; injection H as <-. apply Qle_shift_div_l; [exact HR|]. specialize (Hc x eq_refl). lra.
Qed.

Lemma sound_upd es i f : sound es -> (i < length es)%nat ->
  (forall e, nth_error es i = Some e -> positive_nominals (f e) /\ amplitudes_nonneg (f e)) ->
  exists es', upd_elt es i f = Ok es' /\ sound es' /\ length es' = length es.
Proof.
  intros Hs Hi Hf. unfold upd_elt, vget. destruct (nth_error es i) as [e|] eqn:E; [|apply nth_error_None in E; lia].
  cbn [rbind]. destruct (vset_spec es i (f e) Hi) as [es' [V1 [V2 [V3 V4]]]]. exists es'. split; [exact V1|]. split; [|exact V2].
  eapply sound_vset; [exact Hs| |exact V1]. apply Hf. reflexivity.
Qed.

Definition good_rule (r : rule) : Prop :=
  match r with
  | TwoSingle Emission _ _ c | RatioRange Emission _ _ c => 0 < c
  | StrongWeak _ => True | _ => False end.

Lemma correctElement_sound n i cap e : (i + n = length (elines e))%nat -> positive_nominals e -> amplitudes_nonneg e ->
  exists e', correctElement n i cap e = Ok e' /\ positive_nominals e' /\ amplitudes_nonneg e'.
Proof.
  revert i e; induction n as [|n IH]; intros i e Hl Hp Hn; [exists e; auto|]. cbn [correctElement].
  destruct (nth_error (elines e) i) as [l|] eqn:Hi; [|apply nth_error_None in Hi; lia].
  unfold vget. rewrite Hi. cbn [rbind].
  destruct (lout l); [apply IH; auto; lia|]. destruct (is_weak (lforce l)); [|apply IH; auto; lia].
  destruct (limitFittedAmplitude i (Some cap) e) as [r| |] eqn:E.
  - destruct (limit_sound i (Some cap) e r Hp Hn E) as [P1 [P2 P3]]. cbn [rbind]. apply IH; auto. lia.
  - exfalso. unfold limitFittedAmplitude, vget in E. rewrite Hi in E. cbn [rbind] in E.
    destruct (fit l); [|discriminate]. destruct (Qltb cap q); discriminate.
  - exfalso. unfold limitFittedAmplitude, vget in E. rewrite Hi in E. cbn [rbind] in E.
    destruct (fit l); [|discriminate]. destruct (Qltb cap q); discriminate.
Qed.

Lemma correct_sound r es : good_rule r -> sound es ->
  (exists es', correct r es = Ok es' /\ sound es') \/ correct r es = Throw INTERNAL_ERROR.
Proof.
  intros Hg Hs. destruct r as [ty A B c|ty A B c|ty]; simpl in Hg; [destruct ty; try contradiction| destruct ty; try contradiction|].
  - left. destruct (two_single_frame A B c es Hg) as [es' [E [F _]]]; [intros e He; apply (Hs e He)|].
    exists es'. split; [exact E|].
    (* non-negativity of the amplitudes: the rule is the identity or one limit *)
    cbn [correct] in E. unfold rule2SingleLines in E.
    destruct (findElementIndex A Emission es) as [[iA jA]|] eqn:FA; [|injection E as <-; exact Hs].
    destruct (findElementIndex B Emission es) as [[iB jB]|] eqn:FB; [|injection E as <-; exact Hs].
    unfold vget at 1 2 in E.
    destruct (nth_error es iA) as [eA|]; cbn [rbind] in E; [|discriminate].
    destruct (nth_error es iB) as [eB|] eqn:EB; cbn [rbind] in E; [|discriminate].
    destruct (_ || _ || _); [injection E as <-; exact Hs|].
    destruct (eout eA); [injection E as <-; exact Hs|].
    destruct (vget_line es iA jA) as [lA| |]; cbn [rbind] in E; try discriminate.
    destruct (vget_line es iB jB) as [lB| |]; cbn [rbind] in E; try discriminate.
    destruct (fit lA) as [a|]; [|injection E as <-; exact Hs]. destruct (fit lB) as [b|]; [|injection E as <-; exact Hs].
    destruct (_ && _); [injection E as <-; exact Hs|].
    destruct (Qltb b (c * a)); [injection E as <-; exact Hs|].
    destruct (limitFittedAmplitude jB (Some (c * a)) eB) as [r| |] eqn:EL; cbn [rbind] in E; try discriminate.
    destruct (Hs eB (nth_error_In _ _ EB)) as [P N]. destruct (limit_sound _ _ _ _ P N EL) as [P1 [N1 _]].
    eapply sound_vset; [exact Hs|split; [exact P1|exact N1]|exact E].
  - left. cbn [correct]. unfold ruleRatioRange.
    assert (Id : exists es', Ok es = Ok es' /\ sound es') by (exists es; auto).
    destruct (findElementIndex A Emission es) as [[iA jA]|] eqn:FA; [|exact Id].
    destruct (findElementIndex B Emission es) as [[iB jB]|] eqn:FB; [|exact Id].
    apply designates_findex in FA, FB.
    destruct FA as [eA [lA [EA [LA _]]]]. destruct FB as [eB [lB [EB [LB _]]]].
    destruct (Nat.eqb iA iB); [exact Id|]. unfold vget at 1 2. rewrite EA, EB. cbn [rbind].
    destruct (eout eA || eout eB); [exact Id|].
    rewrite (vget_line_ok es iA jA eA lA EA LA), (vget_line_ok es iB jB eB lB EB LB). cbn [rbind].
    destruct (fit lA) as [a|] eqn:VA; [|exact Id]. destruct (fit lB) as [b|] eqn:VB; [|exact Id].
    assert (Pa : 0 <= a).
    { destruct (Hs eA (nth_error_In _ _ EA)) as [_ N]. apply (N lA a); auto. eapply nth_error_In; eauto. }
    assert (Pb : 0 <= b).
    { destruct (Hs eB (nth_error_In _ _ EB)) as [_ N]. apply (N lB b); auto. eapply nth_error_In; eauto. }
    assert (Two : forall i1 i2 a1 s1 a2 s2 t1 t2, (i1 < length es)%nat -> (i2 < length es)%nat -> 0 <= a1 -> 0 <= a2 ->
      exists es', (do es1 <- upd_elt es i1 (setAmplitudes (corrected c a1 s1 a2 s2) t1);
                   upd_elt es1 i2 (setAmplitudes (odiv (corrected c a1 s1 a2 s2) c) t2)) = Ok es' /\ sound es').
    { intros i1 i2 a1 s1 a2 s2 t1 t2 L1 L2 P1 P2.
      assert (Hc : forall v, corrected c a1 s1 a2 s2 = Some v -> 0 <= v) by (intros v; apply corrected_nonneg; auto).
      destruct (sound_upd es i1 (setAmplitudes (corrected c a1 s1 a2 s2) t1) Hs L1) as [es1 [U1 [S1 N1]]].
      { intros e He. apply set_sound; [apply (Hs e (nth_error_In _ _ He))|exact Hc]. }
      rewrite U1. cbn [rbind].
      destruct (sound_upd es1 i2 (setAmplitudes (odiv (corrected c a1 s1 a2 s2) c) t2) S1) as [es2 [U2 [S2 N2]]]; [lia| |].
      { intros e He. apply set_sound; [apply (S1 e (nth_error_In _ _ He))|]. intros v. apply odiv_nonneg; auto. }
      exists es2. auto. }
    pose proof (nth_error_lt _ _ _ EA). pose proof (nth_error_lt _ _ _ EB).
    destruct (Qltb (Qabs (b * c)) (Qabs a)); [apply Two; auto|].
    destruct (Qltb (Qabs (a * c)) (Qabs b)); [apply Two; auto|exact Id].
  - cbn [correct]. unfold ruleStrongWeak. destruct (lowestStrong ty es) as [[m [er|]]|]; [|right; reflexivity|left; exists es; auto].
    left. match goal with |- context [rmap ?f es] => set (g := f) end.
    destruct (rmap_Forall2 g (fun e e' => positive_nominals e' /\ amplitudes_nonneg e') es) as [es' [E F]].
    + intros e He. destruct (Hs e He) as [P N]. unfold g. destruct (ltype_eqb (etype e) ty).
      * apply correctElement_sound; auto.
      * exists e; auto.
    + exists es'. split; [exact E|]. intros e' He'. destruct (Forall2_In_r _ _ _ _ F He') as [e [_ X]]. exact X.
Qed.

Lemma applyAll_sound opt rs es : Forall good_rule rs -> sound es ->
  (exists es', applyAll opt rs es = Ok es' /\ sound es') \/ applyAll opt rs es = Throw INTERNAL_ERROR.
Proof.
  revert es; induction rs as [|r rs IH]; intros es Hg Hs; [left; exists es; auto|].
  inversion Hg; subst. cbn [applyAll]. destruct (enabled opt r); [|apply IH; auto].
  destruct (correct_sound r es) as [[es1 [E S1]]|E]; auto.
  - rewrite E. cbn [rbind]. apply IH; auto.
  - rewrite E. right. reflexivity.
Qed.
Lemma regulament_good : Forall good_rule regulament.
Proof. repeat constructor. Qed.

Theorem applyRules_sound opt es : sound es ->
  (exists es', applyRules opt es = Ok es' /\ sound es') \/ applyRules opt es = Throw INTERNAL_ERROR.
Proof.
  intro Hs. unfold applyRules. destruct (String.eqb opt "no"); [left; exists es; auto|].
  apply applyAll_sound; [exact regulament_good|exact Hs].
Qed.

(** the absorption Balmer rules look for emission elements *)
Theorem absorption_balmer_idle opt es :
  (forall e l, In e es -> etype e = Emission -> In l (elines e) ->
     forall r, In r absorption_balmer -> contains (target r) (lname l) = false) ->
  applyAll opt absorption_balmer es = Ok es.
Proof.
  intro H.
  assert (G : forall rs, (forall r, In r rs -> In r absorption_balmer) -> applyAll opt rs es = Ok es).
  { induction rs as [|r rs IH]; intro Hi; [reflexivity|]. cbn [applyAll].
    destruct (enabled opt r); [|apply IH; intros; apply Hi; now right].
    assert (Hr : In r absorption_balmer) by (apply Hi; left; reflexivity).
    assert (E : correct r es = Ok es).
    { assert (K : exists A B c, r = TwoSingle Emission A B c).
      { simpl in Hr. repeat (destruct Hr as [<-|Hr]; [do 3 eexists; reflexivity|]). destruct Hr. }
      destruct K as [A [B [c ->]]]. cbn [correct]. unfold rule2SingleLines.
      destruct (findElementIndex A Emission es) as [[iA jA]|]; [|reflexivity].
      destruct (findElementIndex B Emission es) as [[iB jB]|] eqn:FB; [|reflexivity].
      exfalso. apply designates_findex in FB. destruct FB as [e [l [He [Hl [T [C _]]]]]].
      specialize (H e l (nth_error_In _ _ He) T (nth_error_In _ _ Hl) _ Hr). simpl in H. congruence. }
    rewrite E. cbn [rbind]. apply IH. intros; apply Hi; now right. }
  apply G. auto.
Qed.

Theorem limit_spec i lim e l f : nth_error (elines e) i = Some l -> fit l = Some f -> ~ nom l == 0 ->
  (f <= lim -> limitFittedAmplitude i (Some lim) e = Ok (false, e)) /\
  (lim < f -> exists e', limitFittedAmplitude i (Some lim) e = Ok (true, e') /\
     same_elt (fun k k' => fstd k' = fstd k /\ exists v, fit k' = Some v /\ v * nom l == nom k * Qmax 0 lim) e e' /\
     exists l' v, nth_error (elines e') i = Some l' /\ fit l' = Some v /\ v == Qmax 0 lim).
Proof.
  intros Hi Hf Hn. split; [intro H; eapply limit_below; eauto|]. intro H.
  rewrite (limit_above i lim e l f Hi Hf H Hn). eexists; split; [reflexivity|]. split.
  - repeat split. cbn [set_lines elines]. apply Forall2_map_r. intros k _. split; [repeat split|]. split; [reflexivity|].
    simpl. eexists; split; [reflexivity|]. rewrite <- max0_spec. field; exact Hn.
  - cbn [set_lines elines]. eexists. eexists. split; [apply nth_error_map_some; exact Hi|]. split; [reflexivity|].
    rewrite <- max0_spec. field; exact Hn.
Qed.
Theorem strong_weak_total ty es : (forall e, In e es -> fitted_elt e) ->
  (no_strong es ty /\ ruleStrongWeak ty es = Ok es) \/
  exists m er, lowest_strong es ty m er /\
    ((er = None /\ ruleStrongWeak ty es = Throw INTERNAL_ERROR) \/
     exists s es', er = Some s /\ ruleStrongWeak ty es = Ok es' /\
       Forall2 (fun e e' => same_elt not_raised e e' /\ fitted_elt e' /\ (etype e <> ty -> e' = e)) es es' /\
       (forall l v, in_range_line es' ty l -> lforce l = Weak -> fit l = Some v -> v <= Qmax 0 (m + s)) /\
       (unmixed es ty -> lowest_strong es' ty m er)).
Proof.
  intro Hf. destruct (lowestStrong ty es) as [[m er]|] eqn:E.
  - right. exists m, er. split; [apply lowestStrong_some; exact E|]. destruct er as [s|].
    + right. exists s. destruct (strong_weak_rule ty es m s Hf E) as [es' [R [F C]]]. exists es'.
      split; [reflexivity|]. split; [exact R|]. split; [exact F|]. split; [exact C|].
      intro U. destruct (strong_weak_after ty es m s Hf U E) as [es2 [R2 [L _]]]. rewrite R in R2. injection R2 as <-. exact L.
    + left. split; [reflexivity|]. unfold ruleStrongWeak. rewrite E. reflexivity.
  - left. split; [apply lowestStrong_none; exact E|]. unfold ruleStrongWeak. rewrite E. reflexivity.
Qed.

(** ** which rules an option enables *)
Lemma substring_prefix : forall t s, substring 0 (String.length t) s = t -> exists q, s = (t ++ q)%string.
Proof.
  induction t as [|c t IH]; intros s H; [exists s; reflexivity|].
  destruct s as [|d s]; simpl in H; [discriminate|]. injection H as -> H. destruct (IH s H) as [q ->]. exists q. reflexivity.
Qed.
Lemma substring_split t : t <> ""%string -> forall s m, substring m (String.length t) s = t -> exists p q, s = (p ++ t ++ q)%string.
Proof.
  intros Ht. induction s as [|d s IH]; intros m H.
  - destruct m; destruct t; simpl in H; try congruence; discriminate.
  - destruct m as [|m].
    + destruct (substring_prefix t (String d s) H) as [q E]. exists ""%string, q. exact E.
    + simpl in H. destruct (IH m H) as [p [q ->]]. exists (String d p), q. reflexivity.
Qed.
Lemma substring_found : forall p t q, substring (String.length p) (String.length t) (p ++ t ++ q) = t.
Proof.
  induction p as [|c p IH]; intros t q; simpl; [|apply IH].
  induction t as [|c t IHt]; simpl; [destruct q; reflexivity|]. rewrite IHt. reflexivity.
Qed.
Lemma contains_iff t s : t <> ""%string -> (contains t s = true <-> exists p q, s = (p ++ t ++ q)%string).
Proof.
  intro Ht. unfold contains. destruct (index 0 t s) as [m|] eqn:E; split; intro H; auto; try discriminate.
  - apply index_correct1 in E. eapply substring_split; eauto.
  - destruct H as [p [q ->]]. exfalso.
    apply (index_correct3 0 (String.length p) t (p ++ t ++ q) E Ht ltac:(lia)). apply substring_found.
Qed.
Lemma enabled_iff opt r : enabled opt r = true <->
  opt = "no"%string \/ opt = "all"%string \/ exists p q, opt = (p ++ rule_name r ++ q)%string.
Proof.
  unfold enabled. destruct (String.eqb_spec opt "no") as [->|N]; [split; auto|].
  destruct (String.eqb_spec opt "all") as [->|A]; [split; auto|]. cbn [orb].
  rewrite contains_iff by (destruct r; discriminate). split; [auto|]. intros [H|[H|H]]; [contradiction|contradiction|exact H].
Qed.
Lemma applyRules_all es : applyRules "all" es = fold_left (fun acc r => rbind acc (correct r)) regulament (Ok es).
Proof.
  unfold applyRules. change (String.eqb "all" "no") with false. cbv iota. generalize regulament. intro rs. revert es.
  induction rs as [|r rs IH]; intro es; [reflexivity|]. cbn [applyAll fold_left].
  assert (enabled "all" r = true) as -> by (apply enabled_iff; auto). cbn [rbind].
  destruct (correct r es) as [es'|e|]; cbn [rbind].
  - apply IH.
  - clear. induction rs; simpl; auto.
  - clear. induction rs; simpl; auto.
Qed.
Lemma applyRules_none_enabled opt es : opt <> "no"%string -> (forall r, In r regulament -> enabled opt r = false) -> applyRules opt es = Ok es.
Proof.
  intros N H. unfold applyRules. destruct (String.eqb_spec opt "no"); [contradiction|]. revert es H. generalize regulament.
  intros rs es H. induction rs as [|r rs IH]; [reflexivity|]. cbn [applyAll]. rewrite H by (left; reflexivity). apply IH. intros x Hx. apply H. right; exact Hx.
Qed.
