(** C92: the quick continuum merit, the constant of the likelihood, the cache. *)
From Verif Require Import Base RangeModel RangeSpec RangeProofs AxisModel AxisProofs EfitModel F64 RatProofs2 VfitProofs2 StatModel StatSpec StatProofs.
Open Scope Q_scope.

Lemma over_ext os f g : (forall o j, In o os -> In j (counted o) -> f o j == g o j) -> over os f == over os g.
Proof. intro H. unfold over. apply total_ext. intros o Ho. apply total_ext. intros j Hj. auto. Qed.
Lemma over_add os f g : over os (fun o j => f o j + g o j) == over os f + over os g.
Proof. unfold over. rewrite <- total_add. apply total_ext. intros. apply total_add. Qed.
Lemma over_mul os f c : over os (fun o j => c * f o j) == c * over os f.
Proof. unfold over. rewrite <- total_mul. apply total_ext. intros. apply total_mul. Qed.

Lemma fast_is_direct os c (tpl : spc -> nat -> Q) dtd :
  (forall o, In o os -> usable o) ->
  (forall o j, In o os -> In j (counted o) -> at_ (s_cont o) j == c_amp c * tpl o j) ->
  c_dtm c == over os (fun o j => at_ (s_raw o) j * tpl o j / sq (at_ (s_err o) j)) ->
  c_mtm c == over os (fun o j => sq (tpl o j) / sq (at_ (s_err o) j)) ->
  EstimateDTransposeD os false = Ok dtd ->
  exists v, getLeastSquareContinuumMerit os TplFit c = Ok v /\ getLeastSquareContinuumMeritFast dtd TplFit c == v.
Proof.
  intros U Hc D M E.
  destruct (continuum_merit os TplFit c U) as (v & Ev & Qv). exists v. split; auto.
  destruct (dtd_spec os false U) as (d & Ed & Qd). rewrite Ed in E. inversion E; subst dtd.
  unfold getLeastSquareContinuumMeritFast. cbn [isTpl] in *. unfold getTerm1, getTerm2.
  rewrite Qv, D, M, Qd.
  set (X := over os (fun o => chi o (fun j => at_ (s_raw o) j))).
  assert (K : over os (fun o => chi o (fun j => at_ (s_raw o) j - at_ (s_cont o) j)) ==
     X + (c_amp c * c_amp c * over os (fun o j => sq (tpl o j) / sq (at_ (s_err o) j))
          + (-2 * c_amp c) * over os (fun o j => at_ (s_raw o) j * tpl o j / sq (at_ (s_err o) j)))).
  { unfold X. rewrite <- !over_mul, <- !over_add. apply over_ext. intros o j Ho Hj. unfold chi.
    pose proof (err_nz o j (U o Ho)) as N. apply counted_in in Hj as Hj'. destruct Hj' as (Hj' & _). specialize (N ltac:(lia)).
    unfold sq. rewrite (Hc o j Ho Hj). field. auto. }
  rewrite K. ring.
Qed.

Lemma fast_other os comp c dtd : comp <> TplFit -> (forall o, In o os -> usable o) ->
  (forall o j, In o os -> In j (counted o) -> at_ (s_noc o) j == at_ (s_raw o) j - at_ (s_cont o) j) ->
  EstimateDTransposeD os true = Ok dtd ->
  exists v, getLeastSquareContinuumMerit os comp c = Ok v /\ getLeastSquareContinuumMeritFast dtd comp c == v.
Proof.
  intros Nc U H E. destruct (continuum_merit os comp c U) as (v & Ev & Qv). exists v. split; auto.
  destruct (dtd_spec os true U) as (d & Ed & Qd). rewrite Ed in E. inversion E; subst dtd.
  unfold getLeastSquareContinuumMeritFast. replace (isTpl comp) with false in * by (destruct comp; congruence || reflexivity).
  rewrite Qv, Qd, Qplus_0_r. apply over_ext. intros o j Ho Hj. unfold chi, sq. rewrite (H o j Ho Hj). reflexivity.
Qed.

(** ** the closed range *)
Lemma closed_spec o : usable o ->
  match getClosedIntervalIndices (s_range o) (s_axis o) with
  | Ok (a, b) => (a <= b < length (s_axis o))%nat /\ inside_range o = seq a (S b - a)
  | Throw CRANGE_VECTBORDERS_OUTSIDERANGE | Throw CRANGE_NO_INTERSECTION => ordered (s_range o) -> inside_range o = []
  | _ => False
  end.
Proof.
  intro U. pose proof U as (Hs & Hn & _). pose proof (getClosed_spec (s_range o) (s_axis o) Hs) as G.
  assert (E0 : (forall x, In x (s_axis o) -> ~ inside (s_range o) x) -> inside_range o = []).
  { intro H. unfold inside_range, those. rewrite (filter_ext_seq _ (fun _ => false)).
    - clear. generalize (length (s_axis o)) as n. assert (K : forall n s, filter (fun _ : nat => false) (seq s n) = []) by (induction n; intro; cbn; auto). auto.
    - intros k Hk. apply not_true_is_false. intro T. apply andb_true_iff in T. destruct T as (T1 & T2).
      apply Qle_bool_true in T1, T2. apply (H (at_ (s_axis o) k)); [apply nth_In; auto|]. split; auto. }
  destruct (getClosedIntervalIndices (s_range o) (s_axis o)) as [[a b]|e|]; auto.
  - destruct G as (L & G). split; auto. unfold inside_range, those.
    rewrite (filter_ext_seq _ (fun k => Nat.leb a k && Nat.leb k b)%bool).
    + apply filter_seq; auto. lia.
    + intros k Hk. specialize (G k _ (at_nth _ _ Hk)). destruct (Nat.leb_spec a k) as [A|A]; destruct (Nat.leb_spec k b) as [B|B]; cbn [andb].
      1:{ destruct (proj2 G ltac:(lia)) as (X & Y). rewrite (proj2 (Qle_bool_true _ _) X), (proj2 (Qle_bool_true _ _) Y). reflexivity. }
      all: apply not_true_is_false; intro T; apply andb_true_iff in T; destruct T as (T1 & T2); apply Qle_bool_true in T1, T2;
        assert (a <= k <= b)%nat by (apply G; split; auto); lia.
  - destruct e; auto; try (subst; destruct (s_axis o); [cbn in Hn; lia|discriminate]); destruct G as (_ & G); intro O; apply E0; apply G; exact O.
Qed.


Lemma total_const {A} (c : Q) (l : list A) : total (fun _ => c) l == c * inject_Z (Z.of_nat (length l)).
Proof.
  induction l as [|a t IH]; cbn [total length]; [unfold inject_Z; ring|]. rewrite IH, Nat2Z.inj_succ, <- Z.add_1_r, inject_Z_plus. unfold inject_Z at 3. ring.
Qed.
Lemma total_opp {A} (f : A -> Q) l : total (fun a => - f a) l == - total f l.
Proof. induction l as [|a t IH]; cbn [total]; [lra|]. rewrite IH. lra. Qed.

Lemma likelihood ln ln2pi os : (forall o, In o os -> usable o /\ inside_range o <> [] /\ ordered (s_range o)) ->
  exists v, EstimateLikelihoodCstLog ln ln2pi os = Ok v /\
    v == total (fun o => total (fun j => - (1 # 2) * ln2pi - ln (at_ (s_err o) j)) (inside_range o)) os.
Proof.
  intro H. unfold EstimateLikelihoodCstLog.
  destruct (rfold_total (cst_one ln ln2pi) (fun o => total (fun j => - (1 # 2) * ln2pi - ln (at_ (s_err o) j)) (inside_range o)) os 0) as (v & Ev & Qv).
  - intros o b Ho. destruct (H o Ho) as (U & N & O). pose proof (closed_spec o U) as C. unfold cst_one.
    destruct (getClosedIntervalIndices (s_range o) (s_axis o)) as [[x y]|e|]; [|destruct e; try tauto; elim N; auto|tauto].
    destruct C as (L & C). cbn [rbind fst snd].
    destruct (rfold_total (fun a j => do e <- vget (s_err o) j; Ok (a + ln e)) (fun j => ln (at_ (s_err o) j)) (seq x (S y - x)) 0) as (s & Es & Qs).
    + intros j b' Hj. apply in_seq in Hj. lens U. rewrite vget_at by lia. cbn [rbind]. eexists. split; reflexivity.
    + rewrite Es. cbn [rbind]. eexists. split; [reflexivity|]. rewrite C.
      rewrite (total_add (fun _ => - (1 # 2) * ln2pi) (fun j => - ln (at_ (s_err o) j))), total_const, total_opp, seq_length, Qs.
      replace (Z.abs (Z.of_nat y - Z.of_nat x + 1)) with (Z.of_nat (S y - x)) by lia. ring.
  - exists v. split; auto. rewrite Qv. lra.
Qed.

Lemma likelihood_throws ln ln2pi os o : In o os -> (forall o, In o os -> usable o) -> ordered (s_range o) -> inside_range o = [] ->
  EstimateLikelihoodCstLog ln ln2pi os = Throw CRANGE_VECTBORDERS_OUTSIDERANGE \/ EstimateLikelihoodCstLog ln ln2pi os = Throw CRANGE_NO_INTERSECTION.
Proof.
  unfold EstimateLikelihoodCstLog. generalize 0 as acc. induction os as [|p t IH]; intros acc Ho U O N; [destruct Ho|].
  cbn [rfold]. pose proof (closed_spec p (U p (or_introl eq_refl))) as C. unfold cst_one at 1 3.
  destruct (getClosedIntervalIndices (s_range p) (s_axis p)) as [[x y]|e|].
  - destruct C as (L & C). cbn [rbind fst snd].
    destruct (rfold_total (fun a j => do e <- vget (s_err p) j; Ok (a + ln e)) (fun j => ln (at_ (s_err p) j)) (seq x (S y - x)) 0) as (s & Es & Qs).
    + intros j b' Hj. apply in_seq in Hj. lens (U p (or_introl eq_refl)). rewrite vget_at by lia. cbn [rbind]. eexists. split; reflexivity.
    + rewrite Es. cbn [rbind]. apply IH; auto; [|intros; apply U; right; auto]. destruct Ho as [E|Ho]; auto. subst p.
      exfalso. rewrite C in N. replace (S y - x)%nat with (S (y - x)) in N by lia. discriminate.
  - destruct e; try tauto; cbn [rbind]; auto.
  - tauto.
Qed.

(** one sample more than the other sums when the last sample of the spectrum is in the range, or when a sample is at the end of the range *)
Lemma closed_more o : usable o -> ordered (s_range o) ->
  let lost := filter (fun j => Qle_bool (rbeg (s_range o)) (at_ (s_axis o) j) && Qle_bool (at_ (s_axis o) j) (rend (s_range o))
                 && (Qeq_bool (at_ (s_axis o) j) (rend (s_range o)) || (S j =? length (s_axis o))%nat)) (seq 0 (length (s_axis o))) in
  length (inside_range o) = (length (counted o) + length lost)%nat /\ (length lost <= 1)%nat.
Proof.
  intros U O lost. pose proof U as (Hs & Hn & _). split.
  - unfold lost, inside_range, those, counted.
    assert (G : forall n m, (forall j, In j (seq m n) -> (j < length (s_axis o))%nat) ->
      length (filter (fun j => Qle_bool (rbeg (s_range o)) (at_ (s_axis o) j) && Qle_bool (at_ (s_axis o) j) (rend (s_range o))) (seq m n)) =
      (length (filter (fun j => Qle_bool (rbeg (s_range o)) (at_ (s_axis o) j) && Qltb (at_ (s_axis o) j) (rend (s_range o)) && (S j <? length (s_axis o))%nat) (seq m n)) +
       length (filter (fun j => Qle_bool (rbeg (s_range o)) (at_ (s_axis o) j) && Qle_bool (at_ (s_axis o) j) (rend (s_range o))
                 && (Qeq_bool (at_ (s_axis o) j) (rend (s_range o)) || (S j =? length (s_axis o))%nat)) (seq m n)))%nat).
    { induction n as [|n IH]; intros m H; [reflexivity|]. cbn [seq filter].
      specialize (IH (S m) ltac:(intros j Hj; apply H; right; auto)). specialize (H m (or_introl eq_refl)).
      destruct (Qle_bool_spec (rbeg (s_range o)) (at_ (s_axis o) m)) as [A|A]; cbn [andb]; [|exact IH].
      destruct (Qle_bool_spec (at_ (s_axis o) m) (rend (s_range o))) as [B|B]; destruct (Qltb_spec (at_ (s_axis o) m) (rend (s_range o))) as [C|C];
        destruct (Qeq_bool_spec (at_ (s_axis o) m) (rend (s_range o))) as [D|D]; destruct (Nat.ltb_spec (S m) (length (s_axis o))) as [E|E];
        destruct (Nat.eqb_spec (S m) (length (s_axis o))) as [F|F]; cbn [andb orb length]; try lia; exfalso; lra. }
    apply G. intros j Hj. apply in_seq in Hj. lia.
  - assert (Q0 : forall i j, In i lost -> In j lost -> i = j).
    { assert (K : forall i j, (i < j)%nat -> In i lost -> In j lost -> False).
      { intros i j L Hi Hj. unfold lost in Hi, Hj. rewrite filter_In, in_seq in Hi, Hj. destruct Hi as (Li & Hi). destruct Hj as (Lj & Hj).
        apply andb_true_iff in Hi, Hj. destruct Hi as (_ & Hi). destruct Hj as (Hj & _).
        apply andb_true_iff in Hj. destruct Hj as (_ & Hj). apply Qle_bool_true in Hj.
        assert (S0 : at_ (s_axis o) i < at_ (s_axis o) j). { apply (Hs i j); auto; apply at_nth; lia. }
        apply orb_true_iff in Hi. destruct Hi as [Hi|Hi].
        - destruct (Qeq_bool_spec (at_ (s_axis o) i) (rend (s_range o))) as [Z|Z]; [lra|discriminate].
        - apply Nat.eqb_eq in Hi. lia. }
      intros i j Hi Hj. destruct (Nat.lt_total i j) as [L|[L|L]]; auto; exfalso; [apply (K i j L)|apply (K j i L)]; auto. }
    assert (ND : NoDup lost) by (apply NoDup_filter, seq_NoDup).
    destruct lost as [|a [|b t]]; cbn; try lia. exfalso. assert (a = b) by (apply Q0; cbn; auto).
    subst. inversion ND as [|? ? Hin]. apply Hin. left; auto.
Qed.

(** ** the cache *)
Lemma range_ne_refl r : range_ne r r = false.
Proof. unfold range_ne. rewrite !(proj2 (Qeq_bool_iff _ _)) by reflexivity. reflexivity. Qed.

(** while the range does not change, every value is the one of the component in force when it was computed *)
Lemma cache_kept ln ln2pi o t comp h h1 : refresh ln ln2pi (o :: t) comp h = Ok h1 -> h_range h1 = s_range o \/ h1 = h.
Proof.
  unfold refresh, initDtd. destruct (range_ne (h_range h) (s_range o)); [|intro E; inversion E; auto].
  destruct (EstimateDTransposeD _ _); cbn [rbind]; [|discriminate|discriminate].
  destruct (EstimateLikelihoodCstLog _ _ _); cbn [rbind]; [|discriminate|discriminate]. intro E. inversion E. left. reflexivity.
Qed.

Lemma init_parts ln ln2pi o t comp h1 : initDtd ln ln2pi (o :: t) comp = Ok h1 ->
  h_range h1 = s_range o /\ EstimateDTransposeD (o :: t) (negb (isTpl comp)) = Ok (h_dtd h1) /\ EstimateLikelihoodCstLog ln ln2pi (o :: t) = Ok (h_cst h1).
Proof.
  unfold initDtd. destruct (EstimateDTransposeD _ _); cbn [rbind]; [|discriminate|discriminate].
  destruct (EstimateLikelihoodCstLog _ _ _); cbn [rbind]; [|discriminate|discriminate]. intro E. inversion E. auto.
Qed.

Lemma range_ne_spec a b : range_ne a b = true <-> other_range a b.
Proof.
  unfold range_ne, other_range. rewrite negb_true_iff, andb_false_iff.
  assert (E : forall x y, Qeq_bool x y = false <-> ~ x == y).
  { intros x y. rewrite <- Qeq_bool_iff. destruct (Qeq_bool x y); split; congruence. }
  rewrite !E. reflexivity.
Qed.
(** the first request after the construction or a change of range, then any number of requests: the current component *)
Lemma cache_fresh ln ln2pi o t comp h l s : other_range (h_range h) (s_range o) ->
  (forall a, In a l -> a = Ask \/ a = Force) -> In Ask l \/ In Force l ->
  history ln ln2pi (o :: t) (comp, h) l = Ok s ->
  fst s = comp /\ EstimateDTransposeD (o :: t) (negb (isTpl comp)) = Ok (h_dtd (snd s)) /\
  EstimateLikelihoodCstLog ln ln2pi (o :: t) = Ok (h_cst (snd s)) /\
  getDTransposeD ln ln2pi (o :: t) s = Ok (h_dtd (snd s)).
Proof.
  intros R A NE H. apply range_ne_spec in R.
  assert (G : forall l h s, (range_ne (h_range h) (s_range o) = true /\ (In Ask l \/ In Force l) \/
       h_range h = s_range o /\ EstimateDTransposeD (o :: t) (negb (isTpl comp)) = Ok (h_dtd h) /\ EstimateLikelihoodCstLog ln ln2pi (o :: t) = Ok (h_cst h)) ->
    (forall a, In a l -> a = Ask \/ a = Force) -> history ln ln2pi (o :: t) (comp, h) l = Ok s ->
    fst s = comp /\ h_range (snd s) = s_range o /\ EstimateDTransposeD (o :: t) (negb (isTpl comp)) = Ok (h_dtd (snd s)) /\
    EstimateLikelihoodCstLog ln ln2pi (o :: t) = Ok (h_cst (snd s))).
  { clear. induction l as [|a l IH]; intros h s P A H.
    - destruct P as [(_ & [[]|[]])|P]. cbn in H. inversion H; subst. auto.
    - cbn [history] in H.
      assert (exists h1, act ln ln2pi (o :: t) (comp, h) a = Ok (comp, h1) /\ h_range h1 = s_range o /\
         EstimateDTransposeD (o :: t) (negb (isTpl comp)) = Ok (h_dtd h1) /\ EstimateLikelihoodCstLog ln ln2pi (o :: t) = Ok (h_cst h1)) as (h1 & E1 & K1).
      { destruct (A a (or_introl eq_refl)) as [E|E]; subst a; cbn [act fst snd] in *.
        - unfold refresh in *. destruct P as [(R & _)|(R & P)].
          + rewrite R in *. destruct (initDtd ln ln2pi (o :: t) comp) as [h1|e|] eqn:Ei; cbn [rbind] in *; try discriminate.
            exists h1. split; [reflexivity|]. apply init_parts; auto.
          + rewrite R, range_ne_refl in *. cbn [rbind] in *. exists h. auto.
        - destruct (initDtd ln ln2pi (o :: t) comp) as [h1|e|] eqn:Ei; cbn [rbind] in *; try discriminate.
          exists h1. split; [reflexivity|]. apply init_parts; auto. }
      rewrite E1 in H. cbn [rbind] in H. eapply IH; [right; exact K1| |exact H]. intros; apply A; right; auto. }
  destruct (G l h s) as (S1 & S2 & S3 & S4); auto.
  repeat split; auto. unfold getDTransposeD, refresh. rewrite S2, range_ne_refl. reflexivity.
Qed.

(** forcing the computation always restores it *)
Lemma cache_forced ln ln2pi o t l s s1 s2 : history ln ln2pi (o :: t) s l = Ok s1 -> act ln ln2pi (o :: t) s1 Force = Ok s2 ->
  fst s2 = fst s1 /\ EstimateDTransposeD (o :: t) (negb (isTpl (fst s1))) = Ok (h_dtd (snd s2)) /\ getDTransposeD ln ln2pi (o :: t) s2 = Ok (h_dtd (snd s2)).
Proof.
  intros _ H. cbn [act] in H. destruct (initDtd ln ln2pi (o :: t) (fst s1)) as [h1|e|] eqn:Ei; cbn [rbind] in H; try discriminate.
  inversion H; subst. cbn [fst snd]. apply init_parts in Ei. destruct Ei as (A & B & C). repeat split; auto.
  unfold getDTransposeD, refresh. cbn [fst snd]. rewrite A, range_ne_refl. reflexivity.
Qed.
(** a change of component alone changes nothing *)
Lemma cache_component ln ln2pi o t s c : h_range (snd s) = s_range o ->
  exists s', act ln ln2pi (o :: t) s (SetComponent c) = Ok s' /\ fst s' = c /\ getDTransposeD ln ln2pi (o :: t) s' = getDTransposeD ln ln2pi (o :: t) s.
Proof.
  intro R. eexists. split; [reflexivity|]. split; [reflexivity|]. unfold getDTransposeD, refresh. cbn [fst snd]. rewrite R, range_ne_refl. reflexivity.
Qed.
