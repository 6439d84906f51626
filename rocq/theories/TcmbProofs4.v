From Coq Require Import Qabs Lqa Setoid.
From Verif Require Import Base RangeModel RangeProofs AxisModel AxisSpec AxisProofs RebinModel RebinSpec RebinProofs CalzModel CalzProofs MeikModel MeikProofs TplModel TplSpec TplProofs SvdModel SvdSpec SvdProofs TFitProofs5 TcmbModel TcmbSpec TcmbProofs TcmbProofs2 TcmbProofs3.
Open Scope Q_scope.

Definition ends (l : list Q) (f b : Q) : Prop := nth_error l 0 = Some f /\ nth_error l (length l - 1) = Some b.
Lemma clamp_inv s r c : strictly_increasing s -> rbeg r < rend r -> ClampLambdaRange s r = Ok c ->
  exists f b, ends s f b /\ f < b /\ (2 <= length s)%nat /\ rbeg c < rend c /\ forall x, inside c x <-> inside r x /\ f <= x /\ x <= b.
Proof.
  intros SI R H. assert (L : (2 <= length s)%nat).
  { destruct (le_lt_dec 2 (length s)) as [L|L]; [exact L|]. rewrite (proj2 (ClampLambdaRange_errors s r)) in H; [discriminate|lra|lia]. }
  destruct (nth_error_lt s 0 ltac:(lia)) as [f Hf]. destruct (nth_error_lt s (length s - 1) ltac:(lia)) as [b Hb].
  assert (Lt : f < b) by (apply (SI 0%nat (length s - 1)%nat); [lia|exact Hf|exact Hb]).
  destruct (ClampLambdaRange_ok s r f b L Hf Hb Lt R) as [A B]. exists f, b. split; [split; assumption|]. split; [exact Lt|]. split; [exact L|].
  destruct (Qlt_le_dec (rbeg r) b) as [C1|C1]; [destruct (Qlt_le_dec f (rend r)) as [C2|C2]|]; [|rewrite B in H by lra; discriminate|rewrite B in H by lra; discriminate].
  destruct (A (conj C1 C2)) as (c' & E & D). rewrite E in H. inversion H; subst. exact D.
Qed.
Lemma inter_inside a b d x0 : inside a x0 -> inside b x0 -> forall x, inside (snd (Intersect a b d)) x <-> inside a x /\ inside b x.
Proof.
  intros A B x. unfold Intersect, HasIntersection, Qmaxb, Qminb, inside in *.
  destruct (Qltb_spec (rbeg a) (rbeg b)); destruct (Qltb_spec (rend b) (rend a)); match goal with |- context [Qle_bool ?u ?v] => destruct (Qle_bool_spec u v) end; cbn [snd rbeg rend]; lra.
Qed.
Lemma ends_fun l f b f' b' : ends l f b -> ends l f' b' -> f = f' /\ b = b'.
Proof. intros [A B] [C D]. split; congruence. Qed.
Lemma last_ends l f b : ends l f b -> last l 0 = b /\ exists t, l = f :: t.
Proof.
  intros [A B]. split.
  - destruct l as [|h t]; [discriminate|]. destruct (@exists_last _ (h :: t) ltac:(discriminate)) as (l' & y & E). rewrite E in *. rewrite last_last. rewrite app_length in B. cbn [length] in B. rewrite Nat.add_sub, nth_error_app2, Nat.sub_diag in B by lia. cbn in B. congruence.
  - destruct l; [discriminate|]. cbn in A. inversion A. eauto.
Qed.
Lemma covers_spec s f b x : ends (s_X s) f b -> covers s x = true <-> f <= x <= b.
Proof.
  intros H. destruct (last_ends _ _ _ H) as (L & t & E). unfold covers. rewrite E at 1. rewrite L. rewrite Bool.andb_true_iff, !Qle_bool_iff. tauto.
Qed.
(** one template *)
Section One.
  Variables (lr spcr : range) (ax : list Q). Hypothesis SI : strictly_increasing ax. Hypothesis R : rbeg lr < rend lr. Hypothesis Cs : ClampLambdaRange ax lr = Ok spcr.
  Lemma spcr_spec : forall x, In x ax -> inside spcr x <-> inside lr x.
  Proof.
    destruct (clamp_inv _ _ _ SI R Cs) as (f & b & [Hf Hb] & Lt & L & _ & H). intros x I. rewrite H. split; [tauto|]. intros A. split; [exact A|].
    apply In_nth_error in I. destruct I as [k Hk]. pose proof (nth_error_len _ _ _ Hk). split.
    - destruct (Nat.eq_dec k 0) as [->|]; [replace x with f by congruence; lra|]. apply Qlt_le_weak. apply (SI 0%nat k); [lia|exact Hf|exact Hk].
    - destruct (Nat.eq_dec k (length ax - 1)) as [->|]; [replace x with b by congruence; lra|]. apply Qlt_le_weak. apply (SI k (length ax - 1)%nat); [lia|exact Hk|exact Hb].
  Qed.
  Lemma one_template s tr cells x0 : wf_source s -> ClampLambdaRange (s_X s) lr = Ok tr -> inside spcr x0 -> (forall f b, ends (s_X s) f b -> f <= x0 <= b) ->
    let ir := snd (Intersect tr spcr (mkRange 0 0)) in
    compute rebinLinear OptNo s (rbeg ir) (rend ir) ax = Ok cells ->
    length cells = length ax /\ inside lr x0 /\ inside ir x0 /\ (forall x, inside ir x <-> inside spcr x /\ covered [s] x /\ inside lr x) /\
    (exists f b, ends (s_X s) f b) /\
    forall k x, nth_error ax k = Some x -> inside lr x -> exists c, nth_error cells k = Some c /\ (c_mask c = true <-> covers s x = true) /\ (c_mask c = true -> exists j, interpolates s (s_Y s) j x (c_flux c)).
  Proof.
    intros W Ct I0 Hc ir Hr. destruct (clamp_inv _ _ _ (proj1 W) R Ct) as (f & b & He & Lt & L2 & Rt & Ht).
    destruct (clamp_inv _ _ _ SI R Cs) as (f' & b' & _ & _ & _ & _ & Hs').
    assert (I1 : inside lr x0) by (apply Hs' in I0; tauto). assert (It : inside tr x0) by (apply Ht; split; [exact I1|apply Hc; exact He]).
    pose proof (inter_inside tr spcr (mkRange 0 0) x0 It I0) as Hi. fold ir in Hi.
    assert (Cv : forall x, covered [s] x <-> f <= x <= b).
    { intros x. split; [intros C; destruct (C s (or_introl eq_refl)) as (a & e & A & B & D); destruct (ends_fun _ _ _ _ _ He (conj A B)) as [-> ->]; exact D|]. intros D s' [<-|[]]. exists f, b. destruct He. auto. }
    assert (Hir : forall x, inside ir x <-> inside spcr x /\ covered [s] x /\ inside lr x) by (intros x; rewrite Hi, Ht, Cv; tauto).
    assert (I0r : inside ir x0) by (apply Hi; tauto).
    assert (Ri : range_inside s (rbeg ir) (rend ir)).
    { exists f, b. destruct He as [E1 E2]. split; [exact E1|]. split; [exact E2|]. destruct I0r as [Q1 Q2].
      assert (B1 : inside ir (rbeg ir)) by (split; lra). assert (B2 : inside ir (rend ir)) by (split; lra). apply Hir in B1, B2. rewrite Cv in B1, B2. lra. }
    destruct (linear_spec OptNo s (rbeg ir) (rend ir) ax W (strictly_increasing_increasing _ SI) Ri) as (out & Ho & Lo & Sp); [unfold variance_ok; discriminate|]. rewrite Ho in Hr. inversion Hr; subst out.
    split; [exact Lo|]. split; [exact I1|]. split; [exact I0r|]. split; [exact Hir|]. split; [exists f, b; exact He|].
    intros k x Hx Il. destruct (Sp k x Hx) as (c & Hk & Hm & Hf & _). exists c. split; [exact Hk|]. split; [|intros M; destruct (Hf M) as (j & J & _); exists j; exact J].
    rewrite Hm, (covers_spec s f b x He). assert (Is : inside spcr x) by (apply spcr_spec; [eapply nth_error_In; exact Hx|exact Il]). split.
    - intros (B1 & k' & xk & xk1 & E1 & E2 & Le & Lx). assert (rbeg ir <= x) by exact B1. assert (Bi : inside ir (rbeg ir)) by (destruct I0r; split; lra). apply Hir in Bi. rewrite Cv in Bi. split; [lra|].
      destruct He as [_ Hb]. destruct (Nat.eq_dec (S k') (length (s_X s) - 1)) as [E|N]; [rewrite E in E2; replace b with xk1 by congruence; exact Lx|].
      pose proof (nth_error_len _ _ _ E2). assert (xk1 < b) by (apply (proj1 W (S k') (length (s_X s) - 1)%nat); [lia|exact E2|exact Hb]). lra.
    - intros D. assert (Ii : inside ir x) by (apply Hir; rewrite Cv; tauto). destruct Ii. apply in_range_reached; assumption.
  Qed.
End One.

(** the overlap *)
Lemma count_nth {A} (d : A) (h : A -> bool) : forall l n, length (filter (fun j => h (nth (j - n) l d)) (seq n (length l))) = length (filter h l).
Proof.
  induction l as [|a l IH]; intros n; [reflexivity|]. cbn [length seq filter]. rewrite Nat.sub_diag. change (nth 0 (a :: l) d) with a.
  assert (E : filter (fun j => h (nth (j - n) (a :: l) d)) (seq (S n) (length l)) = filter (fun j => h (nth (j - S n) l d)) (seq (S n) (length l))).
  { apply filter_ext_in. intros j I. apply in_seq in I. replace (j - n)%nat with (S (j - S n)) by lia. reflexivity. }
  rewrite E. destruct (h a); cbn [length]; rewrite IH; reflexivity.
Qed.
Lemma filter_filter {A} (f g : A -> bool) l : filter g (filter f l) = filter (fun x => f x && g x)%bool l.
Proof. induction l as [|a l IH]; [reflexivity|]. cbn [filter]. destruct (f a); cbn [filter andb]; [destruct (g a)|]; rewrite IH; reflexivity. Qed.
Definition share_rest (ax : list Q) (lr : range) (s : source) : Q :=
  inject_Z (Z.of_nat (length (filter (covers s) (filter (in_lambda lr) ax)))) / inject_Z (Z.of_nat (length (filter (in_lambda lr) ax))).
Lemma overlap_share ax lr s (cells : list RebinModel.cell) ov : length cells = length ax ->
  (forall k x, nth_error ax k = Some x -> inside lr x -> exists c, nth_error cells k = Some c /\ (c_mask c = true <-> covers s x = true)) ->
  IntersectMaskAndComputeOverlapFraction_axis ax lr (map (fun c => if c_mask c then 1%N else 0%N) cells) = Ok ov -> ov == share_rest ax lr s.
Proof.
  intros L H E. rewrite (overlap_axis_ok ax lr) in E by (rewrite map_length; congruence). cbv zeta in E. inversion E as [E1]. clear E E1.
  unfold share_rest, count_if in *.
  assert (C : length (filter (fun j => in_lambda lr (nth j ax 0%Q) && negb (nth j (map (fun c => if c_mask c then 1%N else 0%N) cells) 0 =? 0)%N)%bool (seq 0 (length ax))) = length (filter (covers s) (filter (in_lambda lr) ax))).
  { rewrite filter_filter. rewrite <- (count_nth 0 (fun x => in_lambda lr x && covers s x)%bool ax 0). f_equal. apply filter_ext_in. intros j I. apply in_seq in I. rewrite Nat.sub_0_r.
    destruct (nth_error_lt ax j ltac:(lia)) as [x Hx]. rewrite (nth_error_nth _ _ 0 Hx). destruct (in_lambda lr x) eqn:Il; [|reflexivity]. cbn [andb].
    unfold in_lambda in Il. apply andb_prop in Il. rewrite !Qle_bool_iff in Il. destruct (H j x Hx Il) as (c & Hc & Hm).
    rewrite (nth_error_nth (map _ cells) j 0%N (map_nth_error _ _ _ Hc)). destruct (c_mask c), (covers s x); cbn; try reflexivity; [symmetry; apply Hm; reflexivity|apply Hm; reflexivity]. }
  rewrite C. destruct (Z.eqb_spec (Z.of_nat (length (filter (in_lambda lr) ax))) 0) as [Z0|]; [|reflexivity].
  rewrite Z0. destruct (filter (in_lambda lr) ax); [reflexivity|discriminate].
Qed.
Lemma covered_cons s ts x : covered (s :: ts) x <-> covered [s] x /\ covered ts x.
Proof. unfold covered. split; [intros H; split; intros s' I; apply H; [destruct I as [<-|[]]; left; reflexivity|right; exact I]|]. intros [A B] s' [<-|I]; [apply A; left; reflexivity|apply B; exact I]. Qed.
Lemma covered_ends s x f b : covered [s] x -> ends (s_X s) f b -> f <= x <= b.
Proof. intros C E. destruct (C s (or_introl eq_refl)) as (a & e & A & B & D). destruct (ends_fun _ _ _ _ _ E (conj A B)) as [-> ->]. exact D. Qed.
Section Reb.
  Variables (lr spcr : range) (ax : list Q) (thr : Q). Hypothesis SI : strictly_increasing ax. Hypothesis R : rbeg lr < rend lr. Hypothesis Cs : ClampLambdaRange ax lr = Ok spcr.
  Definition good_flux (s : source) (f : list Q) : Prop := length f = length ax /\ forall k x, nth_error ax k = Some x -> inside lr x -> covered [s] x -> exists j, interpolates s (s_Y s) j x (at_ f k).
  Lemma loop_inv : forall ts all ov fs all' ov' x0, Forall wf_source ts -> inside all x0 -> inside spcr x0 -> (forall x, inside all x -> inside spcr x) -> covered ts x0 ->
    rebin_loop lr spcr ax thr ts all ov = Ok (fs, all', ov') ->
    Forall2 good_flux ts fs /\ (forall x, inside all' x <-> inside all x /\ covered ts x) /\
    (forall s, In s ts -> thr <= share_rest ax lr s /\ 0 < share_rest ax lr s) /\ match ts with [] => ov' = ov | _ => ov' == share_rest ax lr (last ts (mkSource [] [] [])) end.
  Proof.
    induction ts as [|s ts IH]; intros all ov fs all' ov' x0 W Ia Is Sub C H; cbn [rebin_loop] in H.
    { inversion H; subst. split; [constructor|]. split; [|split; [intros s []|reflexivity]]. intros x. split; [intros A; split; [exact A|intros s []]|tauto]. }
    inversion W as [|? ? W1 W2]; subst. apply covered_cons in C. destruct C as [C1 C2].
    destruct (ClampLambdaRange (s_X s) lr) as [tr| |] eqn:Et; try discriminate. cbn [rbind] in H.
    destruct (compute _ _ _ _ _ _) as [cells| |] eqn:Ec; try discriminate. cbn [rbind] in H.
    destruct (IntersectMaskAndComputeOverlapFraction_axis _ _ _) as [o| |] eqn:Eo; try discriminate. cbn [rbind] in H.
    destruct (Qltb o thr || Qle_bool o 0)%bool eqn:Eb; [discriminate|]. destruct (rebin_loop lr spcr ax thr ts _ o) as [[[fs1 all1] ov1]| |] eqn:El; try discriminate. cbn [rbind] in H. inversion H; subst. clear H.
    destruct (one_template lr spcr ax SI R Cs s tr cells x0 W1 Et Is (fun f b E => covered_ends s x0 f b C1 E) Ec) as (Lc & Il & Ii & Hir & Ee & Pt).
    set (ir := snd (Intersect tr spcr (mkRange 0 0))) in *.
    pose proof (inter_inside all ir all x0 Ia Ii) as Ha. change (snd (Intersect all ir all)) with (snd (IntersectWith all ir)) in Ha.
    destruct (IH _ o fs1 all' ov' x0 W2 (proj2 (Ha x0) (conj Ia Ii)) Is (fun x Hx => Sub x (proj1 (proj1 (Ha x) Hx))) C2 El) as (F & A & Sh & Lo).
    assert (Os : o == share_rest ax lr s). { apply (overlap_share ax lr s cells o Lc); [|exact Eo]. intros k x Hx Ix. destruct (Pt k x Hx Ix) as (c & P1 & P2 & _). exists c. auto. }
    apply Bool.orb_false_iff in Eb. destruct Eb as [Eb1 Eb2].
    assert (Os' : thr <= share_rest ax lr s /\ 0 < share_rest ax lr s).
    { destruct (Qltb_spec o thr) as [|N1]; [discriminate|]. destruct (Qle_bool_spec o 0) as [|N2]; [discriminate|]. split; lra. }
    split; [constructor; [|exact F]|]; [|split; [|split]].
    - split; [rewrite map_length; exact Lc|]. intros k x Hx Ix Cx. destruct (Pt k x Hx Ix) as (c & Hc & Hm & Hf). destruct Ee as (f & b & Ee).
      assert (M : c_mask c = true) by (apply Hm, (covers_spec s f b x Ee), (covered_ends s x f b Cx Ee)). destruct (Hf M) as (j & J). exists j. unfold at_. rewrite (nth_error_nth _ _ 0 (map_nth_error c_flux _ _ Hc)). exact J.
    - intros x. rewrite A, Ha, Hir, (covered_cons s ts x). split; [tauto|]. intros (X1 & X2 & X3). pose proof (Sub x X1) as X4. destruct (clamp_inv _ _ _ SI R Cs) as (f' & b' & _ & _ & _ & _ & Hs'). pose proof (proj1 (Hs' x) X4). tauto.
    - intros s' [<-|Hi]; [exact Os'|apply Sh; exact Hi].
    - destruct ts as [|s2 ts]; [rewrite Lo; exact Os|exact Lo].
  Qed.
End Reb.

Lemma div_le a b c : 0 < c -> (a / c <= b / c <-> a <= b).
Proof. intros P. split; intros H. - apply (Qmult_le_compat_r _ _ c) in H; [|lra]. assert (E1 : a / c * c == a) by (field; lra). assert (E2 : b / c * c == b) by (field; lra). rewrite E1, E2 in H. exact H. - apply Qmult_le_compat_r; [exact H|]. apply Qlt_le_weak, Qinv_lt_0_compat, P. Qed.
Lemma Qle_bool_div a b c : 0 < c -> Qle_bool (a / c) (b / c) = Qle_bool a b.
Proof. intros P. apply Bool.eq_iff_eq_true. rewrite !Qle_bool_iff. apply div_le, P. Qed.
Lemma share_shift axis lr z s : 0 < 1 + z -> share_rest (map (fun l => l / (1 + z)) axis) (mkRange (rbeg lr / (1 + z)) (rend lr / (1 + z))) s = share axis lr z s.
Proof.
  intros P. unfold share_rest, share. cbv zeta.
  assert (E : filter (in_lambda (mkRange (rbeg lr / (1 + z)) (rend lr / (1 + z)))) (map (fun l => l / (1 + z)) axis) = map (fun l => l / (1 + z)) (filter (fun l => Qle_bool (rbeg lr) l && Qle_bool l (rend lr))%bool axis)).
  { induction axis as [|a axis IH]; [reflexivity|]. cbn [map filter]. unfold in_lambda at 1. cbn [rbeg rend]. rewrite !Qle_bool_div by exact P. destruct (Qle_bool (rbeg lr) a && Qle_bool a (rend lr))%bool; cbn [map]; rewrite IH; reflexivity. }
  rewrite E. rewrite map_length.
  assert (E2 : forall l, length (filter (covers s) (map (fun l => l / (1 + z)) l)) = length (filter (fun l => covers s (l / (1 + z))) l)).
  { induction l as [|a l IH]; [reflexivity|]. cbn [map filter]. destruct (covers s (a / (1 + z))); cbn [length]; rewrite IH; reflexivity. }
  rewrite E2. reflexivity.
Qed.
Lemma rebin_ok axis ts z lr thr ax fs all ov : strictly_increasing axis -> rbeg lr < rend lr -> 0 < 1 + z -> Forall wf_source ts -> overlapping axis ts lr z ->
  RebinTemplate axis ts z lr thr = Ok (ax, fs, all, ov) ->
  ax = map (fun l => l / (1 + z)) axis /\ strictly_increasing ax /\ (forall k l, nth_error axis k = Some l -> (inside all (l / (1 + z)) <-> usable axis ts lr z k)) /\
  (forall ks ke, (forall k, (ks <= k <= ke)%nat -> usable axis ts lr z k) -> Forall2 (fun s f => interpolated s ax ks ke f) ts fs) /\
  (forall s, In s ts -> thr <= share axis lr z s /\ 0 < share axis lr z s) /\ (ts <> [] -> ov == share axis lr z (last ts (mkSource [] [] []))).
Proof.
  intros SA R P W (x0 & fa & ba & Ha0 & Hal & Rf & Rl & C) H. unfold RebinTemplate, ShiftByWaveLength in H. destruct (Qltb_spec (1 + z) 0); [lra|]. destruct (Qeq_bool_spec (1 + z) 0) as [|_]; [lra|]. cbn [rbind] in H.
  set (ax' := map (fun x => x / (1 + z)) axis) in *. set (lr' := mkRange (rbeg lr / (1 + z)) (rend lr / (1 + z))) in *.
  assert (SI : strictly_increasing ax').
  { intros i j x y L Hx Hy. unfold ax' in Hx, Hy. rewrite nth_error_map in Hx, Hy. destruct (nth_error axis i) as [a|] eqn:Ea; [|discriminate]. destruct (nth_error axis j) as [b|] eqn:Eb; [|discriminate]. cbn in Hx, Hy. inversion Hx; inversion Hy; subst.
    pose proof (SA i j a b L Ea Eb). apply Qmult_lt_compat_r; [apply Qinv_lt_0_compat; exact P|assumption]. }
  assert (R' : rbeg lr' < rend lr') by (cbn; apply Qmult_lt_compat_r; [apply Qinv_lt_0_compat; exact P|exact R]).
  destruct (ClampLambdaRange ax' lr') as [spcr| |] eqn:Cs; try discriminate. cbn [rbind] in H.
  destruct (rebin_loop lr' spcr ax' thr ts spcr 0) as [[[fs1 all1] ov1]| |] eqn:El; try discriminate. cbn [rbind] in H. inversion H; subst ax fs all ov. clear H.
  assert (Ins : inside spcr x0).
  { destruct (clamp_inv _ _ _ SI R' Cs) as (f & b & [Hf Hb] & _ & _ & _ & Hs). apply Hs. unfold ax' in Hf, Hb. rewrite map_length in Hb. rewrite nth_error_map in Hf, Hb. rewrite Ha0 in Hf. rewrite Hal in Hb. cbn in Hf, Hb. inversion Hf; inversion Hb; subst.
    assert (E : x0 == x0 * (1 + z) / (1 + z)) by (field; lra). unfold inside. cbn [rbeg rend lr']. rewrite E. rewrite !div_le by exact P. lra. }
  destruct (loop_inv lr' spcr ax' thr SI R' Cs ts spcr 0 fs1 all1 ov1 x0 W Ins Ins (fun x H => H) C El) as (F & A & Sh & Lo).
  split; [reflexivity|]. split; [exact SI|].
  assert (Us : forall k l, nth_error axis k = Some l -> inside all1 (l / (1 + z)) <-> usable axis ts lr z k).
  { intros k l Hl. assert (Il : In (l / (1 + z)) ax') by (apply nth_error_In with (n := k); unfold ax'; apply (map_nth_error (fun x => x / (1 + z))); exact Hl).
    rewrite A, (spcr_spec lr' spcr ax' SI R' Cs _ Il). unfold inside, usable. cbn [rbeg rend lr']. rewrite !div_le by exact P. split; [intros (B1 & B2); exists l; auto|]. intros (l' & B0 & B1 & B2). replace l with l' by congruence. tauto. }
  split; [exact Us|]. split.
  - intros ks ke Hk. clear - F Hk P. assert (G : forall ts', (forall k, (ks <= k <= ke)%nat -> usable axis ts' lr z k) -> Forall2 (good_flux lr' ax') ts' fs1 -> Forall2 (fun s f => interpolated s ax' ks ke f) ts' fs1); [|exact (G ts Hk F)].
    clear - P. intros ts' Hk F. revert Hk. induction F as [|s f ts fs G F IH]; intros Hk; constructor.
    + split; [exact (proj1 G)|]. intros k x Rk Hx. destruct (Hk k Rk) as (l & Hl & Rl & Cv). apply covered_cons in Cv. assert (E : x = l / (1 + z)) by (unfold ax' in Hx; rewrite nth_error_map, Hl in Hx; cbn in Hx; congruence). subst x.
      apply (proj2 G k _ Hx); [|apply Cv]. unfold inside. cbn [rbeg rend lr']. rewrite !div_le by exact P. exact Rl.
    + apply IH. intros k Rk. destruct (Hk k Rk) as (l & Hl & Rl & Cv). apply covered_cons in Cv. exists l. tauto.
  - split; [intros s I; rewrite <- (share_shift axis lr z s P); apply Sh; exact I|]. intros N. destruct ts as [|s ts]; [contradiction|]. rewrite <- (share_shift axis lr z _ P). exact Lo.
Qed.
