From Coq Require Import String.
From Verif Require Import Base RangeModel RangeSpec RangeProofs CalzProofs LsfModel LsfSpec.
Open Scope Q_scope.

Lemma New_inv l l' : NewLsf l = Ok l' -> l' = l /\ IsValid l = Ok true.
Proof. unfold NewLsf. destruct (IsValid l) as [[]| |]; cbn [rbind]; intro H; inversion H; auto. Qed.
Lemma valid_var ax ws : IsValid (VariableWidth ax ws) = Ok true <-> ws <> [] /\ length ax = length ws /\ Forall (fun w => 0 < w) ws.
Proof.
  cbn [IsValid]. destruct ws as [|w0 ws']; [split; [discriminate|intros [H _]; contradiction]|]. set (ws := w0 :: ws').
  change (length ws =? 0)%nat with false. cbn [negb].
  destruct (Nat.eqb_spec (length ax) (length ws)) as [E|E]; cbn [negb]; split; try discriminate.
  - intro H. split; [unfold ws; discriminate|]. split; [exact E|]. assert (X : forallb (fun w => negb (Qle_bool w 0)) ws = true) by congruence. rewrite forallb_forall in X. apply Forall_forall. intros w Hw. specialize (X w Hw).
    apply negb_true_iff in X. apply Qle_bool_false in X. exact X.
  - intros (_ & _ & H). f_equal. apply forallb_forall. intros w Hw. rewrite Forall_forall in H. specialize (H w Hw). apply negb_true_iff, Qle_bool_false. exact H.
  - intros (_ & H & _). contradiction.
Qed.
Lemma New_const w : (0 < w -> NewLsf (ConstantWidth w) = Ok (ConstantWidth w)) /\ (w <= 0 -> NewLsf (ConstantWidth w) = Throw INVALID_LSF).
Proof. unfold NewLsf. cbn [IsValid rbind]. destruct (Qltb_spec 0 w); split; intro; try reflexivity; lra. Qed.
Lemma New_res r : (1 < r -> NewLsf (ConstantResolution r) = Ok (ConstantResolution r)) /\ (r <= 1 -> NewLsf (ConstantResolution r) = Throw INVALID_LSF).
Proof. unfold NewLsf. cbn [IsValid rbind]. destruct (Qltb_spec 1 r); split; intro; try reflexivity; lra. Qed.
Lemma New_var ax ws :
  (ws = [] \/ length ax <> length ws -> NewLsf (VariableWidth ax ws) = Throw BAD_COUNTMATCH) /\
  (ws <> [] -> length ax = length ws -> (exists w, In w ws /\ w <= 0) -> NewLsf (VariableWidth ax ws) = Throw INVALID_LSF) /\
  (ws <> [] -> length ax = length ws -> Forall (fun w => 0 < w) ws -> NewLsf (VariableWidth ax ws) = Ok (VariableWidth ax ws)).
Proof.
  unfold NewLsf. split; [|split].
  - cbn [IsValid]. intros [->|E]; [reflexivity|]. destruct (Nat.eqb_spec (length ws) 0); [reflexivity|]. destruct (Nat.eqb_spec (length ax) (length ws)); [contradiction|reflexivity].
  - intros N E (w & Hw & L). cbn [IsValid]. destruct (Nat.eqb_spec (length ws) 0) as [Z|_]; [destruct ws; [contradiction|discriminate]|].
    destruct (Nat.eqb_spec (length ax) (length ws)) as [_|X]; [|contradiction]. cbn [negb rbind].
    destruct (forallb (fun w => negb (Qle_bool w 0)) ws) eqn:F; [|reflexivity]. exfalso. rewrite forallb_forall in F. specialize (F w Hw).
    apply negb_true_iff, Qle_bool_false in F. lra.
  - intros N E F. rewrite (proj2 (valid_var ax ws)); auto.
Qed.

Lemma avail_var ax ws a b : IsValid (VariableWidth ax ws) = Ok true -> ends ax a b -> forall lam,
  exists v, checkAvailability (VariableWidth ax ws) lam = Ok v /\ (v = true <-> a <= lam <= b).
Proof.
  intros V [Ha Hb] lam. apply valid_var in V. destruct V as (N & L & _). cbn [checkAvailability]. unfold vget at 1. rewrite Ha. cbn [rbind].
  destruct (Qle_bool_spec a lam) as [A|A]; cbn [negb]; [|exists false; split; [reflexivity|split; [discriminate|intros []; contradiction]]].
  destruct (length ws) as [|k] eqn:K; [destruct ws; [contradiction|discriminate]|]. rewrite L in Hb. replace (S k - 1)%nat with k in Hb by lia. unfold vget. rewrite Hb. cbn [rbind].
  exists (Qle_bool lam b). split; [reflexivity|]. destruct (Qle_bool_spec lam b); split; intro; try congruence; try lra.
Qed.
Lemma ends_exist ax : ax <> [] -> exists a b, ends ax a b.
Proof.
  intro N. destruct ax as [|a t]; [contradiction|]. exists a, (last t a). split; [reflexivity|].
  replace (length (a :: t) - 1)%nat with (length t) by (cbn; lia). apply last_cons_nth.
Qed.
Lemma ends_range ax ws a b : ends ax a b -> getSpectralRange (VariableWidth ax ws) = mkRange a b.
Proof.
  intros [Ha Hb]. cbn [getSpectralRange]. destruct ax as [|a' t]; [discriminate|]. cbn in Ha. inversion Ha; subst.
  replace (length (a :: t) - 1)%nat with (length t) in Hb by (cbn; lia). rewrite last_cons_nth in Hb. inversion Hb. reflexivity.
Qed.
Lemma ends_le ax a b : increasing ax -> ends ax a b -> a <= b.
Proof. intros I [Ha Hb]. destruct (length ax - 1)%nat as [|k] eqn:K; [rewrite Ha in Hb; inversion Hb; lra|]. apply (I 0%nat (S k) a b); auto; lia. Qed.

Lemma lower_next l v i x y : getClosestLowerIndex l v = Ok (Some i) -> nth_error l i = Some x -> ~ x == v -> nth_error l (S i) = Some y -> v < y.
Proof.
  unfold getClosestLowerIndex. destruct (front l) as [fr| |]; [|discriminate|discriminate]. cbn [rbind]. destruct (Qltb v fr); [discriminate|]. cbv zeta.
  pose proof (lower_bound_at l v) as At. set (it := lower_bound l v) in *. destruct (Nat.eqb_spec it (length l)) as [E|E]; cbn [rbind].
  - destruct it as [|k]; [discriminate|]. intros H _ _ Hy. inversion H; subst. assert (S i < length l)%nat by (apply nth_error_Some; congruence). lia.
  - destruct (vget l it) as [z| |] eqn:Z; [|discriminate|discriminate]. cbn [rbind]. apply vget_Ok in Z. specialize (At z Z).
    destruct (Qeq_bool_spec z v) as [Q|Q]; cbn [negb].
    + intros H Hx N. inversion H; subst. congruence.
    + destruct it as [|k]; [discriminate|]. intros H _ _ Hy. inversion H; subst. rewrite Hy in Z. inversion Z; subst.
      destruct (Qlt_le_dec v z); [assumption|]. exfalso. apply Q. lra.
Qed.
Section P.
  Context (sqrtf : Q -> Q) (prof : Q -> Q -> Q -> Q).
  Notation GetWidth := (GetWidth sqrtf).

  Lemma Width_var_out ax ws a b lam : NewLsf (VariableWidth ax ws) = Ok (VariableWidth ax ws) -> ends ax a b -> lam < a \/ b < lam ->
    GetWidth (VariableWidth ax ws) lam false = Throw INSUFFICIENT_LSF_COVERAGE.
  Proof.
    intros N E O. apply New_inv in N. destruct N as [_ V]. destruct (avail_var ax ws a b V E lam) as (v & C & Hv).
    unfold LsfModel.GetWidth, clip. rewrite C. cbn [rbind]. destruct v; [|reflexivity]. exfalso. destruct (proj1 Hv eq_refl). destruct O; lra.
  Qed.
  Lemma Width_var_in ax ws a b lam : NewLsf (VariableWidth ax ws) = Ok (VariableWidth ax ws) -> increasing ax -> ends ax a b -> a <= lam <= b ->
    exists r, GetWidth (VariableWidth ax ws) lam false = Ok r /\ 0 < r /\
      ((exists i x, nth_error ax i = Some x /\ nth_error ws i = Some r /\ x == lam) \/
       (exists i x y w v, nth_error ax i = Some x /\ nth_error ax (S i) = Some y /\ nth_error ws i = Some w /\ nth_error ws (S i) = Some v /\
          on_segment x w y v lam r)).
  Proof.
    intros N I E O. apply New_inv in N. destruct N as [_ V]. destruct (avail_var ax ws a b V E lam) as (v & C & Hv).
    apply valid_var in V. destruct V as (Nw & L & F). rewrite Forall_forall in F.
    unfold LsfModel.GetWidth, clip. rewrite C. cbn [rbind]. rewrite (proj2 Hv O). cbn [negb].
    assert (Nx : ax <> []) by (destruct ax; [destruct E; discriminate|discriminate]).
    pose proof (getClosestLowerIndex_spec ax lam I Nx) as G. destruct (getClosestLowerIndex ax lam) as [[idx|]| |] eqn:Gi; try contradiction.
    2: { exfalso. destruct E as [E0 _]. apply nth_error_In in E0. specialize (G a E0). lra. }
    cbn [rbind]. destruct G as (x & Hx & Lx & Gx). unfold vget at 1. rewrite Hx. cbn [rbind].
    assert (Hi : (idx < length ws)%nat) by (rewrite <- L; apply nth_error_Some; congruence).
    destruct (nth_error ws idx) as [w|] eqn:W; [|apply nth_error_None in W; lia]. unfold vget at 1. rewrite W. cbn [rbind].
    destruct (Qeq_bool_spec x lam) as [Q|Q].
    - exists w. split; [reflexivity|]. split; [apply F; apply nth_error_In in W; exact W|]. left. exists idx, x. auto.
    - assert (S1 : (S idx < length ax)%nat).
      { destruct (Nat.eq_dec (S idx) (length ax)) as [Z|Z]; [|lia]. exfalso. destruct E as [_ Eb]. replace (length ax - 1)%nat with idx in Eb by lia.
        rewrite Hx in Eb. inversion Eb; subst. apply Q. lra. }
      destruct (nth_error ax (S idx)) as [y|] eqn:Y; [|apply nth_error_None in Y; lia].
      destruct (nth_error ws (S idx)) as [v'|] eqn:V'; [|apply nth_error_None in V'; lia].
      unfold vget. rewrite Y, V'. cbn [rbind]. cbv zeta.
      assert (Ly : lam < y) by (exact (lower_next ax lam idx x y Gi Hx Q Y)).
      assert (Lx' : x < lam) by (destruct (Qlt_le_dec x lam); [assumption|exfalso; apply Q; lra]).
      eexists. split; [reflexivity|]. assert (Pw : 0 < w) by (apply F; eapply nth_error_In; eauto). assert (Pv : 0 < v') by (apply F; eapply nth_error_In; eauto).
      set (t := (lam - x) / (y - x)).
      assert (T : t * (y - x) == lam - x) by (unfold t; field; lra).
      assert (T0 : 0 < t) by (unfold t; apply Qlt_shift_div_l; lra). assert (T1 : t < 1) by (unfold t; apply Qlt_shift_div_r; lra).
      split.
      + assert (0 < w * (1 - t)) by (apply Qmult_lt_0_compat; lra). assert (0 < v' * t) by (apply Qmult_lt_0_compat; lra). lra.
      + right. exists idx, x, y, w, v'. repeat split; auto; try lra.
        assert (Z : (w * (1 - t) + v' * t) * (y - x) == w * ((y - x) - t * (y - x)) + v' * (t * (y - x))) by ring. rewrite Z, T. ring.
  Qed.

  (** every accepted LSF has a positive width at every wavelength, with clipping *)
  Lemma Width_clip_pos (Hs : root_ok sqrtf) l lam : NewLsf l = Ok l -> sorted_lsf l -> exists w, GetWidth l lam true = Ok w /\ 0 < w.
  Proof.
    intros N I. assert (R : forall x, 200 <= Clamp (mkRange 200 30000) x). { intro x. apply (Clamp_spec (mkRange 200 30000)). cbn. lra. }
    pose proof (New_inv _ _ N) as [_ V].
    destruct l as [w|r| |src|ax ws]; unfold LsfModel.GetWidth, clip; cbn [getSpectralRange].
    - exists w. split; [reflexivity|]. cbn in V. destruct (Qltb_spec 0 w); [assumption|discriminate].
    - eexists. split; [reflexivity|]. cbn in V. destruct (Qltb_spec 1 r); [|discriminate]. unfold resolution_factor. specialize (R lam).
      set (c := Clamp _ _) in *. assert (0 < c / r) by (apply Qlt_shift_div_l; lra). apply Qmult_lt_0_compat; [assumption|reflexivity].
    - eexists. split; [reflexivity|]. specialize (R lam). apply Qlt_shift_div_l; [reflexivity|]. lra.
    - eexists. split; [reflexivity|]. apply Hs. specialize (R lam). set (c := Clamp _ _) in *. set (i := c * (3939 # 10000000) + (2191 # 1000)).
      assert (0 < i) by (unfold i; lra). assert (0 < i * i) by (apply Qmult_lt_0_compat; assumption). set (s := src * (134 # 10) / (355 # 1000)).
      assert (0 <= s * s) by (destruct (Qlt_le_dec s 0) as [Z|Z]; [assert (X : s * s == (-s) * (-s)) by ring; rewrite X; apply Qmult_le_0_compat; lra|apply Qmult_le_0_compat; assumption]). lra.
    - cbn [sorted_lsf] in I. assert (Nx : ax <> []). { apply valid_var in V. destruct V as (Nw & L & _). destruct ax; [destruct ws; [contradiction|discriminate]|discriminate]. }
      destruct (ends_exist ax Nx) as (a & b & E). pose proof (ends_range ax ws a b E) as Er. cbn [getSpectralRange] in Er. rewrite Er.
      pose proof (Clamp_spec (mkRange a b) lam (ends_le ax a b I E)) as (C1 & C2 & _). cbn [rbeg rend] in C1, C2.
      destruct (Width_var_in ax ws a b (Clamp (mkRange a b) lam) N I E (conj C1 C2)) as (r & Hr & Pr & _). exists r. split; [exact Hr|exact Pr].
  Qed.
  (** with clipping: the width at the nearest wavelength of the range; inside the range clipping changes nothing *)
  Lemma Width_clip l lam : GetWidth l lam true = GetWidth l (Clamp (getSpectralRange l) lam) false.
  Proof. reflexivity. Qed.
  Lemma Width_clip_in l lam : rbeg (getSpectralRange l) <= lam <= rend (getSpectralRange l) -> GetWidth l lam true = GetWidth l lam false.
  Proof.
    intros [A B]. rewrite Width_clip. assert (E : Clamp (getSpectralRange l) lam = lam) by (apply (Clamp_spec (getSpectralRange l) lam); lra). rewrite E. reflexivity.
  Qed.
  Lemma Resolution r lam : 1 < r -> 0 < lam -> exists w, GetWidth (ConstantResolution r) lam false = Ok w /\ computeResolution lam w == r /\ w * (2355#1000) * r == lam.
  Proof.
    intros R P. eexists. split; [reflexivity|]. unfold computeResolution, resolution_factor, clip. split; field; lra.
  Qed.

  Lemma fold_sum_acc l : forall a, fold_left Qplus l a == a + fold_left Qplus l 0.
  Proof. induction l as [|x l IH]; intro a; cbn [fold_left]; [ring|]. rewrite IH, (IH (0 + x)). ring. Qed.
  Lemma qsum_cons x l : qsum (x :: l) == x + qsum l.
  Proof. unfold qsum. cbn [fold_left]. rewrite fold_sum_acc. ring. Qed.
  Lemma qsum_scale c l : qsum (map (fun x => x * c) l) == qsum l * c.
  Proof. induction l as [|x l IH]; [unfold qsum; cbn; ring|]. cbn [map]. rewrite !qsum_cons, IH. ring. Qed.
  Lemma qsum_pos l : l <> [] -> Forall (fun x => 0 < x) l -> 0 < qsum l.
  Proof.
    intros N F. destruct l as [|x l]; [contradiction|]. inversion F as [|? ? Hx Hl]; subst. rewrite qsum_cons.
    assert (0 <= qsum l). { clear - Hl. induction Hl as [|y l Hy Hl IH]; [unfold qsum; cbn; lra|]. rewrite qsum_cons. lra. } lra.
  Qed.
  Lemma Kernel (Hs : root_ok sqrtf) (Hp : forall x y s, 0 < s -> 0 < prof x y s) l lams lam0 : NewLsf l = Ok l -> sorted_lsf l -> lams <> [] ->
    exists w k, GetWidth l lam0 true = Ok w /\ getNormalizedProfileVector sqrtf prof l lams lam0 = Ok k /\ length k = length lams /\
      Forall (fun x => 0 < x) k /\ qsum k == 1 /\
      forall i j x y p q, nth_error lams i = Some x -> nth_error lams j = Some y -> nth_error k i = Some p -> nth_error k j = Some q ->
        p * prof y lam0 w == q * prof x lam0 w.
  Proof.
    intros N I Ne. destruct (Width_clip_pos Hs l lam0 N I) as (w & Hw & Pw). pose proof (New_inv _ _ N) as [_ V].
    exists w. eexists. split; [exact Hw|]. unfold getNormalizedProfileVector. rewrite V. cbn [rbind negb]. rewrite Hw. cbn [rbind]. cbv zeta. split; [reflexivity|].
    set (k := map (fun x => prof x lam0 w) lams).
    assert (Pk : 0 < qsum k). { apply qsum_pos; [destruct lams; [contradiction|discriminate]|]. apply Forall_forall. intros z Hz. apply in_map_iff in Hz. destruct Hz as (x & <- & _). apply Hp; assumption. }
    assert (Pi : 0 < 1 / qsum k) by (apply Qlt_shift_div_l; lra).
    split; [unfold k; rewrite !map_length; reflexivity|]. split; [|split].
    - apply Forall_forall. intros z Hz. apply in_map_iff in Hz. destruct Hz as (x & <- & Hx). apply in_map_iff in Hx. destruct Hx as (y & <- & _).
      apply Qmult_lt_0_compat; [apply Hp; assumption|exact Pi].
    - rewrite qsum_scale. field. lra.
    - intros i j x y p q Hx Hy Hq1 Hq2. unfold k in *. rewrite map_map in Hq1, Hq2. rewrite (map_nth_error _ i lams Hx) in Hq1. rewrite (map_nth_error _ j lams Hy) in Hq2.
      inversion Hq1; inversion Hq2. ring.
  Qed.
  Lemma Unsorted_no_width : exists l, NewLsf l = Ok l /\ forall lam clip, GetWidth l lam clip = Throw INSUFFICIENT_LSF_COVERAGE.
  Proof.
    exists (VariableWidth [2; 1] [1; 1]). split; [reflexivity|]. intros lam c. unfold LsfModel.GetWidth. cbn [checkAvailability vget nth_error rbind length].
    destruct (Qle_bool_spec 2 (clip (VariableWidth [2; 1] [1; 1]) lam c)) as [A|A]; cbn [negb rbind]; [|reflexivity].
    destruct (Qle_bool_spec (clip (VariableWidth [2; 1] [1; 1]) lam c) 1) as [B|B]; [lra|reflexivity].
  Qed.
  Lemma Create_names name a : (exists l, Create name a = Ok l) ->
    In name ["gaussianConstantWidth"; "gaussianConstantResolution"; "gaussianNISPSIM2016"; "gaussianNISPVSSPSF201707"; "gaussianVariableWidth"]%string.
  Proof.
    intros [l H]. unfold Create in H.
    repeat match type of H with context[String.eqb ?x ?y] => destruct (String.eqb_spec x y); [subst; cbn; tauto|] end. discriminate.
  Qed.
  Lemma Create_unknown name a : ~ In name ["gaussianConstantWidth"; "gaussianConstantResolution"; "gaussianNISPSIM2016"; "gaussianNISPVSSPSF201707"; "gaussianVariableWidth"]%string ->
    Create name a = Throw STD_out_of_range.
  Proof.
    intro H. unfold Create. cbn [In] in H.
    repeat match goal with |- context[String.eqb ?x ?y] => destruct (String.eqb_spec x y); [exfalso; subst; tauto|] end. reflexivity.
  Qed.
  (** the NISP widths *)
  Lemma Nisp lam src : (exists w, GetWidth NispSim2016 lam false = Ok w /\ w * (235#100) == (8121#10000000) * lam + (74248#10000)) /\
    (exists v, GetWidth (NispVssPsf201707 src) lam false = Ok (sqrtf v) /\ v == ((3939#10000000) * lam + (2191#1000)) * ((3939#10000000) * lam + (2191#1000)) + (src * (134#10) / (355#1000)) * (src * (134#10) / (355#1000))).
  Proof.
    split.
    - exists ((lam * (8121#10000000) + (74248#10000)) / (235#100)). split; [reflexivity|]. field.
    - exists ((lam * (3939#10000000) + (2191#1000)) * (lam * (3939#10000000) + (2191#1000)) + (src * (134#10) / (355#1000)) * (src * (134#10) / (355#1000))). split; [reflexivity|]. ring.
  Qed.
  (** the profile of the width at the centre *)
  Lemma Profile_val l lam lam0 : (forall w, GetWidth l lam0 false = Ok w -> GetProfileVal sqrtf prof l lam lam0 = Ok (prof lam lam0 w)) /\
    (forall e, GetWidth l lam0 false = Throw e -> GetProfileVal sqrtf prof l lam lam0 = Throw e).
  Proof. unfold GetProfileVal. split; intros x H; rewrite H; reflexivity. Qed.
End P.
