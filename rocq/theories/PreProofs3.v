From Coq Require Import String.
From Verif Require Import Base RangeModel RangeSpec RangeProofs CalzModel FitStoreModel FitStoreSpec FitStoreProofs FitStoreProps PreModel PreSpec PreProofs PreProofs2.
Open Scope Q_scope.

(** ** the continua of the first pass *)
Lemma one_info op reqs zs c fs z fft k l r : holds op reqs zs fs -> strictly_increasing zs -> zs <> [] -> bracket_below zs z k ->
  nth_error (fs_vals (t_fs fs)) k = Some l -> (r < List.length reqs)%nat ->
  (forall q, In q reqs -> In (q_tpl q) (k_tpls c fft)) -> (k_dust c = true -> ~ cz_bstep (k_calz c) == 0) ->
  exists f d e, nth_error l r = Some f /\ nth_error (t_all fs) (f_tag f) = Some d /\ dust_index c d e /\
    continuum_info c fs z r fft = Ok (fst d, e, igm_index c d).
Proof.
  intros (G & C & H) Inc Nz B Nl Lr Nm Du. unfold continuum_info. rewrite G.
  pose proof (getClosestLowerIndex_spec zs z (strictly_increasing_increasing _ Inc) Nz) as S.
  assert (K : getClosestLowerIndex zs z = Ok (Some k)).
  { destruct (getClosestLowerIndex zs z) as [[i|]| |]; try contradiction.
    - f_equal. f_equal. destruct B as (x & Nx & Lx & Bk). destruct S as (y & Ny & Ly & Bi).
      destruct (lt_eq_lt_dec i k) as [[L|L]|L]; auto; exfalso.
      + pose proof (Inc _ _ _ _ L Ny Nx). destruct (Bi k x L Nx) as [Q|Q]; lra.
      + pose proof (Inc _ _ _ _ L Nx Ny). destruct (Bk i y L Ny) as [Q|Q]; lra.
    - exfalso. destruct B as (x & Nx & Lx & _). specialize (S x (nth_error_In _ _ Nx)). lra. }
  rewrite K. cbn [rbind].
  assert (Lk : (k < List.length zs)%nat) by (destruct B as (x & Nx & _); apply (nth_error_len _ _ _ Nx)).
  destruct (nth_error_lt zs k Lk) as (zk & Nk). destruct (H k zk Nk) as (l' & Nl' & _ & P & _ & _). rewrite Nl in Nl'. injection Nl' as <-.
  assert (Ll : List.length l = List.length reqs). { apply Permutation_length in P. rewrite !map_length in P. exact P. }
  unfold GetFitValues_idx, rank_ok. rewrite C, G.
  assert (T1 : (Z.of_nat (List.length reqs) - 1 <? Z.of_nat r)%Z = false) by (apply Z.ltb_ge; lia).
  assert (T2 : (Z.of_nat r <? 0)%Z = false) by (apply Z.ltb_ge; lia).
  assert (T3 : (Z.of_nat k <? 0)%Z = false) by (apply Z.ltb_ge; lia).
  assert (T4 : (Z.of_nat (List.length zs) - 1 <? Z.of_nat k)%Z = false) by (apply Z.ltb_ge; lia).
  rewrite T1, T2, T3, T4, andb_false_r. cbn [negb andb orb]. rewrite !Nat2Z.id. unfold vget at 1. rewrite Nl. cbn [rbind].
  destruct (nth_error_lt l r) as (f & Nf); [lia|]. unfold vget at 1. rewrite Nf. cbn [rbind].
  assert (X : exists q, In q reqs /\ nth_error (t_all fs) (f_tag f) = Some (q_tpl q, op q k)).
  { assert (I : In (nth_error (t_all fs) (f_tag f)) (map (fun f => nth_error (t_all fs) (f_tag f)) l)) by (apply in_map_iff; exists f; split; [reflexivity|apply (nth_error_In _ _ Nf)]).
    apply (Permutation_in _ P) in I. apply in_map_iff in I. destruct I as (q & E & Iq). exists q. auto. }
  destruct X as (q & Iq & Nd). unfold vget. rewrite Nd. cbn [rbind fst snd].
  unfold GetTemplateByName. replace (existsb (String.eqb (q_tpl q)) (k_tpls c fft)) with true.
  2:{ symmetry. apply existsb_exists. exists (q_tpl q). split; [apply Nm; exact Iq|apply String.eqb_refl]. }
  cbn [rbind]. unfold first_template. specialize (Nm q Iq). destruct (k_tpls c fft) as [|t0 ts]; [destruct Nm|].
  destruct (k_dust c) eqn:D.
  - cbn [rbind]. unfold GetEbmvIndex. destruct (Qeq_bool_spec (cz_bstep (k_calz c)) 0) as [E|E]; [exfalso; apply (Du eq_refl E)|]. cbn [rbind].
    exists f, (q_tpl q, op q k). eexists. split; [first [exact Nf|reflexivity]|]. split; [first [exact Nd|reflexivity]|]. split; [|reflexivity].
    unfold dust_index. rewrite D. unfold GetEbmvIndex. destruct (Qeq_bool_spec (cz_bstep (k_calz c)) 0) as [E'|_]; [tauto|reflexivity].
  - cbn [rbind]. exists f, (q_tpl q, op q k), (-1)%Z. split; [first [exact Nf|reflexivity]|]. split; [first [exact Nd|reflexivity]|]. split; [unfold dust_index; rewrite D; reflexivity|reflexivity].
Qed.
Lemma info_spec op reqs zs c s fs cand z fft k l : o_first s = Some fs -> holds op reqs zs fs -> strictly_increasing zs -> zs <> [] ->
  nth_error (o_cands s) cand = Some z -> bracket_below zs z k -> nth_error (fs_vals (t_fs fs)) k = Some l -> (k_maxN c <= List.length reqs)%nat ->
  (forall q, In q reqs -> In (q_tpl q) (k_tpls c fft)) -> (k_dust c = true -> ~ cz_bstep (k_calz c) == 0) ->
  exists ts, getContinuumInfoFromFirstpassFitStore c s (Z.of_nat cand) fft = Ok ts /\ List.length ts = k_maxN c /\
    forall r x, nth_error ts r = Some x -> exists f d e, nth_error l r = Some f /\ nth_error (t_all fs) (f_tag f) = Some d /\ dust_index c d e /\ x = (fst d, e, igm_index c d).
Proof.
  intros Fs H Inc Nz Nc B Nl Ln Nm Du. unfold getContinuumInfoFromFirstpassFitStore.
  pose proof (nth_error_len _ _ _ Nc) as Lc.
  replace ((Z.of_nat cand <? 0)%Z || (Z.of_nat (List.length (o_cands s)) <=? Z.of_nat cand)%Z)%bool with false.
  2:{ symmetry. apply orb_false_iff. split; [apply Z.ltb_ge|apply Z.leb_gt]; lia. }
  rewrite Nat2Z.id. unfold vget at 1. rewrite Nc. cbn [rbind]. rewrite Fs.
  assert (G : forall n a, (a + n <= List.length reqs)%nat -> exists ts, info_loop c fs z (seq a n) fft = Ok ts /\ List.length ts = n /\
    forall r x, nth_error ts r = Some x -> exists f d e, nth_error l (a + r) = Some f /\ nth_error (t_all fs) (f_tag f) = Some d /\ dust_index c d e /\ x = (fst d, e, igm_index c d)).
  { induction n as [|n IH]; intros a L; [exists []; split; [reflexivity|]; split; [reflexivity|]; intros r x N; destruct r; discriminate|].
    cbn [seq info_loop]. destruct (one_info op reqs zs c fs z fft k l a H Inc Nz B Nl) as (f & d & e & A1 & A2 & A3 & A4); auto; try lia. rewrite A4. cbn [rbind].
    destruct (IH (S a)) as (ts & E & Lt & Ht); [lia|]. rewrite E. cbn [rbind]. eexists. split; [reflexivity|]. split; [cbn; lia|].
    intros r x N. destruct r as [|r].
    - injection N as <-. exists f, d, e. rewrite Nat.add_0_r. auto.
    - cbn [nth_error] in N. destruct (Ht r x N) as (f' & d' & e' & B1 & B2). exists f', d', e'. replace (a + S r)%nat with (S a + r)%nat by lia. split; assumption. }
  destruct (k_maxN c) as [|n] eqn:M.
  - exists []. split; [reflexivity|]. split; [reflexivity|]. intros r x N; destruct r; discriminate.
  - rewrite <- M in *. destruct (G (k_maxN c) 0%nat) as (ts & E & Lt & Ht); [lia|]. exists ts. split; [exact E|]. split; [congruence|]. intros r x N. apply (Ht r x N).
Qed.
Lemma info_range c s cand fft : (cand < 0 \/ Z.of_nat (List.length (o_cands s)) <= cand)%Z -> getContinuumInfoFromFirstpassFitStore c s cand fft = Throw INTERNAL_ERROR.
Proof.
  intro H. unfold getContinuumInfoFromFirstpassFitStore.
  replace ((cand <? 0)%Z || (Z.of_nat (List.length (o_cands s)) <=? cand)%Z)%bool with true; [reflexivity|].
  symmetry. apply orb_true_iff. destruct H as [H|H]; [left; apply Z.ltb_lt|right; apply Z.leb_le]; exact H.
Qed.
Lemma info_below c s fs cand z fft : o_first s = Some fs -> nth_error (o_cands s) cand = Some z -> increasing (fs_grid (t_fs fs)) -> fs_grid (t_fs fs) <> [] ->
  (forall x, In x (fs_grid (t_fs fs)) -> z < x) -> (0 < k_maxN c)%nat -> getContinuumInfoFromFirstpassFitStore c s (Z.of_nat cand) fft = Throw INTERNAL_ERROR.
Proof.
  intros Fs Nc Inc Ne Lo M. unfold getContinuumInfoFromFirstpassFitStore. pose proof (nth_error_len _ _ _ Nc) as Lc.
  replace ((Z.of_nat cand <? 0)%Z || (Z.of_nat (List.length (o_cands s)) <=? Z.of_nat cand)%Z)%bool with false.
  2:{ symmetry. apply orb_false_iff. split; [apply Z.ltb_ge|apply Z.leb_gt]; lia. }
  rewrite Nat2Z.id. unfold vget at 1. rewrite Nc. cbn [rbind]. rewrite Fs. destruct (k_maxN c) as [|n]; [lia|]. cbn [seq info_loop]. unfold continuum_info.
  pose proof (getClosestLowerIndex_spec _ z Inc Ne) as S. destruct (getClosestLowerIndex (fs_grid (t_fs fs)) z) as [[i|]| |]; try contradiction.
  - exfalso. destruct S as (y & Ny & Ly & _). specialize (Lo y (nth_error_In _ _ Ny)). lra.
  - cbn [rbind]. unfold GetFitValues_idx. destruct (negb _); reflexivity.
Qed.

(** ** the second pass *)
Lemma grid_same l : forall s s', AddAll s l = Ok s' -> fs_grid s' = fs_grid s.
Proof.
  induction l as [|f t IH]; intros s s' E; [injection E as <-; reflexivity|]. cbn [AddAll] in E.
  unfold Add in E. destruct (GetRedshiftIndex s (f_z f)) as [i|]; [|discriminate]. destruct (vget (fs_vals s) i) as [l'| |]; try discriminate. cbn [rbind] in E.
  destruct (vset (fs_vals s) i (insert_fit l' f)) as [v| |] eqn:V; try discriminate. cbn [rbind] in E. rewrite (IH _ _ E). reflexivity.
Qed.
Lemma precompute_second op c zs cand s t s' : PrecomputeContinuumFit op c zs cand s = Ok (t, s') -> o_pass s = 2%nat ->
  o_comp s' = o_comp s /\ o_pass s' = 2%nat /\ o_option s' = o_option s /\ o_cands s' = o_cands s /\ o_first s' = o_first s /\ o_second s' = o_second s /\
  fs_grid (t_fs t) = zs /\ o_used s' = Some t /\ (op_ok c (o_op s) -> op_ok c (o_op s')).
Proof.
  intros E P. unfold PrecomputeContinuumFit in E. destruct (front zs); try discriminate. cbn [rbind] in E.
  set (fft := isfftprocessingActive c (o_pass s) (List.length zs)) in *.
  destruct (templates c _ cand fft) as [ts| |]; try discriminate. cbn [rbind] in E.
  match type of E with context[all_fits op ?r 0 0 zs] => destruct (all_fits op r 0 0 zs) as [fits all] end.
  destruct (AddAll (fs_new zs) fits) as [fs| |] eqn:A; try discriminate. cbn [rbind] in E.
  destruct (Nat.ltb (fs_count fs) (k_maxN c)); [discriminate|]. unfold evaluateContinuumAmplitude in E.
  destruct (FindMaxAmplitudeSigma _) as [m| |]; try discriminate. cbn [rbind] in E.
  apply grid_same in A. cbn in A.
  cbn [with_used with_op o_comp o_pass] in E. rewrite P in E. cbn [Nat.eqb] in E. rewrite andb_false_r in E.
  destruct (match m with Some (_, f) => Qltb (f_ampsig f) (k_neg c) | None => true end).
  - destruct (o_comp s) eqn:K; try discriminate. cbn [rbind] in E. injection E as <- <-. cbn. repeat (split; [solve [auto]|]).
    intro O. rewrite (prepare_spec c fft _ O). reflexivity.
  - cbn [rbind] in E. injection E as <- <-. cbn. repeat (split; [solve [auto]|]). intro O. rewrite (prepare_spec c fft _ O). reflexivity.
Qed.
Lemma precompute_store op c zs cand s t s' : PrecomputeContinuumFit op c zs cand s = Ok (t, s') -> distinct zs -> op_ok c (o_op s) ->
  let fft := uses_fft c (o_pass s) zs in
  exists ts, templates c (with_op s (Some (fft, (k_ignore c && negb fft)%bool))) cand fft = Ok ts /\ (k_maxN c <= List.length ts)%nat /\ holds op (requests c fft zs ts) zs t /\ t_snrmax t = snr_max (t_all t).
Proof.
  intros E D O fft. unfold PrecomputeContinuumFit in E. assert (Nz : zs <> []) by (intros ->; discriminate). destruct (front zs); try discriminate. cbn [rbind] in E.
  rewrite fft_spec in E. fold fft in E. rewrite (prepare_spec c fft _ O) in E.
  destruct (templates c _ cand fft) as [ts| |]; try discriminate. cbn [rbind] in E. exists ts. split; [reflexivity|].
  cbn [with_op o_op] in E. rewrite reqs_eq in E.
  destruct (all_fits op (requests c fft zs ts) 0 0 zs) as [fits all] eqn:AF. destruct (AddAll (fs_new zs) fits) as [fs| |] eqn:A; try discriminate. cbn [rbind] in E.
  destruct (Nat.ltb_spec (fs_count fs) (k_maxN c)) as [B|B]; [discriminate|].
  match type of E with context[evaluateContinuumAmplitude ?a ?b ?d] => destruct (evaluateContinuumAmplitude a b d); try discriminate end. cbn [rbind] in E. injection E as <- _.
  assert (H : holds op (requests c fft zs ts) zs (mkStore fs all (snr_max all))) by (apply (store_holds op _ zs fs _ D Nz); [rewrite AF; exact A|reflexivity|rewrite AF; reflexivity]).
  split; [|split; [exact H|reflexivity]]. destruct H as (_ & C & _). cbn in C. unfold requests in C. rewrite map_length in C. lia.
Qed.
Lemma second_loop_spec op c ws m o n : (m = "retryAll" /\ o = 0%nat \/ m = "reFitFirstPass" /\ o = 3%nat)%string -> (forall w, In w ws -> distinct w) ->
  forall i s s', second_loop op c ws i n s = Ok s' -> o_pass s = 2%nat -> o_option s = o -> o_comp s <> FromSpectrum -> op_ok c (o_op s) ->
  (i + n <= List.length (o_second s))%nat ->
  o_comp s' = o_comp s /\ o_first s' = o_first s /\ o_cands s' = o_cands s /\ List.length (o_second s') = List.length (o_second s) /\
  (forall j, (i <= j < i + n)%nat -> exists t w ts, nth_error ws j = Some w /\ nth_error (o_second s') j = Some (Some t) /\
     asked c m s j (uses_fft c 2 w) ts /\ (k_maxN c <= List.length ts)%nat /\ holds op (requests c (uses_fft c 2 w) w ts) w t /\ t_snrmax t = snr_max (t_all t)) /\
  (forall j, ~ (i <= j < i + n)%nat -> nth_error (o_second s') j = nth_error (o_second s) j).
Proof.
  intros Mo Dw. induction n as [|n IH]; intros i s s' E P Op K O L.
  - injection E as <-. repeat (split; [reflexivity|]). split; [intros j H; lia|reflexivity].
  - cbn [second_loop] in E. destruct (vget ws i) as [w| |] eqn:W; try discriminate. cbn [rbind] in E. apply vget_Ok in W.
    destruct (PrecomputeContinuumFit op c w (Z.of_nat i) s) as [[t s1]| |] eqn:Pr; try discriminate. cbn [rbind] in E.
    destruct (precompute_second _ _ _ _ _ _ _ Pr P) as (A1 & A2 & A3 & A4 & A5 & A6 & A7 & A8 & A9).
    destruct (precompute_store _ _ _ _ _ _ _ Pr (Dw w (nth_error_In _ _ W)) O) as (ts & T1 & T2 & T3 & T4). rewrite P in T1, T3.
    destruct (vset_ok (o_second s1) i (Some t)) as (l & V & Ll & Nl & Ol); [rewrite A6; lia|]. rewrite V in E. cbn [rbind] in E.
    cbn [with_second o_comp] in E. rewrite A1 in E.
    assert (E' : second_loop op c ws (S i) n (with_second s1 l) = Ok s') by (destruct (o_comp s); [exact E|exact E|tauto|exact E]). clear E.
    destruct (IH (S i) _ _ E') as (B1 & B2 & B3 & B4 & B5 & B6); [exact A2|cbn; congruence|cbn; rewrite A1; exact K|exact (A9 O)|cbn; rewrite Ll, A6; lia|].
    cbn [with_second o_comp o_first o_cands o_second] in *.
    assert (SAME : forall j fft, getContinuumInfoFromFirstpassFitStore c (with_second s1 l) j fft = getContinuumInfoFromFirstpassFitStore c s j fft).
    { intros j fft. unfold getContinuumInfoFromFirstpassFitStore. cbn [with_second o_cands o_first]. rewrite A4, A5. reflexivity. }
    repeat (split; [congruence|]). split.
    + intros j H. destruct (Nat.eq_dec j i) as [->|N].
      * exists t, w, ts. rewrite B6 by lia. split; [exact W|]. split; [exact Nl|]. split; [|auto].
        unfold templates in T1. cbn [with_op o_pass o_option] in T1. rewrite P, Op in T1.
        destruct Mo as [(-> & ->) | (-> & ->)]; cbn [Nat.eqb andb] in T1; split; intro X; try discriminate.
        -- injection T1 as <-. reflexivity.
        -- exact T1.
      * destruct (B5 j) as (t' & w' & ts' & C1 & C2 & (C3 & C4) & C5 & C6); [lia|]. exists t', w', ts'. split; [exact C1|]. split; [exact C2|]. split; [|split; assumption].
        split; [exact C3|]. intro X. rewrite <- SAME. exact (C4 X).
    + intros j H. rewrite B6 by lia. rewrite Ol by lia. congruence.
Qed.
Lemma resize_ptr_len l n : List.length (resize_ptr l n) = n.
Proof. unfold resize_ptr. rewrite app_length, firstn_length, repeat_length. lia. Qed.
Lemma second_pass_spec op c m ws s s' : second_pass op c m ws s = Ok s' -> (forall w, In w ws -> distinct w) -> op_ok c (o_op s) ->
  o_comp s' = o_comp s /\ o_first s' = o_first s /\ o_cands s' = o_cands s /\
  (m = "retryAll" \/ m = "reFitFirstPass" -> tplfit (o_comp s) = true ->
    List.length (o_second s') = List.length (o_cands s) /\
    forall j, (j < List.length (o_cands s))%nat -> exists t w ts, nth_error ws j = Some w /\ nth_error (o_second s') j = Some (Some t) /\
      asked c m s j (uses_fft c 2 w) ts /\ (k_maxN c <= List.length ts)%nat /\ holds op (requests c (uses_fft c 2 w) w ts) w t /\ t_snrmax t = snr_max (t_all t))%string /\
  (m = "fromFirstPass" -> tplfit (o_comp s) = true -> o_second s' = [o_first s] /\ o_used s' = o_first s)%string /\
  (tplfit (o_comp s) = false -> o_second s' = o_second s /\ o_used s' = o_used s).
Proof.
  unfold second_pass. intros E Dw OK.
  assert (LOOP : forall o s'0, (m = "retryAll" /\ o = 0%nat \/ m = "reFitFirstPass" /\ o = 3%nat)%string ->
    second_loop op c ws 0 (List.length (o_cands s)) (with_second (with_option (with_pass s 2) o) (resize_ptr (o_second s) (List.length (o_cands s)))) = Ok s'0 -> tplfit (o_comp s) = true ->
    o_comp s'0 = o_comp s /\ o_first s'0 = o_first s /\ o_cands s'0 = o_cands s /\ List.length (o_second s'0) = List.length (o_cands s) /\
    forall j, (j < List.length (o_cands s))%nat -> exists t w ts, nth_error ws j = Some w /\ nth_error (o_second s'0) j = Some (Some t) /\
      asked c m s j (uses_fft c 2 w) ts /\ (k_maxN c <= List.length ts)%nat /\ holds op (requests c (uses_fft c 2 w) w ts) w t /\ t_snrmax t = snr_max (t_all t)).
  { intros o s'0 Mo L T. destruct (second_loop_spec _ _ _ _ _ _ Mo Dw _ _ _ L) as (A1 & A2 & A3 & A4 & A5 & _);
      [reflexivity|reflexivity|cbn; intro X; rewrite X in T; discriminate|exact OK|cbn; rewrite resize_ptr_len; lia|].
    cbn in *. rewrite resize_ptr_len in A4. repeat (split; [assumption|]). intros j H. apply A5. lia. }
  destruct (String.eqb_spec m "fromFirstPass") as [M1|M1].
  { clear LOOP. cbn [rbind] in E. cbn [with_option with_pass o_comp o_first] in E. destruct (tplfit (o_comp s)) eqn:T; cbn in E; injection E as <-; cbn; repeat (split; [reflexivity|]);
      (split; [intros [H|H]; rewrite H in M1; discriminate|]); (split; [intros; try discriminate; auto|intros; try discriminate; auto]). }
  destruct (String.eqb_spec m "retryAll") as [M2|M2].
  { cbn [rbind] in E. cbn [with_option with_pass o_comp o_first o_cands o_second Nat.eqb orb] in E. destruct (tplfit (o_comp s)) eqn:T.
    - destruct (LOOP 0%nat _ (or_introl (conj M2 eq_refl)) E eq_refl) as (A1 & A2 & A3 & A4 & A5). repeat (split; [assumption|]). split; [auto|]. split; [intro H; tauto|discriminate].
    - injection E as <-. cbn. repeat (split; [reflexivity|]). split; [discriminate|]. split; [discriminate|auto]. }
  destruct (String.eqb_spec m "reFitFirstPass") as [M3|M3]; [|discriminate].
  cbn [rbind] in E. cbn [with_option with_pass o_comp o_first o_cands o_second Nat.eqb orb] in E. destruct (tplfit (o_comp s)) eqn:T.
  - destruct (LOOP 3%nat _ (or_intror (conj M3 eq_refl)) E eq_refl) as (A1 & A2 & A3 & A4 & A5). repeat (split; [assumption|]). split; [auto|]. split; [intro H; tauto|discriminate].
  - injection E as <-. cbn. repeat (split; [reflexivity|]). split; [discriminate|]. split; [discriminate|auto].
Qed.
Lemma second_pass_unknown op c m ws s : (m <> "fromFirstPass" /\ m <> "retryAll" /\ m <> "reFitFirstPass")%string -> second_pass op c m ws s = Throw INTERNAL_ERROR.
Proof.
  intros (A & B & C). unfold second_pass. destruct (String.eqb_spec m "fromFirstPass"); [tauto|]. destruct (String.eqb_spec m "retryAll"); [tauto|]. destruct (String.eqb_spec m "reFitFirstPass"); [tauto|]. reflexivity.
Qed.
