From Coq Require Import String Sorting.Sorted.
From Verif Require Import Base RangeModel RangeProofs RangeGridProofs F64 RatSpec RatProofs LyaModel LyaSpec LyaProofs LyaProofs2.
Open Scope Q_scope.

Lemma steps_spec l : 0 < l_step l -> l_min l <= l_max l -> l_max l - l_min l < 2147483640 * l_step l -> exists vs, steps l = Ok vs /\ values l vs.
Proof.
  intros S O B. unfold steps. destruct (Qeq_bool_spec (l_step l) 0) as [E|E]; [exfalso; rewrite E in S; apply (Qlt_irrefl 0); exact S|].
  set (y := (l_max l - l_min l) / l_step l). set (x := y + (3 # 2)).
  assert (Y0 : 0 <= y). { unfold y. apply Qle_shift_div_l; auto. lra. }
  assert (YB : y < 2147483640). { unfold y. apply Qlt_shift_div_r; auto. }
  assert (YM : y * l_step l == l_max l - l_min l). { unfold y. field. exact E. }
  assert (T : Qtrunc x = Qfloor x) by (apply Qtrunc_nonneg; unfold x; lra).
  assert (F0 : (0 <= Qfloor x)%Z). { change 0%Z with (Qfloor 0). apply Qfloor_resp_le. unfold x. lra. }
  assert (FB : (Qfloor x <= 2147483647)%Z). { change 2147483647%Z with (Qfloor 2147483647). apply Qfloor_resp_le. unfold x. lra. }
  unfold to_int32. rewrite T. replace ((-2147483648 <=? Qfloor x)%Z && (Qfloor x <=? 2147483647)%Z)%bool with true.
  2:{ symmetry. apply andb_true_iff. split; apply Z.leb_le; lia. }
  cbn [rbind]. eexists. split; [reflexivity|].
  pose proof (Qfloor_le x) as FL. pose proof (Qlt_floor x) as FU. split.
  - intros i v N. rewrite nth_error_map in N. destruct (nth_error (seq 0 (Z.to_nat (Qfloor x))) i) as [j|] eqn:J; [|discriminate].
    cbn in N. injection N as <-. assert (j = i).
    { pose proof (nth_error_len _ _ _ J) as Lj. rewrite seq_length in Lj. rewrite (nth_error_nth' _ 0%nat) in J by (rewrite seq_length; lia).
      rewrite seq_nth in J by lia. injection J as <-. lia. }
    subst j. reflexivity.
  - intro i. rewrite map_length, seq_length. set (q := inject_Z (Z.of_nat i)).
    assert (Hq : (i < Z.to_nat (Qfloor x))%nat <-> (Z.of_nat i + 1 <= Qfloor x)%Z) by lia. rewrite Hq.
    assert (Hx : (Z.of_nat i + 1 <= Qfloor x)%Z <-> q + 1 <= x).
    { unfold q. split; intro H.
      - rewrite Zle_Qle in H. rewrite inject_Z_plus in H. change (inject_Z 1) with 1 in H. lra.
      - rewrite <- (Qfloor_Z (Z.of_nat i + 1)). apply Qfloor_resp_le. rewrite inject_Z_plus. exact H. }
    rewrite Hx. unfold x. assert (M : q <= y + (1 # 2) <-> q * l_step l <= (y + (1 # 2)) * l_step l) by (symmetry; apply Qmult_le_r; exact S).
    assert (Ex : (y + (1 # 2)) * l_step l == l_max l - l_min l + l_step l * (1 # 2)) by (rewrite <- YM; ring).
    rewrite Ex in M. clear -M. split; intro H.
    + assert (H' : q <= y + (1 # 2)) by lra. apply M in H'. lra.
    + assert (H' : q <= y + (1 # 2)) by (apply M; lra). lra.
Qed.
Lemma steps_zero l : l_step l == 0 -> steps l = UB.
Proof. intro E. unfold steps. destruct (Qeq_bool_spec (l_step l) 0) as [_|N]; tauto. Qed.
Lemma triples_all ds ws as_ : triples ds ws as_ = all_params ds ws as_.
Proof. reflexivity. Qed.

(** ** the asymmetry *)
Section Asym.
  Variables (v : env) (k i : nat) (es : list elt) (p0 : profile).
  Hypothesis W : wf es.
  Hypothesis F : first_marked es k i.
  Hypothesis P : prof es k i = Some p0.
  Hypothesis K : isAsymFit p0 = true.
  Let St (a : asym) : list elt := remap (fun k' _ p => put_asym k a k' p) es.
  (** a state from which the parameters of element k can be set *)
  Definition ready (cur : list elt) : Prop := forall a, on_elt (fun p => SetAsymParams p a) cur k = Ok (St a).
  Lemma lt_k : (k < List.length es)%nat.
  Proof. destruct F as ((e & t & N & A) & _). apply (nth_error_len _ _ _ N). Qed.
  Lemma ready_es : ready es.
  Proof.
    intro a. rewrite (on_elt_spec _ es k W (sp_asym a) lt_k). f_equal. unfold St. apply remap_ext. intros k' j p _. destruct p; cbn; destruct (Nat.eqb k' k); reflexivity.
  Qed.
  Lemma wf_St a : wf (St a).
  Proof. apply wf_kind; [exact W|]. intros k' j p. unfold put_asym. destruct p; try reflexivity. destruct (Nat.eqb k' k); reflexivity. Qed.
  Lemma ready_St b : ready (St b).
  Proof.
    intro a. rewrite (on_elt_spec _ (St b) k (wf_St b) (sp_asym a)) by (unfold St; rewrite remap_len; apply lt_k). f_equal. unfold St. rewrite remap_remap. apply remap_ext. intros k' j p _.
    unfold put_asym. destruct p; cbn; destruct (Nat.eqb k' k); reflexivity.
  Qed.
  Definition B (o : option asym) : f64 * asym := match o with None => (PInf, default_params) | Some a => (asym_key v k i es a, a) end.
  Lemma asym_step_spec a o cur : ready cur -> asym_step v k i a (B o) cur = Ok (B (pick (asym_key v k i es) o a), St a).
  Proof.
    intro R. unfold asym_step. rewrite R. cbn [rbind]. destruct F as ((e & t & N & A) & _).
    assert (Ne : nth_error (St a) k = Some (remap_e (fun j p => put_asym k a k p) e)) by (unfold St; rewrite remap_nth, N; reflexivity).
    unfold vget at 1. rewrite Ne. cbn [rbind]. set (e' := remap_e (fun j p => put_asym k a k p) e) in *.
    unfold pick. assert (Ky : asym_key v k i es a = match v_amp v k e' (Some i) with Some x => if Qltb 0 x then v_rms v (St a) [k] else NaN | None => NaN end).
    { unfold asym_key. fold (St a). rewrite Ne. reflexivity. }
    unfold positive. destruct (v_amp v k e' (Some i)) as [x|] eqn:Va; [|rewrite Ky; cbn [flt]; destruct o; reflexivity].
    destruct (Qltb 0 x) eqn:X; [|rewrite Ky; cbn [flt]; destruct o; reflexivity].
    assert (As : e_asym e' = i :: t) by exact A. rewrite As. cbn [front_nat rbind].
    unfold prof in P. rewrite N in P. destruct (nth_error (e_lines e) i) as [y|] eqn:Ny; [|discriminate]. injection P as Py.
    assert (Nl : nth_error (e_lines e') i = Some (fst y, put_asym k a k (snd y))) by (unfold e'; rewrite remap_e_line, Ny; reflexivity).
    unfold vget. rewrite Nl. cbn [rbind snd]. rewrite <- Py in K. destruct (snd y) as [| | |n q c|]; try discriminate. cbn [put_asym]. rewrite Nat.eqb_refl. cbn [GetAsymParams].
    rewrite Ky. destruct o as [b|]; cbn [B fst kcur].
    - destruct (flt (v_rms v (St a) [k]) (asym_key v k i es b)); cbn [B]; rewrite ?Ky; reflexivity.
    - destruct (flt (v_rms v (St a) [k]) PInf); cbn [B]; rewrite ?Ky; reflexivity.
  Qed.
  Lemma asym_loop_spec l : forall o cur, ready cur -> exists cur', asym_loop v k i l (B o) cur = Ok (B (fold_left (pick (asym_key v k i es)) l o), cur') /\ ready cur'.
  Proof.
    induction l as [|a t IH]; intros o cur R; [exists cur; split; [reflexivity|exact R]|]. cbn [asym_loop]. rewrite (asym_step_spec a o cur R). cbn [rbind fold_left]. apply IH. apply ready_St.
  Qed.
  Lemma fitAsym_spec ws as_ ds : steps (v_width v) = Ok ws -> steps (v_asym v) = Ok as_ -> steps (v_delta v) = Ok ds ->
    exists a cur, fitAsymParameters v k i es = Ok (a, cur) /\ ready cur /\ best_or (asym_key v k i es) (all_params ds ws as_) default_params a.
  Proof.
    intros E1 E2 E3. unfold fitAsymParameters. rewrite E1, E2, E3. cbn [rbind]. destruct (asym_loop_spec (triples ds ws as_) None es ready_es) as (cur & E & R).
    change (PInf, default_params) with (B None). rewrite E. cbn [rbind]. pose proof (scan_spec (asym_key v k i es) (triples ds ws as_)) as S. unfold scan in S.
    destruct (fold_left (pick (asym_key v k i es)) (triples ds ws as_) None) as [a|]; cbn [B snd].
    - exists a, cur. split; [reflexivity|]. split; [exact R|]. left. rewrite <- triples_all. exact S.
    - exists default_params, cur. split; [reflexivity|]. split; [exact R|]. right. split; [rewrite <- triples_all; exact S|reflexivity].
  Qed.
End Asym.

(** ** the absorption *)
Section IgmFit.
  Variables (v : env) (z : Q) (ks : list nat) (es : list elt).
  Hypothesis W : wf es.
  Hypothesis Lks : forall k, In k ks -> (k < List.length es)%nat.
  Let T (c : Z) : list elt := remap (fun k _ p => put_igm ks c z k p) es.
  Lemma put_igm_kind l c k p : kind (put_igm l c z k p) = kind p.
  Proof. unfold put_igm. destruct p; try reflexivity. destruct (existsb (Nat.eqb k) l); reflexivity. Qed.
  Definition prep (cur : list elt) : Prop := wf cur /\ List.length cur = List.length es /\ forall c, remap (fun k _ p => put_igm ks c z k p) cur = T c.
  Lemma prep_es : prep es.
  Proof. split; [exact W|]. split; reflexivity. Qed.
  Lemma prep_T c : prep (T c).
  Proof.
    split; [apply wf_kind; [exact W|]; intros; apply put_igm_kind|]. split; [apply remap_len|]. intro c'. unfold T. rewrite remap_remap. apply remap_ext. intros k i p _. unfold put_igm. destruct p; try reflexivity.
    destruct (existsb (Nat.eqb k) ks) eqn:E; cbv beta iota; rewrite ?E; reflexivity.
  Qed.
  Lemma on_igm cur l c k : wf cur -> (k < List.length cur)%nat ->
    on_elt (fun p => SetSymIgmParams p c (Some z)) (remap (fun k _ p => put_igm l c z k p) cur) k = Ok (remap (fun k' _ p => put_igm (l ++ [k]) c z k' p) cur).
  Proof.
    intros Wc L. rewrite on_elt_spec.
    - f_equal. rewrite remap_remap. apply remap_ext. intros k' i p _. unfold put_igm. destruct p; try (destruct (Nat.eqb k' k); reflexivity). rewrite existsb_app. cbn [existsb]. rewrite orb_false_r.
      destruct (existsb (Nat.eqb k') l), (Nat.eqb k' k); reflexivity.
    - apply wf_kind; [exact Wc|]. intros; apply put_igm_kind.
    - apply sp_igm.
    - rewrite remap_len. exact L.
  Qed.
  Definition good (c : Z) (k : nat) : bool := match nth_error (T c) k with Some e => match v_amp v k e None with Some x => Qltb 0 x | None => false end | None => false end.
  Lemma igm_fits_spec c cur : prep cur -> forall l2 l1 ok, ks = (l1 ++ l2)%list ->
    igm_fits v z c l2 ok (remap (fun k _ p => put_igm l1 c z k p) cur) = Ok ((ok || existsb (good c) l2)%bool, T c).
  Proof.
    intros (Wc & Lc & Hc). induction l2 as [|k t IH]; intros l1 ok E.
    - cbn. rewrite orb_false_r. f_equal. f_equal. rewrite <- Hc. rewrite E, app_nil_r. reflexivity.
    - cbn [igm_fits]. assert (Ik : In k ks) by (rewrite E; apply in_or_app; right; left; reflexivity). assert (Lk : (k < List.length cur)%nat) by (rewrite Lc; apply Lks; exact Ik).
      rewrite on_igm by auto. cbn [rbind]. destruct (nth_error_lt _ _ Lk) as (e & N). unfold vget. rewrite remap_nth, N. cbn [option_map rbind].
      assert (G : positive (v_amp v k (remap_e (fun _ p => put_igm (l1 ++ [k]) c z k p) e) None) = good c k).
      { unfold good, positive. rewrite <- (Hc c), remap_nth, N. cbn [option_map].
        replace (remap_e (fun _ p => put_igm ks c z k p) e) with (remap_e (fun _ p => put_igm (l1 ++ [k]) c z k p) e); [reflexivity|].
        apply remap_e_ext. intros i x _. unfold put_igm. destruct (snd x); try reflexivity. replace (existsb (Nat.eqb k) (l1 ++ [k])) with true by (symmetry; apply inb_spec; apply in_or_app; right; left; reflexivity).
        replace (existsb (Nat.eqb k) ks) with true by (symmetry; apply inb_spec; exact Ik). reflexivity. }
      rewrite G, IH by (rewrite E, <- app_assoc; reflexivity). cbn [existsb]. rewrite orb_assoc. reflexivity.
  Qed.
  Lemma igm_fits_all c cur : prep cur -> igm_fits v z c ks false cur = Ok (existsb (good c) ks, T c).
  Proof.
    intro Pc. pose proof (igm_fits_spec c cur Pc ks [] false eq_refl) as H. cbn [orb] in H. rewrite <- H. f_equal. rewrite <- (remap_id cur) at 1. apply remap_ext. intros k i p _. destruct p; reflexivity.
  Qed.
  Definition Bi (o : option Z) : f64 * Z := match o with None => (PInf, (-1)%Z) | Some c => (igm_key v ks z es c, c) end.
  Lemma igm_loop_spec n : forall c o cur, prep cur ->
    exists cur', igm_loop v z ks n c (Bi o) cur = Ok (snd (Bi (fold_left (pick (igm_key v ks z es)) (map (fun j => c + Z.of_nat j)%Z (seq 0 n)) o)), cur') /\ prep cur'.
  Proof.
    induction n as [|n IH]; intros c o cur Pc; [exists cur; split; [reflexivity|exact Pc]|]. cbn [igm_loop]. rewrite (igm_fits_all c cur Pc). cbn [rbind].
    assert (Ky : igm_key v ks z es c = if existsb (good c) ks then v_rms v (T c) ks else NaN) by reflexivity.
    assert (E : (if (existsb (good c) ks && flt (v_rms v (T c) ks) (fst (Bi o)))%bool then (v_rms v (T c) ks, c) else Bi o) = Bi (pick (igm_key v ks z es) o c)).
    { unfold pick. destruct (existsb (good c) ks) eqn:X; cbn [andb].
      - destruct o as [c'|]; cbn [Bi fst kcur]; rewrite Ky; [destruct (flt (v_rms v (T c) ks) (igm_key v ks z es c'))|destruct (flt (v_rms v (T c) ks) PInf)]; cbn [Bi]; rewrite ?Ky; reflexivity.
      - rewrite Ky. cbn [flt]. destruct o; reflexivity. }
    rewrite E. destruct (IH (c + 1)%Z (pick (igm_key v ks z es) o c) (T c) (prep_T c)) as (cur' & E' & P'). exists cur'. split; [|exact P']. rewrite E'. f_equal. f_equal.
    cbn [seq map fold_left]. replace (c + Z.of_nat 0)%Z with c by lia. rewrite <- seq_shift, map_map. f_equal. f_equal. f_equal. apply map_ext. intro j. lia.
  Qed.
  Lemma set_igm_spec c cur : prep cur -> set_igm z c ks cur = Ok (T c).
  Proof.
    intros (Wc & Lc & Hc). assert (G : forall l2 l1, ks = (l1 ++ l2)%list -> set_igm z c l2 (remap (fun k _ p => put_igm l1 c z k p) cur) = Ok (T c)).
    { induction l2 as [|k t IH]; intros l1 E.
      - cbn. f_equal. rewrite <- Hc. rewrite E, app_nil_r. reflexivity.
      - cbn [set_igm]. rewrite on_igm; auto. 2:{ rewrite Lc. apply Lks. rewrite E. apply in_or_app. right. left. reflexivity. } cbn [rbind]. apply IH. rewrite E, <- app_assoc. reflexivity. }
    rewrite <- (G ks [] eq_refl). f_equal. rewrite <- (remap_id cur) at 1. apply remap_ext. intros k i p _. destruct p; reflexivity.
  Qed.
End IgmFit.
