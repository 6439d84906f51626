From Coq Require Import String Sorting.Sorted.
From Verif Require Import Base RangeModel RangeProofs RangeGridProofs F64 RatSpec RatProofs LyaModel LyaSpec LyaProofs LyaProofs2 LyaProofs3.
Open Scope Q_scope.

Lemma igm_sorted es : forall k0, StronglySorted lt (map fst (igm_from k0 es)).
Proof.
  induction es as [|e t IH]; intro k0; [constructor|]. cbn [igm_from]. destruct (e_asym e); [apply IH|]. cbn [map fst]. constructor; [apply IH|].
  apply Forall_forall. intros k I. apply in_map_iff in I. destruct I as ([k' l'] & E & I). cbn in E. subst k'. apply igm_keys_gt in I. lia.
Qed.
Lemma to_fit_spec es : wf es -> forall igm, (forall k l, In (k, l) igm -> exists e, nth_error es k = Some e /\ e_asym e = l) -> StronglySorted lt (map fst igm) ->
  exists ks, to_fit es igm = Ok ks /\ StronglySorted lt ks /\ forall k, In k ks <-> In k (map fst igm) /\ fits_igm es k.
Proof.
  intro W. induction igm as [|[k l] t IH]; intros H S.
  - exists []. split; [reflexivity|]. split; [constructor|]. intro k. split; [intros []|intros ([] & _)].
  - cbn [map fst] in S. apply StronglySorted_inv in S. destruct S as (St & Fa). destruct (IH (fun k l I => H k l (or_intror I)) St) as (ks & E & Sk & Hk).
    destruct (H k l (or_introl eq_refl)) as (e & N & A). destruct (W e (nth_error_In _ _ N)) as (D & Bd & C). cbn [to_fit]. unfold vget. rewrite N. cbn [rbind].
    destruct (e_allout e) eqn:Ao.
    + exists ks. split; [exact E|]. split; [exact Sk|]. intro k'. rewrite Hk. cbn [map fst In]. split; [tauto|]. intros ([<-|I] & X); [|auto].
      exfalso. destruct X as (e' & i & p & N' & Ao' & _). congruence.
    + destruct (keep_spec (fun p i => isSymIgmFit p && negb (nth i (e_out e) false))%bool es k l) as (f & Ef & Hf). { intros i I. apply (prof_some es k e i N). apply Bd. rewrite A. exact I. }
      rewrite Ef, E. cbn [rbind]. assert (X : f <> [] <-> fits_igm es k).
      { split.
        - intro Ne. destruct f as [|i r]; [tauto|]. destruct (proj1 (Hf i) (or_introl eq_refl)) as (Il & p & Pp & Tp). apply andb_true_iff in Tp. destruct Tp as (T1 & T2). apply negb_true_iff in T2.
          exists e, i, p. rewrite A. auto 10.
        - intros (e' & i & p & N' & _ & Ia & Pp & T1 & T2) Ef0. rewrite N in N'. injection N' as <-. assert (I : In i f) by (apply Hf; rewrite <- A; split; [exact Ia|exists p; rewrite T1, T2; auto]). rewrite Ef0 in I. destruct I. }
      destruct f as [|i r].
      * exists ks. split; [reflexivity|]. split; [exact Sk|]. intro k'. rewrite Hk. cbn [map fst In]. split; [tauto|]. intros ([<-|I] & Y); [apply X in Y; tauto|auto].
      * eexists. split; [reflexivity|]. split.
        -- constructor; [exact Sk|]. apply Forall_forall. intros k' I. apply Hk in I. rewrite Forall_forall in Fa. apply Fa. tauto.
        -- intro k'. cbn [map fst In]. rewrite Hk. split; [intros [<-|(I & Y)]; [split; [auto|apply X; discriminate]|auto]|intros ([<-|I] & Y); auto].
Qed.
Lemma fits_put k0 a es k : fits_igm (remap (fun k' _ p => put_asym k0 a k' p) es) k <-> fits_igm es k.
Proof.
  assert (Q : forall p, isSymIgmFit (put_asym k0 a k p) = isSymIgmFit p) by (intros []; try reflexivity; cbn; destruct (Nat.eqb k k0); reflexivity).
  unfold fits_igm. split.
  - intros (e' & i & p' & N & A & I & Pp & T1 & T2). rewrite remap_nth in N. destruct (nth_error es k) as [e|] eqn:Ne; [|discriminate]. cbn [option_map] in N. injection N as <-.
    rewrite remap_prof in Pp. destruct (prof es k i) as [p|] eqn:P; [|discriminate]. cbn [option_map] in Pp. injection Pp as <-. exists e, i, p. rewrite Q in T1. auto 10.
  - intros (e & i & p & N & A & I & Pp & T1 & T2). exists (remap_e (fun i p => put_asym k0 a k p) e), i, (put_asym k0 a k p). rewrite remap_nth, remap_prof, N, Pp, Q. auto 10.
Qed.
Lemma put_igm_nil c z k p : put_igm [] c z k p = p.
Proof. destruct p; reflexivity. Qed.
Lemma fits_marked es k : fits_igm es k -> In k (map fst (getIgmLinesIndices es)).
Proof. intros (e & i & p & N & _ & I & _). apply in_map_iff. exists (k, e_asym e). split; [reflexivity|]. apply igm_in. exists e. split; [exact N|]. split; [reflexivity|]. intro Z. rewrite Z in I. destruct I. Qed.

Lemma fit_spec v z es k0 i0 p0 e0 ws as_ ds : wf es -> first_marked es k0 i0 -> prof es k0 i0 = Some p0 -> nth_error es k0 = Some e0 ->
  steps (v_width v) = Ok ws -> steps (v_asym v) = Ok as_ -> steps (v_delta v) = Ok ds ->
  exists ks c es1, StronglySorted lt ks /\ (forall k, In k ks <-> fits_igm es k) /\
    (isAsymFit p0 = true -> nth i0 (e_out e0) false = false ->
       exists a, best_or (asym_key v k0 i0 es) (all_params ds ws as_) default_params a /\ es1 = remap (fun k _ p => put_asym k0 a k p) es) /\
    (isAsymFit p0 = false \/ nth i0 (e_out e0) false = true -> es1 = es) /\
    best_or (igm_key v ks z es1) (map Z.of_nat (seq 0 (v_count v))) (-1)%Z c /\
    fitLyaProfile v z es = Ok (remap (fun k _ p => put_igm ks c z k p) es1).
Proof.
  intros W F P Ne E1 E2 E3. unfold fitLyaProfile. destruct (igm_first es k0 i0 F) as (t & r & E). rewrite E. cbn [front_nat rbind]. unfold vget at 1. rewrite Ne. cbn [rbind]. rewrite (getp _ _ _ _ P). cbn [rbind]. rewrite <- E.
  assert (TAIL : forall es1, wf es1 -> getIgmLinesIndices es1 = getIgmLinesIndices es -> (forall k, fits_igm es1 k <-> fits_igm es k) ->
    exists ks c, StronglySorted lt ks /\ (forall k, In k ks <-> fits_igm es k) /\ best_or (igm_key v ks z es1) (map Z.of_nat (seq 0 (v_count v))) (-1)%Z c /\
      (do ks <- to_fit es1 (getIgmLinesIndices es); match ks with [] => Ok es1 | _ => do (c, es) <- igm_loop v z ks (v_count v) 0 (PInf, -1)%Z es1; set_igm z c ks es end) = Ok (remap (fun k _ p => put_igm ks c z k p) es1)).
  { intros es1 W1 G1 H1. destruct (to_fit_spec es1 W1 (getIgmLinesIndices es)) as (ks & Ek & Sk & Hk).
    - intros k l I. rewrite <- G1 in I. apply igm_in in I. destruct I as (e & N & A & _). exists e. auto.
    - apply igm_sorted.
    - assert (Hks : forall k, In k ks <-> fits_igm es k).
      { intro k. rewrite Hk, H1. split; [tauto|]. intro X. split; [apply fits_marked; exact X|exact X]. }
      rewrite Ek. cbn [rbind]. destruct ks as [|k1 kt].
      + exists [], (-1)%Z. split; [exact Sk|]. split; [exact Hks|]. split; [right; split; [intros y _; reflexivity|reflexivity]|]. f_equal. rewrite <- (remap_id es1) at 1. apply remap_ext. intros; symmetry; apply put_igm_nil.
      + set (ks := k1 :: kt) in *. assert (Lk : forall k, In k ks -> (k < List.length es1)%nat).
        { intros k I. apply Hks in I. apply H1 in I. destruct I as (e & i & p & N & _). apply (nth_error_len _ _ _ N). }
        destruct (igm_loop_spec v z ks es1 W1 Lk (v_count v) 0%Z None es1 (prep_es z ks es1 W1)) as (cur & El & Pc).
        change (PInf, (-1)%Z) with (Bi v z ks es1 None). rewrite El. cbn [rbind]. rewrite (set_igm_spec z ks es1 Lk _ cur Pc).
        pose proof (scan_spec (igm_key v ks z es1) (map (fun j => 0 + Z.of_nat j)%Z (seq 0 (v_count v)))) as S. unfold scan in S.
        replace (map (fun j => 0 + Z.of_nat j)%Z (seq 0 (v_count v))) with (map Z.of_nat (seq 0 (v_count v))) in * by (apply map_ext; intro; reflexivity).
        destruct (fold_left (pick (igm_key v ks z es1)) (map Z.of_nat (seq 0 (v_count v))) None) as [c|]; cbn [Bi snd].
        * exists ks, c. split; [exact Sk|]. split; [exact Hks|]. split; [left; exact S|reflexivity].
        * exists ks, (-1)%Z. split; [exact Sk|]. split; [exact Hks|]. split; [right; auto|reflexivity]. }
  destruct (isAsymFit p0 && negb (nth i0 (e_out e0) false))%bool eqn:X.
  - apply andb_true_iff in X. destruct X as (X1 & X2). apply negb_true_iff in X2.
    destruct (fitAsym_spec v k0 i0 es p0 W F P X1 ws as_ ds E1 E2 E3) as (a & cur & Ef & Rc & Ba). rewrite Ef. cbn [rbind]. rewrite (Rc a). cbn [rbind].
    destruct (TAIL (remap (fun k _ p => put_asym k0 a k p) es)) as (ks & c & A1 & A2 & A3 & A4).
    + apply wf_kind; [exact W|]. intros k i p. unfold put_asym. destruct p; try reflexivity. destruct (Nat.eqb k k0); reflexivity.
    + apply igm_shape.
    + intro k. apply fits_put.
    + exists ks, c, (remap (fun k _ p => put_asym k0 a k p) es). split; [exact A1|]. split; [exact A2|]. split; [intros _ _; exists a; auto|]. split; [intros [Y|Y]; congruence|]. split; [exact A3|exact A4].
  - cbn [rbind]. destruct (TAIL es W eq_refl (fun k => iff_refl _)) as (ks & c & A1 & A2 & A3 & A4). exists ks, c, es. split; [exact A1|]. split; [exact A2|]. split; [intros Y1 Y2; rewrite Y1, Y2 in X; discriminate|]. auto.
Qed.
Lemma fit_none v z es : no_marked es -> fitLyaProfile v z es = Ok es.
Proof. intro N. unfold fitLyaProfile. rewrite (igm_none es N). reflexivity. Qed.

(** ** the previous redshift is forgotten *)
Lemma at_ref cat id : exists d, at_ cat id = Ok d \/ exists e, at_ cat id = Throw e.
Proof. pose proof (at_spec cat id) as H. destruct (at_ cat id) as [p|e|]; [exists p; auto|exists (Sym 0); right; eauto|tauto]. Qed.
Lemma shape_sym es es' : same_shape es es' -> same_shape es' es.
Proof. unfold same_shape. induction 1 as [|e e' l l' (A & B & C & D) _ IH]; constructor; auto. Qed.
Lemma shape_nth es es' : same_shape es es' -> forall k, match nth_error es k, nth_error es' k with
  | Some e, Some e' => e_asym e' = e_asym e /\ e_allout e' = e_allout e /\ e_out e' = e_out e /\ map fst (e_lines e') = map fst (e_lines e) | None, None => True | _, _ => False end.
Proof. induction 1 as [|e e' l l' H _ IH]; intros [|k]; cbn; auto. apply IH. Qed.
Lemma shape_prof es es' k i : same_shape es es' -> (prof es k i = None <-> prof es' k i = None) /\ line_id es' k i = line_id es k i.
Proof.
  intro S. pose proof (shape_nth _ _ S k) as H. unfold prof, line_id. destruct (nth_error es k) as [e|], (nth_error es' k) as [e'|]; try contradiction; [|tauto].
  destruct H as (_ & _ & _ & M). assert (Q : nth_error (map fst (e_lines e')) i = nth_error (map fst (e_lines e)) i) by (rewrite M; reflexivity). rewrite !nth_error_map in Q.
  destruct (nth_error (e_lines e) i), (nth_error (e_lines e') i); cbn in Q; try discriminate; split; [|congruence| |congruence]; split; intro; try discriminate; reflexivity.
Qed.
Lemma shape_first es es' k i : same_shape es es' -> first_marked es k i -> first_marked es' k i.
Proof.
  intros S ((e & t & N & A) & F). pose proof (shape_nth _ _ S) as H. split.
  - specialize (H k). rewrite N in H. destruct (nth_error es' k) as [e'|]; [|tauto]. exists e', t. split; [reflexivity|]. destruct H as (H & _). congruence.
  - intros j e' L N'. specialize (H j). rewrite N' in H. destruct (nth_error es j) as [e1|] eqn:N1; [|tauto]. destruct H as (H & _). rewrite H. apply (F j e1 L N1).
Qed.
Lemma elts_eq es es' : same_shape es es' -> (forall k i, prof es k i = prof es' k i) -> es = es'.
Proof.
  intros S H. apply list_nth_eq. intro k. pose proof (shape_nth _ _ S k) as Hk. destruct (nth_error es k) as [e|] eqn:N, (nth_error es' k) as [e'|] eqn:N'; try contradiction; [|reflexivity].
  f_equal. destruct e as [l a b c], e' as [l' a' b' c']. destruct Hk as (A & B & C & D). cbn [e_asym e_allout e_out e_lines] in A, B, C, D. subst a' b' c'. f_equal. apply list_nth_eq. intro i.
  specialize (H k i). unfold prof in H. rewrite N, N' in H. cbn [e_lines] in H.
  assert (Q : nth_error (map fst l') i = nth_error (map fst l) i) by (rewrite D; reflexivity). rewrite !nth_error_map in Q.
  destruct (nth_error l i) as [[x y]|], (nth_error l' i) as [[x' y']|]; cbn in Q, H; congruence.
Qed.
Lemma first_unique es k i k' i' : first_marked es k i -> first_marked es k' i' -> k = k' /\ i = i'.
Proof.
  intros H H'. destruct (igm_first _ _ _ H) as (t & r & E). destruct (igm_first _ _ _ H') as (t' & r' & E'). rewrite E in E'. injection E' as -> -> _ _. auto.
Qed.
Lemma wf_shape es es' : wf es -> similar es es' -> wf es'.
Proof.
  intros W (S & H) e' I. apply In_nth_error in I. destruct I as (k & N'). pose proof (shape_nth _ _ S k) as Hk. rewrite N' in Hk. destruct (nth_error es k) as [e|] eqn:N; [|tauto].
  destruct Hk as (A & _ & _ & D). destruct (W e (nth_error_In _ _ N)) as (W1 & W2 & W3). assert (Ll : List.length (e_lines e') = List.length (e_lines e)) by (rewrite <- (map_length fst (e_lines e')), D; apply map_length).
  unfold wf_elt. rewrite A, Ll. split; [exact W1|]. split; [exact W2|]. intros i x' Nx' T.
  destruct (nth_error_lt (e_lines e) i) as (x & Nx); [rewrite <- Ll; apply (nth_error_len _ _ _ Nx')|].
  destruct (in_dec Nat.eq_dec i (e_asym e)) as [M|M]; [exact M|]. apply (W3 i x Nx).
  destruct (H k i (snd x) (snd x')) as (_ & H2); [unfold prof; rewrite N, Nx; reflexivity|unfold prof; rewrite N', Nx'; reflexivity|].
  assert (NF : ~ (first_marked es k i /\ isAsym (snd x) = true)). { intros (((e1 & t & N1 & A1) & _) & _). rewrite N in N1. injection N1 as <-. apply M. rewrite A1. left. reflexivity. }
  specialize (H2 NF). destruct (snd x), (snd x'); cbn in *; try discriminate; try reflexivity.
Qed.
Lemma igm_dec es : no_marked es \/ exists k i, first_marked es k i.
Proof.
  induction es as [|e t IH]; [left; intros e []|]. destruct (e_asym e) as [|i r] eqn:A.
  - destruct IH as [N|(k & i & ((e' & t' & N & A') & F))].
    + left. intros e' [<-|I]; [exact A|apply N; exact I].
    + right. exists (S k), i. split; [exists e', t'; auto|]. intros [|j] e1 L N1; [cbn in N1; injection N1 as <-; exact A|apply (F j e1); [lia|exact N1]].
  - right. exists 0%nat, i. split; [exists e, r; auto|]. intros j e' L. lia.
Qed.
Lemma unmarked_plain es k i p : wf es -> no_marked es -> prof es k i = Some p -> (isAsym p || isSymIgm p)%bool = false.
Proof.
  intros W N P. unfold prof in P. destruct (nth_error es k) as [e|] eqn:Ne; [|discriminate]. destruct (nth_error (e_lines e) i) as [x|] eqn:Nx; [|discriminate]. injection P as <-.
  destruct (isAsym (snd x) || isSymIgm (snd x))%bool eqn:K; [|reflexivity]. destruct (W e (nth_error_In _ _ Ne)) as (_ & _ & C). apply (C i x Nx) in K. rewrite (N e (nth_error_In _ _ Ne)) in K. destruct K.
Qed.
Lemma shape_trans a b c : same_shape a b -> same_shape b c -> same_shape a c.
Proof.
  unfold same_shape. intro H. revert c. induction H as [|e e' l l' (A1 & A2 & A3 & A4) _ IH]; intros c H; inversion H as [|? e2 ? l2 (B1 & B2 & B3 & B4) R]; subst; constructor; auto.
  repeat split; congruence.
Qed.
Lemma same_after f cont z d k0 i0 k i p q : (~ (k = k0 /\ i = i0 /\ isAsym p = true) -> similar_p p q) -> (k = k0 /\ i = i0 /\ isAsym p = true -> isAsym q = true) ->
  resetParams (set_fun f cont z d k0 i0 k i p) = resetParams (set_fun f cont z d k0 i0 k i q).
Proof.
  intros H1 H2. unfold set_fun. destruct (Nat.eqb_spec k k0) as [Ek|Nk]; [destruct (Nat.eqb_spec i i0) as [Ei|Ni]|]; cbn [andb].
  1: destruct (isAsym p) eqn:Ap; [rewrite (H2 (conj Ek (conj Ei eq_refl))); reflexivity|].
  1: assert (Sp : similar_p p q) by (apply H1; intros (_ & _ & X); discriminate).
  2,3: assert (Sp : similar_p p q) by (apply H1; tauto).
  - destruct p as [n|n|n a c|n a c|n f1 j z1], q as [n'|n'|n' a' c'|n' a' c'|n' f1' j' z1']; cbn in *; try discriminate; try (destruct cont; congruence); subst; destruct cont; reflexivity.
  - destruct p as [n|n|n a c|n a c|n f1 j z1], q as [n'|n'|n' a' c'|n' a' c'|n' f1' j' z1']; cbn in *; try discriminate; try congruence; try (subst; destruct cont; reflexivity); destruct Sp; congruence.
  - destruct p as [n|n|n a c|n a c|n f1 j z1], q as [n'|n'|n' a' c'|n' a' c'|n' f1' j' z1']; cbn in *; try discriminate; try congruence; try (subst; destruct cont; reflexivity); destruct Sp; congruence.
Qed.
Lemma history_spec v f cont z cat es es' : wf es -> similar es es' -> prepare v f cont z cat es' = prepare v f cont z cat es.
Proof.
  intros W Sm. pose proof (wf_shape _ _ W Sm) as W'. destruct Sm as (S & H). unfold prepare. destruct (igm_dec es) as [Nm|(k0 & i0 & F)].
  - assert (E : es = es').
    { apply elts_eq; [exact S|]. intros k i. destruct (shape_prof es es' k i S) as (Pn & _). destruct (prof es k i) as [p|] eqn:P, (prof es' k i) as [q|] eqn:Q; try (exfalso; destruct Pn as (A & B); (discriminate A || discriminate B); fail).
      - pose proof (unmarked_plain es k i p W Nm P) as U. destruct (H k i p q P Q) as (_ & H2). assert (NF : ~ (first_marked es k i /\ isAsym p = true)) by (intros (_ & X); rewrite X in U; discriminate).
        specialize (H2 NF). destruct p, q; cbn in *; try discriminate; congruence.
      - exfalso. destruct Pn as (_ & B). discriminate (B eq_refl).
      - exfalso. destruct Pn as (A & _). discriminate (A eq_refl).
      - reflexivity. }
    rewrite <- E. reflexivity.
  - pose proof (shape_first _ _ _ _ S F) as F'. destruct (first_some es k0 i0 F W) as (e & x & N & I & Nx). destruct (first_some es' k0 i0 F' W') as (e' & x' & N' & I' & Nx').
    assert (P : prof es k0 i0 = Some (snd x)) by (unfold prof; rewrite N, Nx; reflexivity). assert (P' : prof es' k0 i0 = Some (snd x')) by (unfold prof; rewrite N', Nx'; reflexivity).
    assert (Id : line_id es k0 i0 = Some (fst x)) by (unfold line_id; rewrite N, Nx; reflexivity). assert (Id' : line_id es' k0 i0 = Some (fst x)) by (rewrite (proj2 (shape_prof es es' k0 i0 S)); exact Id).
    destruct (H k0 i0 (snd x) (snd x') P P') as (H1 & H2).
    assert (KK : isAsym (snd x') = isAsym (snd x)). { destruct (isAsym (snd x)) eqn:K; [apply H1; auto|]. specialize (H2 ltac:(intros (_ & X); congruence)). destruct (snd x), (snd x'); cbn in *; try discriminate; try reflexivity; destruct H2; congruence. }
    destruct (at_ref cat (fst x)) as (d & [R|(er & R)]); [|destruct (isAsym (snd x)) eqn:K].
    2:{ rewrite (set_missing f cont z cat es k0 i0 _ _ er W F P Id K R), (set_missing f cont z cat es' k0 i0 _ _ er W' F' P' Id'); auto. }
    all: rewrite (set_spec f cont z cat es k0 i0 _ _ d W F P Id) by (intro; congruence); rewrite (set_spec f cont z cat es' k0 i0 _ _ d W' F' P' Id') by (intro; congruence); cbn [rbind].
    all: assert (WS : forall es, wf es -> first_marked es k0 i0 -> wf (remap (set_fun f cont z d k0 i0) es));
      [intros es0 W0 F0; apply wf_remap; [exact W0|]; intros k i p Pp Nmk T; unfold set_fun in T; destruct (Nat.eqb_spec k k0) as [->|]; [destruct (Nat.eqb_spec i i0) as [->|]|]; cbn [andb] in T;
        [exfalso; apply Nmk; destruct (first_some es0 k0 i0 F0 W0) as (e1 & x1 & A1 & A2 & A3); exists e1; auto|destruct (kind_flags _ _ (igm_of_kind cont z p)) as (K1 & K2 & _); rewrite K1, K2 in T; exact T
        |destruct (kind_flags _ _ (igm_of_kind cont z p)) as (K1 & K2 & _); rewrite K1, K2 in T; exact T]|].
    all: rewrite (reset_spec _ (WS es W F)), (reset_spec _ (WS es' W' F')); cbn [rbind]; f_equal; symmetry; apply elts_eq.
    all: try (apply (shape_trans _ es); [apply shape_sym; rewrite remap_remap; apply remap_shape|]; apply (shape_trans _ es'); [exact S|rewrite remap_remap; apply remap_shape]).
    all: intros k i; rewrite !remap_remap, !remap_prof; destruct (shape_prof es es' k i S) as (Pn & _);
      destruct (prof es k i) as [p|] eqn:Pk, (prof es' k i) as [q|] eqn:Qk;
      [|exfalso; destruct Pn as (_ & B); discriminate (B eq_refl)|exfalso; destruct Pn as (B & _); discriminate (B eq_refl)|reflexivity];
      cbn [option_map]; f_equal; apply (same_after f cont z d k0 i0 k i p q); intro Hc.
    all: destruct (H k i p q Pk Qk) as (K1 & K2).
    all: try (apply K2; intros (X1 & X2); destruct (first_unique es k0 i0 k i F X1) as (-> & ->); apply Hc; auto).
    all: destruct Hc as (-> & -> & Hp); apply K1; [exact F|exact Hp].
Qed.
