(** Loading of the spectra of a source (C96). *)
From Coq Require Import String Permutation Sorted.
From Verif Require Import Base RdrModel RdrSpec RdrProofs RdrProofs2.
Open Scope string_scope.

Lemma same_keys (a b : list string) : NoDup a -> List.length b = List.length a -> (forall k, In k a -> In k b) -> forall k, In k a <-> In k b.
Proof.
  intros N L H k. split; [apply H|]. apply (NoDup_length_incl N); [lia|]. exact H.
Qed.
Lemma dkeys_len {A} (d : dict A) : List.length (dkeys d) = List.length d.
Proof. apply map_length. Qed.
Lemma sizes_spec r : sizes_are_consistent r = true ->
  List.length (fluxes r) = List.length (waves r) /\ List.length (errors r) = List.length (waves r) /\
  forall n d, In (n, d) (others r) -> List.length d = List.length (waves r).
Proof.
  unfold sizes_are_consistent. intro H. apply andb_true_iff in H. destruct H as (H & E). apply andb_true_iff in H. destruct H as (O & F).
  apply Nat.eqb_eq in E, F. repeat apply conj; auto. intros n d I. rewrite forallb_forall in O. apply Nat.eqb_eq, (O _ I).
Qed.
Lemma ids_spec r : obs_ids_are_consistent r = true -> forall k, In k (dkeys (waves r)) ->
  In k (dkeys (fluxes r)) /\ In k (dkeys (errors r)) /\ forall n d, In (n, d) (others r) -> In k (dkeys d).
Proof.
  unfold obs_ids_are_consistent. intros H k I. rewrite forallb_forall in H. specialize (H k I).
  apply andb_true_iff in H. destruct H as (H & E). apply andb_true_iff in H. destruct H as (O & F).
  repeat apply conj; [apply dmem_key, F|apply dmem_key, E|]. intros n d J. rewrite forallb_forall in O. apply dmem_key, (O _ J).
Qed.
Lemma ids_present r k : obs_ids_are_consistent r = true -> In k (dkeys (waves r)) -> present r k.
Proof.
  intros H I. destruct (ids_spec r H k I) as (F & E & O). repeat apply conj; auto. intros n d D. apply (O n), dget_in, D.
Qed.
Lemma instructions_spec p fs : get_filters p = Val fs -> fs = p_filters p /\ forall f, In f (filters_of p) -> In (f_instr f) allowed_instructions.
Proof.
  unfold get_filters, filters_of. destruct (p_filters p) as [l|]; intro E.
  - apply pbind_inv in E. destruct E as (u & E & E'). apply Val_inj in E'. split; [congruence|]. apply pmap_ok in E. clear E'.
    induction E as [|f x l u C E IH]; intros g I; [contradiction|]. destruct I as [I|I]; [subst g|apply IH, I].
    unfold check_instruction, smem in C. destruct (existsb (String.eqb (f_instr f)) allowed_instructions) eqn:X; [|discriminate].
    apply existsb_exists in X. destruct X as (y & Y & Z). apply String.eqb_eq in Z. subst y. exact Y.
  - apply Val_inj in E. split; [congruence|intros f []].
Qed.

(** what a successful [init] did *)
Lemma init_inv sort p r l : init sort p r = Val l ->
  sizes_are_consistent r = true /\ obs_ids_are_consistent r = true /\
  (exists ts0, merge_spectrum_in_dataframe r = Val ts0 /\ apply_filters (p_filters p) ts0 = Val (tables l)) /\
  (forall f, In f (filters_of p) -> In (f_instr f) allowed_instructions) /\
  check_wavelengths p r (dkeys (waves r)) = Val (tighter l) /\ add_cspectra sort p (tables l) = Val (spectra l) /\
  corrected_airvacuum_method (p_air p) (w_air r) = (conversion l, ignored l).
Proof.
  unfold init. intro E. destruct (sizes_are_consistent r); [|discriminate]. cbn [negb] in E. destruct (obs_ids_are_consistent r); [|discriminate]. cbn [negb] in E.
  apply pbind_inv in E. destruct E as (ts0 & E0 & E). apply pbind_inv in E. destruct E as (fs & E1 & E). apply pbind_inv in E. destruct E as (ts & E2 & E).
  apply pbind_inv in E. destruct E as (w & E3 & E). apply pbind_inv in E. destruct E as (sp & E4 & E).
  destruct (forallb _ _); [|discriminate]. apply Val_inj in E. destruct (instructions_spec _ _ E1) as (-> & A). subst l. cbn [tables tighter spectra conversion ignored].
  repeat apply conj; auto. - exists ts0. auto. - destruct (corrected_airvacuum_method (p_air p) (w_air r)); reflexivity.
Qed.

Lemma tables_len {A} (f : string -> pres A) l : forall r, pmap (fun k => let! t := f k in Val (k, t)) l = Val r -> Forall2 (fun k e => fst e = k /\ f k = Val (snd e)) l r.
Proof.
  intros r E. apply pmap_ok in E. induction E as [|k e l r E F IH]; constructor; [|exact IH].
  apply pbind_inv in E. destruct E as (t & E1 & E). apply Val_inj in E. subst e. cbn. auto.
Qed.
Lemma apply_filters_spec p ts0 ts : apply_filters (p_filters p) ts0 = Val ts ->
  Forall2 (fun e e' => fst e' = fst e /\ apply (filters_of p) (snd e) = Val (snd e')) ts0 ts.
Proof.
  unfold apply_filters, filters_of. destruct (p_filters p) as [fs|]; intro E.
  - apply pmap_ok in E. clear -E. induction E as [|e e' l l' E F IH]; constructor; [|exact IH].
    apply pbind_inv in E. destruct E as (t & E1 & E). apply Val_inj in E. subst e'. cbn. auto.
  - apply Val_inj in E. subst ts. clear. induction ts0 as [|e l IH]; constructor; [split; reflexivity|exact IH].
Qed.
(** the tables: one per observation *)
Lemma tables_spec sort p r l : NoDup (dkeys (others r)) -> init sort p r = Val l ->
  Forall2 (fun o e => fst e = o /\ kept_samples r (filters_of p) o (rows (snd e))) (dkeys (waves r)) (tables l).
Proof.
  intros N E. destruct (init_inv _ _ _ _ E) as (_ & O & (ts0 & E0 & E1) & A & _). apply tables_len in E0. apply apply_filters_spec in E1.
  assert (P : forall o, In o (dkeys (waves r)) -> present r o) by (intros o I; apply ids_present; assumption).
  revert E0 E1 P. generalize (dkeys (waves r)). intros ks E0. revert ts0 E0. generalize (tables l). clear -N A.
  induction ks as [|k ks IH]; intros ts ts0 E0 E1 P; inversion E0 as [|? e0 ? l0 (K0 & F0) E0']; subst; inversion E1 as [|? e1 ? l1 (K1 & F1) E1']; subst; constructor.
  - split; [congruence|]. apply (rows_given _ _ _ _ _ N (P _ (or_introl eq_refl)) F0 A F1).
  - apply (IH l1 l0 E0' E1'). intros o I. apply P. right. exact I.
Qed.

Theorem loaded_coherent sort p r l : dictionaries r -> init sort p r = Val l -> coherent r.
Proof.
  intros D E. destruct (init_inv _ _ _ _ E) as (S1 & O & (ts0 & E0 & _) & _). destruct (sizes_spec _ S1) as (L1 & L2 & L3).
  assert (I := ids_spec _ O). assert (Nw := d_waves _ D).
  repeat apply conj.
  - apply same_keys; [exact Nw|rewrite !dkeys_len; exact L1|]. intros k K. apply (I k K).
  - apply same_keys; [exact Nw|rewrite !dkeys_len; exact L2|]. intros k K. apply (I k K).
  - intros n d J. apply same_keys; [exact Nw|rewrite !dkeys_len; exact (L3 _ _ J)|]. intros k K. apply (proj2 (proj2 (I k K)) n d J).
  - intros o w W n c G. assert (Io : In o (dkeys (waves r))) by (apply dget_key; exists w; exact W).
    apply tables_len in E0. assert (X : exists t, full_table r o = Val t).
    { clear -E0 Io. induction E0 as [|k e l l' (K & F) E0 IH]; [contradiction|]. destruct Io as [Io|Io]; [subst o; eexists; exact F|apply IH, Io]. }
    destruct X as (t & X). destruct (full_table_spec _ _ _ (d_others _ D) (ids_present _ _ O Io) X) as (T & Q0 & w' & W' & L).
    rewrite <- (Q0 n) in G. rewrite (T _ _ G), L. congruence.
Qed.
Theorem loaded_mono sort p r l : dictionaries r -> init sort p r = Val l -> p_multi p = Mono ->
  dkeys (waves r) = [""] /\ exists x, spectra l = [("", x)] /\ kept_samples r (filters_of p) "" x.
Proof.
  intros D E M. assert (T := tables_spec _ _ _ _ (d_others _ D) E). destruct (init_inv _ _ _ _ E) as (_ & _ & _ & _ & _ & A & _).
  unfold add_cspectra in A. rewrite M in A. inversion T as [Tw Tt|o e os es (K & H) T' Tw Tt].
  - rewrite <- Tt in A. discriminate.
  - rewrite <- Tt in A. destruct e as (k, t). cbn in K, H. subst o. destruct k as [|ch k]; [|discriminate]. destruct es as [|e2 es]; [|discriminate].
    inversion T'; subst. apply Val_inj in A. split; [reflexivity|]. exists (rows t). split; [symmetry; exact A|exact H].
Qed.
Theorem loaded_full sort p r l : dictionaries r -> init sort p r = Val l -> p_multi p = Full ->
  Forall2 (fun o e => fst e = o /\ kept_samples r (filters_of p) o (snd e)) (dkeys (waves r)) (spectra l).
Proof.
  intros D E M. assert (T := tables_spec _ _ _ _ (d_others _ D) E). destruct (init_inv _ _ _ _ E) as (_ & _ & _ & _ & _ & A & _).
  unfold add_cspectra in A. rewrite M in A. apply Val_inj in A. rewrite <- A. clear -T.
  induction T as [|o e os ts H T IH]; constructor; [exact H|exact IH].
Qed.
Theorem loaded_conversion sort p r l : init sort p r = Val l ->
  (conversion l <> "" <-> w_air r = true) /\
  (w_air r = true -> conversion l = if (p_air p =? "") || (p_air p =? "default") then "morton2000" else p_air p) /\
  (ignored l = true <-> p_air p <> "" /\ w_air r = false).
Proof.
  intro E. destruct (init_inv _ _ _ _ E) as (_ & _ & _ & _ & _ & _ & C). unfold corrected_airvacuum_method in C.
  destruct (String.eqb_spec (p_air p) "default") as [Q0|Q0].
  - rewrite Q0. cbn in C. destruct (w_air r); injection C as <- <-; cbn; repeat split; intros; try discriminate; try tauto; try congruence; destruct H; congruence.
  - destruct (String.eqb_spec (p_air p) "") as [Q1|Q1].
    + rewrite Q1 in *. cbn in C. destruct (w_air r); injection C as <- <-; cbn; repeat split; intros; try discriminate; try tauto; try congruence; destruct H; congruence.
    + cbn in C. destruct (w_air r); injection C as <- <-; cbn; repeat split; intros; try discriminate; try tauto; try congruence; destruct H; congruence.
Qed.

(** *** ranges *)
Lemma range_asked p o lo hi : get_lambda_range p o = Val (lo, hi) <-> asked p o lo hi.
Proof.
  unfold get_lambda_range, asked. destruct (p_multi p); destruct (p_range p) as [a b|d]; split; intro H;
    try discriminate; try (destruct H as [(H1 & H2)|(H1 & d' & H2 & H3)]; try congruence).
  - left. apply Val_inj in H. split; [discriminate|congruence].
  - left. apply Val_inj in H. split; [discriminate|congruence].
  - right. split; [reflexivity|]. exists d. split; [reflexivity|]. destruct (dget o d); [|discriminate]. apply Val_inj in H. congruence.
  - injection H2 as <-. rewrite H3. reflexivity.
Qed.
Lemma last_cons {A} (ws : list A) : forall x w0, last (x :: ws) w0 = last ws x.
Proof. induction ws as [|y ws IH]; intros x w0; [reflexivity|]. change (last (y :: ws) w0 = last (y :: ws) x). rewrite !IH. reflexivity. Qed.
Lemma last_spec (w0 : cell) ws a : last ws w0 = Some a <-> last_wave (w0 :: ws) a.
Proof.
  unfold last_wave. revert w0. induction ws as [|x ws IH]; intro w0.
  - cbn. split; [intros ->; exists []; reflexivity|]. intros (t & E). destruct t as [|y t]; [cbn in E; congruence|]. destruct t; discriminate.
  - rewrite last_cons.
    rewrite IH. split.
    + intros (t & E). exists (w0 :: t). rewrite E. reflexivity.
    + intros (t & E). destruct t as [|y t]; [discriminate|]. injection E as _ E. exists t. exact E.
Qed.
Lemma check_spec p r : forall obs l, check_wavelengths p r obs = Val l ->
  (forall o, In o obs -> exists lo hi, asked p o lo hi) /\
  forall o, In o l <-> In o obs /\ exists lo hi, asked p o lo hi /\ ~ covers r o lo hi.
Proof.
  induction obs as [|o obs IH]; intros l E; cbn in E.
  - apply Val_inj in E. subst l. split; [intros o []|]. intro o. cbn. tauto.
  - apply pbind_inv in E. destruct E as ((lo, hi) & Er & E). apply range_asked in Er. cbn [fst snd] in E.
    destruct (nth_col (waves r) o) as [|w0 ws] eqn:W; [discriminate|]. apply pbind_inv in E. destruct E as (l' & El & E). destruct (IH l' El) as (H1 & H2).
    apply Val_inj in E. change ((if cle w0 (Some lo) && cle (Some hi) (last ws w0) then l' else o :: l') = l) in E.
    assert (C : cle w0 (Some lo) && cle (Some hi) (last ws w0) = true <-> covers r o lo hi).
    { unfold nth_col in W. destruct (dget o (waves r)) as [w|] eqn:Dw; [|discriminate]. subst w. rewrite andb_true_iff. unfold covers. split.
      - intros (A & B). destruct w0 as [a|]; [|discriminate]. destruct (last ws (Some a)) as [b|] eqn:Lb; [|discriminate]. cbn in A, B.
        apply Qle_bool_iff in A, B. exists (Some a :: ws), a, b. repeat apply conj; auto; [exists ws; reflexivity|]. apply last_spec, Lb.
      - intros (w & a & b & Dw' & (t & F) & L & A & B). assert (W1 : w = w0 :: ws) by congruence. rewrite W1 in L, F. apply last_spec in L. rewrite L.
        injection F as F1 _. rewrite F1. cbn. split; apply Qle_bool_iff; assumption. }
    assert (U : forall lo' hi', asked p o lo' hi' -> lo' = lo /\ hi' = hi).
    { intros lo' hi' A. apply range_asked in A. apply range_asked in Er. rewrite A in Er. apply Val_inj in Er. split; congruence. }
    split.
    + intros o' [I|I]; [subst o'; exists lo, hi; exact Er|apply H1, I].
    + intro o'. destruct (cle w0 (Some lo) && cle (Some hi) (last ws w0)) eqn:B; subst l.
      * rewrite H2. split; intros (I & H); (split; [|exact H]); [right; exact I|]. destruct I as [I|I]; [|exact I]. subst o'. exfalso.
        destruct H as (lo' & hi' & A & N). destruct (U _ _ A) as (-> & ->). apply N, C. reflexivity.
      * cbn [In]. rewrite H2. split.
        -- intros [I|(I & H)]; [subst o'; split; [left; reflexivity|]|split; [right; exact I|exact H]]. exists lo, hi. split; [exact Er|]. intro X. apply C in X. discriminate.
        -- intros ([I|I] & H); [left; exact I|right; split; assumption].
Qed.
Theorem loaded_range sort p r l : init sort p r = Val l ->
  (forall o, In o (dkeys (waves r)) -> exists lo hi, asked p o lo hi) /\
  forall o, In o (tighter l) <-> In o (dkeys (waves r)) /\ exists lo hi, asked p o lo hi /\ ~ covers r o lo hi.
Proof. intro E. destruct (init_inv _ _ _ _ E) as (_ & _ & _ & _ & C & _). apply (check_spec _ _ _ _ C). Qed.
