(** Merging, acceptance (C96). *)
From Coq Require Import String Permutation Sorted Psatz.
From Verif Require Import Base RdrModel RdrSpec RdrProofs RdrProofs2 RdrProofs3 RdrProofs4.
Open Scope string_scope.

Theorem loaded_merge sort p r l : dictionaries r -> sorts sort -> init sort p r = Val l -> p_multi p = Merge ->
  exists ls m, spectra l = [("", m)] /\ Forall2 (kept_samples r (filters_of p)) (dkeys (waves r)) ls /\ merged (concat ls) m.
Proof.
  intros D So E M. assert (T := tables_spec _ _ _ _ (d_others _ D) E). destruct (init_inv _ _ _ _ E) as (_ & _ & _ & _ & _ & A & _).
  unfold add_cspectra in A. rewrite M in A. apply pbind_inv in A. destruct A as (m & Em & A). apply Val_inj in A.
  exists (map (fun e => rows (snd e)) (tables l)), m. split; [symmetry; exact A|]. split; [|apply (merge_spec _ _ _ So Em)].
  clear -T. induction T as [|o e os ts (K & H) T IH]; constructor; [exact H|exact IH].
Qed.

(** *** well spaced wavelengths *)
Lemma zip_app {A B C} (f : A -> B -> C) a a' b b' : List.length a = List.length b -> zip_with f (a ++ a')%list (b ++ b')%list = (zip_with f a b ++ zip_with f a' b')%list.
Proof. revert b. induction a as [|x a IH]; intros [|y b] L; try discriminate; [reflexivity|]. cbn. f_equal. apply IH. injection L as L. exact L. Qed.
Lemma zip_in {A B C} (f : A -> B -> C) (R : A -> B -> Prop) l k : Forall2 R l k -> forall x, In x (zip_with f l k) -> exists a b, In a l /\ R a b /\ x = f a b.
Proof.
  intro F. induction F as [|a b l k H F IH]; intros x I; [contradiction|]. cbn in I. destruct I as [<-|I].
  - exists a, b. repeat apply conj; auto. left. reflexivity.
  - destruct (IH x I) as (a' & b' & X & Y & Z). exists a', b'. repeat apply conj; auto. right. exact X.
Qed.
Lemma SS_app {A} (R : A -> A -> Prop) a b : StronglySorted R a -> StronglySorted R b -> (forall x y, In x a -> In y b -> R x y) -> StronglySorted R (a ++ b)%list.
Proof.
  intro S0. induction S0 as [|x a S1 IH F]; intros Sb H; [exact Sb|]. cbn. constructor.
  - apply IH; [exact Sb|]. intros y z Y Z. apply H; [right; exact Y|exact Z].
  - apply Forall_app. split; [exact F|]. apply Forall_forall. intros y Y. apply H; [left; reflexivity|exact Y].
Qed.
Lemma shift_le (j k : nat) : (j <= k)%nat -> (inject_Z (Z.of_nat j) * tick <= inject_Z (Z.of_nat k) * tick)%Q.
Proof. intro L. apply Qmult_le_compat_r; [|unfold tick, Qle; cbn; lia]. rewrite <- Zle_Qle. lia. Qed.
Lemma shift_lt (j k : nat) : (j < k)%nat -> (inject_Z (Z.of_nat j) * tick < inject_Z (Z.of_nat k) * tick)%Q.
Proof. intro L. apply Qmult_lt_compat_r; [unfold tick, Qlt; cbn; lia|]. rewrite <- Zlt_Qlt. lia. Qed.
Lemma shift_pos (j : nat) : (0 <= inject_Z (Z.of_nat j) * tick)%Q.
Proof. assert (H := shift_le 0 j ltac:(lia)). change (inject_Z (Z.of_nat 0) * tick)%Q with (0 * tick)%Q in H. lra. Qed.
Lemma run_sorted u : forall run s, (forall w, In w run -> (w == u)%Q) -> StronglySorted (fun a b => (a < b)%Q) (zip_with shifted run (seq s (List.length run))).
Proof.
  induction run as [|w run IH]; intros s H; cbn; constructor.
  - apply IH. intros v V. apply H. right. exact V.
  - apply Forall_forall. intros y Y.
    assert (F : Forall2 (fun _ k => (s < k)%nat) run (seq (S s) (List.length run))) by (apply run_ranks; intros; lia).
    destruct (zip_in _ _ _ _ F y Y) as (v & k & V & K & ->). unfold shifted. assert (A := shift_lt _ _ K).
    rewrite (H w (or_introl eq_refl)), (H v (or_intror V)). lra.
Qed.
Lemma ranks_sorted N l : sorted l -> (List.length l <= N)%nat -> (forall a b, In a l -> In b l -> (a < b)%Q -> (a + inject_Z (Z.of_nat N) * tick < b)%Q) ->
  StronglySorted (fun a b => (a < b)%Q) (zip_with shifted l (ranks l)).
Proof.
  revert l. apply (runs (fun l => (List.length l <= N)%nat -> (forall a b, In a l -> In b l -> (a < b)%Q -> (a + inject_Z (Z.of_nat N) * tick < b)%Q) ->
    StronglySorted (fun a b => (a < b)%Q) (zip_with shifted l (ranks l)))); [intros _ _; constructor|].
  intros u l S0 IH L H. rewrite ranks_cons.
  assert (Lc : (count u (u :: l) <= N)%nat) by (unfold count; assert (X := filter_le (Qeq_bool u) (u :: l)); lia).
  assert (Lf := filter_le (neq u) l). cbn [List.length] in L.
  assert (In' : forall x, In x (filter (neq u) l) -> In x (u :: l)) by (intros x X; apply filter_In in X; right; tauto).
  assert (G : StronglySorted (fun a b => (a < b)%Q) (zip_with shifted (filter (Qeq_bool u) (u :: l) ++ filter (neq u) l)%list (seq 0 (count u (u :: l)) ++ ranks (filter (neq u) l))%list)).
  { rewrite zip_app by (rewrite seq_length; reflexivity). unfold count at 1. apply SS_app.
    - apply (run_sorted u). intros w W. apply filter_In in W. destruct W as (_ & W). apply qeq_iff in W. lra.
    - apply IH; [lia|]. intros a b A B. apply H; apply In'; assumption.
    - intros x y X Y.
      assert (F : Forall2 (fun _ k => (k < count u (u :: l))%nat) (filter (Qeq_bool u) (u :: l)) (seq 0 (List.length (filter (Qeq_bool u) (u :: l))))).
      { apply run_ranks. intros w k _ K. unfold count. lia. }
      destruct (zip_in _ _ _ _ F x X) as (w & k & W & K & ->).
      assert (Sf : sorted (filter (neq u) l)) by (apply sorted_filter; inversion S0; assumption).
      destruct (zip_in _ _ _ _ (ranks_bound _ Sf) y Y) as (v & j & V & _ & ->).
      apply filter_In in W. destruct W as (Wi & W). apply qeq_iff in W. pose proof (In' _ V) as Vi. apply filter_In in V. destruct V as (V1 & V2). apply neq_iff in V2.
      assert (U : (u < v)%Q). { inversion S0 as [|? ? _ Fu]; subst. rewrite Forall_forall in Fu. specialize (Fu v V1). cbv beta in Fu.
        destruct (Qlt_le_dec u v) as [Q0|Q0]; [exact Q0|]. exfalso. apply V2. lra. }
      assert (A := H u v (or_introl eq_refl) Vi U). unfold shifted. assert (B := shift_le k N ltac:(lia)). assert (C := shift_pos j). lra. }
  rewrite <- (sorted_split u l S0) in G. exact G.
Qed.
Theorem merge_accepts sort_rows l : sorts sort_rows -> l <> [] -> spaced l -> exists m, merge sort_rows l = Val m.
Proof.
  intros So NE (H1 & H2). destruct (numbers_total l H1) as (n & En). unfold merge. rewrite En. assert (El := numbers_spec _ _ En).
  destruct n as [|n0 n1]; [rewrite El in NE; contradiction|]. remember (n0 :: n1) as n eqn:Nn. clear Nn n0 n1 NE En. cbv zeta.
  destruct (So n) as (P & S0). remember (sort_rows n) as s eqn:Es. clear Es So.
  assert (Sq : sorted (map fst s)).
  { clear -S0. induction S0 as [|a s S1 IH F]; cbn; constructor; [exact IH|]. apply Forall_forall. intros q Q0. apply in_map_iff in Q0.
    destruct Q0 as (x & <- & X). rewrite Forall_forall in F. apply F, X. }
  assert (Ln : List.length l = List.length s) by (rewrite El, map_length; apply Permutation_length, P).
  assert (G : StronglySorted (fun a b => (a < b)%Q) (zip_with shifted (map fst s) (ranks (map fst s)))).
  { apply (ranks_sorted (List.length l)); [exact Sq|rewrite map_length; lia|].
    assert (W : forall a, In a (map fst s) -> exists x, In x l /\ wave x = Some a).
    { intros a A. apply in_map_iff in A. destruct A as (x & <- & X). exists (to_row x). split; [|reflexivity]. rewrite El. apply in_map, (Permutation_in _ (Permutation_sym P)), X. }
    intros a b A B Q0. destruct (W a A) as (x & X & Wx). destruct (W b B) as (y & Y & Wy). apply (H2 x y a b); assumption. }
  rewrite (uniques_all _ [] G) by (intros a w []). rewrite (sorted_increasing _ G).
  rewrite zip_len by apply (F2_len _ _ _ (ranks_bound _ Sq)). rewrite map_length, Nat.eqb_refl. cbn. eexists. reflexivity.
Qed.

(** *** acceptance *)
Lemma operands_total v n : (forall l, v <> VList l) -> exists o, operands v n = Val o.
Proof. destruct v as [z|q|l]; intro H; [eexists; reflexivity|eexists; reflexivity|exfalso; apply (H l); reflexivity]. Qed.
Lemma compare_total f v c : (forall l, v <> VList l) -> exists m, compare f v c = Val m.
Proof. intro H. unfold compare. destruct (operands_total v (clen c) H) as (o & ->). eexists. reflexivity. Qed.
Lemma comparator_total f c : well_typed f c -> exists m, comparator (f_instr f) (f_value f) c = Val m.
Proof.
  intros [(I & H)|[(I & l & H)|(I & (l & Hc) & z & H)]].
  - assert (K := fun g => compare_total g (f_value f) c H). cbn in I.
    destruct I as [<-|[<-|[<-|[<-|[<-|[<-|[]]]]]]]; cbn -[compare Qltb]; try apply K. unfold negate. destruct (K Qeq_bool) as (m & ->). eexists. reflexivity.
  - rewrite H. cbn in I. destruct I as [<-|[<-|[]]]; cbn; eexists; reflexivity.
  - rewrite H, Hc. cbn in I. destruct I as [<-|[<-|[<-|[<-|[]]]]]; cbn; eexists; reflexivity.
Qed.
Lemma apply_total fs t : (forall f, In f fs -> exists c, dget (f_key f) (t_cols t) = Some c /\ well_typed f c) -> exists t', apply fs t = Val t'.
Proof.
  intro H. unfold apply. destruct (pmap_total (compliant_lines t) fs) as (ms & E).
  - intros f I. destruct (H f I) as (c & D & W). unfold compliant_lines. rewrite D. apply comparator_total, W.
  - rewrite E. destruct ms as [|m ms]; eexists; reflexivity.
Qed.
Lemma add_others_total obs n : forall ot cols, (forall name d c, In (name, d) ot -> dget obs d = Some c -> clen c = n) -> exists cols', add_others obs n ot cols = Val cols'.
Proof.
  induction ot as [|(nm, d) ot IH]; intros cols H; [eexists; reflexivity|]. cbn. destruct (dget obs d) as [c|] eqn:D.
  - rewrite (H nm d c (or_introl eq_refl) D), Nat.eqb_refl. apply IH. intros name d' c' I. apply (H name d' c'). right. exact I.
  - apply IH. intros name d' c' I. apply (H name d' c'). right. exact I.
Qed.
Lemma full_table_total r obs : dictionaries r -> coherent r -> ~ In "fluxes" (dkeys (others r)) -> ~ In "errors" (dkeys (others r)) ->
  In obs (dkeys (waves r)) -> exists t, full_table r obs = Val t.
Proof.
  intros D (C1 & C2 & C3 & C4) Nf Ne I. unfold full_table, nth_col. pose proof I as Iw. apply dget_key in Iw. destruct Iw as (w & W).
  pose proof (proj1 (C1 obs) I) as If. apply dget_key in If. destruct If as (f & F). pose proof (proj1 (C2 obs) I) as Ie. apply dget_key in Ie. destruct Ie as (e & G).
  rewrite W, F, G. assert (None' : forall n, ~ In n (dkeys (others r)) -> dget n (others r) = None).
  { intros n N. destruct (dget n (others r)) eqn:X; [|reflexivity]. exfalso. apply N, dget_key. eexists. exact X. }
  assert (Lf : List.length f = List.length w) by (apply (C4 obs w W "fluxes" (Floats f)); unfold given; rewrite (None' _ Nf), F; reflexivity).
  assert (Le : List.length e = List.length w) by (apply (C4 obs w W "errors" (Floats e)); unfold given; rewrite (None' _ Ne), G; reflexivity).
  rewrite Lf, Le, Nat.eqb_refl. cbn [andb].
  destruct (add_others_total obs (List.length w) (others r) [("waves", Floats w); ("fluxes", Floats f); ("errors", Floats e)]) as (cols & ->); [|eexists; reflexivity].
  intros name d c J X. apply (C4 obs w W name c). unfold given. rewrite (in_dget _ _ _ (d_others _ D) J). exact X.
Qed.
Lemma coherent_sizes r : dictionaries r -> coherent r -> sizes_are_consistent r = true /\ obs_ids_are_consistent r = true.
Proof.
  intros D (C1 & C2 & C3 & _).
  assert (L : forall (A : Type) (d : dict A), NoDup (dkeys d) -> (forall o, In o (dkeys (waves r)) <-> In o (dkeys d)) -> List.length d = List.length (waves r)).
  { intros A d N H. rewrite <- (dkeys_len d), <- (dkeys_len (waves r)). apply Nat.le_antisymm; apply NoDup_incl_length; auto; try apply (d_waves _ D); intros o; apply H. }
  split.
  - unfold sizes_are_consistent. rewrite (L _ _ (d_fluxes _ D) C1), (L _ _ (d_errors _ D) C2), Nat.eqb_refl, !andb_true_r. apply forallb_forall.
    intros (n, d) I. apply Nat.eqb_eq, L; [apply (d_other _ D _ _ I)|apply (C3 _ _ I)].
  - unfold obs_ids_are_consistent. apply forallb_forall. intros k I. rewrite (proj2 (dmem_key k _) (proj1 (C1 k) I)), (proj2 (dmem_key k _) (proj1 (C2 k) I)), !andb_true_r.
    apply forallb_forall. intros (n, d) J. apply dmem_key, (C3 _ _ J), I.
Qed.
Lemma check_total p r obs : (forall o, In o obs -> (exists lo hi, asked p o lo hi) /\ exists w, dget o (waves r) = Some w /\ w <> []) -> exists l, check_wavelengths p r obs = Val l.
Proof.
  induction obs as [|o obs IH]; intro H; [eexists; reflexivity|]. destruct (H o (or_introl eq_refl)) as ((lo & hi & A) & w & W & NE).
  destruct IH as (l & El); [intros x X; apply H; right; exact X|]. apply range_asked in A. cbn. rewrite A. cbn [pbind]. unfold nth_col. rewrite W.
  destruct w as [|w0 ws]; [contradiction|]. rewrite El. cbn [pbind]. eexists. reflexivity.
Qed.
Theorem load_accepts sort p r : dictionaries r -> coherent r -> sorts sort ->
  ~ In "fluxes" (dkeys (others r)) -> ~ In "errors" (dkeys (others r)) ->
  (forall o, In o (dkeys (waves r)) -> (exists lo hi, asked p o lo hi) /\ exists w, dget o (waves r) = Some w /\ w <> []) ->
  (forall o f, In o (dkeys (waves r)) -> In f (filters_of p) -> exists c, given r o (f_key f) = Some c /\ well_typed f c) ->
  waves r <> [] ->
  match p_multi p with
  | Mono => dkeys (waves r) = [""]
  | Full => forall d o, p_range p = PerObs d -> In o (dkeys d) -> In o (dkeys (waves r))
  | Merge => forall ls, Forall2 (kept_samples r (filters_of p)) (dkeys (waves r)) ls -> concat ls <> [] /\ spaced (concat ls)
  end ->
  exists l, init sort p r = Val l.
Proof.
  intros D C So Nf Ne R W Hne M. destruct (coherent_sizes _ D C) as (S1 & S2).
  destruct (pmap_total (fun obs => let! t := full_table r obs in Val (obs, t)) (dkeys (waves r))) as (ts0 & E0).
  { intros o I. destruct (full_table_total r o D C Nf Ne I) as (t & E). rewrite E. eexists. reflexivity. }
  assert (E1 : get_filters p = Val (p_filters p)).
  { unfold get_filters. unfold filters_of in W. destruct (p_filters p) as [fs|] eqn:F; [|reflexivity].
    destruct (pmap_total (fun f => check_instruction (f_instr f)) fs) as (u & ->); [|reflexivity]. intros f I. exists tt.
    destruct (waves r) as [|(o, w) ws] eqn:Ew; [contradiction|]. destruct (W o f (or_introl eq_refl) I) as (c & _ & T).
    assert (X : In (f_instr f) allowed_instructions) by (destruct T as [(T & _)|[(T & _)|(T & _)]]; cbn in *; tauto).
    unfold check_instruction. replace (smem (f_instr f) allowed_instructions) with true; [reflexivity|]. symmetry. apply existsb_exists. exists (f_instr f). split; [exact X|apply String.eqb_refl]. }
  assert (E2 : exists ts, apply_filters (p_filters p) ts0 = Val ts).
  { unfold apply_filters. unfold filters_of in W. destruct (p_filters p) as [fs|]; [|eexists; reflexivity]. apply pmap_total. intros e I. apply tables_len in E0.
    assert (X : exists o, In o (dkeys (waves r)) /\ full_table r o = Val (snd e)).
    { clear -E0 I. induction E0 as [|k e' l l' (K & F) E0 IH]; [contradiction|]. destruct I as [I|I]; [subst e'; exists k; split; [left; reflexivity|exact F]|].
      destruct (IH I) as (o & O & X). exists o. split; [right; exact O|exact X]. }
    destruct X as (o & Io & X). destruct (full_table_spec _ _ _ (d_others _ D) (ids_present _ _ S2 Io) X) as (_ & Q0 & _).
    destruct (apply_total fs (snd e)) as (t' & ->); [|eexists; reflexivity]. intros f F. rewrite Q0. apply W; assumption. }
  destruct E2 as (ts & E2). destruct (check_total p r (dkeys (waves r)) R) as (w & E3).
  assert (K := apply_filters_spec _ _ _ E2). pose proof (tables_len _ _ _ E0) as K0. cbv beta in K0.
  assert (A : forall f, In f (filters_of p) -> In (f_instr f) allowed_instructions) by (destruct (instructions_spec p _ E1) as (_ & A); exact A).
  assert (T : Forall2 (fun o e => fst e = o /\ kept_samples r (filters_of p) o (rows (snd e))) (dkeys (waves r)) ts).
  { assert (P : forall o, In o (dkeys (waves r)) -> present r o) by (intros o I; apply ids_present; assumption).
    assert (N := d_others _ D). clear -K K0 P N A. revert ts K. revert P. induction K0 as [|k e0 ks l0 (X & F0) K0 IH]; intros P ts K; inversion K as [|? e1 ? l1 (K1 & F1) K']; subst; constructor.
    - split; [congruence|]. apply (rows_given _ _ _ _ _ N (P _ (or_introl eq_refl)) F0 A F1).
    - apply IH; [|exact K']. intros o I. apply P. right. exact I. }
  unfold init. rewrite S1, S2. cbn [negb]. unfold merge_spectrum_in_dataframe. rewrite E0. cbn [pbind]. rewrite E1. cbn [pbind]. rewrite E2. cbn [pbind]. rewrite E3. cbn [pbind].
  assert (Kd : dkeys ts = dkeys (waves r)). { clear -T. unfold dkeys at 1. induction T as [|o e os ts (X & _) T IH]; [reflexivity|]. cbn. rewrite X, IH. reflexivity. }
  unfold add_cspectra. destruct (p_multi p) eqn:Mp.
  - assert (O1 : get_observation_ids p = [""]).
    { destruct (R "") as ((lo & hi & As) & _); [rewrite M; left; reflexivity|]. unfold get_observation_ids. destruct As as [(_ & Er)|(F & _)]; [rewrite Er; reflexivity|congruence]. }
    rewrite M in Kd. destruct ts as [|(k, t) [|e ts]]; try discriminate. cbn in Kd. injection Kd as ->. cbn [pbind]. rewrite O1. cbn. eexists. reflexivity.
  - destruct (M (map (fun e => rows (snd e)) ts)) as (M1 & M2); [clear -T; induction T as [|o e os ts (X & H) T IH]; constructor; [exact H|exact IH]|].
    destruct (merge_accepts sort _ So M1 M2) as (m & ->). cbn [pbind].
    assert (O1 : get_observation_ids p = [""]).
    { destruct (waves r) as [|(o, w1) ws]; [contradiction|]. destruct (R o (or_introl eq_refl)) as ((lo & hi & As) & _).
      unfold get_observation_ids. destruct As as [(_ & Er)|(F & _)]; [rewrite Er; reflexivity|congruence]. }
    rewrite O1. cbn. eexists. reflexivity.
  - cbn [pbind]. replace (forallb _ _) with true; [eexists; reflexivity|]. symmetry. apply forallb_forall. intros o I. apply dmem_key.
    assert (X : In o (dkeys (waves r))).
    { unfold get_observation_ids in I. destruct (p_range p) as [lo hi|d] eqn:Er; [|apply (M d o eq_refl I)].
      destruct (waves r) as [|(o', w1) ws]; [contradiction|]. destruct (R o' (or_introl eq_refl)) as ((lo' & hi' & As) & _).
      destruct As as [(F & _)|(_ & d & Ed & _)]; congruence. }
    rewrite <- Kd in X. unfold dkeys in *. rewrite map_map. exact X.
Qed.
