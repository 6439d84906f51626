From Verif Require Import Base RangeModel RangeProofs ZrngModel ZrngSpec MeikModel MeikSpec MeikProofs ZrngProofs.
Open Scope Q_scope.

Fixpoint ordered (b : nat) (ks : list nat) (n : nat) : Prop :=
  match ks with
  | [] => (b < n)%nat
  | k :: r => (b <= S k)%nat /\ (S k < n)%nat /\ ordered (S k) r n
  end.
Notation rngs b ks n := (splitRanges (Z.of_nat b) (map Z.of_nat ks) (Z.of_nat n - 1)).
Lemma rngs_cons b k r n : rngs b (k :: r) n = (Z.of_nat b, Z.of_nat k) :: rngs (S k) r n.
Proof. cbn [map splitRanges]. repeat f_equal. lia. Qed.
Lemma ordered_lt ks : forall b n, ordered b ks n -> (b < n)%nat.
Proof. destruct ks; cbn [ordered]; intros; lia. Qed.

Lemma rngs_cover n : forall ks b, ordered b ks n -> concat (map indices (rngs b ks n)) = seq b (n - b).
Proof.
  induction ks as [|k r IH]; intros b O.
  - cbn [ordered] in O. cbn [map splitRanges concat]. rewrite app_nil_r. unfold indices. cbn [fst snd]. f_equal; lia.
  - destruct O as (O1 & O2 & O3). rewrite rngs_cons. cbn [map concat]. rewrite IH by exact O3. unfold indices at 1. cbn [fst snd].
    replace (n - b)%nat with ((S k - b) + (n - S k))%nat by lia. rewrite seq_app. f_equal; f_equal; lia.
Qed.
Lemma rngs_read zs : forall ks b, ordered b ks (length zs) -> readEnds zs (rngs b ks (length zs)) = Ok tt.
Proof.
  assert (G : forall i, (0 <= i < Z.of_nat (length zs))%Z -> exists x, vget zs (Z.to_nat i) = Ok x).
  { intros i L. destruct (nth_error_lt zs (Z.to_nat i)) as [x Hx]; [lia|]. exists x. unfold vget. rewrite Hx. reflexivity. }
  induction ks as [|k r IH]; intros b O.
  - cbn [ordered] in O. cbn [map splitRanges readEnds].
    destruct (Z.ltb_spec (Z.of_nat b) 0); [lia|]. destruct (Z.ltb_spec (Z.of_nat (length zs) - 1) 0); [lia|].
    destruct (G (Z.of_nat b)) as (x & ->); [lia|]. destruct (G (Z.of_nat (length zs) - 1)%Z) as (y & ->); [lia|]. reflexivity.
  - destruct O as (O1 & O2 & O3). rewrite rngs_cons. cbn [readEnds].
    destruct (Z.ltb_spec (Z.of_nat b) 0); [lia|]. destruct (Z.ltb_spec (Z.of_nat k) 0); [lia|].
    destruct (G (Z.of_nat b)) as (x & ->); [lia|]. destruct (G (Z.of_nat k)) as (y & ->); [lia|]. cbn [rbind]. apply IH, O3.
Qed.
Lemma rngs_sep n : forall ks b, ordered b ks n -> forall b' e', In (b', e') (rngs b ks n) ->
  (Z.of_nat b <= b')%Z /\ (e' < Z.of_nat n)%Z /\ (e' = (Z.of_nat n - 1)%Z \/ exists k, In k ks /\ e' = Z.of_nat k) /\
  forall k, In k ks -> (e' <= Z.of_nat k)%Z \/ (Z.of_nat k + 1 <= b')%Z.
Proof.
  induction ks as [|k r IH]; intros b O b' e' I0.
  - cbn [ordered] in O. cbn [map splitRanges] in I0. destruct I0 as [E|[]]. injection E as <- <-. repeat split; try lia. contradiction.
  - destruct O as (O1 & O2 & O3). rewrite rngs_cons in I0. destruct I0 as [E|I0].
    + injection E as <- <-. repeat split; try lia; [right; exists k; split; [left|]; reflexivity|].
      intros k' [<-|K]; [lia|]. left. clear - O3 K. revert k O3 K. induction r as [|k2 r IH]; intros k O K; [contradiction|].
      destruct O as (O1 & O2 & O3). destruct K as [<-|K]; [lia|]. specialize (IH k2 O3 K). lia.
    + destruct (IH _ O3 b' e' I0) as (A1 & A2 & A3 & A4). repeat split; try lia.
      * destruct A3 as [A3|(k2 & K & A3)]; [left; exact A3|]. right. exists k2. split; [right; exact K|exact A3].
      * intros k' [<-|K]; [lia|]. apply A4, K.
Qed.
Lemma rngs_chain n : forall ks b, ordered b ks n -> (forall k, In k ks -> (b <= k)%nat) ->
  (forall i j x y, (i < j)%nat -> nth_error ks i = Some x -> nth_error ks j = Some y -> (x < y)%nat) ->
  nonempty_chain (Z.of_nat b) (rngs b ks n) (Z.of_nat n).
Proof.
  induction ks as [|k r IH]; intros b O B I0.
  - cbn [ordered] in O. cbn [map splitRanges nonempty_chain]. repeat split; lia.
  - destruct O as (O1 & O2 & O3). rewrite rngs_cons. cbn [nonempty_chain]. split; [reflexivity|].
    split; [specialize (B k (or_introl eq_refl)); lia|]. replace (Z.of_nat k + 1)%Z with (Z.of_nat (S k)) by lia. apply IH; auto.
    + intros k' K. apply In_nth_error in K. destruct K as [j Hj]. specialize (I0 0%nat (S j) k k' ltac:(lia) eq_refl Hj). lia.
    + intros i j x y L X Y. apply (I0 (S i) (S j) x y ltac:(lia) X Y).
Qed.

Section Ranges.
  Context (zs : list Q) (SI : strictly_increasing zs) (N : zs <> []).

  Lemma ends : exists fr bk, nth_error zs 0 = Some fr /\ nth_error zs (length zs - 1) = Some bk.
  Proof.
    destruct (nth_error_lt zs 0) as [a A]; [destruct zs; [contradiction|cbn; lia]|].
    destruct (nth_error_lt zs (length zs - 1)) as [c C]; [destruct zs; [contradiction|cbn; lia]|]. eauto.
  Qed.
  Lemma ordered_of : forall ks ts b, splits_of zs ks ts -> (b < length zs)%nat ->
    (b = O \/ exists t k, b = S k /\ in_cell zs t k /\ forall u, In u ts -> t < u) -> ordered b ks (length zs).
  Proof.
    induction ks as [|k r IH]; intros ts b (F & T) B H; [exact B|].
    inversion F as [|? t ? ts' C F' E1 E2]; subst. cbn [ordered].
    assert (K : (S k < length zs)%nat) by (destruct C as (x & y & _ & Y & _); eapply nth_error_len; eauto).
    split; [|split; [exact K|]].
    - destruct H as [->|(u & k' & -> & C' & H)]; [lia|]. pose proof (cell_mono zs SI u t k' k C' C).
      assert (u < t) by (apply H; left; reflexivity). assert (k' <= k)%nat by (apply H0; lra). lia.
    - apply (IH ts'); [split; [exact F'|eapply strictly_increasing_tail; eauto]|exact K|]. right. exists t, k. repeat split; auto.
      intros u U. apply (strictly_increasing_head _ _ _ T U).
  Qed.

  Lemma find_ok lambda0 bins : strictly_increasing bins -> bins <> [] ->
    exists ks ts fr bk, nth_error zs 0 = Some fr /\ nth_error zs (length zs - 1) = Some bk /\
      FindZRanges true lambda0 bins zs = Ok (rngs 0 ks (length zs)) /\ splits_of zs ks ts /\ ordered 0 ks (length zs) /\
      forall t, In t ts <-> threshold lambda0 bins t /\ fr < t /\ t < bk.
  Proof.
    intros I0 NB. destruct ends as (fr & bk & Hf & Hb). destruct (splits_ok zs SI fr bk Hf Hb lambda0 bins I0 NB) as (ks & ts & E & S0 & C).
    assert (O : ordered 0 ks (length zs)) by (apply (ordered_of ks ts 0 S0); [destruct zs; [contradiction|cbn; lia]|left; reflexivity]).
    exists ks, ts, fr, bk. split; [exact Hf|]. split; [exact Hb|]. split; [|split; [exact S0|split; [exact O|exact C]]].
    unfold FindZRanges. rewrite E. cbn [rbind]. change 0%Z with (Z.of_nat 0). rewrite (rngs_read zs ks 0 O). reflexivity.
  Qed.

  Lemma FindZRanges_cover lambda0 bins : strictly_increasing bins -> bins <> [] ->
    exists l, FindZRanges true lambda0 bins zs = Ok l /\ concat (map indices l) = seq 0 (length zs).
  Proof.
    intros I0 NB. destruct (find_ok lambda0 bins I0 NB) as (ks & ts & fr & bk & _ & _ & E & _ & O & _).
    eexists. split; [exact E|]. rewrite (rngs_cover _ _ _ O). f_equal. lia.
  Qed.
  Lemma FindZRanges_off lambda0 bins : FindZRanges false lambda0 bins zs = Ok [(0%Z, (Z.of_nat (length zs) - 1)%Z)].
  Proof.
    clear SI. assert (E : readEnds zs (rngs 0 [] (length zs)) = Ok tt).
    { apply rngs_read. cbn. destruct zs; [contradiction|cbn; lia]. }
    cbn [map splitRanges] in E. change (Z.of_nat 0) with 0%Z in E.
    unfold FindZRanges. cbn [findSplits rbind splitRanges]. rewrite E. reflexivity.
  Qed.
  Lemma FindZRanges_chain lambda0 bins l : strictly_increasing bins -> bins <> [] -> separated lambda0 bins zs ->
    FindZRanges true lambda0 bins zs = Ok l -> nonempty_chain 0 l (Z.of_nat (length zs)).
  Proof.
    intros I0 NB SP H. destruct (find_ok lambda0 bins I0 NB) as (ks & ts & fr & bk & Hf & Hb & E & (F & T) & O & C).
    rewrite E in H. injection H as <-. change 0%Z with (Z.of_nat 0). apply rngs_chain; auto; [intros; lia|].
    intros i j x y L X Y.
    assert (G : forall i x, nth_error ks i = Some x -> exists t, nth_error ts i = Some t /\ in_cell zs t x).
    { clear - F. induction F as [|k t ks ts H F IH]; intros i x X; [destruct i; discriminate|].
      destruct i as [|i]; [injection X as <-; exists t; auto|]. apply (IH i x X). }
    destruct (G i x X) as (t1 & T1 & C1). destruct (G j y Y) as (t2 & T2 & C2).
    assert (L12 : t1 < t2) by (apply (T i j); auto).
    pose proof (proj1 (C t1) (nth_error_In _ _ T1)) as (K1 & K2 & K3). pose proof (proj1 (C t2) (nth_error_In _ _ T2)) as (K4 & K5 & K6).
    destruct (SP t1 t2 fr bk K1 K4 L12 Hf Hb K2 K6) as (z & Z1 & Z2 & Z3). apply (cell_strict zs SI t1 t2 x y z); auto.
  Qed.
  (** no threshold between two redshifts of a range *)
  Lemma FindZRanges_const lambda0 bins l b e i j zi zj t : strictly_increasing bins -> bins <> [] ->
    FindZRanges true lambda0 bins zs = Ok l -> In (b, e) l -> (b <= Z.of_nat i)%Z -> (Z.of_nat j <= e)%Z ->
    nth_error zs i = Some zi -> nth_error zs j = Some zj -> threshold lambda0 bins t -> ~ (zi < t /\ t < zj).
  Proof.
    intros I0 NB H IR Bi Bj Zi Zj TH [L1 L2]. destruct (find_ok lambda0 bins I0 NB) as (ks & ts & fr & bk & Hf & Hb & E & (F & T) & O & C).
    rewrite E in H. injection H as <-. destruct (rngs_sep _ _ _ O b e IR) as (_ & _ & _ & S0).
    assert (Lb : t < bk).
    { destruct (Nat.lt_trichotomy j (length zs - 1)) as [K|[K|K]].
      - pose proof (SI _ _ _ _ K Zj Hb). lra.
      - subst j. rewrite Zj in Hb. injection Hb as <-. exact L2.
      - apply nth_error_len in Zj. lia. }
    assert (Lf : fr < t).
    { destruct i as [|i]; [rewrite Zi in Hf; injection Hf as <-; exact L1|]. pose proof (SI 0%nat (S i) _ _ ltac:(lia) Hf Zi). lra. }
    pose proof (proj2 (C t) (conj TH (conj Lf Lb))) as IT.
    assert (G : exists k, In k ks /\ in_cell zs t k).
    { clear - F IT. induction F as [|k u ks ts H F IH]; [contradiction|]. destruct IT as [<-|IT]; [exists k; split; [left; reflexivity|exact H]|].
      destruct (IH IT) as (k' & K & H'). exists k'. split; [right; exact K|exact H']. }
    destruct G as (k & K & (x & y & X & Y & A1 & A2)). destruct (S0 k K) as [S1|S1].
    - assert (k < j)%nat by (apply (si_lt zs SI k j x zj); auto; lra). lia.
    - assert (i < S k)%nat by (apply (si_lt zs SI i (S k) zi y); auto; lra). lia.
  Qed.
  (** ranges end only at the cells of thresholds *)
  Lemma FindZRanges_ends lambda0 bins l b e : strictly_increasing bins -> bins <> [] ->
    FindZRanges true lambda0 bins zs = Ok l -> In (b, e) l ->
    (0 <= b)%Z /\ (e = (Z.of_nat (length zs) - 1)%Z \/ exists t k, e = Z.of_nat k /\ threshold lambda0 bins t /\ in_cell zs t k).
  Proof.
    intros I0 NB H IR. destruct (find_ok lambda0 bins I0 NB) as (ks & ts & fr & bk & Hf & Hb & E & (F & T) & O & C).
    rewrite E in H. injection H as <-. destruct (rngs_sep _ _ _ O b e IR) as (S1 & _ & S0 & _). split; [lia|].
    destruct S0 as [S0|(k & K & ->)]; [left; exact S0|right].
    assert (G : exists t, In t ts /\ in_cell zs t k).
    { clear - F K. induction F as [|k' u ks ts H F IH]; [contradiction|]. destruct K as [->|K]; [exists u; split; [left; reflexivity|exact H]|].
      destruct (IH K) as (t' & K' & H'). exists t'. split; [right; exact K'|exact H']. }
    destruct G as (t & IT & CT). exists t, k. split; [reflexivity|]. split; [|exact CT]. apply C, IT.
  Qed.
  (** the same igm table for the redshifts of a range, above the igm start *)
  Lemma FindZRanges_index lambda0 l b e i j zi zj m : strictly_increasing (mk_zbins m) -> (2 <= length (mk_zbins m))%nat ->
    FindZRanges true lambda0 (mk_zbins m) zs = Ok l -> In (b, e) l -> (b <= Z.of_nat i)%Z -> (i <= j)%nat -> (Z.of_nat j <= e)%Z ->
    nth_error zs i = Some zi -> nth_error zs j = Some zj -> igm_start lambda0 <= zi ->
    (forall t, In t (mk_zbins m) -> ~ zj == t) ->
    exists k, getRedshiftIndex m zi = Ok k /\ getRedshiftIndex m zj = Ok k.
  Proof.
    intros SB LB H IR Bi Lij Bj Zi Zj ST NE. set (bins := mk_zbins m) in *.
    assert (NB : bins <> []) by (destruct bins; [cbn in LB; lia|discriminate]).
    destruct (RedshiftIndex m zi SB LB) as (k1 & E1 & B1). destruct (RedshiftIndex m zj SB LB) as (k2 & E2 & B2).
    assert (Zij : zi <= zj).
    { destruct (Nat.lt_trichotomy i j) as [K|[K|K]]; [|subst j|lia]. pose proof (SI _ _ _ _ K Zi Zj). lra. rewrite Zi in Zj. injection Zj as ->. lra. }
    exists k1. split; [exact E1|]. rewrite E2. f_equal. fold bins in B1, B2.
    destruct B2 as [(-> & B2)|(n2 & a2 & b2 & -> & A2 & A2' & A3 & A4)].
    - destruct B1 as [(-> & _)|(n1 & a1 & b1 & -> & A1 & _ & A1' & _)]; [reflexivity|]. specialize (B2 a1 (nth_error_In _ _ A1)). lra.
    - assert (La : a2 < zj). { specialize (NE a2 (nth_error_In _ _ A2)). destruct (Qlt_le_dec a2 zj) as [L|L]; [exact L|]. exfalso. apply NE. lra. }
      assert (IR2 : In a2 (removelast bins)).
      { pose proof (nth_error_len _ _ _ A2') as LL. clear - A2 LL. destruct bins as [|c r _] using rev_ind; [destruct n2; discriminate|].
        rewrite removelast_last. rewrite app_length in LL. cbn in LL. rewrite nth_error_app1 in A2 by lia. eapply nth_error_In; eauto. }
      assert (NO : ~ zi < a2).
      { intros L. apply (FindZRanges_const lambda0 bins l b e i j zi zj a2 SB NB H IR Bi Bj Zi Zj).
        - right. split; [exact IR2|]. lra.
        - split; assumption. }
      destruct B1 as [(-> & B1)|(n1 & a1 & b1 & -> & A1 & A1' & D1 & D2)].
      + exfalso. apply NO, B1. eapply nth_error_In; eauto.
      + f_equal. destruct (Nat.lt_trichotomy n1 n2) as [K|[K|K]]; [exfalso|lia|exfalso].
        * pose proof (nth_error_len _ _ _ A2') as LL. destruct D2 as [D2|D2]; [|lia]. apply NO.
          destruct (Nat.eq_dec (S n1) n2) as [E|E]; [subst n2; rewrite A1' in A2; injection A2 as <-; exact D2|].
          pose proof (SB (S n1) n2 b1 a2 ltac:(lia) A1' A2). lra.
        * pose proof (nth_error_len _ _ _ A1') as LL. destruct A4 as [A4|A4]; [|lia].
          destruct (Nat.eq_dec (S n2) n1) as [E|E]; [subst n1; rewrite A2' in A1; injection A1 as <-; lra|].
          pose proof (SB (S n2) n1 b2 a1 ltac:(lia) A2' A1). lra.
  Qed.
  Lemma FindZRanges_side lambda0 bins l b e : strictly_increasing bins -> bins <> [] ->
    FindZRanges true lambda0 bins zs = Ok l -> In (b, e) l ->
    let inr z := exists i, (b <= Z.of_nat i)%Z /\ (Z.of_nat i <= e)%Z /\ nth_error zs i = Some z in
    (forall z, inr z -> z <= igm_start lambda0) \/ (forall z, inr z -> igm_start lambda0 <= z).
  Proof.
    intros I0 NB H IR inr.
    destruct (List.Forall_Exists_dec (fun z => z <= igm_start lambda0) (fun z => match Qlt_le_dec (igm_start lambda0) z with left L => right (Qlt_not_le _ _ L) | right L => left L end)
       (firstn (Z.to_nat (e + 1) - Z.to_nat b) (skipn (Z.to_nat b) zs))) as [F|X].
    - left. intros z (i & L1 & L2 & Z0). rewrite Forall_forall in F. apply F.
      assert (E : nth_error (firstn (Z.to_nat (e + 1) - Z.to_nat b) (skipn (Z.to_nat b) zs)) (i - Z.to_nat b) = Some z).
      { destruct (FindZRanges_ends lambda0 bins l b e I0 NB H IR) as (B0 & _).
        rewrite <- (firstn_skipn (Z.to_nat b) zs) in Z0. rewrite nth_error_app2 in Z0; rewrite firstn_length in *.
        2:{ apply nth_error_len in Z0. lia. }
        assert (LB : (Z.to_nat b <= length zs)%nat).
        { pose proof Z0 as Z1. apply nth_error_len in Z1. rewrite skipn_length in Z1. lia. }
        rewrite Nat.min_l in Z0 by lia.
        rewrite <- (firstn_skipn (Z.to_nat (e + 1) - Z.to_nat b) (skipn (Z.to_nat b) zs)) in Z0.
        assert (LF : (i - Z.to_nat b < length (firstn (Z.to_nat (e + 1) - Z.to_nat b) (skipn (Z.to_nat b) zs)))%nat).
        { apply nth_error_len in Z0. rewrite firstn_skipn in Z0. rewrite firstn_length. lia. }
        rewrite nth_error_app1 in Z0 by exact LF. exact Z0. }
      eapply nth_error_In; eauto.
    - right. intros z (i & L1 & L2 & Z0). destruct (Qlt_le_dec z (igm_start lambda0)) as [L|L]; [exfalso|exact L].
      apply Exists_exists in X. destruct X as (y & IY & NY). apply In_nth_error in IY. destruct IY as (j & Hj).
      destruct (FindZRanges_ends lambda0 bins l b e I0 NB H IR) as (B0 & _).
      assert (Lj : (j < Z.to_nat (e + 1) - Z.to_nat b)%nat).
      { apply nth_error_len in Hj. rewrite firstn_length in Hj. lia. }
      assert (Zj : nth_error zs (Z.to_nat b + j) = Some y).
      { assert (LJ : (j < length (firstn (Z.to_nat (e + 1) - Z.to_nat b) (skipn (Z.to_nat b) zs)))%nat) by (eapply nth_error_len; eauto).
        rewrite <- (firstn_skipn (Z.to_nat b) zs). rewrite nth_error_app2; rewrite firstn_length.
        2:{ lia. }
        rewrite firstn_length, skipn_length in LJ.
        rewrite Nat.min_l by lia. replace (Z.to_nat b + j - Z.to_nat b)%nat with j by lia.
        rewrite <- (firstn_skipn (Z.to_nat (e + 1) - Z.to_nat b) (skipn (Z.to_nat b) zs)).
        rewrite nth_error_app1; [exact Hj|]. rewrite firstn_length, skipn_length. lia. }
      apply (FindZRanges_const lambda0 bins l b e i (Z.to_nat b + j) z y (igm_start lambda0) I0 NB H IR L1); auto; [lia|left; reflexivity|].
      split; [exact L|]. apply Qnot_le_lt in NY. exact NY.
  Qed.
End Ranges.
