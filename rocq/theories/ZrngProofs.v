From Verif Require Import Base RangeModel RangeProofs ZrngModel ZrngSpec MeikModel MeikSpec MeikProofs.
Open Scope Q_scope.

Lemma si_lt (l : list Q) : strictly_increasing l -> forall i j x y, nth_error l i = Some x -> nth_error l j = Some y -> x < y -> (i < j)%nat.
Proof.
  intros S0 i j x y Hx Hy L. destruct (Nat.lt_trichotomy i j) as [T|[T|T]]; [exact T| |].
  - subst j. rewrite Hx in Hy. injection Hy as <-. lra.
  - pose proof (S0 j i y x T Hy Hx). lra.
Qed.
Lemma si_le (l : list Q) : strictly_increasing l -> forall i j x y, nth_error l i = Some x -> nth_error l j = Some y -> x <= y -> (i <= j)%nat.
Proof.
  intros S0 i j x y Hx Hy L. destruct (Nat.le_gt_cases i j) as [T|T]; [exact T|].
  pose proof (S0 j i y x T Hy Hx). lra.
Qed.

Section Grid.
  Context (zs : list Q) (SI : strictly_increasing zs).
  Context (fr bk : Q) (Hf : nth_error zs 0 = Some fr) (Hb : nth_error zs (length zs - 1) = Some bk).

  Lemma lowerIndex_ok t : fr < t -> t < bk -> exists k, lowerIndex zs t = Ok (Z.of_nat k) /\ in_cell zs t k.
  Proof.
    intros L1 L2. unfold lowerIndex.
    assert (N : zs <> []) by (intros E; rewrite E in Hf; discriminate).
    pose proof (getClosestLowerIndex_spec zs t (strictly_increasing_increasing _ SI) N) as G.
    destruct (getClosestLowerIndex zs t) as [[k|]| |]; try contradiction; cbn [rbind].
    - exists k. split; [reflexivity|]. destruct G as (x & Hx & Lx & Gx).
      assert (K : (k < length zs - 1)%nat) by (apply (si_lt zs SI k (length zs - 1) x bk); auto; lra).
      destruct (nth_error_lt zs (S k)) as [y Hy]; [lia|]. exists x, y. repeat split; auto.
      destruct (Gx (S k) y ltac:(lia) Hy) as [G1|G1]; [exact G1|].
      assert (x < y) by (apply (SI k (S k)); auto). lra.
    - assert (In fr zs) by (eapply nth_error_In; eauto). specialize (G fr H). lra.
  Qed.
  Lemma cell_mono t1 t2 k1 k2 : in_cell zs t1 k1 -> in_cell zs t2 k2 -> t1 <= t2 -> (k1 <= k2)%nat.
  Proof.
    intros (x1 & y1 & X1 & Y1 & A1 & B1) (x2 & y2 & X2 & Y2 & A2 & B2) L.
    assert (k1 < S k2)%nat; [|lia]. apply (si_lt zs SI k1 (S k2) x1 y2); auto. lra.
  Qed.
  Lemma cell_strict t1 t2 k1 k2 z : in_cell zs t1 k1 -> in_cell zs t2 k2 -> In z zs -> t1 < z -> z <= t2 -> (k1 < k2)%nat.
  Proof.
    intros (x1 & y1 & X1 & Y1 & A1 & B1) (x2 & y2 & X2 & Y2 & A2 & B2) I0 L1 L2.
    apply In_nth_error in I0. destruct I0 as [j Hj].
    assert (k1 < j)%nat by (apply (si_lt zs SI k1 j x1 z); auto; lra).
    assert (j < S k2)%nat by (apply (si_lt zs SI j (S k2) z y2); auto; lra). lia.
  Qed.

  (** the splits: cells of the thresholds, in order *)
  Definition splits_of (ks : list nat) (ts : list Q) : Prop :=
    Forall2 (fun k t => in_cell zs t k) ks ts /\ strictly_increasing ts.

  Lemma bins_ok zmin : forall bins, strictly_increasing bins ->
    exists ks ts, binSplits zs zmin fr bk bins = Ok (map Z.of_nat ks) /\ splits_of ks ts /\
      forall t, In t ts <-> In t bins /\ zmin < t /\ fr < t /\ t < bk.
  Proof.
    induction bins as [|z r IH]; intros I0.
    - exists [], []. split; [reflexivity|]. split; [split; [constructor|apply strictly_increasing_nil]|].
      intros t. cbn. tauto.
    - destruct (IH (strictly_increasing_tail _ _ I0)) as (ks & ts & E & (F & T) & C). cbn [binSplits].
      destruct (Qle_bool z zmin || Qle_bool z fr)%bool eqn:B.
      + exists ks, ts. split; [exact E|]. split; [split; auto|]. intros t. rewrite C. cbn [In].
        split; [tauto|]. intros ([->|I1] & Q1 & Q2 & Q3); [|tauto]. exfalso.
        apply orb_true_iff in B. destruct B as [B|B]; apply Qle_bool_iff in B; lra.
      + apply orb_false_iff in B. destruct B as [B1 B2].
        assert (L1 : zmin < z) by (destruct (Qlt_le_dec zmin z) as [L|L]; [exact L|apply Qle_bool_iff in L; congruence]).
        assert (L2 : fr < z) by (destruct (Qlt_le_dec fr z) as [L|L]; [exact L|apply Qle_bool_iff in L; congruence]).
        destruct (Qle_bool bk z) eqn:B3.
        * apply Qle_bool_iff in B3. exists [], []. split; [reflexivity|]. split; [split; [constructor|apply strictly_increasing_nil]|].
          intros t. cbn [In]. split; [tauto|]. intros ([->|I1] & Q1 & Q2 & Q3); [lra|].
          pose proof (strictly_increasing_head _ _ _ I0 I1). lra.
        * assert (L3 : z < bk) by (destruct (Qlt_le_dec z bk) as [L|L]; [exact L|apply Qle_bool_iff in L; congruence]).
          destruct (lowerIndex_ok z L2 L3) as (k & Ek & Ck). rewrite Ek, E. cbn [rbind].
          exists (k :: ks), (z :: ts). split; [reflexivity|]. split.
          -- split; [constructor; auto|]. apply strictly_increasing_cons; [|exact T].
             intros x X. apply C in X. destruct X as (X & _). apply (strictly_increasing_head _ _ _ I0 X).
          -- intros t. cbn [In]. rewrite C. split; [intros [<-|H]; [auto|tauto]|]. intros ([<-|I1] & R); [auto|right; tauto].
  Qed.

  Lemma si_removelast l : strictly_increasing l -> strictly_increasing (removelast l).
  Proof.
    intros I0. destruct l as [|a l] using rev_ind; [exact I0|]. rewrite removelast_last.
    intros i j x y L X Y. apply (I0 i j x y L); rewrite nth_error_app1; auto; apply nth_error_len in X; apply nth_error_len in Y; auto.
  Qed.

  Lemma splits_ok lambda0 bins : strictly_increasing bins -> bins <> [] ->
    exists ks ts, findSplits true lambda0 bins zs = Ok (map Z.of_nat ks) /\ splits_of ks ts /\
      forall t, In t ts <-> threshold lambda0 bins t /\ fr < t /\ t < bk.
  Proof.
    intros I0 N. unfold findSplits.
    assert (Ef : front zs = Ok fr) by (unfold front, vget; rewrite Hf; reflexivity).
    assert (Eb : back zs = Ok bk).
    { unfold back. destruct zs as [|a l]; [discriminate|]. unfold vget. rewrite Hb. reflexivity. }
    rewrite Ef, Eb. cbn [rbind]. change (GetIGMStartingRedshiftValue lambda0) with (igm_start lambda0).
    set (zmin := igm_start lambda0).
    destruct (bins_ok zmin (removelast bins) (si_removelast _ I0)) as (ks & ts & E & (F & T) & C).
    destruct (Qltb_spec zmin bk) as [L|L].
    - assert (Es : (match bins with [] => UB | _ :: _ => binSplits zs zmin fr bk (removelast bins) end) = Ok (map Z.of_nat ks))
        by (destruct bins; [contradiction|exact E]).
      rewrite Es. destruct (Qltb_spec fr zmin) as [L1|L1]; cbn [andb].
      + destruct (lowerIndex_ok zmin L1 L) as (k & Ek & Ck). rewrite Ek. cbn [rbind app].
        exists (k :: ks), (zmin :: ts). split; [reflexivity|]. split.
        * split; [constructor; auto|]. apply strictly_increasing_cons; [|exact T]. intros x X. apply C in X. tauto.
        * intros t. cbn [In]. rewrite C. unfold threshold. fold zmin. split.
          -- intros [<-|H]; [auto|]. tauto.
          -- intros ([->|H] & R1 & R2); [auto|tauto].
      + cbn [rbind app]. exists ks, ts. split; [reflexivity|]. split; [split; auto|]. intros t. rewrite C. unfold threshold. fold zmin.
        split; [tauto|]. intros ([->|H] & R1 & R2); [contradiction|tauto].
    - rewrite andb_false_r. cbn [rbind app]. exists [], []. split; [reflexivity|].
      split; [split; [constructor|apply strictly_increasing_nil]|]. intros t. cbn [In]. split; [tauto|].
      unfold threshold. fold zmin. intros ([->|(H & H')] & R1 & R2); lra.
  Qed.
End Grid.
