From Coq Require Import String OrderedTypeEx.
From Verif Require Import Base SortLib AxisModel ElemModel EfitModel ElistModel ElistSpec.
Open Scope Q_scope.

(** * sort and unique *)
Section U.
Context {A : Type} (lt eqb : A -> A -> bool).
Hypothesis lt_asym : forall x y, lt x y = true -> lt y x = false.
Hypothesis le_trans : forall x y z, lt y x = false -> lt z y = false -> lt z x = false.
Hypothesis eqb_eq : forall x y, eqb x y = true <-> x = y.
Hypothesis total : forall x y, lt y x = false -> x = y \/ lt x y = true.
Lemma uniq_in l x : In x (uniq eqb l) <-> In x l.
Proof.
  induction l as [|a t IH]; [reflexivity|]. destruct t as [|b t]; [reflexivity|]. cbn [uniq] in *. destruct (eqb a b) eqn:E.
  - apply eqb_eq in E. subst b. rewrite IH. cbn [In]. split; [intros [H|H]; auto|intros [H|[H|H]]; auto].
  - cbn [In] in *. split; [intros [H|H]; [auto|right; apply IH; exact H]|intros [H|H]; [auto|right; apply IH; exact H]].
Qed.
Lemma uniq_sorted l : StronglySorted (fun x y => lt y x = false) l -> StronglySorted (fun x y => lt x y = true) (uniq eqb l).
Proof.
  induction l as [|a t IH]; intros H; [constructor|]. inversion H as [|? ? Ht Hf]; subst. destruct t as [|b t]; [repeat constructor|]. cbn [uniq] in *. destruct (eqb a b) eqn:E; [apply IH; exact Ht|].
  constructor; [apply IH; exact Ht|]. apply Forall_forall. intros x X.
  assert (D : a <> b) by (intros C; apply eqb_eq in C; congruence).
  assert (Ab : lt a b = true). { destruct (total a b) as [C|C]; [exact (Forall_inv Hf)|contradiction|exact C]. }
  assert (Hx : In x (b :: t)) by (apply uniq_in; exact X). inversion Ht as [|? ? Ht' Hf']; subst. destruct Hx as [<-|Hx]; [exact Ab|].
  rewrite Forall_forall in Hf'. pose proof (Hf' x Hx) as Bx. destruct (total b x Bx) as [<-|C]; [exact Ab|].
  destruct (total a x) as [->|C2]; [apply le_trans with b; [apply lt_asym; exact Ab|exact Bx]| |exact C2]. exfalso. rewrite (lt_asym _ _ C) in Ab. discriminate.
Qed.
Lemma usort_in l x : In x (usort lt eqb l) <-> In x l.
Proof. unfold usort. rewrite uniq_in. split; intros H; [apply (Permutation_in _ (isort_perm lt l)); exact H|apply (Permutation_in _ (Permutation_sym (isort_perm lt l))); exact H]. Qed.
Lemma usort_sorted l : StronglySorted (fun x y => lt x y = true) (usort lt eqb l).
Proof. apply uniq_sorted. apply (isort_sorted lt lt_asym le_trans). Qed.
End U.
Lemma SSorted_impl {A} (P R : A -> A -> Prop) l : (forall x y, P x y -> R x y) -> StronglySorted P l -> StronglySorted R l.
Proof. intros H S0. induction S0 as [|a t S0 IH F]; constructor; [exact IH|]. eapply Forall_impl; [|exact F]. intros; apply H; assumption. Qed.
Lemma usort_nat l : increasing_nat (usort Nat.ltb Nat.eqb l) /\ forall x, In x (usort Nat.ltb Nat.eqb l) <-> In x l.
Proof.
  split.
  - apply SSorted_impl with (fun x y => Nat.ltb x y = true); [intros x y H; apply Nat.ltb_lt; exact H|]. apply usort_sorted.
    + intros x y H. apply Nat.ltb_lt in H. apply Nat.ltb_ge. lia.
    + intros x y z H K. apply Nat.ltb_ge in H, K. apply Nat.ltb_ge. lia.
    + apply Nat.eqb_eq.
    + intros x y H. apply Nat.ltb_ge in H. destruct (Nat.eq_dec x y); [auto|right; apply Nat.ltb_lt; lia].
  - apply usort_in. apply Nat.eqb_eq.
Qed.
Lemma usort_Z l : increasing_Z (usort Z.ltb Z.eqb l) /\ forall x, In x (usort Z.ltb Z.eqb l) <-> In x l.
Proof.
  split.
  - apply SSorted_impl with (fun x y => Z.ltb x y = true); [intros x y H; apply Z.ltb_lt; exact H|]. apply usort_sorted.
    + intros x y H. apply Z.ltb_lt in H. apply Z.ltb_ge. lia.
    + intros x y z H K. apply Z.ltb_ge in H, K. apply Z.ltb_ge. lia.
    + apply Z.eqb_eq.
    + intros x y H. apply Z.ltb_ge in H. destruct (Z.eq_dec x y); [auto|right; apply Z.ltb_lt; lia].
  - apply usort_in. apply Z.eqb_eq.
Qed.

(** * valid and disabled elements *)
Lemma mem_spec (l : list nat) i : existsb (Nat.eqb i) l = true <-> In i l.
Proof. rewrite existsb_exists. split; [intros (x & H & E); apply Nat.eqb_eq in E; subst; exact H|intros H; exists i; split; [exact H|apply Nat.eqb_refl]]. Qed.
Lemma mem_false (l : list nat) i : existsb (Nat.eqb i) l = false <-> ~ In i l.
Proof. rewrite <- mem_spec. destruct (existsb (Nat.eqb i) l); split; intros; congruence || (exfalso; auto). Qed.
Lemma valid_loop_in dis es : forall i k, In k (valid_loop dis i es) <-> (i <= k)%nat /\ exists e, nth_error es (k - i) = Some e /\ b_out e = false /\ ~ In k dis.
Proof.
  induction es as [|e t IH]; intros i k; cbn [valid_loop].
  - split; [intros []|]. intros (_ & e & H & _). destruct (k - i)%nat; discriminate.
  - assert (TL : (exists e0, nth_error (e :: t) (k - i) = Some e0 /\ b_out e0 = false /\ ~ In k dis) /\ (i < k)%nat <-> (S i <= k)%nat /\ exists e0, nth_error t (k - S i) = Some e0 /\ b_out e0 = false /\ ~ In k dis).
    { split; [intros ((x & N & R) & L)|intros (L & x & N & R)].
      - split; [lia|]. exists x. split; [|exact R]. replace (k - i)%nat with (S (k - S i)) in N by lia. exact N.
      - split; [|lia]. exists x. split; [|exact R]. replace (k - i)%nat with (S (k - S i)) by lia. exact N. }
    assert (HD : forall x, nth_error (e :: t) (i - i) = Some x -> x = e) by (intros x; rewrite Nat.sub_diag; cbn; congruence).
    destruct (b_out e) eqn:O; [|unfold IsElementIndexInDisabledList; destruct (existsb (Nat.eqb i) dis) eqn:D]; cbn [In]; rewrite IH, <- TL.
    + split; [intros (H & L); split; [lia|exact H]|]. intros (L & x & N & R). destruct (Nat.eq_dec i k) as [<-|]; [exfalso; apply HD in N; subst x; destruct R; congruence|]. split; [exists x; auto|lia].
    + apply mem_spec in D. split; [intros (H & L); split; [lia|exact H]|]. intros (L & x & N & R). destruct (Nat.eq_dec i k) as [<-|]; [exfalso; destruct R; auto|]. split; [exists x; auto|lia].
    + apply mem_false in D. split; [intros [<-|(H & L)]|intros (L & x & N & R)].
      * split; [lia|]. exists e. rewrite Nat.sub_diag. auto.
      * split; [lia|exact H].
      * destruct (Nat.eq_dec i k) as [<-|]; [left; reflexivity|right]. split; [exists x; auto|lia].
Qed.
Lemma valid_loop_sorted dis es : forall i, increasing_nat (valid_loop dis i es).
Proof.
  induction es as [|e t IH]; intros i; cbn [valid_loop]; [constructor|]. destruct (b_out e); [apply IH|]. destruct (IsElementIndexInDisabledList dis i); [apply IH|].
  constructor; [apply IH|]. apply Forall_forall. intros x X. apply valid_loop_in in X. lia.
Qed.
Lemma Valid dis es : increasing_nat (GetModelValidElementsIndexes dis es) /\ forall i, In i (GetModelValidElementsIndexes dis es) <-> valid dis es i.
Proof.
  split; [apply valid_loop_sorted|]. intros i. unfold GetModelValidElementsIndexes. rewrite valid_loop_in, Nat.sub_0_r. unfold valid. split; [intros (_ & H); exact H|intros H; split; [lia|exact H]].
Qed.
Lemma disable_in es : forall i dis k, In k (disable_loop i es dis) <-> In k dis \/ ((i <= k)%nat /\ exists e, nth_error es (k - i) = Some e /\ b_out e = false /\ isAllAmplitudesNull e = true).
Proof.
  induction es as [|e t IH]; intros i dis k; cbn [disable_loop].
  - split; [auto|]. intros [H|(_ & e & H & _)]; [exact H|]. destruct (k - i)%nat; discriminate.
  - assert (TL : (exists e0, nth_error (e :: t) (k - i) = Some e0 /\ b_out e0 = false /\ isAllAmplitudesNull e0 = true) /\ (i < k)%nat <-> (S i <= k)%nat /\ exists e0, nth_error t (k - S i) = Some e0 /\ b_out e0 = false /\ isAllAmplitudesNull e0 = true).
    { split; [intros ((x & N & R) & L)|intros (L & x & N & R)].
      - split; [lia|]. exists x. split; [|exact R]. replace (k - i)%nat with (S (k - S i)) in N by lia. exact N.
      - split; [|lia]. exists x. split; [|exact R]. replace (k - i)%nat with (S (k - S i)) by lia. exact N. }
    assert (HD : forall x, nth_error (e :: t) (i - i) = Some x -> x = e) by (intros x; rewrite Nat.sub_diag; cbn; congruence).
    destruct (b_out e) eqn:O; [|destruct (isAllAmplitudesNull e) eqn:D]; rewrite IH, <- TL.
    + split; (intros [H|H]; [left; exact H|right]); [destruct H as (H & L); split; [lia|exact H]|]. destruct H as (L & x & N & R). destruct (Nat.eq_dec i k) as [<-|]; [exfalso; apply HD in N; subst x; destruct R; congruence|]. split; [exists x; auto|lia].
    + rewrite in_app_iff. cbn [In]. split.
      * intros [[H|[<-|[]]]|(H & L)]; [left; exact H|right|right; split; [lia|exact H]]. split; [lia|]. exists e. rewrite Nat.sub_diag. auto.
      * intros [H|(L & x & N & R)]; [auto|]. destruct (Nat.eq_dec i k) as [<-|]; [auto|]. right. split; [exists x; auto|lia].
    + split; (intros [H|H]; [left; exact H|right]); [destruct H as (H & L); split; [lia|exact H]|]. destruct H as (L & x & N & R). destruct (Nat.eq_dec i k) as [<-|]; [exfalso; apply HD in N; subst x; destruct R; congruence|]. split; [exists x; auto|lia].
Qed.
Lemma positive_spec a : positive a = true <-> exists v, a = Some v /\ 0 < v.
Proof. destruct a as [v|]; cbn [positive]; [|split; [discriminate|intros (v & H & _); discriminate]]. destruct (Qltb_spec 0 v) as [l|l]; split; intros H; [exists v; auto|reflexivity|discriminate|destruct H as (w & E & L); inversion E; subst; contradiction]. Qed.
Lemma Disable es dis i : In i (SetElementIndexesDisabledAuto es dis) <-> In i dis \/ exists e, nth_error es i = Some e /\ b_out e = false /\ forall l a, In l (b_lines e) -> h_amp l = Some a -> a <= 0.
Proof.
  unfold SetElementIndexesDisabledAuto. rewrite disable_in, Nat.sub_0_r. split; (intros [H|H]; [left; exact H|right]).
  - destruct H as (_ & e & N & O & A). exists e. split; [exact N|]. split; [exact O|]. intros l a I E. unfold isAllAmplitudesNull in A. apply negb_true_iff in A.
    apply Qnot_lt_le. intros L. assert (X : existsb (fun l => positive (h_amp l)) (b_lines e) = true) by (apply existsb_exists; exists l; split; [exact I|apply positive_spec; eauto]). congruence.
  - destruct H as (e & N & O & A). split; [lia|]. exists e. split; [exact N|]. split; [exact O|]. unfold isAllAmplitudesNull. apply negb_true_iff.
    destruct (existsb (fun l => positive (h_amp l)) (b_lines e)) eqn:X; [|reflexivity]. apply existsb_exists in X. destruct X as (l & I & P). apply positive_spec in P. destruct P as (v & E & L). pose proof (A l v I E). lra.
Qed.

(** * overlaps *)
Lemma lines_overlap_spec z thres ref e r l : lines_overlap z thres ref e r l = true <->
  thres * (hi ref r z - lo ref r z) < Qmin (hi ref r z) (hi e l z) - Qmax (lo ref r z) (lo e l z).
Proof.
  unfold lines_overlap, hi, lo, half. set (m := Qmax _ _). set (n := Qmin _ _).
  set (w := h_nsigma r * b_width ref (h_pos r * (1 + z))). set (p := h_pos r * (1 + z)).
  assert (E : thres * (p + w / 2 - (p - w / 2)) == w * thres) by field. rewrite E.
  destruct (Qltb_spec (m - n) (- (w * thres))) as [H|H]; split; intros K; try reflexivity; try discriminate; [lra|exfalso; apply H; lra].
Qed.
Lemma pushes_in z thres ref i el k : In k (overlap_pushes z thres ref i el) <-> k = i /\ shares z thres ref el.
Proof.
  unfold overlap_pushes. rewrite in_flat_map. split.
  - intros (l & I & H). destruct (h_out l) eqn:O; [destruct H|]. destruct (existsb _ (b_lines ref)) eqn:X; [|destruct H]. destruct H as [<-|[]]. split; [reflexivity|].
    apply existsb_exists in X. destruct X as (r & Ir & B). apply andb_true_iff in B. destruct B as (B1 & B2). apply negb_true_iff in B1. apply lines_overlap_spec in B2. exists r, l. repeat (split; [assumption|]). exact B2.
  - intros (-> & r & l & Ir & Il & Or & Ol & H). exists l. split; [exact Il|]. rewrite Ol.
    assert (X : existsb (fun r => negb (h_out r) && lines_overlap z thres ref el r l)%bool (b_lines ref) = true).
    { apply existsb_exists. exists r. split; [exact Ir|]. rewrite Or. cbn [negb andb]. apply lines_overlap_spec. exact H. }
    rewrite X. left. reflexivity.
Qed.
Lemma overlap_loop_in z thres ref ind excl es : forall i k, In k (overlap_loop z thres ref ind excl i es) <->
  (i <= k)%nat /\ exists e, nth_error es (k - i) = Some e /\ (k = ind \/ (k <> ind /\ b_em e = b_em ref /\ b_out e = false /\ ~ In k excl /\ shares z thres ref e)).
Proof.
  induction es as [|e t IH]; intros i k; cbn [overlap_loop].
  - split; [intros []|]. intros (_ & e & H & _). destruct (k - i)%nat; discriminate.
  - rewrite in_app_iff, IH. split.
    + intros [H|(L & x & N & R)].
      * assert (K : k = i /\ (k = ind \/ (k <> ind /\ b_em e = b_em ref /\ b_out e = false /\ ~ In k excl /\ shares z thres ref e))).
        { destruct (Nat.eqb_spec i ind) as [D|D]; [destruct H as [<-|[]]; subst; auto|].
          destruct (Bool.eqb (b_em e) (b_em ref)) eqn:T; cbn [negb] in H; [|destruct H]. apply Bool.eqb_prop in T.
          destruct (b_out e) eqn:O; [destruct H|]. destruct (existsb (Nat.eqb i) excl) eqn:X; [destruct H|]. apply mem_false in X. apply pushes_in in H. destruct H as (-> & H).
          split; [reflexivity|]. right. split; [exact D|]. split; [exact T|]. split; [reflexivity|]. split; [exact X|exact H]. }
        destruct K as (-> & K). split; [lia|]. exists e. rewrite Nat.sub_diag. split; [reflexivity|exact K].
      * split; [lia|]. exists x. replace (k - i)%nat with (S (k - S i)) by lia. split; [exact N|exact R].
    + intros (L & x & N & R). destruct (Nat.eq_dec i k) as [->|D].
      * left. rewrite Nat.sub_diag in N. cbn in N. inversion N; subst x. destruct R as [->|(R1 & R2 & R3 & R4 & R5)]; [rewrite Nat.eqb_refl; left; reflexivity|].
        destruct (Nat.eqb_spec k ind) as [C|_]; [contradiction|]. rewrite R2, Bool.eqb_reflx, R3. cbn [negb]. apply mem_false in R4. rewrite R4. apply pushes_in. auto.
      * right. split; [lia|]. exists x. replace (k - i)%nat with (S (k - S i)) in N by lia. split; [exact N|exact R].
Qed.
Lemma Overlapping es ind excl z thres : (ind < List.length es)%nat -> exists g, getOverlappingElements es ind excl z thres = Ok g /\ increasing_nat g /\
  forall k, In k g <-> k = ind \/ (exists a, nth_error es ind = Some a /\ b_out a = false) /\ k <> ind /\ ~ In k excl /\ joined es z thres ind k.
Proof.
  intros L. unfold getOverlappingElements, vget. destruct (nth_error es ind) as [ref|] eqn:N; [|apply nth_error_None in N; lia]. cbn [rbind].
  destruct (b_out ref) eqn:O.
  - exists [ind]. split; [reflexivity|]. split; [repeat constructor|]. intros k. cbn [In]. split; [intros [<-|[]]; auto|]. intros [->|((a & A & B) & _)]; [auto|congruence].
  - eexists. split; [reflexivity|]. destruct (usort_nat (overlap_loop z thres ref ind excl 0 es)) as (S1 & S2). split; [exact S1|]. intros k. rewrite S2, overlap_loop_in, Nat.sub_0_r. split.
    + intros (_ & e & Ne & [->|(D & T & Oe & X & H)]); [left; reflexivity|right]. split; [eauto|]. split; [exact D|]. split; [exact X|]. exists ref, e. repeat (split; [assumption|]). exact H.
    + intros [->|(_ & D & X & a & b & Na & Nb & Ob & T & H)]; split; try lia; [exists ref; split; [exact N|left; reflexivity]|]. rewrite N in Na. inversion Na; subst a.
      exists b. split; [exact Nb|]. right. repeat (split; [assumption|]). exact H.
Qed.

(** * the groups of the hybrid fit *)
Definition members (gs : list (nat * list nat)) : list nat := flat_map snd gs.
Lemma Hybrid_gen es z thres todo : (forall i, In i todo -> (i < List.length es)%nat /\ exists e, nth_error es i = Some e /\ b_out e = false) -> forall fitted,
  exists gs, hybrid_loop es z thres todo fitted = Ok gs /\
    (forall i g, In (i, g) gs -> In i todo) /\ (forall i, In i todo -> In i fitted \/ In i (members gs)) /\
    forall pre i g post, gs = (pre ++ (i, g) :: post)%list -> ~ In i fitted /\ ~ In i (members pre) /\ increasing_nat g /\
      forall k, In k g <-> k = i \/ (k <> i /\ ~ In k fitted /\ ~ In k (members pre) /\ joined es z thres i k).
Proof.
  induction todo as [|i t IH]; intros V fitted; cbn [hybrid_loop].
  - exists []. split; [reflexivity|]. split; [intros i g []|]. split; [intros i []|]. intros pre i g post E. destruct pre; discriminate.
  - assert (Vt : forall k, In k t -> (k < List.length es)%nat /\ exists e, nth_error es k = Some e /\ b_out e = false) by (intros k K; apply V; right; exact K).
    destruct (existsb (Nat.eqb i) fitted) eqn:X.
    + apply mem_spec in X. destruct (IH Vt fitted) as (gs & E & P1 & P2 & P3). exists gs. split; [exact E|]. split; [intros k g K; right; exact (P1 k g K)|]. split; [|exact P3].
      intros k [<-|K]; [left; exact X|exact (P2 k K)].
    + apply mem_false in X. destruct (V i (or_introl eq_refl)) as (Li & e & Ne & Oe). destruct (Overlapping es i fitted z thres Li) as (g & -> & Sg & Ig). cbn [rbind].
      destruct (IH Vt (g ++ fitted)%list) as (gs & -> & P1 & P2 & P3). cbn [rbind]. exists ((i, g) :: gs). split; [reflexivity|].
      assert (Gi : In i g) by (apply Ig; left; reflexivity). split; [|split].
      * intros k g' [K|K]; [inversion K; left; reflexivity|right; exact (P1 k g' K)].
      * intros k [<-|K]; [right; cbn [members flat_map snd]; apply in_or_app; left; exact Gi|]. destruct (P2 k K) as [H|H]; [|right; cbn [members flat_map]; apply in_or_app; right; exact H].
        apply in_app_iff in H. destruct H as [H|H]; [right; cbn [members flat_map snd]; apply in_or_app; left; exact H|left; exact H].
      * intros pre j h post E. destruct pre as [|[p q] pre].
        -- cbn [app] in E. inversion E; subst j h post. split; [exact X|]. split; [intros []|]. split; [exact Sg|]. intros k. rewrite Ig. split; (intros [->|H]; [left; reflexivity|right]).
           ++ destruct H as (_ & D & Xk & J). split; [exact D|]. split; [exact Xk|]. split; [intros []|exact J].
           ++ destruct H as (D & Xk & _ & J). split; [eauto|]. auto.
        -- cbn [app] in E. inversion E; subst p q gs. destruct (P3 pre j h post eq_refl) as (Q1 & Q2 & Q3 & Q4).
           assert (M : forall k, In k (members ((i, g) :: pre)) <-> In k g \/ In k (members pre)) by (intros k; cbn [members flat_map snd]; apply in_app_iff).
           split; [intros C; apply Q1; apply in_or_app; right; exact C|]. split; [rewrite M; intros [C|C]; [apply Q1; apply in_or_app; left; exact C|exact (Q2 C)]|]. split; [exact Q3|].
           intros k. rewrite Q4, M. rewrite in_app_iff. split; (intros [->|H]; [left; reflexivity|right]); destruct H as (D & F1 & F2 & J).
           ++ split; [exact D|]. split; [intros C; apply F1; right; exact C|]. split; [intros [C|C]; [apply F1; left; exact C|exact (F2 C)]|exact J].
           ++ split; [exact D|]. split; [intros [C|C]; [apply F2; left; exact C|exact (F1 C)]|]. split; [intros C; apply F2; right; exact C|exact J].
Qed.
Lemma Hybrid es dis z : exists gs, hybrid_groups es dis z = Ok gs /\
  (forall i, valid dis es i -> In i (members gs)) /\ NoDup (members gs) /\
  (forall i g, In (i, g) gs -> valid dis es i /\ In i g) /\
  forall pre i g post, gs = (pre ++ (i, g) :: post)%list -> increasing_nat g /\
    forall k, In k g <-> k = i \/ (k <> i /\ ~ In k (members pre) /\ joined es z (15 # 100) i k).
Proof.
  destruct (Valid dis es) as (_ & VI). destruct (Hybrid_gen es z OVERLAP_THRES_HYBRID_FIT (GetModelValidElementsIndexes dis es)) with (fitted := @nil nat) as (gs & E & P1 & P2 & P3).
  { intros i I. apply VI in I. destruct I as (e & N & O & _). split; [apply nth_error_Some; congruence|eauto]. }
  exists gs. split; [exact E|]. split; [|split; [|split]].
  - intros i V. apply VI in V. destruct (P2 i V) as [[]|H]. exact H.
  - clear E P1 P2. assert (ND : forall suf pre, gs = (pre ++ suf)%list -> NoDup (members suf) /\ forall k, In k (members suf) -> ~ In k (members pre)).
    { induction suf as [|[i g] suf IH]; intros pre Eg; [split; [constructor|intros k []]|]. destruct (IH (pre ++ [(i, g)])%list) as (N1 & N2); [rewrite <- app_assoc; exact Eg|].
      assert (MA : forall k, In k (members (pre ++ [(i, g)])) <-> In k (members pre) \/ In k g). { intros k. unfold members. rewrite flat_map_app, in_app_iff. cbn [flat_map snd]. rewrite app_nil_r. reflexivity. }
      destruct (P3 pre i g suf Eg) as (_ & Q2 & Q3 & Q4). cbn [members flat_map snd]. split.
      - assert (NG : NoDup g). { clear -Q3. induction Q3 as [|a l S0 IH F]; constructor; [|exact IH]. intros C. rewrite Forall_forall in F. pose proof (F a C). lia. }
        clear -NG N1 N2 MA. unfold members in *. induction g as [|a l IHg]; [exact N1|]. cbn [app]. inversion NG as [|? ? Na Nl]; subst. constructor.
        + intros C. apply in_app_iff in C. destruct C as [C|C]; [exact (Na C)|]. apply (N2 a C). apply MA. right. left. reflexivity.
        + assert (X : NoDup l -> (forall k, In k (flat_map snd suf) -> ~ In k l) -> NoDup (l ++ flat_map snd suf)).
          { clear -N1. intros Nl H. induction l as [|b l IH]; [exact N1|]. cbn [app]. inversion Nl as [|? ? Nb Nl']; subst. constructor.
            - intros C. apply in_app_iff in C. destruct C as [C|C]; [exact (Nb C)|]. apply (H b C). left. reflexivity.
            - apply IH; [exact Nl'|]. intros k K C. apply (H k K). right. exact C. }
          apply X; [exact Nl|]. intros k K C. apply (N2 k K). apply MA. right. right. exact C.
      - intros k K. apply in_app_iff in K. destruct K as [K|K].
        + apply Q4 in K. destruct K as [->|(_ & _ & K & _)]; [exact Q2|exact K].
        + intros C. apply (N2 k K). apply MA. left. exact C. }
    exact (proj1 (ND gs [] eq_refl)).
  - intros i g I. split; [apply VI; exact (P1 i g I)|]. apply in_split in I. destruct I as (pre & post & Eg). destruct (P3 pre i g post Eg) as (_ & _ & _ & Q4). apply Q4. left. reflexivity.
  - intros pre i g post Eg. destruct (P3 pre i g post Eg) as (_ & _ & Q3 & Q4). split; [exact Q3|]. intros k. rewrite Q4. split; (intros [->|H]; [left; reflexivity|right]).
    + destruct H as (D & _ & H & J). auto.
    + destruct H as (D & H & J). split; [exact D|]. split; [intros []|]. auto.
Qed.
