From Verif Require Import Base MedianModel MedianSpec MedianProofs FluxModel FluxSpec FluxProofs AxisModel AxisProofs PeakModel PeakSpec.
Open Scope Q_scope.

(** ** XMad *)
Lemma XMad_spec x m : x <> [] -> exists v, XMad x m = Ok v /\ conventional_median (map (fun y => Qabs (y - m)) x) v.
Proof.
  intro H. unfold XMad, conventional_median. pose proof (BeersFind_spec (map (fun y => Qabs (y - m)) x)) as B.
  destruct (Nat.odd (length (map (fun y => Qabs (y - m)) x))).
  - apply B. intro E. apply map_eq_nil in E. contradiction.
  - destruct B as [lo [hi [E [A C]]]]; [intro E; apply map_eq_nil in E; contradiction|]. eexists; split; [exact E|]. exists lo, hi. auto.
Qed.
Lemma Find_library_median w : w <> [] -> exists m, Find w = Ok m /\ library_median w m.
Proof.
  intro H. destruct (Find_spec w H) as [m [E S]]. exists m. split; [exact E|]. unfold library_median, conventional_median.
  destruct (Nat.odd (length w)); [exact S|]. cbn [orb]. destruct (Nat.leb (length w) 1000); exact S.
Qed.

(** ** runs *)
Lemma in_points : forall l i j, In j (points_from i l) <-> (i <= j)%Z /\ nth_error l (Z.to_nat (j - i)) = Some true.
Proof.
  induction l as [|b l IH]; intros i j.
  - simpl. split; [intros []|]. intros [_ H]. destruct (Z.to_nat (j - i)); discriminate.
  - cbn [points_from]. assert (K : (i < j)%Z -> Z.to_nat (j - i) = S (Z.to_nat (j - (i + 1)))) by lia.
    destruct b; simpl; rewrite ?IH.
    + split.
      * intros [->|[H1 H2]]; [split; [lia|]; replace (Z.to_nat (j - j)) with 0%nat by lia; reflexivity|].
        split; [lia|]. rewrite K by lia. exact H2.
      * intros [H1 H2]. destruct (Z.eq_dec i j) as [->|N]; [left; reflexivity|right]. split; [lia|]. rewrite K in H2 by lia. exact H2.
    + split.
      * intros [H1 H2]. split; [lia|]. rewrite K by lia. exact H2.
      * intros [H1 H2]. destruct (Z.eq_dec i j) as [->|N]; [replace (Z.to_nat (j - j)) with 0%nat in H2 by lia; discriminate|].
        split; [lia|]. rewrite K in H2 by lia. exact H2.
Qed.
(** strictly increasing integers *)
Fixpoint incr (l : list Z) : Prop := match l with a :: ((b :: _) as t) => (a < b)%Z /\ incr t | _ => True end.
Lemma points_incr : forall l i, incr (points_from i l).
Proof.
  induction l as [|b l IH]; intro i; simpl; auto. destruct b; [|apply IH]. specialize (IH (i + 1)%Z).
  destruct (points_from (i + 1) l) as [|p t] eqn:E; simpl; auto. split; [|exact IH].
  assert (In p (points_from (i + 1) l)) by (rewrite E; left; reflexivity). apply in_points in H. lia.
Qed.
Lemma incr_head : forall l a x, incr (a :: l) -> In x l -> (a < x)%Z.
Proof.
  induction l as [|b l IH]; intros a x H Hx; [destruct Hx|]. destruct H as [H1 H2].
  destruct Hx as [<-|Hx]; [exact H1|]. pose proof (IH b x H2 Hx). lia.
Qed.
Definition covers (l : list (Z * Z)) (i : Z) : Prop := exists r, In r l /\ (fst r <= i <= snd r)%Z.

(** [group start current (rest ++ [0])], start..current being all in the set, rest the increasing remaining points *)
Lemma group_spec : forall rest start current, (0 <= start <= current)%Z -> incr (current :: rest) ->
  let g := group start current (rest ++ [0%Z]) in
  (forall i, covers g i <-> (start <= i <= current)%Z \/ In i rest) /\
  separated_runs g /\ (forall r, In r g -> (fst r <= snd r)%Z /\ (start <= fst r)%Z) /\
  (exists e t, g = (start, e) :: t /\ (current <= e)%Z).
Proof.
  induction rest as [|p t IH]; intros start current Hs Hi; cbv zeta; cbn [group app].
  - destruct (Z.eqb_spec (0 - 1) current); [lia|]. split; [|split; [exact I|split]].
    + intro i. split; [intros [r [[<-|[]] H]]; left; exact H|]. intros [H|[]]. exists (start, current). split; [left; reflexivity|exact H].
    + intros r [<-|[]]. simpl. lia.
    + exists current, []. split; [reflexivity|lia].
  - destruct Hi as [Hp Hi]. destruct (Z.eqb_spec (p - 1) current) as [E|N].
    + destruct (IH start p ltac:(lia) Hi) as [H1 [H2 [H3 H4]]]. split; [|split; [exact H2|split; [exact H3|]]].
      * intro i. rewrite H1. split; [intros [H|H]; [destruct (Z.eq_dec i p); [right; left; lia|left; lia]|right; right; exact H]|].
        intros [H|[H|H]]; [left; lia|left; lia|right; exact H].
      * destruct H4 as [e [u [-> He]]]. exists e, u. split; [reflexivity|lia].
    + destruct (IH p p ltac:(lia) Hi) as [H1 [H2 [H3 H4]]]. split; [|split; [|split]].
      * intro i. split.
        { intros [r [[<-|Hr] H]]; [left; exact H|]. assert (covers (group p p (t ++ [0%Z])) i) as C by (exists r; auto).
          apply H1 in C. right. destruct C as [C|C]; [left; lia|right; exact C]. }
        { intros [H|H]; [exists (start, current); split; [left; reflexivity|exact H]|].
          assert (C : covers (group p p (t ++ [0%Z])) i) by (apply H1; destruct H as [H|H]; [left; lia|right; exact H]).
          destruct C as [r [Hr C]]. exists r. split; [right; exact Hr|exact C]. }
      * destruct H4 as [e [u [E He]]]. rewrite E in *. split; [simpl; lia|exact H2].
      * intros r [<-|Hr]; [simpl; lia|]. destruct (H3 r Hr). lia.
      * exists current, (group p p (t ++ [0%Z])). split; [reflexivity|lia].
Qed.
Lemma runs_spec pts : incr pts -> (forall x, In x pts -> (0 <= x)%Z) ->
  (forall i, covers (runs pts) i <-> In i pts) /\ separated_runs (runs pts) /\ (forall r, In r (runs pts) -> (fst r <= snd r)%Z).
Proof.
  intros Hi Hp. destruct pts as [|p t]; simpl.
  - split; [|split; [exact I|intros r []]]. intro i. split; [intros [r [[] _]]|intros []].
  - destruct (group_spec t p p ltac:(pose proof (Hp p (or_introl eq_refl)); lia) Hi) as [H1 [H2 [H3 _]]].
    split; [|split; [exact H2|intros r Hr; apply H3; exact Hr]].
    intro i. rewrite H1. split; [intros [H|H]; [left; lia|right; exact H]|intros [H|H]; [left; lia|right; exact H]].
Qed.
Lemma separated_tail r l : separated_runs (r :: l) -> separated_runs l.
Proof. destruct l; simpl; tauto. Qed.
Lemma separated_after : forall l r, separated_runs (r :: l) -> (forall q, In q (r :: l) -> (fst q <= snd q)%Z) -> forall q, In q l -> (snd r + 1 < fst q)%Z.
Proof.
  induction l as [|a l IH]; intros r H V q Hq; [destruct Hq|]. destruct H as [H1 H2].
  destruct Hq as [<-|Hq]; [exact H1|]. specialize (IH a H2 (fun x Hx => V x (or_intror Hx)) q Hq).
  pose proof (V a (or_intror (or_introl eq_refl))). lia.
Qed.
Lemma in_split_sep l r q : separated_runs l -> (forall q, In q l -> (fst q <= snd q)%Z) -> In r l -> In q l ->
  r = q \/ (snd r + 1 < fst q)%Z \/ (snd q + 1 < fst r)%Z.
Proof.
  induction l as [|a l IH]; intros S V Hr Hq; [destruct Hr|].
  destruct Hr as [<-|Hr]; destruct Hq as [<-|Hq]; auto.
  - right; left. eapply separated_after; eauto.
  - right; right. eapply separated_after; eauto.
  - apply IH; auto. eapply separated_tail; eauto. intros x Hx; apply V; right; exact Hx.
Qed.
Lemma runs_maximal l (P : Z -> Prop) : (forall i, covers l i <-> P i) -> separated_runs l -> (forall r, In r l -> (fst r <= snd r)%Z) ->
  forall r, In r l -> maximal_run P r.
Proof.
  intros C S V r Hr. pose proof (V r Hr) as V0.
  split; [exact V0|]. split; [intros i Hi; apply C; exists r; auto|]. split; intro HP; apply C in HP; destruct HP as [q [Hq B]].
  - destruct (in_split_sep l r q S V Hr Hq) as [->|[H|H]]; lia.
  - destruct (in_split_sep l r q S V Hr Hq) as [->|[H|H]]; lia.
Qed.

(** ** thresholds *)
(** enough room for every background window *)
Definition good_input (flux spectral : list Q) (winsize : Q) : Prop :=
  strictly_increasing spectral /\ length flux = length spectral /\ 0 < winsize /\
  (flux = [] \/ exists x y, nth_error spectral (length spectral - 2) = Some x /\ nth_error spectral (length spectral - 1) = Some y /\
     (2 <= length spectral)%nat /\ y - x <= winsize / 2).
Lemma window_bounds_spec spectral winsize i : strictly_increasing spectral -> 0 < winsize -> (i < length spectral)%nat ->
  exists a b, window_bounds spectral (length spectral) winsize i = Ok (a, b) /\ window_of spectral winsize i a b /\
    (a <= i)%nat /\ (b <= length spectral - 1)%nat /\ (i <= b)%nat /\ ((i < length spectral - 1)%nat -> (i < b)%nat).
Proof.
  intros S W Hi. unfold window_bounds. destruct (nth_error spectral i) as [l|] eqn:El; [|apply nth_error_None in El; lia].
  pose proof El as El'. apply vget_Ok in El'. rewrite El'. cbn [rbind]. clear El'.
  destruct (GetIndexAtWaveLength_ok spectral (l - winsize / 2) S ltac:(lia)) as [a [Ea [La [A1 [A2 A3]]]]]. rewrite Ea. cbn [rbind].
  destruct (GetIndexAtWaveLength_ok spectral (l + winsize / 2) S ltac:(lia)) as [b [Eb [Lb [B1 [B2 B3]]]]]. rewrite Eb. cbn [rbind].
  rewrite Nat.min_r by lia. exists a, b.
  assert (W2 : 0 < winsize / 2) by (unfold Qdiv; change (/ 2) with (1 # 2); lra).
  assert (Ai : (a <= i)%nat).
  { destruct (Nat.le_gt_cases a i) as [?|G]; [assumption|]. specialize (A1 i l G El). lra. }
  assert (Bi : (i <= b)%nat).
  { destruct (Nat.le_gt_cases i b) as [?|G]; [assumption|exfalso].
    destruct (nth_error spectral b) as [x|] eqn:X; [|apply nth_error_None in X; lia].
    assert (x < l) by (eapply (S b i); eauto). destruct (B3 x eq_refl) as [K|K]; [lra|lia]. }
  split; [reflexivity|]. split.
  - exists l. split; [exact El|]. split.
    + split; [exact A1|]. destruct (nth_error spectral a) as [x|] eqn:X; [|apply nth_error_None in X; lia].
      exists x. split; [reflexivity|]. destruct (A3 x eq_refl) as [K|K]; [exact K|]. assert (a = i) by lia. assert (x = l) by congruence. subst x. lra.
    + destruct (nth_error spectral b) as [x|] eqn:X; [|apply nth_error_None in X; lia].
      destruct (Qlt_le_dec x (l + winsize / 2)) as [K|K].
      * right. destruct (B3 x eq_refl) as [J|J]; [lra|]. split; [exact J|].
        intros y Hy. apply In_nth_error in Hy. destruct Hy as [j Hj]. destruct (Nat.lt_trichotomy j b) as [G|[G|G]].
        { apply (B1 j y G Hj). } { subst j. congruence. }
        { exfalso. assert (j < length spectral)%nat by (apply nth_error_Some; congruence). lia. }
      * left. split; [exact B1|]. exists x. auto.
  - repeat split; try lia. intro Hl. destruct (Nat.eq_dec i b) as [->|]; [exfalso|lia].
    destruct (B3 l El) as [K|K]; [lra|lia].
Qed.
Lemma good_window flux spectral winsize i : good_input flux spectral winsize -> (i < length flux)%nat ->
  exists a b, window_bounds spectral (length flux) winsize i = Ok (a, b) /\ window_of spectral winsize i a b /\ (a < b <= length flux)%nat.
Proof.
  intros [S [L [W G]]] Hi. destruct (window_bounds_spec spectral winsize i S W ltac:(lia)) as [a [b [E [V [A [B [C D]]]]]]].
  exists a, b. rewrite L. split; [exact E|]. split; [exact V|]. split; [|lia].
  destruct (Nat.lt_ge_cases i (length spectral - 1)) as [K|K]; [specialize (D K); lia|].
  destruct G as [->|[x [y [X [Y [L2 G]]]]]]; [simpl in Hi; lia|].
  assert (i = (length spectral - 1)%nat) by lia. subst i.
  destruct V as [l [El [[V1 _] _]]]. rewrite Y in El. injection El as <-.
  destruct (Nat.lt_ge_cases a b) as [?|J]; [assumption|exfalso].
  specialize (V1 (length spectral - 2)%nat x ltac:(lia) X). lra.
Qed.

Lemma slice_ok {A} (l : list A) a b : (a <= b <= length l)%nat -> slice l a b = Ok (firstn (b - a) (skipn a l)).
Proof. intro H. unfold slice. destruct (Nat.leb_spec a b); [|lia]. destruct (Nat.leb_spec b (length l)); [reflexivity|lia]. Qed.
Lemma slice_length {A} (l : list A) a b : (a <= b <= length l)%nat -> length (firstn (b - a) (skipn a l)) = (b - a)%nat.
Proof. intro H. rewrite firstn_length, skipn_length. lia. Qed.

Lemma above_threshold_spec flux spectral winsize cut offset i : good_input flux spectral winsize -> (i < length flux)%nat ->
  exists t f, threshold flux spectral winsize cut offset i t /\ nth_error flux i = Some f /\
    above_threshold flux spectral winsize cut offset i = Ok (Qltb t f).
Proof.
  intros W Hi. destruct (good_window flux spectral winsize i W Hi) as [a [b [E [V B]]]]. unfold above_threshold. rewrite E. cbn [rbind].
  rewrite slice_ok by lia. cbn [rbind]. set (w := firstn (b - a) (skipn a flux)).
  assert (Nw : w <> []).
  { intro X. assert (length w = (b - a)%nat) by (apply slice_length; lia). rewrite X in H. simpl in H. lia. }
  destruct (Find_library_median w Nw) as [med [Em Lm]]. rewrite Em. cbn [rbind].
  destruct (XMad_spec w med Nw) as [mad [Ex Cx]]. rewrite Ex. cbn [rbind].
  destruct (vget_in flux i Hi) as [f Ef]. rewrite Ef. cbn [rbind]. apply vget_Ok in Ef.
  exists (med + (1 # 2) * cut * (mad + offset)), f. split; [|split; [exact Ef|reflexivity]].
  exists a, b, med, mad. split; [exact V|]. split; [lia|]. fold w. split; [exact Lm|]. split; [exact Cx|reflexivity].
Qed.
Lemma flags_spec flux spectral winsize cut offset : good_input flux spectral winsize -> forall n i, (i + n <= length flux)%nat ->
  exists l, flags flux spectral winsize cut offset i n = Ok l /\ length l = n /\
    forall k b, nth_error l k = Some b -> exists t f, threshold flux spectral winsize cut offset (i + k) t /\
       nth_error flux (i + k) = Some f /\ b = Qltb t f.
Proof.
  intro W. induction n as [|n IH]; intros i H.
  - exists []. split; [reflexivity|]. split; [reflexivity|]. intros [|k] b Hb; discriminate.
  - destruct (above_threshold_spec flux spectral winsize cut offset i W ltac:(lia)) as [t [f [T [F E]]]].
    destruct (IH (S i) ltac:(lia)) as [l [El [Ll Nl]]]. cbn [flags]. rewrite E. cbn [rbind]. rewrite El. cbn [rbind].
    eexists; split; [reflexivity|]. split; [simpl; lia|]. intros [|k] b Hb; simpl in Hb.
    + injection Hb as <-. exists t, f. rewrite Nat.add_0_r. auto.
    + destruct (Nl k b Hb) as [t' [f' H']]. exists t', f'. replace (i + S k)%nat with (S i + k)%nat by lia. exact H'.
Qed.
Theorem FindPossiblePeaks_spec flux spectral winsize cut offset : good_input flux spectral winsize ->
  exists peaks thr, FindPossiblePeaks flux spectral winsize cut offset = Ok peaks /\ length thr = length flux /\
    (forall i t, nth_error thr i = Some t -> threshold flux spectral winsize cut offset i t) /\
    separated_runs peaks /\ (forall r, In r peaks -> maximal_run (above flux thr) r) /\
    (forall i, above flux thr i -> exists r, In r peaks /\ (fst r <= i <= snd r)%Z).
Proof.
  intro W. unfold FindPossiblePeaks.
  destruct (flags_spec flux spectral winsize cut offset W (length flux) 0 ltac:(lia)) as [l [E [L N]]]. rewrite E. cbn [rbind].
  assert (T : exists thr, length thr = length flux /\ forall i t, nth_error thr i = Some t ->
     threshold flux spectral winsize cut offset i t /\ exists f, nth_error flux i = Some f /\ nth_error l i = Some (Qltb t f)).
  { assert (G : forall n, (n <= length flux)%nat -> exists thr, length thr = n /\ forall i t, nth_error thr i = Some t ->
     threshold flux spectral winsize cut offset i t /\ exists f, nth_error flux i = Some f /\ nth_error l i = Some (Qltb t f)).
    { induction n as [|n IH]; intro H; [exists []; split; [reflexivity|intros [|i] t X; discriminate]|].
      destruct (IH ltac:(lia)) as [thr [Lt Nt]]. destruct (nth_error l n) as [b|] eqn:B; [|apply nth_error_None in B; lia].
      destruct (N n b B) as [t [f [T [F Q]]]]. exists (thr ++ [t]). split; [rewrite app_length; simpl; lia|].
      intros i u Hu. destruct (Nat.lt_ge_cases i (length thr)) as [C|C].
      - rewrite nth_error_app1 in Hu by exact C. apply Nt. exact Hu.
      - rewrite nth_error_app2 in Hu by exact C. destruct (i - length thr)%nat as [|d] eqn:D; [|destruct d; discriminate].
        simpl in Hu. injection Hu as <-. assert (i = n) by lia. subst i. split; [exact T|]. exists f. split; [exact F|]. rewrite B, Q. reflexivity. }
    apply G. lia. }
  destruct T as [thr [Lt Nt]].
  assert (A : forall i, In i (points_from 0 l) <-> above flux thr i).
  { intro i. rewrite in_points. rewrite Z.sub_0_r. split.
    - intros [H1 H2]. assert (Li : (Z.to_nat i < length flux)%nat) by (rewrite <- L; apply nth_error_Some; congruence).
      destruct (nth_error thr (Z.to_nat i)) as [t|] eqn:Et; [|apply nth_error_None in Et; lia].
      destruct (Nt _ _ Et) as [_ [f [F Q]]]. exists f, t. rewrite H2 in Q. injection Q as Q.
      repeat split; auto. destruct (Qltb_spec t f); [assumption|discriminate].
    - intros [f [t [H0 [F [Et Q]]]]]. destruct (Nt _ _ Et) as [_ [f' [F' Q']]]. rewrite F in F'. injection F' as <-.
      split; [exact H0|]. rewrite Q'. destruct (Qltb_spec t f); [reflexivity|contradiction]. }
  destruct (runs_spec (points_from 0 l) (points_incr l 0)) as [C [S V]].
  { intros x Hx. apply in_points in Hx. lia. }
  exists (runs (points_from 0 l)), thr. split; [reflexivity|]. split; [exact Lt|]. split; [intros i t Ht; apply (Nt i t Ht)|].
  split; [exact S|]. split.
  - apply runs_maximal; auto. intro i. rewrite C. apply A.
  - intros i Hi. apply A, C in Hi. exact Hi.
Qed.
Lemma maximal_inside flux thr r : maximal_run (above flux thr) r -> (0 <= fst r)%Z /\ (snd r < Z.of_nat (length flux))%Z.
Proof.
  intros [H1 [H2 _]]. split.
  - destruct (H2 (fst r) ltac:(lia)) as [f [t [A _]]]. exact A.
  - destruct (H2 (snd r) ltac:(lia)) as [f [t [A [B _]]]].
    assert (Z.to_nat (snd r) < length flux)%nat by (apply nth_error_Some; congruence). lia.
Qed.

(** narrow or one-sample inputs *)
Lemma window_empty flux spectral winsize cut offset : strictly_increasing spectral -> 0 < winsize -> length flux = length spectral ->
  (0 < length spectral)%nat ->
  (length spectral = 1%nat \/ exists x y, nth_error spectral (length spectral - 2) = Some x /\
     nth_error spectral (length spectral - 1) = Some y /\ winsize / 2 < y - x) ->
  above_threshold flux spectral winsize cut offset (length spectral - 1) = UB.
Proof.
  intros S W L N H. destruct (window_bounds_spec spectral winsize (length spectral - 1) S W ltac:(lia)) as [a [b [E [V [A [B [C D]]]]]]].
  unfold above_threshold. rewrite L, E. cbn [rbind].
  assert (a = b).
  { destruct V as [l [El [[V1 V2] _]]]. destruct H as [H|[x [y [X [Y H]]]]]; [lia|].
    rewrite Y in El. injection El as <-. destruct V2 as [z [Z1 Z2]].
    destruct (Nat.eq_dec a (length spectral - 1)) as [?|K]; [lia|exfalso].
    assert (z <= x).
    { destruct (Nat.eq_dec a (length spectral - 2)) as [->|K2]; [rewrite X in Z1; injection Z1 as <-; lra|].
      apply Qlt_le_weak. eapply (S a (length spectral - 2)%nat); eauto. lia. }
    lra. }
  subst b. unfold slice. destruct (Nat.leb_spec a a); [|lia]. destruct (Nat.leb_spec a (length flux)); [|lia].
  cbn [andb]. rewrite Nat.sub_diag. reflexivity.
Qed.
Lemma flags_UB flux spectral winsize cut offset : forall n i, (exists k, (i <= k < i + n)%nat /\ above_threshold flux spectral winsize cut offset k = UB) ->
  (forall k, (i <= k < i + n)%nat -> exists r, above_threshold flux spectral winsize cut offset k = r /\ (r = UB \/ exists b, r = Ok b)) ->
  flags flux spectral winsize cut offset i n = UB.
Proof.
  induction n as [|n IH]; intros i [k [K1 K2]] H; [lia|]. cbn [flags].
  destruct (H i ltac:(lia)) as [r [E [->|[b ->]]]]; rewrite E; [reflexivity|]. cbn [rbind].
  destruct (Nat.eq_dec k i) as [->|N]; [congruence|]. rewrite IH; [reflexivity| |].
  - exists k. split; [lia|exact K2].
  - intros k' H'. apply H. lia.
Qed.
Lemma above_threshold_cases flux spectral winsize cut offset i : strictly_increasing spectral -> 0 < winsize ->
  length flux = length spectral -> (i < length flux)%nat ->
  exists r, above_threshold flux spectral winsize cut offset i = r /\ (r = UB \/ exists b, r = Ok b).
Proof.
  intros S W L Hi. eexists; split; [reflexivity|].
  destruct (window_bounds_spec spectral winsize i S W ltac:(lia)) as [a [b [E [V [A [B [C D]]]]]]].
  unfold above_threshold. rewrite L, E. cbn [rbind]. rewrite slice_ok by lia. cbn [rbind]. set (w := firstn (b - a) (skipn a flux)).
  destruct w as [|w0 w']; [left; reflexivity|]. right.
  destruct (Find_library_median (w0 :: w') ltac:(discriminate)) as [med [Em Lm]]. rewrite Em. cbn [rbind].
  destruct (XMad_spec (w0 :: w') med ltac:(discriminate)) as [mad [Ex Cx]]. rewrite Ex. cbn [rbind].
  destruct (vget_in flux i Hi) as [f Ef]. rewrite Ef. cbn [rbind]. eauto.
Qed.
Lemma narrow_window_UB flux spectral winsize cut offset : strictly_increasing spectral -> 0 < winsize -> length flux = length spectral ->
  (0 < length spectral)%nat ->
  (length spectral = 1%nat \/ exists x y, nth_error spectral (length spectral - 2) = Some x /\
     nth_error spectral (length spectral - 1) = Some y /\ winsize / 2 < y - x) ->
  FindPossiblePeaks flux spectral winsize cut offset = UB.
Proof.
  intros S W L N H. unfold FindPossiblePeaks. rewrite flags_UB; [reflexivity| |].
  - exists (length spectral - 1)%nat. split; [lia|]. apply window_empty; auto.
  - intros k Hk. apply above_threshold_cases; auto. lia.
Qed.

(** ** RedefineBorders *)
Definition zget (flux : list Q) (i : Z) : res Q := if (i <? 0)%Z then UB else vget flux (Z.to_nat i).
Lemma zget_sample flux i : (0 <= i < Z.of_nat (length flux))%Z -> exists f, zget flux i = Ok f /\ sample flux i f.
Proof.
  intro H. unfold zget, sample. destruct (Z.ltb_spec i 0); [lia|]. destruct (vget_in flux (Z.to_nat i)) as [f E]; [lia|].
  exists f. split; [exact E|]. apply vget_Ok in E. auto.
Qed.
Lemma sample_fun flux i f g : sample flux i f -> sample flux i g -> f = g.
Proof. intros [_ A] [_ B]. congruence. Qed.

(** state after visiting [i, i + n): [m] the running maximum (or the initial value), [c] where *)
Lemma center_loop_spec flux : forall n i v0 c0, (0 <= i)%Z -> (i + Z.of_nat n <= Z.of_nat (length flux))%Z ->
  exists v c, center_loop flux i n (v0, c0) = Ok (v, c) /\ v0 <= v /\
    (forall j f, (i <= j < i + Z.of_nat n)%Z -> sample flux j f -> f <= v) /\
    ((v = v0 /\ c = c0) \/
     ((i <= c < i + Z.of_nat n)%Z /\ sample flux c v /\ v0 < v /\
      forall j f, (i <= j < c)%Z -> sample flux j f -> f < v)).
Proof.
  induction n as [|n IH]; intros i v0 c0 Hi Hn.
  - exists v0, c0. split; [reflexivity|]. split; [lra|]. split; [intros; lia|left; auto].
  - cbn [center_loop]. fold (zget flux i). destruct (zget_sample flux i) as [f [E S]]; [lia|]. rewrite E. cbn [rbind fst].
    destruct (Qltb_spec v0 f) as [K|K].
    + destruct (IH (i + 1)%Z f i ltac:(lia) ltac:(lia)) as [v [c [E2 [L [M D]]]]]. exists v, c. split; [exact E2|].
      split; [lra|]. split.
      * intros j g Hj Sg. destruct (Z.eq_dec j i) as [->|N]; [rewrite (sample_fun _ _ _ _ Sg S); exact L|]. apply (M j g); [lia|exact Sg].
      * right. destruct D as [[-> ->]|[D1 [D2 [D3 D4]]]].
        { split; [lia|]. split; [exact S|]. split; [exact K|]. intros; lia. }
        { split; [lia|]. split; [exact D2|]. split; [lra|]. intros j g Hj Sg.
          destruct (Z.eq_dec j i) as [->|N]; [rewrite (sample_fun _ _ _ _ Sg S); exact D3|]. apply (D4 j g); [lia|exact Sg]. }
    + destruct (IH (i + 1)%Z v0 c0 ltac:(lia) ltac:(lia)) as [v [c [E2 [L [M D]]]]]. exists v, c. split; [exact E2|].
      split; [exact L|]. split.
      * intros j g Hj Sg. destruct (Z.eq_dec j i) as [->|N]; [rewrite (sample_fun _ _ _ _ Sg S); lra|]. apply (M j g); [lia|exact Sg].
      * destruct D as [D|[D1 [D2 [D3 D4]]]]; [left; exact D|right]. split; [lia|]. split; [exact D2|]. split; [exact D3|].
        intros j g Hj Sg. destruct (Z.eq_dec j i) as [->|N]; [rewrite (sample_fun _ _ _ _ Sg S); lra|]. apply (D4 j g); [lia|exact Sg].
Qed.
Lemma GetNewBorder_left flux : forall fuel new old, (0 <= new < Z.of_nat (length flux))%Z -> (0 <= old < Z.of_nat (length flux))%Z ->
  (Z.to_nat new < fuel)%nat -> exists l o, GetNewBorder fuel flux new old false = Ok (l, o) /\ (l <= new)%Z.
Proof.
  induction fuel as [|k IH]; intros new old Hn Ho Hf; [lia|]. cbn [GetNewBorder]. fold (zget flux new). fold (zget flux old).
  destruct (zget_sample flux new Hn) as [a [Ea _]]. destruct (zget_sample flux old Ho) as [b [Eb _]]. rewrite Ea, Eb. cbn [rbind].
  destruct (Qle_bool a b); [|exists new, old; split; [reflexivity|lia]].
  destruct (Z.eqb_spec new 0); [exists new, 0%Z; split; [reflexivity|lia]|].
  destruct (IH (Z.max 0 (new - 1)) new ltac:(lia) Hn ltac:(lia)) as [l [o [E L]]]. exists l, o. split; [exact E|lia].
Qed.
Lemma GetNewBorder_right flux : forall fuel new old, (0 <= new < Z.of_nat (length flux))%Z -> (0 <= old < Z.of_nat (length flux))%Z ->
  (length flux - Z.to_nat new <= fuel)%nat -> exists l o, GetNewBorder fuel flux new old true = Ok (l, o) /\ (new <= l)%Z.
Proof.
  induction fuel as [|k IH]; intros new old Hn Ho Hf; [lia|]. cbn [GetNewBorder]. fold (zget flux new). fold (zget flux old).
  destruct (zget_sample flux new Hn) as [a [Ea _]]. destruct (zget_sample flux old Ho) as [b [Eb _]]. rewrite Ea, Eb. cbn [rbind].
  destruct (Qle_bool a b); [|exists new, old; split; [reflexivity|lia]].
  destruct (Z.eqb_spec new (Z.of_nat (length flux) - 1)); [exists new, new; split; [reflexivity|lia]|].
  destruct (IH (Z.max 0 (new + 1)) new ltac:(lia) Hn ltac:(lia)) as [l [o [E L]]]. exists l, o. split; [exact E|lia].
Qed.

Lemma keep_peak_spec flux p : (0 <= fst p <= snd p)%Z -> (snd p < Z.of_nat (length flux))%Z ->
  exists b, keep_peak flux p = Ok b /\ (b = true <-> interior_maximum flux p).
Proof.
  intros H1 H2. unfold keep_peak.
  destruct (center_loop_spec flux (Z.to_nat (snd p + 1 - fst p)) (fst p) (-1000000000000 # 1) (-1) ltac:(lia) ltac:(lia))
    as [v [c [E [L [M D]]]]]. rewrite E. cbn [rbind].
  replace (fst p + Z.of_nat (Z.to_nat (snd p + 1 - fst p)))%Z with (snd p + 1)%Z in * by lia.
  assert (I : interior_maximum flux p <-> ((-1000000000000 # 1) < v /\ (2 <= c)%Z /\ (c + 1 < Z.of_nat (length flux))%Z)).
  { split.
    - intros [c' [m [[F1 [F2 F3]] [Q [B1 B2]]]]].
      destruct D as [[-> ->]|[D1 [D2 [D3 D4]]]].
      + exfalso. specialize (M c' m ltac:(lia) F2). lra.
      + assert (m <= v) by (apply (M c' m); [lia|exact F2]). destruct (F3 c v ltac:(lia) D2) as [G1 G2].
        destruct (Z.lt_trichotomy c c') as [C|[C|C]]; [specialize (G2 C); lra| |].
        * subst c'. repeat split; auto; lra.
        * specialize (D4 c' m ltac:(lia) F2). lra.
    - intros [Q [B1 B2]]. destruct D as [[-> ->]|[D1 [D2 [D3 D4]]]]; [lra|].
      exists c, v. split; [split; [lia|]; split; [exact D2|]|split; [exact Q|lia]].
      intros i f Hi Sf. split; [apply (M i f); [lia|exact Sf]|]. intro Hc. apply (D4 i f); [lia|exact Sf]. }
  destruct (Z.eqb_spec (Z.max 0 (c - 1)) 0) as [Z0|Z0]; [cbn [orb]; eexists; split; [reflexivity|]; split; [discriminate|intro J; apply I in J; lia]|].
  destruct (Z.eqb_spec (Z.min (Z.of_nat (length flux)) (c + 1)) (Z.of_nat (length flux))) as [Z1|Z1];
    [cbn [orb]; eexists; split; [reflexivity|]; split; [discriminate|intro J; apply I in J; lia]|].
  cbn [orb]. destruct D as [[_ ->]|[D1 [D2 [D3 D4]]]]; [lia|].
  destruct (GetNewBorder_left flux (S (length flux)) (Z.max 0 (c - 1)) c ltac:(lia) ltac:(lia) ltac:(lia)) as [l [o [El Ll]]]. rewrite El. cbn [rbind].
  destruct (GetNewBorder_right flux (S (length flux)) (Z.min (Z.of_nat (length flux)) (c + 1)) c ltac:(lia) ltac:(lia) ltac:(lia)) as [r [o' [Er Lr]]]. rewrite Er. cbn [rbind].
  eexists; split; [reflexivity|]. destruct (Z.eqb_spec r l); [lia|]. split; [intros _; apply I; repeat split; [exact D3|lia|lia]|reflexivity].
Qed.
Lemma RedefineBorders_spec flux : forall peaks, (forall p, In p peaks -> (0 <= fst p <= snd p)%Z /\ (snd p < Z.of_nat (length flux))%Z) ->
  exists out, RedefineBorders flux peaks = Ok out /\ sublist out peaks /\ forall p, In p out <-> In p peaks /\ interior_maximum flux p.
Proof.
  induction peaks as [|p t IH]; intro H.
  - exists []. split; [reflexivity|]. split; [constructor|]. intro p. simpl. tauto.
  - destruct (IH (fun q Hq => H q (or_intror Hq))) as [out [E [S I]]]. cbn [RedefineBorders]. rewrite E. cbn [rbind].
    destruct (H p (or_introl eq_refl)) as [H1 H2]. destruct (keep_peak_spec flux p H1 H2) as [b [Eb Ib]]. rewrite Eb. cbn [rbind].
    eexists; split; [reflexivity|]. destruct b.
    + split; [constructor; exact S|]. intro q. simpl. rewrite I. split; [intros [<-|K]; [split; [left; reflexivity|apply Ib; reflexivity]|tauto]|tauto].
    + split; [constructor; exact S|]. intro q. rewrite I. split; [intros [A B]; split; [right; exact A|exact B]|].
      intros [[<-|A] B]; [apply Ib in B; discriminate|auto].
Qed.

(** ** enlargement *)
Lemma separated_nth : forall l i a b, separated_runs l -> nth_error l i = Some a -> nth_error l (S i) = Some b -> (snd a + 1 < fst b)%Z.
Proof.
  induction l as [|x l IH]; intros i a b S A B; [destruct i; discriminate|]. destruct i as [|i].
  - destruct l as [|y l]; [discriminate|]. simpl in A, B. injection A as <-. injection B as <-. apply S.
  - simpl in A, B. apply (IH i a b); auto. eapply separated_tail; eauto.
Qed.
Lemma enlarge_spec peaks rate len i p : (0 <= rate)%Z -> nth_error peaks i = Some p ->
  separated_runs peaks -> (forall q, In q peaks -> (0 <= fst q <= snd q)%Z /\ (snd q < len)%Z) ->
  exists a b, FindGaussianFitStartAndStop i peaks rate len = Ok (a, b) /\ enlarged_from peaks rate len i p a b.
Proof.
  intros R P S V. unfold FindGaussianFitStartAndStop. destruct p as [pb pe].
  pose proof (V _ (nth_error_In _ _ P)) as [V1 V2]. cbn [fst snd] in V1, V2.
  pose proof P as P'. apply vget_Ok in P'. rewrite P'. cbn [rbind]. clear P'.
  set (w := (pe + 1 - pb)%Z). assert (W : (1 <= w)%Z) by (unfold w; lia).
  assert (RW : (0 <= rate * w)%Z) by nia.
  unfold enlarged_from. cbn [fst snd]. fold w.
  destruct i as [|i].
  - cbn [rbind]. destruct (Nat.ltb_spec 0 (length peaks - 1)) as [K|K].
    + destruct (nth_error peaks 1) as [[nb ne]|] eqn:N; [|apply nth_error_None in N; lia].
      pose proof N as N'. apply vget_Ok in N'. rewrite N'. cbn [rbind].
      pose proof (separated_nth _ _ _ _ S P N) as G. cbn [fst snd] in G. destruct (Z.ltb_spec (-1) nb); [|lia].
      eexists _, _. split; [reflexivity|]. split; [lia|]. split; [lia|]. split; [lia|]. split; [lia|]. split; [reflexivity|].
      cbn [snd fst]. lia.
    + cbn [rbind]. assert (N : nth_error peaks 1 = None) by (apply nth_error_None; lia). rewrite N.
      eexists _, _. split; [reflexivity|]. split; [lia|]. split; [lia|]. split; [lia|]. split; [lia|]. split; reflexivity.
  - destruct (nth_error peaks i) as [[qb qe]|] eqn:Q; [|apply nth_error_None in Q; assert (Datatypes.S i < length peaks)%nat by (apply nth_error_Some; congruence); lia].
    pose proof Q as Q'. apply vget_Ok in Q'. rewrite Q'. cbn [rbind]. pose proof (separated_nth _ _ _ _ S Q P) as GQ. cbn [fst snd] in GQ.
    pose proof (V _ (nth_error_In _ _ Q)) as [VQ _]. cbn [fst snd] in VQ. destruct (Z.ltb_spec (-1) qe); [|lia].
    destruct (Nat.ltb_spec (Datatypes.S i) (length peaks - 1)) as [K|K].
    + destruct (nth_error peaks (Datatypes.S (Datatypes.S i))) as [[nb ne]|] eqn:N; [|apply nth_error_None in N; lia].
      pose proof N as N'. apply vget_Ok in N'. rewrite N'. cbn [rbind].
      pose proof (separated_nth _ _ _ _ S P N) as G. cbn [fst snd] in G. destruct (Z.ltb_spec (-1) nb); [|lia].
      eexists _, _. split; [reflexivity|]. cbn [snd fst]. repeat split; lia.
    + cbn [rbind]. assert (N : nth_error peaks (Datatypes.S (Datatypes.S i)) = None) by (apply nth_error_None; lia). rewrite N.
      eexists _, _. split; [reflexivity|]. cbn [snd fst]. repeat split; lia.
Qed.
Lemma enlarge_all peaks rate len : (0 <= rate)%Z -> separated_runs peaks -> (forall q, In q peaks -> (0 <= fst q <= snd q)%Z /\ (snd q < len)%Z) ->
  forall n i, (i + n <= length peaks)%nat -> exists out, enlarge_from i n peaks rate len = Ok out /\ length out = n /\
    forall k p, (k < n)%nat -> nth_error peaks (i + k) = Some p -> exists a b, nth_error out k = Some (a, b) /\ enlarged_from peaks rate len (i + k) p a b.
Proof.
  intros R S V. induction n as [|n IH]; intros i H.
  - exists []. split; [reflexivity|]. split; [reflexivity|]. intros; lia.
  - destruct (nth_error peaks i) as [p|] eqn:P; [|apply nth_error_None in P; lia].
    destruct (enlarge_spec peaks rate len i p R P S V) as [a [b [E F]]]. destruct (IH (Datatypes.S i) ltac:(lia)) as [out [E2 [L2 N2]]].
    cbn [enlarge_from]. rewrite E. cbn [rbind]. rewrite E2. cbn [rbind]. eexists; split; [reflexivity|]. split; [simpl; lia|].
    intros [|k] q Hk Hq.
    + rewrite Nat.add_0_r in Hq |- *. rewrite P in Hq. injection Hq as <-. exists a, b. split; [reflexivity|exact F].
    + destruct (N2 k q ltac:(lia)) as [a' [b' [E' F']]]; [replace (Datatypes.S i + k)%nat with (i + Datatypes.S k)%nat by lia; exact Hq|].
      exists a', b'. split; [exact E'|]. replace (i + Datatypes.S k)%nat with (Datatypes.S i + k)%nat by lia. exact F'.
Qed.

Lemma sublist_in {A} (l m : list A) : sublist l m -> forall x, In x l -> In x m.
Proof. induction 1; intros y Hy; simpl in *; auto. destruct Hy as [<-|Hy]; auto. Qed.
Lemma sublist_separated : forall l m, sublist l m -> separated_runs m -> (forall q, In q m -> (fst q <= snd q)%Z) -> separated_runs l.
Proof.
  induction 1 as [|x l m H IH|x l m H IH]; intros S V; [exact I| |].
  - apply IH; [eapply separated_tail; eauto|intros q Hq; apply V; right; exact Hq].
  - destruct l as [|y l]; [exact I|]. split.
    + eapply separated_after; eauto. eapply sublist_in; [exact H|left; reflexivity].
    + apply IH; [eapply separated_tail; eauto|intros q Hq; apply V; right; exact Hq].
Qed.

Lemma Compute_spec flux spectral winsize cut offset rate : good_input flux spectral winsize -> (0 <= rate)%Z ->
  exists thr all, length thr = length flux /\ (forall i t, nth_error thr i = Some t -> threshold flux spectral winsize cut offset i t) /\
    separated_runs all /\ (forall r, In r all -> maximal_run (above flux thr) r) /\
    (forall i, above flux thr i -> exists r, In r all /\ (fst r <= i <= snd r)%Z) /\
    (all = [] -> Compute flux spectral winsize cut offset 0 rate = Ok None) /\
    (all <> [] -> exists peaks enl, Compute flux spectral winsize cut offset 0 rate = Ok (Some (peaks, enl)) /\
       sublist peaks all /\ (forall p, In p peaks <-> In p all /\ interior_maximum flux p) /\ length enl = length peaks /\
       (rate = 0%Z -> enl = peaks) /\
       ((0 < rate)%Z -> forall k p, nth_error peaks k = Some p -> exists a b, nth_error enl k = Some (a, b) /\
          enlarged_from peaks rate (Z.of_nat (length flux)) k p a b)).
Proof.
  intros G R. destruct (FindPossiblePeaks_spec flux spectral winsize cut offset G) as [all [thr [E [L [T [S [M C]]]]]]].
  exists thr, all. do 5 (split; [assumption|]). unfold Compute. cbn [Z.eqb rbind]. rewrite E. cbn [rbind].
  split; [intros ->; reflexivity|]. intro Ne. destruct all as [|p0 all']; [contradiction|].
  set (al := p0 :: all') in *.
  assert (V : forall p, In p al -> (0 <= fst p <= snd p)%Z /\ (snd p < Z.of_nat (length flux))%Z).
  { intros p Hp. pose proof (M p Hp) as Mp. destruct (maximal_inside _ _ _ Mp). destruct Mp. lia. }
  destruct (RedefineBorders_spec flux al V) as [peaks [Er [Sub I]]]. rewrite Er. cbn [rbind].
  assert (Sp : separated_runs peaks) by (eapply sublist_separated; eauto; intros q Hq; destruct (V q Hq); lia).
  assert (Ll : length spectral = length flux) by (destruct G as [_ [G _]]; auto). rewrite Ll.
  destruct (Z.eqb_spec rate 0) as [Z|Z].
  - cbn [rbind]. exists peaks, peaks. split; [reflexivity|]. split; [exact Sub|]. split; [exact I|]. split; [reflexivity|]. split; [reflexivity|lia].
  - assert (Vp : forall q, In q peaks -> (0 <= fst q <= snd q)%Z /\ (snd q < Z.of_nat (length flux))%Z)
      by (intros q Hq; apply V; eapply sublist_in; eauto).
    destruct (enlarge_all peaks rate (Z.of_nat (length flux)) R Sp Vp (length peaks) 0 ltac:(lia)) as [enl [Ee [Le Ne']]].
    rewrite Ee. cbn [rbind]. exists peaks, enl. split; [reflexivity|]. split; [exact Sub|]. split; [exact I|]. split; [exact Le|].
    split; [intros ->; contradiction|]. intros _ k p Hk. apply (Ne' k p); [apply nth_error_Some; congruence|exact Hk].
Qed.
Lemma Compute_smoothed flux spectral winsize cut offset halfWidth rate s : (0 < halfWidth)%Z -> (exists b, ApplyMedianSmooth flux halfWidth = Ok (b, s)) ->
  Compute flux spectral winsize cut offset halfWidth rate = Compute s spectral winsize cut offset 0 rate.
Proof.
  intros H [b E]. unfold Compute. destruct (Z.eqb_spec halfWidth 0); [lia|]. rewrite E. reflexivity.
Qed.
