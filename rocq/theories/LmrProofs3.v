(** Proofs for C78: the second pass. *)
From Verif Require Import Base RangeModel RangeSpec RangeProofs ZGridModel ZGridSpec ZGridProofs MeikModel LmrModel LmrSpec LmrProofs LmrProofs2.
Open Scope Q_scope.

Ltac inv_do := repeat match goal with
  | H : rbind ?e _ = Ok _ |- _ => let E := fresh "E" in destruct e eqn:E; cbn [rbind] in H; try discriminate H end.

Lemma store_z r i o r' : store r i o = Ok r' -> r_z r' = r_z r.
Proof.
  unfold store. intro H. inv_do. injection H as <-. cbn [r_z].
  match goal with E : match o_ratio o with Some _ => _ | None => _ end = Ok _ |- _ =>
    destruct (o_ratio o) as [q|]; [unfold SetChisquareTplratioResult in E|injection E as <-] end.
  - match goal with E : _ = Ok a4 |- _ => revert E | E : _ = Ok ?x |- r_z ?x = _ => revert E end.
    repeat match goal with |- context [if ?b then _ else _] => destruct b end; intro K; try discriminate K;
    inv_do; try (injection K as <-); cbn [r_z];
    match goal with E : match o_cont o with Some _ => _ | None => _ end = Ok _ |- _ =>
      destruct (o_cont o); [unfold SetChisquareTplContinuumResult in E; inv_do; injection E as <-|injection E as <-]; reflexivity end.
  - match goal with E : match o_cont o with Some _ => _ | None => _ end = Ok _ |- _ =>
      destruct (o_cont o); [unfold SetChisquareTplContinuumResult in E; inv_do; injection E as <-|injection E as <-]; reflexivity end.
Qed.

Lemma getIndex_in l z k : strictly_increasing l -> nth_error l k = Some z -> getIndex l z = Ok k.
Proof.
  intros Hs Hk. pose proof (getIndex_spec l z) as G. destruct (getIndex l z) as [i|e|].
  - destruct G as [(x & Hx & Ex) _]. f_equal. destruct (Nat.lt_trichotomy i k) as [L|[L|L]]; [|exact L|].
    + pose proof (Hs i k x z L Hx Hk). lra.
    + pose proof (Hs k i z x L Hk Hx). lra.
  - destruct e; try contradiction. exfalso. apply (G z); [eapply nth_error_In; eauto|reflexivity].
  - contradiction.
Qed.

Section Fit.
Variables (fitf : nat -> Q -> out) (nT nR : nat).
Hypothesis HS : forall c x, shaped nT nR (fitf c x).
Notation dm := (repeat (Some dbl_max) nT).

Lemma window_loop_spec : forall zs c r rows, table r nT nR rows -> length (r_z r) = length rows -> strictly_increasing (r_z r) ->
  NoDup zs -> (forall z, In z zs -> In z (r_z r)) ->
  (forall k z w, nth_error (r_z r) k = Some z -> In z zs -> nth_error rows k = Some w -> w = no_row nT nR) ->
  exists r' rows', window_loop fitf zs c r = Ok ((c + length zs)%nat, r') /\ r_z r' = r_z r /\ r_prior r' = r_prior r /\
    table r' nT nR rows' /\ length rows' = length rows /\
    forall k x w, nth_error (r_z r) k = Some x -> nth_error rows' k = Some w ->
      (In x zs -> exists c0, (c <= c0 < c + length zs)%nat /\ from_call (fitf c0 x) dm w) /\
      (~ In x zs -> nth_error rows k = Some w).
Proof.
  induction zs as [|z t IH]; intros c r rows T L Sz ND Hin Hno.
  - exists r, rows. cbn [window_loop length]. rewrite Nat.add_0_r. repeat (split; [solve [auto]|]).
    intros k x w _ Hw. split; [intros []|auto].
  - cbn [window_loop]. destruct (In_nth_error _ _ (Hin z (or_introl eq_refl))) as [k0 Hk0].
    rewrite (getIndex_in _ _ _ Sz Hk0). cbn [rbind]. rewrite (proj2 (vget_Ok _ _ _) Hk0). cbn [rbind].
    assert (Lk : (k0 < length rows)%nat) by (rewrite <- L; eapply nth_error_len; eauto).
    destruct (nth_error_lt rows k0 Lk) as [w0 Hw0].
    destruct (store_spec r nT nR rows k0 (fitf c z) w0 T L Hw0 (HS c z)) as (r1 & w1 & E1 & Z1 & P1 & F1 & T1).
    rewrite E1. cbn [rbind]. rewrite (Hno k0 z w0 Hk0 (or_introl eq_refl) Hw0) in F1. cbn [no_row w_cont] in F1.
    inversion ND as [|? ? Nz NDt]; subst.
    assert (Uniq : forall k x, nth_error (r_z r) k = Some x -> k = k0 <-> x = z).
    { intros k x Hx. split; [intro; subst; congruence|]. intro; subst x.
      destruct (Nat.lt_trichotomy k k0) as [A|[A|A]]; [|exact A|].
      - pose proof (Sz k k0 z z A Hx Hk0). lra.
      - pose proof (Sz k0 k z z A Hk0 Hx). lra. }
    destruct (IH (S c) r1 (upd rows k0 w1)) as (r' & rows' & E' & Z' & P' & T' & L' & F').
    + exact T1.
    + rewrite Z1, upd_length by exact Lk. exact L.
    + rewrite Z1. exact Sz.
    + exact NDt.
    + intros x Hx. rewrite Z1. apply Hin. right; exact Hx.
    + intros k x w Hx Hxt Hw. rewrite Z1 in Hx. rewrite upd_nth in Hw by exact Lk. destruct (Nat.eqb_spec k k0) as [K|K].
      * exfalso. apply (Uniq k x Hx) in K. subst x. contradiction.
      * apply (Hno k x w Hx); auto. right; exact Hxt.
    + exists r', rows'. split; [rewrite E'; cbn [length]; do 2 f_equal; lia|]. split; [congruence|]. split; [congruence|].
      split; [exact T'|]. split; [rewrite L', upd_length; auto|].
      intros k x w Hx Hw. rewrite <- Z1 in Hx. destruct (F' k x w Hx Hw) as [A B]. rewrite Z1 in Hx. split.
      * intros [<-|Hxt].
        -- assert (Hk : k = k0) by (apply (Uniq k z Hx); reflexivity). specialize (B Nz). rewrite upd_nth in B by exact Lk.
           rewrite Hk, Nat.eqb_refl in B. injection B as <-. exists c. split; [cbn [length]; lia|exact F1].
        -- destruct (A Hxt) as (c0 & Hc0 & Fc). exists c0. split; [cbn [length]; lia|exact Fc].
      * intro Hn. assert (Nt : ~ In x t) by (intro K; apply Hn; right; exact K). specialize (B Nt).
        rewrite upd_nth in B by exact Lk. destruct (Nat.eqb_spec k k0) as [K|K]; [|exact B].
        exfalso. apply Hn. left. symmetry. apply (Uniq k x Hx); exact K.
Qed.

Lemma window_loop_app a b c r : window_loop fitf (a ++ b) c r = do (c', r') <- window_loop fitf a c r; window_loop fitf b c' r'.
Proof.
  revert c r. induction a as [|z t IH]; intros c r; [reflexivity|]. cbn [app window_loop].
  destruct (getIndex (r_z r) z) as [iz| |]; cbn [rbind]; auto. destruct (vget (r_z r) iz) as [zi| |]; cbn [rbind]; auto.
  destruct (store r iz (fitf c zi)) as [r1| |]; cbn [rbind]; auto.
Qed.
Lemma window_loop_z a : forall c r c' r', window_loop fitf a c r = Ok (c', r') -> r_z r' = r_z r.
Proof.
  induction a as [|z t IH]; intros c r c' r' H; cbn [window_loop] in H; [injection H as _ <-; reflexivity|].
  inv_do. rewrite (IH _ _ _ _ H). eapply store_z; eauto.
Qed.

Lemma recompute_concat : forall cands c r, (forall Zc s, In (Zc, s) cands -> s <> [] /\ exists k, getIndex (r_z r) Zc = Ok k) ->
  recompute fitf cands c r = window_loop fitf (concat (map snd cands)) c r.
Proof.
  induction cands as [|[Zc s] t IH]; intros c r H; [reflexivity|]. cbn [recompute map concat snd]. rewrite window_loop_app.
  destruct (H Zc s (or_introl eq_refl)) as (Hne & k & Hk). rewrite Hk. cbn [rbind].
  destruct (front_ok s Hne) as (a & Ea & _). destruct (back_ok s Hne) as (b & Eb & _). rewrite Ea, Eb. cbn [rbind].
  destruct (window_loop fitf s c r) as [[c' r']| |] eqn:E; cbn [rbind]; auto. apply IH.
  rewrite (window_loop_z _ _ _ _ _ E). intros Z' s' H'. apply H. right; exact H'.
Qed.

Lemma si_nodup l : strictly_increasing l -> NoDup l.
Proof.
  induction l as [|a t IH]; intro H; constructor.
  - intro K. pose proof (strictly_increasing_head a t a H K). lra.
  - apply IH. eapply strictly_increasing_tail; eauto.
Qed.
Lemma nodup_concat (ls : list (list Q)) : (forall l, In l ls -> NoDup l) ->
  (forall i j a b x, (i < j)%nat -> nth_error ls i = Some a -> nth_error ls j = Some b -> In x a -> ~ In x b) -> NoDup (concat ls).
Proof.
  induction ls as [|l t IH]; intros H1 H2; [constructor|]. cbn [concat].
  assert (ND : NoDup (concat t)).
  { apply IH; [intros a Ha; apply H1; right; exact Ha|]. intros i j a b x L Ha Hb. apply (H2 (S i) (S j)); auto. lia. }
  assert (D : forall x, In x l -> ~ In x (concat t)).
  { intros x Hx K. apply in_concat in K. destruct K as (m & Hm & Hxm). apply In_nth_error in Hm. destruct Hm as [j Hj].
    apply (H2 0%nat (S j) l m x); auto. lia. }
  specialize (H1 l (or_introl eq_refl)). clear - H1 ND D. induction l as [|a l IH]; [exact ND|].
  inversion H1; subst. cbn [app]. constructor.
  - rewrite in_app_iff. intros [K|K]; [contradiction|]. apply (D a); [left; reflexivity|exact K].
  - apply IH; [assumption|]. intros x Hx. apply D. right; exact Hx.
Qed.

Lemma map_snd_combine' {A B} (l : list A) (m : list B) : length l = length m -> map snd (combine l m) = m.
Proof. revert m; induction l as [|a l IH]; intros [|b m] H; simpl in *; try discriminate; auto. f_equal. apply IH. lia. Qed.

Lemma two_passes_spec z priors cands :
  strictly_increasing z -> length priors = nR -> cands <> [] -> spaced z ->
  insertable_all (map snd cands) z -> apart (map snd cands) ->
  (forall Zc s, In (Zc, s) cands -> In Zc z /\ In Zc s) ->
  exists r grid rows, two_passes fitf z nT nR priors cands = Ok r /\ insert_all (map snd cands) z = Ok grid /\
    r_z r = grid /\ r_prior r = priors /\ table r nT nR rows /\ length rows = length grid /\
    forall k x w, nth_error grid k = Some x -> nth_error rows k = Some w ->
      ((exists s, In s (map snd cands) /\ replaced s x) /\ exists c, (length z <= c)%nat /\ from_call (fitf c x) dm w) \/
      ((forall s, In s (map snd cands) -> ~ replaced s x) /\ exists i, nth_error z i = Some x /\ from_call (fitf i x) dm w).
Proof.
  intros Sz Hp Hc Hsp Hia Hap HZ. unfold two_passes.
  destruct (init_spec z nT nR priors Hp) as (r0 & E0 & Z0 & P0 & T0). rewrite E0. cbn [rbind].
  assert (L0 : length (repeat (no_row nT nR) (length z)) = length z) by apply repeat_length.
  destruct (first_loop_spec fitf nT nR HS (length (r_z r0)) 0 r0 _ T0) as (r1 & rows1 & E1 & Z1 & P1 & T1 & L1 & F1).
  { rewrite Z0, L0. reflexivity. } { rewrite Z0, L0. reflexivity. }
  { intros k w _ Hw. eapply repeat_spec. eapply nth_error_In; eauto. } { intros; lia. }
  unfold first_pass. rewrite E1. cbn [rbind]. rewrite Z0 in F1.
  destruct (update_grid_spec nT nR (map snd cands) z r1 rows1 T1) as
    (subs' & grid & r2 & rows2 & E2 & I2 & P2 & T2 & L2 & Sg & Ls & Hs & Hcmb & _); auto; [congruence|].
  rewrite E2. cbn [rbind]. destruct (Nat.ltb_spec (length cands) 1) as [K|_]; [destruct cands; [contradiction|simpl in K; lia]|].
  set (r3 := set_z r2 grid).
  assert (T3 : table r3 nT nR rows2) by exact T2.
  assert (Lc : length (map fst cands) = length subs') by (rewrite Ls, !map_length; reflexivity).
  rewrite recompute_concat.
  2:{ intros Zc s' Hin. apply In_nth_error in Hin. destruct Hin as [i Hi].
      assert (Hf : nth_error (map fst cands) i = Some Zc /\ nth_error subs' i = Some s').
      { clear - Hi. revert Hi. generalize (map fst cands). intro l. revert i subs'.
        induction l as [|a l IH]; intros i subs' H; [destruct i; discriminate|]. destruct subs' as [|b m]; [destruct i; discriminate|].
        destruct i as [|i]; simpl in *; [injection H as <- <-; auto|apply IH; exact H]. }
      destruct Hf as [Hf1 Hf2]. destruct (Hs i s' Hf2) as (_ & Hne & s & Hsi & Hx & Hpos). split; [exact Hne|].
      assert (Hcs : In (Zc, s) cands).
      { rewrite nth_error_map in Hf1, Hsi. destruct (nth_error cands i) as [[a b]|] eqn:E; [|discriminate].
        cbn in Hf1, Hsi. injection Hf1 as <-. injection Hsi as <-. eapply nth_error_In; eauto. }
      destruct (HZ Zc s Hcs) as [Hz1 Hz2]. apply In_nth_error in Hz1, Hz2. destruct Hz1 as [m Hm]. destruct Hz2 as [k Hk].
      destruct (Hpos k Zc Hk) as (x' & Hx' & Hcase).
      assert (Ex : x' = Zc).
      { assert (Eps : 0 < eps) by reflexivity. destruct Hcase as [->|[(zf & Hzf & _ & Lz & ->)|(zb & Hzb & _ & Lz & ->)]]; [reflexivity| |].
        - destruct m as [|m]; [congruence|]. exfalso.
          destruct (nth_error_lt z 1) as [z1 Hz1]; [apply nth_error_len in Hm; lia|].
          pose proof (Hsp 0%nat zf z1 Hzf Hz1). assert (z1 <= Zc).
          { destruct m as [|m]; [rewrite Hz1 in Hm; injection Hm as <-; lra|]. apply Qlt_le_weak. apply (Sz 1%nat (S (S m))); auto. lia. }
          lra.
        - destruct (Nat.eq_dec m (length z - 1)) as [E|E]; [subst m; congruence|]. exfalso.
          pose proof (nth_error_len _ _ _ Hm) as Lm.
          destruct (nth_error_lt z (S m)) as [z1 Hz1]; [lia|]. pose proof (Hsp m Zc z1 Hm Hz1). assert (z1 <= zb).
          { destruct (Nat.eq_dec (S m) (length z - 1)) as [E'|E']; [rewrite E', Hzb in Hz1; injection Hz1 as <-; lra|].
            apply Qlt_le_weak. apply (Sz (S m) (length z - 1)%nat); auto. lia. }
          lra. }
      subst x'. destruct (Hx Zc (nth_error_In _ _ Hx')) as [_ Hg]. apply In_nth_error in Hg. destruct Hg as [g Hg].
      exists g. apply getIndex_in; [exact Sg|exact Hg]. }
  rewrite map_snd_combine' by exact Lc.
  assert (InC : forall x, In x (concat subs') <-> exists s', In s' subs' /\ In x s') by (intro x; apply in_concat).
  destruct (window_loop_spec (concat subs') (length z) r3 rows2 T3) as (r4 & rows4 & E4 & Z4 & P4 & T4 & L4 & F4).
  - cbn [r3 set_z r_z]. symmetry. exact L2.
  - exact Sg.
  - apply nodup_concat.
    + intros l Hl. apply In_nth_error in Hl. destruct Hl as [i Hi]. apply si_nodup. apply (Hs i l Hi).
    + intros i j a b x Lij Ha Hb Hxa Hxb. destruct (Hs i a Ha) as (_ & _ & sa & Hsa & Ra & _).
      destruct (Hs j b Hb) as (_ & _ & sb & Hsb & Rb & _).
      apply (Hap i j sa sb x Lij Hsa Hsb); [apply Ra; exact Hxa|apply Rb; exact Hxb].
  - intros x Hx. apply InC in Hx. destruct Hx as (s' & Hs' & Hxs). apply In_nth_error in Hs'. destruct Hs' as [i Hi].
    destruct (Hs i s' Hi) as (_ & _ & s & _ & R & _). apply R; exact Hxs.
  - intros k x w Hx Hxc Hw. assert (Hin : In (x, w) (combine grid rows2)) by (apply in_combine_nth; exists k; auto).
    apply Hcmb in Hin. destruct Hin as [(-> & _)|[_ Hn]]; [reflexivity|]. exfalso.
    apply InC in Hxc. destruct Hxc as (s' & Hs' & Hxs). apply In_nth_error in Hs'. destruct Hs' as [i Hi].
    destruct (Hs i s' Hi) as (_ & _ & s & Hsi & R & _). apply (Hn s); [eapply nth_error_In; eauto|]. apply R; exact Hxs.
  - rewrite E4. cbn [rbind]. exists r4, grid, rows4. split; [reflexivity|]. split; [exact I2|]. split; [exact Z4|].
    split; [rewrite P4; cbn [r3 set_z r_prior]; congruence|]. split; [exact T4|]. split; [congruence|].
    intros k x w Hx Hw. destruct (F4 k x w Hx Hw) as [A B].
    destruct (nth_error_lt rows2 k) as [w2 Hw2]; [rewrite L2; eapply nth_error_len; eauto|].
    assert (Hin : In (x, w2) (combine grid rows2)) by (apply in_combine_nth; exists k; auto).
    apply Hcmb in Hin. destruct Hin as [(_ & s' & Hs' & Hxs)|[Hin Hn]].
    + left. destruct A as (c & Hcc & F); [apply InC; eauto|]. split; [|exists c; split; [lia|exact F]].
      apply In_nth_error in Hs'. destruct Hs' as [i Hi]. destruct (Hs i s' Hi) as (_ & _ & s & Hsi & R & _).
      exists s. split; [eapply nth_error_In; eauto|]. apply R; exact Hxs.
    + right. split; [exact Hn|].
      assert (Nin : ~ In x (concat subs')).
      { intro K. apply InC in K. destruct K as (s' & Hs' & Hxs). apply In_nth_error in Hs'. destruct Hs' as [i Hi].
        destruct (Hs i s' Hi) as (_ & _ & s & Hsi & R & _). apply (Hn s); [eapply nth_error_In; eauto|]. apply R; exact Hxs. }
      specialize (B Nin). rewrite Hw2 in B. injection B as ->.
      apply in_combine_nth in Hin. destruct Hin as (i & Hi1 & Hi2). exists i. split; [exact Hi1|]. apply F1; auto.
Qed.
End Fit.

(** *** the getters *)
Lemma mapr_total' {A B} (f : A -> res B) l (P : A -> B -> Prop) : (forall a, In a l -> exists b, f a = Ok b /\ P a b) ->
  exists m, mapr f l = Ok m /\ length m = length l /\ forall j a b, nth_error l j = Some a -> nth_error m j = Some b -> P a b.
Proof.
  induction l as [|a t IH]; intro H.
  - exists []. split; [reflexivity|]. split; [reflexivity|]. intros [|j] x y K; discriminate.
  - destruct (H a (or_introl eq_refl)) as (b & Eb & Pb). destruct IH as (m & Em & Lm & Pm); [intros x Hx; apply H; right; exact Hx|].
    cbn [mapr]. rewrite Eb. cbn [rbind]. rewrite Em. cbn [rbind]. exists (b :: m). split; [reflexivity|]. split; [simpl; lia|].
    intros [|j] x y Hx Hy; simpl in *; [injection Hx as <-; injection Hy as <-; exact Pb|eauto].
Qed.
Lemma matrix_cell {A} (cols : list (list A)) n f rows k w : matrix cols n f rows -> nth_error rows k = Some w ->
  forall j c, nth_error cols j = Some c -> exists x, nth_error c k = Some x /\ nth_error (f w) j = Some x.
Proof.
  intros (L & LR & H) Hk j c Hj. specialize (H j c Hj). apply (f_equal (fun l => nth_error l k)) in H.
  rewrite !nth_error_map, Hk in H. cbn in H. destruct (nth_error c k) as [x|]; cbn in H; [|discriminate].
  injection H as H. exists x. auto.
Qed.
Lemma cells_list {A} (cols : list (list A)) n f rows k w (g : list A -> res A) : matrix cols n f rows -> nth_error rows k = Some w ->
  (forall c x, nth_error c k = Some x -> g c = Ok x) -> mapr g cols = Ok (f w).
Proof.
  intros M Hk Hg. destruct (mapr_total' g cols (fun c x => nth_error c k = Some x)) as (m & E & L & Hm).
  { intros c Hc. apply In_nth_error in Hc. destruct Hc as [j Hj]. destruct (matrix_cell _ _ _ _ _ _ M Hk j c Hj) as (x & Hx & _).
    exists x. split; [apply Hg; exact Hx|exact Hx]. }
  rewrite E. f_equal. apply nth_ext_error. intro j. pose proof M as (Lc & LR & _).
  destruct (nth_error cols j) as [c|] eqn:Ej.
  - destruct (matrix_cell _ _ _ _ _ _ M Hk j c Ej) as (x & Hx & Hfx). rewrite Hfx.
    destruct (nth_error_lt m j) as [y Hy]; [rewrite L; eapply nth_error_len; eauto|]. rewrite Hy. f_equal.
    pose proof (Hm j c y Ej Hy) as K. congruence.
  - apply nth_error_None in Ej. rewrite (proj2 (nth_error_None m j)) by lia. symmetry. apply nth_error_None.
    rewrite (LR w (nth_error_In _ _ Hk)). lia.
Qed.
Lemma getters_spec r nT nR rows k w : table r nT nR rows -> length (r_z r) = length rows -> nth_error rows k = Some w ->
  getChisquareTplContinuumResult r k = Ok (w_cont w) /\ getChisquareTplratioResult r k = Ok (w_rchi2 w) /\
  getScaleMargCorrTplratioResult r k = Ok (w_rmarg w) /\ getStrongELPresentTplratioResult r k = Ok (w_strong w) /\
  getHaELPresentTplratioResult r k = Ok (w_ha w) /\ getNLinesAboveSNRTplratioResult r k = Ok (w_nl w) /\
  getPriorLinesTplratioResult r k = Ok (w_pl w).
Proof.
  intros (_ & _ & _ & _ & _ & _ & T7 & T8 & T9 & T10 & T11 & T12 & T13) L Hw.
  assert (Hk : (k < length (r_z r))%nat) by (rewrite L; eapply nth_error_len; eauto).
  assert (G : forall (A : Type) (cols : list (list A)) f, matrix cols nR f rows -> get_all (length (r_z r)) cols k = Ok (f w)).
  { intros A cols f M. unfold get_all. destruct (Nat.leb_spec (length (r_z r)) k) as [K|_]; [lia|].
    apply (cells_list cols nR f rows k w); auto. intros c x Hx. apply vget_Ok; exact Hx. }
  assert (At : forall n (cols : list (list flt)) f, matrix cols n f rows -> at_all cols k = Ok (f w)).
  { intros n cols f M. unfold at_all. apply (cells_list cols n f rows k w); auto. intros c x Hx. rewrite Hx. reflexivity. }
  split; [eapply At; eassumption|]. split; [eapply At; eassumption|].
  repeat (split; [eapply G; eassumption|]). eapply G; eassumption.
Qed.
