From Verif Require Import Base RangeModel RangeProofs RangeGridProofs F64 RatSpec RatProofs VfitModel VfitSpec VfitProofs VfitProofs2 VfitProofs3.
Open Scope Q_scope.

(** ** all the candidates, without fit of the velocities *)
Lemma estimate_all_nofit e c zs ext cs : keeps e -> k_fit c = false -> (forall z, In z cs -> exists k, first_at zs z k) -> forall i s,
  length (s_sol s) = length zs -> (i + length cs <= length (s_alv s))%nat -> (i + length cs <= length (s_elv s))%nat ->
  exists s', EstimateSecondPassParameters e c zs ext i cs s = Ok s' /\ s_va s' = s_va s /\ s_ve s' = s_ve s /\
    s_fitter s' = s_fitter s /\ s_noism s' = s_noism s /\ s_chi s' = s_chi s /\ length (s_sol s') = length (s_sol s) /\
    length (s_alv s') = length (s_alv s) /\ length (s_elv s') = length (s_elv s) /\
    (forall j, (i <= j < i + length cs)%nat -> nth_error (s_alv s') j = Some (s_va s) /\ nth_error (s_elv s') j = Some (s_ve s)) /\
    (forall j, ~ (i <= j < i + length cs)%nat -> nth_error (s_alv s') j = nth_error (s_alv s) j /\ nth_error (s_elv s') j = nth_error (s_elv s) j).
Proof.
  intros K F. induction cs as [|z t IH]; intros G i s Ls La Le.
  - exists s. split; [reflexivity|]. repeat (split; [reflexivity|]). split; [intros j H; cbn in H; lia|]. intros j _; split; reflexivity.
  - cbn [length] in *. destruct (G z) as (k & Zk); [left; reflexivity|]. pose proof (first_at_lt _ _ _ Zk) as Lk.
    destruct (estimate_nofit e c zs ext i z s k K F Zk) as (s1 & E1 & V1 & V2 & V3 & V4 & V5 & [V6 _] & [V7 V7'] & [V8 V8'] & V9 & V10); try lia.
    destruct (IH (fun y I => G y (or_intror I)) (S i) s1) as (s2 & E2 & U1 & U2 & U3 & U4 & U5 & U6 & U7 & U8 & U9 & U10); try lia.
    exists s2. cbn [EstimateSecondPassParameters]. rewrite E1. cbn [rbind]. split; [exact E2|].
    repeat (split; [congruence|]). split.
    + intros j H. destruct (Nat.eq_dec j i) as [->|N].
      * destruct (U10 i) as [A B]; [lia|]. rewrite A, B. auto.
      * destruct (U9 j) as [A B]; [lia|]. rewrite A, B, V1, V2. auto.
    + intros j H. destruct (U10 j) as [A B]; [lia|]. rewrite A, B. split; [apply V7'|apply V8']; lia.
Qed.

(** ** all the candidates, with the fit of the velocities *)
Lemma estimate_all_fit e c zs ext vsA vsE cs : keeps e -> k_fit c = true -> velfitlist (k_abs c) = Ok vsA -> velfitlist (k_em c) = Ok vsE ->
  forall i s,
  (forall j z, nth_error cs j = Some z -> exists k w ib ie, first_at zs z k /\ nth_error ext (i + j) = Some w /\ bounds zs w ib ie) ->
  length (s_sol s) = length zs -> length (s_chi s) = length zs -> (i + length cs <= length (s_alv s))%nat -> (i + length cs <= length (s_elv s))%nat ->
  exists s' (va ve : nat -> option Q), EstimateSecondPassParameters e c zs ext i cs s = Ok s' /\
    va 0%nat = s_va s /\ ve 0%nat = s_ve s /\ va (length cs) = s_va s' /\ ve (length cs) = s_ve s' /\
    s_fitter s' = s_fitter s /\ length (s_sol s') = length (s_sol s) /\ length (s_chi s') = length (s_chi s) /\
    length (s_alv s') = length (s_alv s) /\ length (s_elv s') = length (s_elv s) /\
    (forall j z k w ib ie, nth_error cs j = Some z -> first_at zs z k -> nth_error ext (i + j) = Some w -> bounds zs w ib ie ->
      exists cont b a0 e0 a1 e1 c0 c1 c2, let u := vel_setup c (first_cont c (i + j) cont) b (reest1 c) in let zw := near_samples zs ib ie k in
        (k_tplfit c = false -> cont = s_cont s) /\ (k_tplratio c = false -> b = s_noism s) /\
        nth_error (s_alv s) (i + j) = Some a0 /\ nth_error (s_elv s) (i + j) = Some e0 /\
        scanned (fun p => e_merit e (abs_run u (ve j) p)) (tests zw vsA) (va j) a0 c0 (va (S j)) a1 c1 /\
        scanned (fun p => e_merit e (em_run u (va (S j)) p)) (tests zw vsE) (ve j) e0 c1 (ve (S j)) e1 c2 /\
        nth_error (s_alv s') (i + j) = Some a1 /\ nth_error (s_elv s') (i + j) = Some e1) /\
    (forall j, ~ (i <= j < i + length cs)%nat -> nth_error (s_alv s') j = nth_error (s_alv s) j /\ nth_error (s_elv s') j = nth_error (s_elv s) j).
Proof.
  intros K F VA VE. induction cs as [|z t IH]; intros i s G Ls Lc La Le.
  - exists s, (fun _ => s_va s), (fun _ => s_ve s). split; [reflexivity|]. repeat (split; [reflexivity|]).
    split; [intros j z k w ib ie N; destruct j; discriminate|]. intros j _; split; reflexivity.
  - cbn [length] in *. destruct (G 0%nat z eq_refl) as (k & w & ib & ie & Zk & W & Bw). rewrite Nat.add_0_r in W.
    destruct (estimate_fit1 e c zs ext i z s k w ib ie vsA vsE K F Zk Ls Lc) as
      (s1 & a0 & e0 & a1 & e1 & c0 & c1 & c2 & E1 & A0 & E0 & S1 & S2 & N1 & N2 & _ & _ & [O1 O1'] & [O2 O2'] & [O3 _] & [O4 _] & R1 & R2 & R3); auto; try lia.
    destruct (IH (S i) s1) as (s2 & va & ve & E2 & P1 & P2 & P3 & P4 & P5 & P6 & P7 & P8 & P9 & P10 & P11); try lia.
    { intros j y N. destruct (G (S j) y N) as (k' & w' & ib' & ie' & H). exists k', w', ib', ie'. replace (i + S j)%nat with (S i + j)%nat in H by lia. exact H. }
    exists s2, (fun j => match j with O => s_va s | S j' => va j' end), (fun j => match j with O => s_ve s | S j' => ve j' end).
    cbn [EstimateSecondPassParameters]. rewrite E1. cbn [rbind]. split; [exact E2|].
    split; [reflexivity|]. split; [reflexivity|]. split; [exact P3|]. split; [exact P4|]. repeat (split; [congruence|]). split.
    + intros j y k' w' ib' ie' N Zk' W' Bw'. destruct j as [|j].
      * injection N as <-. rewrite Nat.add_0_r in *. rewrite W in W'. injection W' as <-.
        assert (k' = k). { apply getIndex_first in Zk, Zk'. congruence. } subst k'.
        assert (ib' = ib). { destruct Bw as (_ & B1 & _), Bw' as (_ & B2 & _). apply getIndex_first in B1, B2. congruence. } subst ib'.
        assert (ie' = ie). { destruct Bw as (_ & _ & B1), Bw' as (_ & _ & B2). apply getIndex_first in B1, B2. congruence. } subst ie'.
        exists (s_cont s), (s_noism s), a0, e0, a1, e1, c0, c1, c2. cbn zeta. split; auto. split; auto. split; auto. split; auto.
        rewrite P1, P2. split; [exact S1|]. split; [exact S2|]. destruct (P11 i) as [A B]; [lia|]. rewrite A, B. auto.
      * cbn [nth_error] in N. replace (i + S j)%nat with (S i + j)%nat in * by lia.
        destruct (P10 j y k' w' ib' ie' N Zk' W' Bw') as (cont & b & x0 & y0 & x1 & y1 & d0 & d1 & d2 & Hc & Hb & Q1 & Q2 & Q3 & Q4 & Q5 & Q6).
        exists cont, b, x0, y0, x1, y1, d0, d1, d2. cbn zeta. split.
        { intro T. rewrite (Hc T), R2. unfold first_cont. rewrite T. reflexivity. }
        split. { intro T. rewrite (Hb T), R3, T. reflexivity. }
        rewrite O1' in Q1 by lia. rewrite O2' in Q2 by lia. auto 10.
    + intros j H. destruct (P11 j) as [A B]; [lia|]. rewrite A, B. split; [apply O1'|apply O2']; lia.
Qed.

Lemma estimate_app e c zs ext p q : forall i s,
  EstimateSecondPassParameters e c zs ext i (p ++ q) s =
  (do s <- EstimateSecondPassParameters e c zs ext i p s; EstimateSecondPassParameters e c zs ext (i + length p) q s).
Proof.
  induction p as [|z t IH]; intros i s; [cbn; rewrite Nat.add_0_r; reflexivity|]. cbn [app EstimateSecondPassParameters length].
  destruct (estimate_one e c zs ext i z s) as [s1| |]; cbn [rbind]; auto. rewrite IH. replace (i + S (length t))%nat with (S i + length t)%nat by lia. reflexivity.
Qed.
Lemma estimate_off_grid e c zs ext vsA vsE pre z post s : keeps e -> velfitlist (k_abs c) = Ok vsA -> velfitlist (k_em c) = Ok vsE ->
  (forall j y, nth_error pre j = Some y -> exists k w ib ie, first_at zs y k /\ nth_error ext j = Some w /\ bounds zs w ib ie) ->
  length (s_sol s) = length zs -> length (s_chi s) = length zs -> (length pre <= length (s_alv s))%nat -> (length pre <= length (s_elv s))%nat ->
  (forall x, In x zs -> ~ x == z) ->
  EstimateSecondPassParameters e c zs ext 0 (pre ++ z :: post) s = Throw INTERNAL_ERROR.
Proof.
  intros K VA VE G Ls Lc La Le H. rewrite estimate_app.
  assert (X : exists s', EstimateSecondPassParameters e c zs ext 0 pre s = Ok s').
  { destruct (k_fit c) eqn:F.
    - destruct (estimate_all_fit e c zs ext vsA vsE pre K F VA VE 0 s) as (s' & _ & _ & E & _); auto. exists s'; exact E.
    - destruct (estimate_all_nofit e c zs ext pre K F) with (i := 0%nat) (s := s) as (s' & E & _); auto; [|exists s'; exact E].
      intros y I. apply In_nth_error in I. destruct I as (j & N). destruct (G j y N) as (k & _ & _ & _ & Z & _). exists k; exact Z. }
  destruct X as (s' & ->). cbn [rbind]. cbn [EstimateSecondPassParameters plus]. rewrite estimate_off by exact H. reflexivity.
Qed.

(** ** the windows *)
Lemma window_loop_spec e zs n w : keeps e -> forall s, (forall z, In z w -> exists k, first_at zs z k) ->
  length (s_sol s) = length zs -> length (s_chi s) = length zs ->
  exists s', window_loop e zs n w s = Ok s' /\
    s_va s' = s_va s /\ s_ve s' = s_ve s /\ s_fitter s' = s_fitter s /\ s_noism s' = s_noism s /\ s_cont s' = s_cont s /\
    s_alv s' = s_alv s /\ s_elv s' = s_elv s /\ length (s_sol s') = length zs /\ length (s_chi s') = length zs /\
    (forall k, in_window zs w k -> let r := mkRun (mkS (s_fitter s) (s_noism s) (s_cont s) n) (nth k zs 0) (s_va s) (s_ve s) in
       nth_error (s_sol s') k = Some r /\ nth_error (s_chi s') k = Some (e_merit e r)) /\
    (forall k, ~ in_window zs w k -> nth_error (s_sol s') k = nth_error (s_sol s) k /\ nth_error (s_chi s') k = nth_error (s_chi s) k).
Proof.
  intro K. induction w as [|z t IH] using rev_ind; intros s G Ls Lc.
  - exists s. split; [reflexivity|]. repeat (split; [solve [auto]|]). split; [intros k (z & [] & _)|]. auto.
  - assert (APP : forall p q s, window_loop e zs n (p ++ q) s = (do s <- window_loop e zs n p s; window_loop e zs n q s)).
    { clear. induction p as [|y p IHp]; intros q s; [reflexivity|]. cbn [app window_loop]. destruct (getIndex zs y) as [iz| |]; cbn [rbind]; auto.
      destruct (vget zs iz) as [zi| |]; cbn [rbind]; auto. destruct (fit e s n zi iz) as [[m s1]| |]; cbn [rbind]; auto.
      destruct (vset (s_chi s1) iz m) as [l| |]; cbn [rbind]; auto. }
    rewrite APP. destruct (IH s) as (s1 & E & V1 & V2 & V3 & V4 & V5 & V6 & V7 & V8 & V9 & V10 & V11); auto.
    { intros y I. apply G. apply in_or_app. left. exact I. }
    rewrite E. cbn [rbind window_loop]. destruct (G z) as (k & Zk); [apply in_or_app; right; left; reflexivity|].
    rewrite (getIndex_first _ _ _ Zk). cbn [rbind]. pose proof (first_at_lt _ _ _ Zk) as Lk. unfold vget. rewrite (nth_error_nth' zs 0 Lk). cbn [rbind].
    destruct (own_fit e s1 n (nth k zs 0) k K) as (l & El & ->); [lia|]. cbn [rbind with_sol s_chi].
    rewrite V1, V2, V3, V4, V5 in *. set (r := mkRun _ _ _ _) in *.
    destruct (vset_ok (s_sol s1) k r) as (l' & El' & Ll & Nl & Ol); [lia|]. rewrite El in El'. injection El' as <-.
    destruct (vset_ok (s_chi s1) k (e_merit e r)) as (d & Ed & Ld & Nd & Od); [lia|]. rewrite Ed. cbn [rbind].
    eexists. split; [reflexivity|]. cbn [with_chi with_sol s_va s_ve s_fitter s_noism s_cont s_alv s_elv s_sol s_chi].
    repeat (split; [congruence|]).
    assert (IW : forall j, in_window zs (t ++ [z]) j <-> in_window zs t j \/ j = k).
    { intro j. split.
      - intros (y & I & F). apply in_app_or in I. destruct I as [I|[I|[]]]; [left; exists y; auto|]. subst y. right. apply getIndex_first in F, Zk. congruence.
      - intros [(y & I & F)|H]; [exists y; split; auto; apply in_or_app; auto|]. subst j. exists z. split; auto. apply in_or_app; right; left; reflexivity. }
    split.
    + intros j I. cbn zeta. destruct (Nat.eq_dec j k) as [Ej|N]; [subst j; fold r; auto|]. rewrite Ol, Od by exact N. apply IW in I. destruct I as [I|I]; [|tauto].
      destruct (V10 j I) as [A B]. auto.
    + intros j I. assert (N : j <> k) by (intro H; apply I; apply IW; auto). rewrite Ol, Od by exact N. apply V11. intro H. apply I. apply IW. auto.
Qed.
Lemma window_loop_off e zs n p z q s : keeps e -> (forall z, In z p -> exists k, first_at zs z k) -> (forall x, In x zs -> ~ x == z) ->
  length (s_sol s) = length zs -> length (s_chi s) = length zs -> window_loop e zs n (p ++ z :: q) s = Throw INTERNAL_ERROR.
Proof.
  intros K G H Ls Lc. revert s Ls Lc. induction p as [|y p IH]; intros s Ls Lc.
  - cbn [app window_loop]. pose proof (getIndex_spec zs z) as X. destruct (getIndex zs z) as [j|[]|]; try contradiction; [|reflexivity].
    exfalso. destruct X as [(x & N & E) _]. apply (H x); auto. apply (nth_error_In _ _ N).
  - cbn [app window_loop]. destruct (G y) as (k & Zk); [left; reflexivity|]. pose proof (first_at_lt _ _ _ Zk) as Lk.
    rewrite (getIndex_first _ _ _ Zk). cbn [rbind]. unfold vget. rewrite (nth_error_nth' zs 0 Lk). cbn [rbind].
    destruct (own_fit e s n (nth k zs 0) k K) as (l & El & ->); [lia|]. cbn [rbind with_sol s_chi].
    match goal with |- context[vset (s_chi s) k ?m] => destruct (vset_ok (s_chi s) k m) as (d & Ed & Ld & _); [lia|] end. rewrite Ed. cbn [rbind].
    apply IH; [intros y' I; apply G; right; exact I| |exact (eq_trans Ld Lc)].
    cbn. match type of El with vset _ _ ?r = _ => destruct (vset_ok (s_sol s) k r) as (l' & El' & Ll & _); [lia|] end. congruence.
Qed.

Lemma recompute_spec e c o zs ext cs : keeps e -> forall i s,
  (forall j z, nth_error cs j = Some z -> (exists k, first_at zs z k) /\
     exists w, nth_error ext (i + j) = Some w /\ w <> [] /\ forall y, In y w -> exists k, first_at zs y k) ->
  length (s_sol s) = length zs -> length (s_chi s) = length zs -> (i + length cs <= length (s_alv s))%nat -> (i + length cs <= length (s_elv s))%nat ->
  exists s', recompute_loop e c o zs ext i cs s = Ok s' /\ s_fitter s' = s_fitter s /\ s_noism s' = s_noism s /\ s_alv s' = s_alv s /\ s_elv s' = s_elv s /\
    (forall j, S j = length cs -> nth_error (s_alv s) (i + j) = Some (s_va s') /\ nth_error (s_elv s) (i + j) = Some (s_ve s')) /\
    length (s_sol s') = length zs /\ length (s_chi s') = length zs /\
    (forall k, (forall j w, (j < length cs)%nat -> nth_error ext (i + j) = Some w -> ~ in_window zs w k) ->
       nth_error (s_sol s') k = nth_error (s_sol s) k /\ nth_error (s_chi s') k = nth_error (s_chi s) k) /\
    (forall k j w va ve, (j < length cs)%nat -> nth_error ext (i + j) = Some w -> in_window zs w k ->
       (forall j' w', (j < j' < length cs)%nat -> nth_error ext (i + j') = Some w' -> ~ in_window zs w' k) ->
       nth_error (s_alv s) (i + j) = Some va -> nth_error (s_elv s) (i + j) = Some ve ->
       exists prev, let r := mkRun (mkS (s_fitter s) (s_noism s) (second_cont c o (i + j) prev) (reest2 c)) (nth k zs 0) va ve in
         (k_tplfit c = false \/ (3 < o)%nat -> prev = s_cont s) /\
         nth_error (s_sol s') k = Some r /\ nth_error (s_chi s') k = Some (e_merit e r)).
Proof.
  intro K. induction cs as [|z t IH]; intros i s G Ls Lc La Le.
  - exists s. split; [reflexivity|]. repeat (split; [solve [auto]|]). split; [intros j H; discriminate|]. split; auto. split; auto. split; auto.
    intros k j w va ve H. cbn in H. lia.
  - cbn [length] in *. destruct (G 0%nat z eq_refl) as ((kz & Zk) & w & W & Wn & Wg). rewrite Nat.add_0_r in W.
    cbn [recompute_loop]. unfold recompute_one.
    destruct (nth_error_lt (s_elv s) i) as (ve & VE); [lia|]. destruct (nth_error_lt (s_alv s) i) as (va & VA); [lia|].
    unfold vget at 1 2. rewrite VE, VA. cbn [rbind]. rewrite second_cont_inject, (getIndex_first _ _ _ Zk). cbn [rbind].
    unfold vget at 1. rewrite W. cbn [rbind]. rewrite (front_hd _ Wn). cbn [rbind]. fold (reest2 c).
    set (s1 := with_cont _ _). destruct (window_loop_spec e zs (reest2 c) w K s1 Wg) as (s2 & E2 & V1 & V2 & V3 & V4 & V5 & V6 & V7 & V8 & V9 & V10 & V11); auto.
    rewrite E2. cbn [rbind]. cbn [s1 with_cont with_va with_ve s_va s_ve s_fitter s_noism s_cont s_alv s_elv s_sol s_chi] in V1, V2, V3, V4, V5, V6, V7, V10, V11.
    destruct (IH (S i) s2) as (s3 & E3 & U1 & U2 & U3 & U4 & U5 & U6 & U7 & U8 & U9); try congruence.
    { intros j y N. replace (S i + j)%nat with (i + S j)%nat by lia. apply G. exact N. } { rewrite V6. lia. } { rewrite V7. lia. }
    exists s3. split; [exact E3|]. repeat (split; [congruence|]). split; [|split; [congruence|split; [congruence|]]].
    { intros j H. destruct t as [|z' t'].
      - cbn in H. assert (j = 0)%nat by lia. subst j. cbn [recompute_loop] in E3. injection E3 as <-. rewrite Nat.add_0_r, V1, V2. auto.
      - destruct j as [|j]; [cbn in H; lia|]. rewrite V6, V7 in U5. replace (i + S j)%nat with (S i + j)%nat by lia. apply U5. cbn in *. lia. }
    split.
    + intros k H. destruct (U8 k) as [A B].
      { intros j w' Hj N. apply (H (S j)); [lia|]. replace (i + S j)%nat with (S i + j)%nat by lia. exact N. }
      rewrite A, B. apply V11. apply (H 0%nat); [lia|]. rewrite Nat.add_0_r. exact W.
    + intros k j w' va' ve' Hj N IW Hl NA NE. destruct j as [|j].
      * rewrite Nat.add_0_r in *. rewrite W in N. injection N as <-. rewrite VA in NA. rewrite VE in NE. injection NA as <-. injection NE as <-.
        destruct (U8 k) as [A B].
        { intros j' w'' Hj' N'. apply (Hl (S j')); [lia|]. replace (i + S j')%nat with (S i + j')%nat by lia. exact N'. }
        exists (s_cont s). cbn zeta. split; auto. rewrite A, B. apply (V10 k IW).
      * replace (i + S j)%nat with (S i + j)%nat in * by lia.
        destruct (U9 k j w' va' ve') as (prev & Hp & A & B); auto; try lia; try congruence.
        { intros j' w'' Hj' N'. apply (Hl (S j')); [lia|]. replace (i + S j')%nat with (S i + j')%nat by lia. exact N'. }
        exists prev. cbn zeta. split.
        { intro H. rewrite (Hp H), V5. unfold second_cont. destruct (k_tplfit c); auto. destruct H as [H|H]; [discriminate|].
          destruct o as [|[|[|[|]]]]; auto; lia. }
        rewrite V3, V4 in A, B. auto.
Qed.
