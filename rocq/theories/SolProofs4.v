(** C91: a solution loaded gives back what it was made from. *)
From Coq Require Import String Sorting.Permutation.
From Verif Require Import Base RangeModel RangeProofs F64 RulesModel LyaModel SolModel SolSpec SolProofs SolProofs2 SolProofs3.
Open Scope Q_scope.

Lemma F2_at_r {A B} (P : A -> B -> Prop) l m i y : Forall2 P l m -> nth_error m i = Some y -> exists x, nth_error l i = Some x /\ P x y.
Proof. intro F. revert i. induction F as [|a b l m H F IH]; intros i N; [destruct i; discriminate|]. destruct i as [|i]; [injection N as <-; exists a; auto|apply IH, N]. Qed.
Lemma F2_length {A B} (P : A -> B -> Prop) l m : Forall2 P l m -> List.length l = List.length m.
Proof. induction 1; cbn; congruence. Qed.
(** the three kinds of rows *)
Lemma row_cases v full s x r : st_ok s -> row_ok v full s x r -> r_id r = l_id x /\
  ((r_out r = true /\ (absent (s_elts s) x \/ exists k i y, at_line (s_elts s) k i y /\ l_id y = l_id x /\ is_out s k i = true)) \/ (exists k i e, measured s x k i e /\ r_out r = false /\ r_elt r = Z.of_nat k)).
Proof.
  intros W (R1 & R2 & R3). pose proof (find_spec (s_elts s) (l_id x) (proj1 W)) as H. destruct (findElementIndex (s_elts s) (l_id x)) as [[k i]|].
  - destruct H as (y & A & Ey). destruct (is_out s k i) eqn:O.
    + destruct (R2 k i y A Ey O) as (_ & Er). split; [rewrite Er; reflexivity|]. left. split; [rewrite Er; reflexivity|]. right. exists k, i, y. auto.
    + destruct A as (e & N & M). assert (Me : measured s x k i e) by (split; [exact N|]; split; [exists y; auto|exact O]). destruct (R3 k i e Me) as (P1 & P2 & P3 & _). split; [exact P1|]. right. exists k, i, e. auto.
  - assert (Ab : absent (s_elts s) x) by (intros k i y A; apply (H k i y A)). rewrite (R1 Ab). split; [reflexivity|]. left. split; [reflexivity|auto].
Qed.
Lemma rows_ids v full s cat rows : st_ok s -> Forall2 (row_ok v full s) cat rows -> map r_id rows = map l_id cat.
Proof. intros W F. induction F as [|x r cat rows R F IH]; [reflexivity|]. cbn. rewrite IH, (proj1 (row_cases v full s x r W R)). reflexivity. Qed.
Lemma measured_unique s x k i e k' i' e' : st_ok s -> measured s x k i e -> measured s x k' i' e' -> k = k' /\ i = i' /\ e = e'.
Proof.
  intros W (N & (y & M & E) & _) (N' & (y' & M' & E') & _). destruct (at_unique (s_elts s) k i y k' i' y' (proj2 (proj1 W))) as (-> & ->); [exists e; auto|exists e'; auto|congruence|]. repeat split; congruence.
Qed.
Lemma rows_agree v full s cat rows : st_ok s -> Forall2 (row_ok v full s) cat rows -> agree rows.
Proof.
  intros W F r r' I I' E O O'. apply In_nth_error in I, I'. destruct I as (n & N), I' as (n' & N'). destruct (F2_at_r _ _ _ _ _ F N) as (x & _ & R), (F2_at_r _ _ _ _ _ F N') as (x' & _ & R').
  destruct (row_cases _ _ _ _ _ W R) as (_ & [(X & _)|(k & i & e & Me & _ & Ek)]); [congruence|]. destruct (row_cases _ _ _ _ _ W R') as (_ & [(X & _)|(k' & i' & e' & Me' & _ & Ek')]); [congruence|].
  assert (k' = k) by lia. subst k'. assert (e' = e) by (destruct Me as (A & _), Me' as (B & _); congruence). subst e'.
  destruct (proj2 (proj2 R) k i e Me) as (_ & _ & _ & A1 & _ & _ & _ & A2 & _ & _ & A3 & A4), (proj2 (proj2 R') k i' e Me') as (_ & _ & _ & B1 & _ & _ & _ & B2 & _ & _ & B3 & B4).
  split; [congruence|]. split; [congruence|]. destruct full.
  - destruct (A4 eq_refl) as (_ & _ & P & _), (B4 eq_refl) as (_ & _ & P' & _). congruence.
  - destruct (A3 eq_refl) as (_ & _ & _ & _ & _ & _ & _ & _ & P), (B3 eq_refl) as (_ & _ & _ & _ & _ & _ & _ & _ & P'). congruence.
Qed.
Lemma same_ids l m : Forall2 same_line l m -> map l_id l = map l_id m.
Proof. induction 1 as [|x y l m H _ IH]; [reflexivity|]. cbn. rewrite IH, (proj1 H). reflexivity. Qed.
Lemma reset_good e e2 : distinct_ids (t_lines e) -> elt_ok e2 -> Forall2 same_line (t_lines e) (t_lines e2) -> good_elt (reset_elt e2).
Proof.
  intros D (O1 & O2 & O3 & _) F. split; [|unfold distinct_ids in *; cbn [t_lines reset_elt]; rewrite <- (same_ids _ _ F); exact D].
  unfold elt_ok. cbn [reset_elt t_lines t_ids t_asym t_amp t_std t_off]. rewrite !map_length. repeat (split; [solve [auto]|]). auto.
Qed.
Lemma val_map_none {A} (l : list A) i : val (map (fun _ => None) l) i = None.
Proof. rewrite val_ne, nth_error_map. destruct (nth_error l i); reflexivity. Qed.
Lemma restored_map poly cat s k e e' f : restored poly cat s k e e' -> restored poly cat s k e (map_profiles f e').
Proof.
  intros (R1 & R2 & R3 & R4 & R5 & R6). unfold restored. cbn [map_profiles t_em t_lines t_amp t_std t_off t_info t_poly t_vem t_vab]. split; [exact R1|]. split; [rewrite map_length; exact R2|]. split; [|auto].
  intros i y N. destruct (R3 i y N) as ((y' & N' & S') & R7). split; [|exact R7]. rewrite nth_error_map, N'. eexists. split; [reflexivity|]. exact S'.
Qed.
Lemma round_trip v full offs cat s s2 o : st_ok s -> distinct_ids cat -> GetModelSolution v full cat s = Ok o -> twin s s2 ->
  exists s', LoadModelSolution offs o s2 = Ok s' /\ s_z s' = s_z s /\ s_out s' = s_out s2 /\ List.length (s_elts s') = List.length (s_elts s) /\
  forall k e, nth_error (s_elts s) k = Some e -> exists e', nth_error (s_elts s') k = Some e' /\ restored (offs && full && v_offsets v)%bool cat s k e e'.
Proof.
  intros W Dc Eo Tw. destruct (solution_parts v full cat s W) as [(x & k & i & e & _ & _ & _ & _ & _ & X)|(o' & Eo' & R & _ & _ & _ & Ez & _)]; [congruence|]. assert (o' = o) by congruence. subst o'. clear Eo'.
  set (e0s := map reset_elt (s_elts s2)). assert (Ln : List.length e0s = List.length (s_elts s)) by (unfold e0s; rewrite map_length; symmetry; apply (F2_length _ _ _ Tw)).
  assert (Gd : Forall good_elt e0s).
  { apply Forall_forall. intros e0 I. unfold e0s in I. apply in_map_iff in I. destruct I as (e2 & <- & I). apply In_nth_error in I. destruct I as (k & N2). destruct (F2_at_r _ _ _ _ _ Tw N2) as (e & N & O2 & Sl & _).
    apply (reset_good e); [apply (elt_distinct _ e (proj1 W) (nth_error_In _ _ N))|exact O2|exact Sl]. }
  destruct (load_rows_spec offs e0s (o_rows o) Gd [] (map (fun _ => false) e0s) e0s) as (es' & El & Ll & Hm).
  - cbn [app]. rewrite (rows_ids v full s cat _ W R). exact Dc.
  - cbn [app]. apply (rows_agree v full s cat _ W R).
  - intros r I O. right. apply In_nth_error in I. destruct I as (n & N). destruct (F2_at_r _ _ _ _ _ R N) as (x & _ & Rr). destruct (row_cases _ _ _ _ _ W Rr) as (_ & [(X & _)|(k & i & e & Me & _ & Ek)]); [congruence|].
    exists k. split; [exact Ek|]. rewrite Ln. apply (nth_error_len _ _ _ (proj1 Me)).
  - rewrite map_length. reflexivity.
  - reflexivity.
  - intros k e0 N. exists false, e0. split; [rewrite nth_error_map, N; reflexivity|]. split; [exact N|apply made_start].
  - cbn [app] in Hm.
    assert (Main : forall k e, nth_error (s_elts s) k = Some e -> exists e', nth_error es' k = Some e' /\ restored (offs && full && v_offsets v)%bool cat s k e e').
    { intros k e N. destruct (F2_at _ _ _ _ _ Tw N) as (e2 & N2 & O2 & Sl & Eem & Elim). assert (N0 : nth_error e0s k = Some (reset_elt e2)) by (unfold e0s; rewrite nth_error_map, N2; reflexivity).
      destruct (Hm k _ N0) as (d & e' & N' & M). exists e'. split; [exact N'|]. destruct M as [M1 M2 M3 M4 M5 M6 M7 M8 M9 M10 M11]. cbn [reset_elt t_lines t_em t_limit t_amp t_std t_off t_info t_poly t_vem t_vab] in *.
      assert (G2 : good_elt (reset_elt e2)) by (rewrite Forall_forall in Gd; apply Gd, (nth_error_In _ _ N0)).
      assert (Conv : forall r x i, row_ok v full s x r -> writes (reset_elt e2) k r i -> measured s x k i e).
      { intros r x i Rr (W1 & W2 & W3). destruct (row_cases _ _ _ _ _ W Rr) as (Ei & [(X & _)|(k' & i' & e3 & Me & _ & Ek)]); [congruence|]. assert (k' = k) by lia. subst k'. assert (e3 = e) by (destruct Me; congruence). subst e3.
        rewrite Ei in W3. pose proof (getLine_spec (reset_elt e2) (l_id x) (proj1 (proj2 (proj1 G2))) (proj2 G2)) as Gl. rewrite W3 in Gl. destruct Gl as (y2 & Ny2 & Ey2). cbn [reset_elt t_lines] in Ny2.
        destruct (F2_at_r _ _ _ _ _ Sl Ny2) as (y & Ny & Sy). assert (i = i').
        { destruct Me as (_ & (z & Nz & Ezx) & _). apply (nth_unique l_id (t_lines e) (proj2 (elt_distinct _ e (proj1 W) (nth_error_In _ _ N))) i i' y z Ny Nz). rewrite (proj1 Sy). congruence. }
        subst i'. exact Me. }
      assert (Wri : forall i y, nth_error (t_lines e) i = Some y -> reported cat s k i y -> exists r x, In r (o_rows o) /\ row_ok v full s x r /\ writes (reset_elt e2) k r i /\ measured s x k i e).
      { intros i y Ny (Iy & Oy). apply in_map_iff in Iy. destruct Iy as (x & Ex & Ix). apply In_nth_error in Ix. destruct Ix as (n & Nx). destruct (F2_at _ _ _ _ _ R Nx) as (r & Nr & Rr).
        assert (Me : measured s x k i e) by (split; [exact N|]; split; [exists y; auto|exact Oy]). exists r, x. split; [apply (nth_error_In _ _ Nr)|]. split; [exact Rr|]. split; [|exact Me].
        destruct (proj2 (proj2 Rr) k i e Me) as (P1 & P2 & P3 & _). split; [exact P2|]. split; [exact P3|]. rewrite P1.
        destruct (F2_at _ _ _ _ _ Sl Ny) as (y2 & Ny2 & Sy). pose proof (getLine_spec (reset_elt e2) (l_id x) (proj1 (proj2 (proj1 G2))) (proj2 G2)) as Gl.
        destruct (getLineIndex (reset_elt e2) (l_id x)) as [j|].
        - destruct Gl as (z & Nz & Ezx). f_equal. apply (nth_unique l_id _ (proj2 G2) j i z y2 Nz Ny2). rewrite <- (proj1 Sy). congruence.
        - exfalso. apply (Gl i y2 Ny2). rewrite <- (proj1 Sy). congruence. }
      assert (Wro : forall i y, nth_error (t_lines e) i = Some y -> forall r, In r (o_rows o) -> writes (reset_elt e2) k r i -> reported cat s k i y).
      { intros i y Ny r Ir Wr. apply In_nth_error in Ir. destruct Ir as (n & Nr). destruct (F2_at_r _ _ _ _ _ R Nr) as (x & Nx & Rr). destruct (Conv r x i Rr Wr) as (_ & (z & Nz & Ezx) & Oz). assert (z = y) by congruence. subst z.
        split; [rewrite Ezx; apply in_map, (nth_error_In _ _ Nx)|exact Oz]. }
      assert (Mt : forall r x i, In r (o_rows o) -> row_ok v full s x r -> writes (reset_elt e2) k r i -> measured s x k i e ->
        getVelocity e' = getVelocity e /\ t_info e' = t_info e /\ t_poly e' = (if (offs && full && v_offsets v)%bool then t_poly e else nan3)).
      { intros r x i Ir Rr Wr Me. destruct (M9 i r Ir Wr) as (_ & Q1 & Q2 & Q3). destruct (proj2 (proj2 Rr) k i e Me) as (_ & _ & _ & P1 & _ & _ & _ & P2 & _ & _ & P3 & P4).
        unfold getVelocity. rewrite M2, Eem in *. split; [destruct (t_em e); congruence|]. split; [congruence|]. rewrite Q3. destruct offs; cbn [andb]; [|reflexivity]. destruct full; cbn [andb].
        - destruct (P4 eq_refl) as (_ & _ & P5 & _). exact P5.
        - destruct (P3 eq_refl) as (_ & _ & _ & _ & _ & _ & _ & _ & P5). exact P5. }
      split; [congruence|]. split; [rewrite M1; symmetry; apply (F2_length _ _ _ Sl)|]. split; [|split; [|split]].
      - intros i y Ny. split; [rewrite M1; apply (F2_at _ _ _ _ _ Sl Ny)|]. split.
        + intro Rep. destruct (Wri i y Ny Rep) as (r & x & Ir & Rr & Wr & Me). destruct (M7 i r Ir Wr) as (Q1 & Q2 & Q3). destruct (proj2 (proj2 Rr) k i e Me) as (_ & _ & _ & _ & P1 & P2 & P3 & _).
          rewrite Q1, Q2, Q3, P2, P3, P1. split; [|auto]. replace (limited (reset_elt e2) (val (t_amp e) i)) with (limited e (val (t_amp e) i)); [apply limited_capped|]. unfold limited. cbn [reset_elt t_em t_limit]. rewrite Eem, Elim. reflexivity.
        + intro Nr. destruct (M8 i) as (Q1 & Q2 & Q3); [intros r Ir Wr; apply Nr, (Wro i y Ny r Ir Wr)|]. rewrite Q1, Q2, Q3, !val_map_none. split; [reflexivity|]. split; [reflexivity|].
          destruct (F2_at _ _ _ _ _ Sl Ny) as (y2 & Ny2 & Sy). rewrite val_ne, nth_error_map, Ny2. cbn [option_map]. f_equal. destruct Sy as (_ & _ & _ & _ & _ & Sy). auto.
      - intros (i & y & Ny & Rep). destruct (Wri i y Ny Rep) as (r & x & Ir & Rr & Wr & Me). apply (Mt r x i Ir Rr Wr Me).
      - intro Nr. destruct M10 as (_ & Q1 & Q2 & Q3).
        { intros i r Ir Wr. apply Nr. apply In_nth_error in Ir. destruct Ir as (n & Nn). destruct (F2_at_r _ _ _ _ _ R Nn) as (x & _ & Rr). destruct (Conv r x i Rr Wr) as (_ & (y & Ny & _) & _). exists i, y. split; [exact Ny|apply (Wro i y Ny r (nth_error_In _ _ Nn) Wr)]. }
        unfold getVelocity. rewrite M2, Eem in *. split; [destruct (t_em e); exact Q2|]. auto.
      - rewrite Eem in M11. destruct (t_em e); exact M11. }
    unfold LoadModelSolution. cbv zeta. fold e0s. rewrite El. cbn [rbind].
    set (es1 := match o_lya o with (Some _, Some _, Some _) => match find_tag 0 es' "LyAE" with Some k => (firstn k es' ++ match skipn k es' with [] => [] | e :: t => map_profiles (asym_of (o_lya o)) e :: t end)%list | None => es' end | _ => es' end).
    assert (Main1 : List.length es1 = List.length es' /\ forall k e, nth_error (s_elts s) k = Some e -> exists e', nth_error es1 k = Some e' /\ restored (offs && full && v_offsets v)%bool cat s k e e').
    { assert (Gen : forall k0 f, let l := (firstn k0 es' ++ match skipn k0 es' with [] => [] | e :: t => map_profiles f e :: t end)%list in
         List.length l = List.length es' /\ forall k e, nth_error (s_elts s) k = Some e -> exists e', nth_error l k = Some e' /\ restored (offs && full && v_offsets v)%bool cat s k e e').
      { intros k0 f. cbv zeta. clear -Main. revert Main. generalize (nth_error (s_elts s)). intros g Main. assert (P : forall (l : list elt) k0, let l' := (firstn k0 l ++ match skipn k0 l with [] => [] | e :: t => map_profiles f e :: t end)%list in
           List.length l' = List.length l /\ forall k e, nth_error l k = Some e -> nth_error l' k = Some e \/ nth_error l' k = Some (map_profiles f e)).
        { clear. induction l as [|a l IH]; intro k0; [destruct k0; split; auto|]. destruct k0 as [|k0].
          - cbn. split; [reflexivity|]. intros k e N. destruct k as [|k]; [injection N as <-; auto|auto].
          - destruct (IH k0) as (L & H). cbn [firstn skipn app List.length]. split; [congruence|]. intros k e N. destruct k as [|k]; [auto|apply H, N]. }
        destruct (P es' k0) as (L & H). split; [exact L|]. intros k e N. destruct (Main k e N) as (e' & N' & Re). destruct (H k e' N') as [X|X]; rewrite X; eexists; (split; [reflexivity|]); [exact Re|apply restored_map, Re]. }
      unfold es1. destruct (o_lya o) as [[[a|] [b|]] [c|]]; try (split; [reflexivity|exact Main]). destruct (find_tag 0 es' "LyAE") as [k0|]; [apply Gen|split; [reflexivity|exact Main]]. }
    destruct Main1 as (L1 & Main1). eexists. split; [reflexivity|]. cbn [s_z s_out s_elts]. split; [exact Ez|]. split; [reflexivity|].
    change (match o_lya o with (Some _, Some _, Some _) => match find_tag 0 es' "LyAE" with Some k => (firstn k es' ++ match skipn k es' with [] => [] | e :: t => map_profiles (asym_of (o_lya o)) e :: t end)%list | None => es' end | _ => es' end) with es1.
    destruct (Z.eqb (o_igm o) (-1)); [split; [lia|exact Main1]|]. rewrite map_length. split; [lia|]. intros k e N. destruct (Main1 k e N) as (e' & N' & Re). rewrite nth_error_map, N'. eexists. split; [reflexivity|apply restored_map, Re].
Qed.
