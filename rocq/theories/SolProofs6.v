(** C91: the solution read again after it was loaded. *)
From Coq Require Import String Sorting.Permutation.
From Verif Require Import Base RangeModel RangeProofs F64 RulesModel LyaModel SolModel SolSpec SolProofs SolProofs2 SolProofs3 SolProofs4 SolProofs5.
Open Scope Q_scope.

Lemma F2_nth_eq {A B} (P : A -> B -> Prop) l m : List.length l = List.length m -> (forall i x y, nth_error l i = Some x -> nth_error m i = Some y -> P x y) -> Forall2 P l m.
Proof.
  revert m. induction l as [|a l IH]; intros [|b m] L H; try discriminate; constructor; [apply (H 0%nat); reflexivity|]. apply IH; [cbn in L; lia|]. intros i x y N M. apply (H (S i) x y N M).
Qed.
Lemma twin_state poly cat s s' zz : st_ok s -> Forall elt_ok (s_elts s') -> List.length (s_elts s') = List.length (s_elts s) ->
  (forall k e, nth_error (s_elts s) k = Some e -> exists e', nth_error (s_elts s') k = Some e' /\ restored poly cat s k e e') -> st_ok (mkSt zz (s_elts s') (s_out s) (s_allout s)).
Proof.
  intros ((We & D) & Ne & F & L) Oe Le H.
  assert (Ids : Forall2 (fun e e' => map l_id (t_lines e) = map l_id (t_lines e') /\ List.length (t_lines e) = List.length (t_lines e')) (s_elts s) (s_elts s')).
  { apply F2_nth_eq; [symmetry; exact Le|]. intros k e e' N N'. destruct (H k e N) as (e2 & N2 & (_ & Ll & Hl & _)). assert (e2 = e') by congruence. subst e2. split; [|symmetry; exact Ll].
    assert (G : Forall2 same_line (t_lines e) (t_lines e')). { apply F2_nth_eq; [symmetry; exact Ll|]. intros i x y Nx Ny. destruct (Hl i x Nx) as ((y' & Ny' & Sy) & _). assert (y' = y) by congruence. subst y'. exact Sy. }
    apply (same_ids _ _ G). }
  split; [split; [exact Oe|]|split; [|split]]; cbn [s_elts s_out s_allout].
  - unfold distinct_ids in *. replace (map l_id (concat (map t_lines (s_elts s')))) with (map l_id (concat (map t_lines (s_elts s)))); [exact D|].
    clear -Ids. induction Ids as [|e e' l l' (E & _) F IH]; [reflexivity|]. cbn. rewrite !map_app, E, IH. reflexivity.
  - destruct (s_elts s') as [|a b]; [|discriminate]. destruct (s_elts s); [contradiction|discriminate].
  - clear -F Ids. revert F. generalize (s_out s). induction Ids as [|e e' l l' (_ & E) G IH]; intros m F; inversion F; subst; constructor; [congruence|apply IH; assumption].
  - congruence.
Qed.
Lemma val_in l i a : val l i = Some a -> In (Some a) l.
Proof. rewrite val_ne. destruct (nth_error l i) as [x|] eqn:N; [|discriminate]. intros ->. apply (nth_error_In _ _ N). Qed.
Lemma reread v v2 full full2 offs cat s s2 o s' : st_ok s -> distinct_ids cat -> within_limits s -> twin s s2 -> v_pos v2 = v_pos v -> v_offsets v2 = v_offsets v ->
  GetModelSolution v full cat s = Ok o -> LoadModelSolution offs o s2 = Ok s' ->
  forall o', GetModelSolution v2 full2 cat (mkSt (s_z s') (s_elts s') (s_out s) (s_allout s)) = Ok o' ->
  o_z o' = o_z o /\ Forall2 (same_row (Bool.eqb full full2 && (offs || negb (v_offsets v)))%bool) (o_rows o) (o_rows o').
Proof.
  intros W Dc Lim Tw Ep Eof Eo El o' Eo'. destruct (round_trip v full offs cat s s2 o W Dc Eo Tw) as (s3 & El' & Ez & _ & Ls & H). assert (s3 = s') by congruence. subst s3. clear El'.
  assert (Ok2 : Forall elt_ok (s_elts s2)). { apply Forall_forall. intros e I. apply In_nth_error in I. destruct I as (k & N). destruct (F2_at_r _ _ _ _ _ Tw N) as (e1 & _ & O & _). exact O. }
  destruct (load_profiles offs o s2 s' El Ok2) as (Oe & _ & _). set (s'' := mkSt (s_z s') (s_elts s') (s_out s) (s_allout s)) in *.
  assert (W'' : st_ok s'') by (apply (twin_state _ cat s s' _ W Oe Ls H)).
  destruct (solution_parts v full cat s W) as [(x & k & i & e & _ & _ & _ & _ & _ & X)|(o1 & Eo1 & R & _ & _ & _ & Z1 & _)]; [congruence|]. assert (o1 = o) by congruence. subst o1.
  destruct (solution_parts v2 full2 cat s'' W'') as [(x & k & i & e & _ & _ & _ & _ & _ & X)|(o2 & Eo2 & R2 & _ & _ & _ & Z2 & _)]; [congruence|]. assert (o2 = o') by congruence. subst o2.
  split; [rewrite Z2, Z1; unfold s''; cbn [s_z]; exact Ez|].
  apply F2_nth_eq; [rewrite <- (F2_length _ _ _ R), (F2_length _ _ _ R2); reflexivity|]. intros n r r' Nr Nr'. destruct (F2_at_r _ _ _ _ _ R Nr) as (x & Nx & Rr), (F2_at_r _ _ _ _ _ R2 Nr') as (x' & Nx' & Rr'). assert (x' = x) by congruence. subst x'.
  pose proof (find_spec (s_elts s) (l_id x) (proj1 W)) as Fs. destruct (findElementIndex (s_elts s) (l_id x)) as [[k i]|].
  - destruct Fs as (y & (e & N & M) & Ey). destruct (H k e N) as (e' & N' & Hr). pose proof Hr as (Em & _ & Hl & Hm & _). destruct (Hl i y M) as ((y' & M' & Sy) & Hrep & _).
    destruct (is_out s k i) eqn:Io.
    + destruct Rr as (_ & Ro & _), Rr' as (_ & Ro' & _). destruct (Ro k i y) as (A1 & A2); [exists e; auto|exact Ey|exact Io|]. destruct (Ro' k i y') as (B1 & B2); [exists e'; auto|rewrite <- (proj1 Sy); exact Ey|exact Io|].
      rewrite A2, B2. cbn. repeat (split; [first [reflexivity|congruence]|]). reflexivity.
    + assert (Rep : reported cat s k i y) by (split; [rewrite Ey; apply in_map, (nth_error_In _ _ Nx)|exact Io]). destruct (Hrep Rep) as (Q1 & Q2 & Q3). destruct Hm as (Q4 & Q5 & Q6); [exists i, y; auto|].
      assert (Me : measured s x k i e) by (split; [exact N|]; split; [exists y; auto|exact Io]).
      assert (Me' : measured s'' x k i e') by (split; [exact N'|]; split; [exists y'; split; [exact M'|rewrite <- (proj1 Sy); exact Ey]|exact Io]).
      destruct (proj2 (proj2 Rr) k i e Me) as (A1 & A2 & A3 & A4 & A5 & A6 & A7 & A8 & A9 & _ & A10 & A11), (proj2 (proj2 Rr') k i e' Me') as (B1 & B2 & B3 & B4 & B5 & B6 & B7 & B8 & B9 & _ & B10 & B11).
      assert (Ea : val (t_amp e') i = val (t_amp e) i).
      { unfold capped in Q1. destruct (val (t_amp e) i) as [a|] eqn:Va; [|exact Q1]. apply Q1. destruct (t_em e) eqn:Et; [auto|]. right. right. apply (Lim e a (nth_error_In _ _ N) (val_in _ _ _ Va) Et). }
      fold (getVelocity e) in A8. fold (getVelocity e') in B8. split; [congruence|]. split; [congruence|]. split; [congruence|]. split; [congruence|]. split; [congruence|]. split; [congruence|]. split; [congruence|]. split; [congruence|].
      split; [rewrite A9, B9, Ep; unfold s''; cbn [s_z]; rewrite Ez; reflexivity|].
      intro P. apply andb_true_iff in P. destruct P as (P1 & P2). apply Bool.eqb_prop in P1. subst full2. destruct full.
      * destruct (A11 eq_refl) as (_ & _ & X & _), (B11 eq_refl) as (_ & _ & Y & _). rewrite X, Y, Eof, Q6. destruct (v_offsets v); [|reflexivity]. cbn [negb] in P2. rewrite orb_false_r in P2. subst offs. reflexivity.
      * destruct (A10 eq_refl) as (_ & _ & _ & _ & _ & _ & _ & _ & X), (B10 eq_refl) as (_ & _ & _ & _ & _ & _ & _ & _ & Y). congruence.
  - assert (Ab : absent (s_elts s) x) by (intros k i y A; apply (Fs k i y A)).
    assert (Ab' : absent (s_elts s'') x).
    { intros k i y' (e' & N' & M') Ey'. cbn [s'' s_elts] in N'. destruct (nth_error (s_elts s) k) as [e|] eqn:N; [|apply nth_error_None in N; apply nth_error_len in N'; lia]. destruct (H k e N) as (e2 & N2 & (_ & Ll & Hl & _)). assert (e2 = e') by congruence. subst e2.
      destruct (nth_error (t_lines e) i) as [y|] eqn:M; [|apply nth_error_None in M; apply nth_error_len in M'; lia]. destruct (Hl i y M) as ((y2 & M2 & Sy) & _). assert (y2 = y') by congruence. subst y2.
      apply (Ab k i y); [exists e; auto|rewrite (proj1 Sy); exact Ey']. }
    rewrite (proj1 Rr Ab), (proj1 Rr' Ab'). repeat (split; [reflexivity|]). reflexivity.
Qed.
